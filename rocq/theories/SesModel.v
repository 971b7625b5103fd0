(** Model of what a REPL session holds: unpythonic/net/server.py 433-500 (ConsoleSession.handle) and unpythonic/net/ptyproxy.py 57-65, 99-101,
    103-112.  Anything can go wrong at each step. *)
From Coq Require Import List Bool.
Import ListNotations.

(** Kinds of exceptions. *)
Inductive err := SystemExit | KeyError | Other.
(** The steps of handle, in the order of the text *)
Inductive act :=
| Count            (* 440 *)
| Register         (* 441 *)
| OpenPty          (* 452; ptyproxy.py 58 *)
| SetRaw           (* ptyproxy.py 59-65 *)
| StartThread      (* 453; ptyproxy.py 99-101 *)
| PrintOpened      (* 454 *)
| OpenW            (* 462 *)
| OpenR            (* 463 *)
| SetStreams       (* 467-469 *)
| SetThread        (* 471 *)
| PrintGreeting    (* 480-483 *)
| MakeConsole      (* 485 *)
| Interact         (* 489-490 *)
| PrintClosing     (* 494 *)
| Join             (* 495; ptyproxy.py 106-108 *)
| CloseMaster      (* ptyproxy.py 109-110 *)
| CloseSlave       (* ptyproxy.py 111-112 *)
| PrintClosed      (* 496 *)
| CloseR           (* end of 463 *)
| CloseW           (* end of 462 *)
| PrintError       (* 498 *)
| Deregister.      (* 500 *)
(** What is there: an entry in _active_sessions, the two ends of the terminal, the thread of the proxy, the two files, self.thread, and whether the
    session has been at its prompt *)
Record state := mkst { numbered : bool; active : bool; master : bool; slave : bool; forwarding : bool; wfile : bool; rfile : bool; has_thread : bool; served : bool }.
(** Before the client connects. *)
Definition s0 : state := mkst false false false false false false false false false.

(** A step can fail before or after it has had its effect (the latter by an asynchronous exception). *)
Inductive fault := Before (e : err) | After (e : err).
(** What a step does: server.py 433-500, ptyproxy.py 17-112 *)
Definition effect (a : act) (s : state) : state + err :=
  let '(mkst n ac m sl f w r t v) := s in
  match a with
  | Count => inl (mkst true ac m sl f w r t v)
  | Register => inl (mkst n true m sl f w r t v)
  | OpenPty => inl (mkst n ac true true f w r t v)
  | StartThread => inl (mkst n ac m sl true w r t v)
  | OpenW => inl (mkst n ac m sl f true r t v)
  | OpenR => inl (mkst n ac m sl f w true t v)
  | SetThread => inl (mkst n ac m sl f w r true v)
  | Interact => inl (mkst n ac m sl f w r t true)
  | Join => inl (mkst n ac m sl false w r t v)
  | CloseMaster => inl (mkst n ac false sl f w r t v)
  | CloseSlave => inl (mkst n ac m false f w r t v)
  | CloseR => inl (mkst n ac m sl f w false t v)
  | CloseW => inl (mkst n ac m sl f false r t v)
  | Deregister => if n then if ac then inl (mkst n false m sl f w r t v) else inr KeyError else inr Other   (* no attribute session_id *)
  | SetRaw | PrintOpened | SetStreams | PrintGreeting | MakeConsole | PrintClosing | PrintClosed | PrintError => inl s
  end.
(** Steps in sequence, with try, finally and except (no code in /repo). *)
Inductive prog :=
| Do (a : act)
| Seq (l : list prog)
| Finally (p q : prog)
| Except (p : prog) (catches : err -> bool) (q : prog).
Section Faults.
Variable faults : act -> option fault.
(** One step, with its fault. *)
Definition do (a : act) (s : state) : state * option err :=
  match faults a with
  | Some (Before e) => (s, Some e)
  | Some (After e) => match effect a s with inl s' => (s', Some e) | inr e' => (s, Some e') end
  | None => match effect a s with inl s' => (s', None) | inr e' => (s, Some e') end
  end.
(** Python's try, finally and except (no code in /repo). *)
Fixpoint exec (p : prog) (s : state) : state * option err :=
  match p with
  | Do a => do a s
  | Seq l => (fix all (l : list prog) (s : state) : state * option err :=
      match l with
      | [] => (s, None)
      | p :: l => match exec p s with (s', None) => all l s' | r => r end
      end) l s
  | Finally p q => let (s', e) := exec p s in match exec q s' with (s'', None) => (s'', e) | r => r end
  | Except p c q => match exec p s with (s', Some e) => if c e then exec q s' else (s', Some e) | r => r end
  end.
End Faults.
(** Steps in sequence. *)
Definition all (l : list act) : prog := Seq (map Do l).
(** with open(...) as f: a failing open is not closed *)
Definition with_file (opening closing : act) (body : prog) : prog := Seq [Do opening; Finally body (Do closing)].
(** server.py 438-500 *)
Definition handle : prog :=
  Finally
    (Except
      (Seq [all [Count; Register; OpenPty; SetRaw; StartThread; PrintOpened];
            with_file OpenW CloseW (with_file OpenR CloseR
              (Seq [all [SetStreams; SetThread; PrintGreeting; MakeConsole];
                    Finally (Except (Do Interact) (fun e => match e with SystemExit => true | _ => false end) (Seq []))
                            (all [PrintClosing; Join; CloseMaster; CloseSlave; PrintClosed])]))])
      (fun _ => true) (Do PrintError))
    (Do Deregister).
