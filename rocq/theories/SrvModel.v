(** Model of the start and stop of the REPL server, and of its main loop:
    unpythonic/net/server.py 145-164, 223-235, 433-500, 504-659. *)
From Verif Require Import Base.
From Coq Require Import List Bool Arith.
Import ListNotations.

(** What sys.stdin, sys.stdout or sys.stderr is: what it was when the module was imported (server.py 157-159),
    something put there by the user, or a Shim (588-590). *)
Inductive stream := Original | Users (n : nat) | Shimmed.
(** What sys.ps1 or sys.ps2 is; None: no such attribute *)
Inductive prompt := Server | Text (n : nat).
(** The module's state, sys, and the ports: server.py 153-164 *)
Record world := mkworld {
  instance : bool;               (* 153 *)
  namespace : option nat;        (* 163 *)
  stdin : stream; stdout : stream; stderr : stream;
  ps1 : option prompt; ps2 : option prompt;
  registered : bool;             (* stop is registered with atexit *)
  repl_port : bool; control_port : bool;   (* a server listens there *)
  exports : list nat;            (* the namespaces that got the utilities, 552-553 *)
  halt_pending : bool;           (* 156 *)
  sessions : list nat;           (* 154 *)
  counter : nat                  (* 155 *)
}.
(** The prompts when the module was imported (server.py 148-151). Simplification: they are not empty strings. *)
Section Server.
Variables original_ps1 original_ps2 : option prompt.

(** How a call ends. *)
Inductive result := Returned | Raised (x : exn).
(** server.py 504-609.  [repl_ok], [control_ok]: whether the two ports can be bound; if not, OSError. *)
Definition OSErrorE : exn := UserExn 1.
(** start: server.py 504-609 *)
Definition start (w : world) (locals : nat) (repl_ok control_ok : bool) : world * result :=
  if instance w then (w, Raised RuntimeError)                                   (* 548-549 *)
  else
    let w := mkworld (instance w) (Some locals) Shimmed Shimmed Shimmed (Some Server) (Some Server) (registered w)
               (repl_port w) (control_port w) (locals :: exports w) (halt_pending w) (sessions w) (counter w) in   (* 551-590 *)
    if negb repl_ok || repl_port w then (w, Raised OSErrorE)                    (* 594 *)
    else
      let w := mkworld (instance w) (namespace w) (stdin w) (stdout w) (stderr w) (ps1 w) (ps2 w) (registered w)
                 true (control_port w) (exports w) (halt_pending w) (sessions w) (counter w) in                    (* 595-597 *)
      if negb control_ok || control_port w then (w, Raised OSErrorE)            (* 602 *)
      else
        (mkworld true (namespace w) (stdin w) (stdout w) (stderr w) (ps1 w) (ps2 w) true
           (repl_port w) true (exports w) (halt_pending w) (sessions w) (counter w), Returned).                    (* 603-609 *)
(** server.py 634-641 *)
Definition restore (original now : option prompt) : option prompt * result :=
  match original, now with
  | Some p, _ => (Some p, Returned)
  | None, Some _ => (None, Returned)
  | None, None => (None, Raised AttributeError)
  end.
(** server.py 612-641.  Simplification: shutting down the servers does not fail. *)
Definition stop (w : world) : world * result :=
  if instance w then
    let w := mkworld false None Original Original Original (ps1 w) (ps2 w) false false false (exports w) (halt_pending w) (sessions w) (counter w) in
    match restore original_ps1 (ps1 w) with
    | (_, Raised x) => (w, Raised x)
    | (p1, Returned) =>
        let w := mkworld (instance w) (namespace w) (stdin w) (stdout w) (stderr w) p1 (ps2 w) (registered w) (repl_port w) (control_port w) (exports w) (halt_pending w) (sessions w) (counter w) in
        match restore original_ps2 (ps2 w) with
        | (_, Raised x) => (w, Raised x)
        | (p2, Returned) => (mkworld (instance w) (namespace w) (stdin w) (stdout w) (stderr w) (ps1 w) p2 (registered w) (repl_port w) (control_port w) (exports w) (halt_pending w) (sessions w) (counter w), Returned)
        end
    end
  else (w, Returned).

(** What happens: start, stop, and changes that others make to sys. *)
Inductive event :=
| Start (locals : nat) (repl_ok control_ok : bool)
| Stop
| Halt (doit : bool)        (* 223-235 *)
| Open                      (* 440-441: a session begins; its number is the next one *)
| Close (n : nat)           (* 500 *)
| Redirect (n : nat)        (* the user sets sys.stdout *)
| SetPs1 (n : nat).         (* the user sets sys.ps1 *)
Definition step (w : world) (e : event) : world :=
  match e with
  | Start l a b => fst (start w l a b)
  | Stop => fst (stop w)
  | Halt d => mkworld (instance w) (namespace w) (stdin w) (stdout w) (stderr w) (ps1 w) (ps2 w) (registered w) (repl_port w) (control_port w) (exports w) d (sessions w) (counter w)
  | Open => mkworld (instance w) (namespace w) (stdin w) (stdout w) (stderr w) (ps1 w) (ps2 w) (registered w) (repl_port w) (control_port w) (exports w) (halt_pending w) (counter w :: sessions w) (S (counter w))
  | Close n => mkworld (instance w) (namespace w) (stdin w) (stdout w) (stderr w) (ps1 w) (ps2 w) (registered w) (repl_port w) (control_port w) (exports w) (halt_pending w) (remove Nat.eq_dec n (sessions w)) (counter w)
  | Redirect n => mkworld (instance w) (namespace w) (stdin w) (Users n) (stderr w) (ps1 w) (ps2 w) (registered w) (repl_port w) (control_port w) (exports w) (halt_pending w) (sessions w) (counter w)
  | SetPs1 n => mkworld (instance w) (namespace w) (stdin w) (stdout w) (stderr w) (Some (Text n)) (ps2 w) (registered w) (repl_port w) (control_port w) (exports w) (halt_pending w) (sessions w) (counter w)
  end.
(** just after import *)
Definition fresh : world := mkworld false None Original Original Original original_ps1 original_ps2 false false false [] false [] 1.
(** A whole history from the import. *)
Definition run (h : list event) : world := fold_left step h fresh.
(** server.py 652: the main loop ends here *)
Definition leaves_main (w : world) : bool := halt_pending w && match sessions w with [] => true | _ => false end.
End Server.
