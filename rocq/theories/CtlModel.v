(** Model of the control channel of the REPL server: net/server.py 304-425 (ControlSession.handle) with the sessions of
    433-500 (ConsoleSession.handle), net/common.py (ApplevelProtocolMixin), net/client.py 76-142 (ControlClient); and of
    bg and fg (net/server.py 237-284). *)
From Coq Require Import String List ZArith Bool Arith.
From Verif Require Import Base CollModel EnvModel MsgModel.
Import ListNotations.
Open Scope string_scope.
Open Scope list_scope.
Open Scope nat_scope.

(** What json.loads gives; numbers that are not integers are left out. *)
Inductive json :=
| JNull | JBool (b : bool) | JInt (z : Z) | JStr (s : string) | JList (l : list json) | JObj (l : list (string * json)).
(** bool(j), as in server.py's [if not request]. *)
Definition truthy (j : json) : bool :=
  match j with
  | JNull => false
  | JBool b => b
  | JInt z => negb (Z.eqb z 0)
  | JStr s => negb (String.eqb s "")
  | JList l => match l with [] => false | _ => true end
  | JObj l => match l with [] => false | _ => true end
  end.
(** Whether it is this string. *)
Definition is_str (j : json) (s : string) : bool := match j with JStr t => String.eqb t s | _ => false end.
(** [b.startswith(a)], for [substring]. *)
Fixpoint prefix (a b : string) : bool :=
  match a, b with
  | EmptyString, _ => true
  | String x a, String y b => Ascii.eqb x y && prefix a b
  | _, _ => false
  end.
(** [a in b] for strings. *)
Fixpoint substring (a b : string) : bool := prefix a b || match b with EmptyString => false | String _ b => substring a b end.
(** [key in j] *)
Definition contains (key : string) (j : json) : outcome bool :=
  match j with
  | JObj l => Ok (match dict_get String.eqb l key with Some _ => true | None => false end)
  | JList l => Ok (existsb (fun x => is_str x key) l)
  | JStr s => Ok (substring key s)
  | JNull | JBool _ | JInt _ => Raise TypeError
  end.
(** [j[key]] *)
Definition getitem (j : json) (key : string) : outcome json :=
  match j with
  | JObj l => match dict_get String.eqb l key with Some v => Ok v | None => Raise KeyError end
  | _ => Raise TypeError
  end.
(** [j in _active_sessions], whose keys are the integers of the session counter: equal keys are an integer and true *)
Definition key_of (j : json) : outcome (option Z) :=
  match j with
  | JInt z => Ok (Some z)
  | JBool b => Ok (Some (if b then 1%Z else 0%Z))
  | JNull | JStr _ => Ok None
  | JList _ | JObj _ => Raise TypeError
  end.

(** A REPL session: its thread, once it has one (server.py 471) *)
Definition sessions := list (Z * option nat).
(** The session with the id that the client sent, if there is one: server.py 304-425 *)
Definition find_session (a : sessions) (j : json) : outcome (option (option nat)) :=
  do k <- key_of j ; Ok (match k with Some z => dict_get Z.eqb a z | None => None end).
(** A reply with status failed: server.py 304-425 *)
Definition failed (reason : json) : json := JObj [("status", JStr "failed"); ("reason", reason)].
(** A reply with status ok: server.py 304-425 *)
Definition ok : json := JObj [("status", JStr "ok")].
(** What happens with a request: a reply, with the new pairing of the control session and the thread interrupted, if any;
    or the end of the control session *)
Inductive handled := Reply (r : json) (paired : option json) (hit : option nat) | Exit | Die (x : exn).
Section Server.
Variable complete : json -> json -> outcome json.        (* rlcompleter *)
Variable ps1 ps2 : json.
(** What async_raise does now: server.py 409-414.  (NotImplementedError is a RuntimeError; SystemError is a UserExn here.) *)
Definition caught (x : exn) : bool := match x with ValueError | RuntimeError | NotImplementedError | UserExn 0 => true | _ => false end.
(** The reply to DescribeServer: server.py 355-361 *)
Definition describe : json :=
  JObj [("status", JStr "ok"); ("prompts", JObj [("ps1", ps1); ("ps2", ps2)]); ("control_protocol_version", JStr "1.0");
        ("supported_commands", JList [JStr "DescribeServer"; JStr "PairWithSession"; JStr "TabComplete"; JStr "KeyboardInterrupt"])].
(** an exception ends the session: 424 *)
Definition orelse {A} (x : outcome A) (f : A -> handled) : handled := match x with Ok a => f a | Raise x => Die x end.
(** server.py 347-420; [paired]: of this control session; [araise]: what async_raise does now *)
Definition handle (a : sessions) (paired : option json) (araise : outcome unit) (request : json) : handled :=
  if negb (truthy request) then Exit                                                    (* 348-350 *)
  else
    orelse (contains "command" request) (fun b =>                                        (* 352 *)
    if negb b then Reply (failed (JStr "Request is missing the 'command' field.")) paired None
    else orelse (getitem request "command") (fun cmd =>
    if is_str cmd "DescribeServer" then Reply describe paired None
    else if is_str cmd "PairWithSession" then
      orelse (contains "id" request) (fun b =>
      if negb b then Reply (failed (JStr "Request is missing the PairWithSession parameter 'id'.")) paired None
      else orelse (getitem request "id") (fun i =>
      orelse (find_session a i) (fun s =>
      match s with
      | None => Reply (failed (JStr "Pairing control session failed")) paired None
      | Some _ => Reply ok (Some i) None
      end)))
    else if is_str cmd "TabComplete" then
      orelse (contains "text" request) (fun b1 =>
      orelse (if b1 then contains "state" request else Ok false) (fun b2 =>
      if negb b2 then Reply (failed (JStr "Request is missing at least one of the TabComplete parameters 'text' and 'state'.")) paired None
      else orelse (getitem request "text") (fun t =>
      orelse (getitem request "state") (fun n =>
      orelse (complete t n) (fun c => Reply (JObj [("status", JStr "ok"); ("result", c)]) paired None)))))
    else if is_str cmd "KeyboardInterrupt" then
      match (match paired with Some i => if truthy i then Some i else None | None => None end) with   (* 386 *)
      | None => Reply (failed (JStr "This control channel is not currently paired with a REPL session.")) paired None
      | Some i =>
          orelse (find_session a i) (fun s =>
          match s with
          | None => Reply (failed (JStr "REPL session no longer active.")) paired None                  (* KeyError *)
          | Some None => Reply (failed (JStr "REPL session has no 'thread' attribute.")) paired None    (* AttributeError *)
          | Some (Some t) =>
              match araise with
              | Ok _ => Reply ok paired (Some t)
              | Raise x =>
                  if caught x then Reply (JObj [("status", JStr "failed"); ("reason", JList []); ("failure_type", JStr "")]) paired None
                  else Die x
              end
          end)
      end
    else Reply (failed (JStr "Command not understood by this server.")) paired None)).

(** * The server, with any number of REPL and control sessions *)
Inductive event :=
| Open                                              (* a client connects to the REPL: 440-441 *)
| Ready (i : Z) (t : nat)                           (* that session has a thread: 471 *)
| Close (i : Z)                                     (* the session ends: 500 *)
| Connect                                           (* a client connects to the control channel: 319-321 *)
| Request (c : nat) (araise : outcome unit) (r : json).   (* a request arrives in control session c *)
(** [ctls]: for each control session, its pairing, or None if it has ended *)
Record server := mkV { active : sessions; counter : Z; ctls : list (option (option json)); hits : list nat; replies : list (nat * json) }.
(** The server before the first client. *)
Definition start : server := mkV [] 1%Z [] [] [].
(** What happens in the server: server.py 304-425, server.py 433-500 *)
Definition step (v : server) (e : event) : server :=
  match e with
  | Open => mkV (dict_set Z.eqb (active v) (counter v) None) (counter v + 1)%Z (ctls v) (hits v) (replies v)
  | Ready i t => match dict_get Z.eqb (active v) i with
                 | Some None => mkV (dict_set Z.eqb (active v) i (Some t)) (counter v) (ctls v) (hits v) (replies v)
                 | _ => v
                 end
  | Close i => mkV (dict_del Z.eqb (active v) i) (counter v) (ctls v) (hits v) (replies v)
  | Connect => mkV (active v) (counter v) (ctls v ++ [Some None]) (hits v) (replies v)
  | Request c ar r =>
      match nth_error (ctls v) c with
      | Some (Some paired) =>
          match handle (active v) paired ar r with
          | Reply rep paired hit =>
              mkV (active v) (counter v) (upd (ctls v) c (Some paired)) (hits v ++ match hit with Some t => [t] | None => [] end)
                (replies v ++ [(c, rep)])
          | Exit | Die _ => mkV (active v) (counter v) (upd (ctls v) c None) (hits v) (replies v)
          end
      | _ => v
      end
  end.
(** A whole history of the server. *)
Definition steps (h : list event) : server := fold_left step h start.

(** * Sending and receiving *)
Section Wire.
Variable uni : bytes -> outcome Z.
Variable dumps : json -> bytes.                    (* json.dumps, encode *)
Variable loads : bytes -> outcome json.            (* decode, json.loads *)
(** common.py 43-50: what goes out *)
Definition send (j : json) : bytes := encodemsg (dumps j).
(** common.py 52-65; also the buffer and the source after it *)
Definition recv (buf : bytes) (src : list bytes) : outcome (option json) * bytes * list bytes :=
  let '(m, buf, src) := decode uni buf src in
  (match m with
   | Raise x => Raise x
   | Ok None => Ok None
   | Ok (Some []) => Ok None
   | Ok (Some b) => match loads b with Ok j => Ok (Some j) | Raise x => Raise x end
   end, buf, src).
(** client.py 93-114 [_remote_execute], from the reply received: what it returns; it does not raise *)
Definition client_result (reply : outcome (option json)) : option json :=
  match reply with
  | Ok (Some j) =>
      if negb (truthy j) then None
      else match getitem j "status" with
           | Ok s => if is_str s "ok" then Some j else None
           | Raise _ => None
           end
  | _ => None
  end.
(** client.py 124-132 [complete] *)
Definition client_complete (reply : outcome (option json)) : outcome (option json) :=
  match client_result reply with
  | Some j => if truthy j then (do r <- getitem j "result" ; Ok (Some r)) else Ok None
  | None => Ok None
  end.
(** A client and its control session: for each request, how the request and the reply arrive in pieces, what async_raise
    does, and what is active.  The client's results. *)
Record exchange := mkX { request : json; pieces_in : list bytes; pieces_out : bytes -> list bytes; at_raise : outcome unit; at_active : sessions }.
(** Several requests one after the other, as in [exchange]. *)
Fixpoint talk (sbuf : bytes) (ssrc : list bytes) (cbuf : bytes) (csrc : list bytes) (paired : option json) (l : list exchange) : list (option json) :=
  match l with
  | [] => []
  | x :: l =>
      let '(r, sbuf, ssrc) := recv sbuf (ssrc ++ pieces_in x) in
      match r with
      | Ok (Some r) =>
          match handle (at_active x) paired (at_raise x) r with
          | Reply rep paired _ =>
              let '(a, cbuf, csrc) := recv cbuf (csrc ++ pieces_out x (send rep)) in
              client_result a :: talk sbuf ssrc cbuf csrc paired l
          | Exit | Die _ => repeat None (S (length l))          (* the socket is closed: None, now and later *)
          end
      | _ => repeat None (S (length l))
      end
  end.
End Wire.
End Server.

(** * Jobs in the background: server.py 237-284.  A value is a number. *)
(** What may be given to fg: a thread, or something else: does it have [in], and an ident? *)
Inductive thing := Thread (ident : Z) | Other (in_ : outcome bool) (ident : option Z).
(** What a background thread has come to: server.py 241-257 *)
Inductive status := Running | Success (v : nat) | Fail (x : exn).
(** [x in thing]: Thread objects are not containers: threading.Thread defines neither __contains__, __iter__ nor __getitem__ *)
Definition has_ident (t : thing) : outcome bool := match t with Thread _ => Raise TypeError | Other i _ => i end.
(** [thread.ident]: server.py 260-284 *)
Definition ident (t : thing) : outcome Z := match t with Thread i => Ok i | Other _ (Some i) => Ok i | Other _ None => Raise AttributeError end.
(** What fg returns: the value, or the thread itself while it is running: server.py 260-284 *)
Inductive fg_result := Value (v : nat) | Itself.
(** fg: server.py 260-284 *)
Definition fg (results : list (Z * status)) (t : thing) : outcome fg_result * list (Z * status) :=
  match has_ident t with
  | Raise x => (Raise x, results)
  | Ok false => (Raise TypeError, results)
  | Ok true =>
      match ident t with
      | Raise x => (Raise x, results)
      | Ok i =>
          match dict_get Z.eqb results i with
          | None => (Raise ValueError, results)
          | Some Running => (Ok Itself, results)
          | Some (Success v) => (Ok (Value v), dict_del Z.eqb results i)
          | Some (Fail x) => (Raise x, dict_del Z.eqb results i)
          end
      end
  end.
(** bg (server.py 241-257): the worker of thread [i] has started, or has ended; and calls of fg, with what they gave *)
Inductive job := Started (i : Z) | Ended (i : Z) (s : status) | Fg (t : thing).
(** One event: the results that are known, and the answers that fg has given (server.py 241-257, server.py 260-284). *)
Definition job_step (w : list (Z * status) * list (outcome fg_result)) (e : job) : list (Z * status) * list (outcome fg_result) :=
  match e with
  | Started i => (dict_set Z.eqb (fst w) i Running, snd w)
  | Ended i s => (dict_set Z.eqb (fst w) i s, snd w)
  | Fg t => let '(r, res) := fg (fst w) t in (res, snd w ++ [r])
  end.
(** A whole history of bg and fg. *)
Definition jobs (h : list job) : list (Z * status) * list (outcome fg_result) := fold_left job_step h ([], []).
