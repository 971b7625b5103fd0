(** Specification vocabulary for the control channel (C109) and background jobs (C110). *)
From Coq Require Import String List ZArith Bool Arith.
From Verif Require Import Base CollModel EnvModel MsgModel MsgSpec CtlModel.
Import ListNotations.
Open Scope string_scope.
Open Scope list_scope.
Open Scope nat_scope.

(** A field of a JSON object *)
Definition field (j : json) (k : string) : option json := match j with JObj l => dict_get String.eqb l k | _ => None end.
Definition command (j : json) (c : string) : Prop := field j "command" = Some (JStr c).
(** A JSON value that, as a Python object, equals the integer i *)
Definition names (j : json) (i : Z) : Prop := j = JInt i \/ (j = JBool true /\ i = 1%Z) \/ (j = JBool false /\ i = 0%Z).

Definition is_open (e : event) : bool := match e with Open => true | _ => false end.
Definition is_connect (e : event) : bool := match e with Connect => true | _ => false end.
(** REPL session i is the i-th one opened; it is alive until it is closed. *)
Definition opened (h : list event) : Z := Z.of_nat (length (filter is_open h)).
Definition connected (h : list event) : nat := length (filter is_connect h).
Definition alive (h : list event) (i : Z) : Prop :=
  exists a b, h = a ++ Open :: b /\ i = (opened a + 1)%Z /\ ~ In (Close i) b.
(** It runs in thread t. *)
Definition runs_in (h : list event) (i : Z) (t : nat) : Prop :=
  exists a b c, h = a ++ Open :: b ++ Ready i t :: c /\ i = (opened a + 1)%Z /\ ~ In (Close i) (b ++ c) /\ forall t', ~ In (Ready i t') b.
(** The control session c is up: it exists and has not ended. *)
Definition up (v : server) (c : nat) : Prop := exists p, nth_error (ctls v) c = Some (Some p).
(** Event e pairs control session c with REPL session i, after history h. *)
Definition pairs (h : list event) (e : event) (c : nat) (i : Z) : Prop :=
  exists ar r j, e = Request c ar r /\ command r "PairWithSession" /\ field r "id" = Some j /\ names j i /\ alive h i /\ c < connected h.
(** The REPL session most recently paired with control session c *)
Definition paired_with (h : list event) (c : nat) (i : Z) : Prop :=
  exists a e b, h = a ++ e :: b /\ pairs a e c i /\ forall b1 e' b2 i', b = b1 ++ e' :: b2 -> ~ pairs (a ++ e :: b1) e' c i'.

(** A request the server can cope with: a nonempty object; the id is not a list or an object; and, if it is about
    completion, the completer does not raise. *)
Definition sound (complete : json -> json -> outcome json) (r : json) : Prop :=
  (exists l, r = JObj l /\ l <> []) /\
  (forall j, command r "PairWithSession" -> field r "id" = Some j -> match j with JList _ | JObj _ => False | _ => True end) /\
  (forall t s, command r "TabComplete" -> field r "text" = Some t -> field r "state" = Some s -> exists x, complete t s = Ok x).
(** async_raise succeeds, or fails in a way it documents *)
Definition expected (ar : outcome unit) : Prop := match ar with Ok _ => True | Raise x => x = ValueError \/ x = RuntimeError \/ x = NotImplementedError \/ x = UserExn 0 end.
(** When a request in control session c succeeds *)
Definition succeeds (h : list event) (c : nat) (ar : outcome unit) (r : json) : Prop :=
  command r "DescribeServer" \/
  (command r "PairWithSession" /\ exists j i, field r "id" = Some j /\ names j i /\ alive h i) \/
  (command r "TabComplete" /\ field r "text" <> None /\ field r "state" <> None) \/
  (command r "KeyboardInterrupt" /\ ar = Ok tt /\ exists i t, paired_with h c i /\ runs_in h i t).

(** ** The wire *)
Section Wire.
Variable dumps : json -> bytes.
Variable loads : bytes -> outcome json.
(** The message j arrives, cut into these pieces, of a size the decoder can cope with; and the JSON library can read back
    what it wrote. *)
Definition travels (pieces : list bytes) (j : json) : Prop :=
  concat pieces = encodemsg (dumps j) /\ fits pieces (dumps j) /\ dumps j <> [] /\ loads (dumps j) = Ok j.
Variable complete : json -> json -> outcome json.
Variable ps1 ps2 : json.
Let handle := handle complete ps1 ps2.
Fixpoint arrives (paired : option json) (l : list exchange) : Prop :=
  match l with
  | [] => True
  | x :: l =>
      travels (pieces_in x) (request x) /\
      match handle (at_active x) paired (at_raise x) (request x) with
      | Reply rep paired _ => travels (pieces_out x (encodemsg (dumps rep))) rep /\ arrives paired l
      | _ => True
      end
  end.
(** The conversation, without the wire: the client has the reply if it says "ok", else None. *)
Fixpoint conversation (paired : option json) (l : list exchange) : list (option json) :=
  match l with
  | [] => []
  | x :: l' =>
      match handle (at_active x) paired (at_raise x) (request x) with
      | Reply rep paired _ =>
          (match field rep "status" with Some (JStr "ok") => Some rep | _ => None end) :: conversation paired l'
      | _ => map (fun _ => None) l
      end
  end.
End Wire.

(** ** Background jobs *)
(** An object with an ident that says it contains "ident" *)
Definition container (i : Z) : thing := Other (Ok true) (Some i).
(** Events that have to do with the job of ident i *)
Definition about (i : Z) (e : job) : bool :=
  match e with
  | Started k => Z.eqb k i
  | Ended k _ => Z.eqb k i
  | Fg (Other (Ok true) (Some k)) => Z.eqb k i
  | Fg _ => false
  end.
