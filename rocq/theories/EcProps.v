(** C35, C36: escapes *)
From Coq Require Import List Bool Arith.
From Verif Require Import Base EcModel EcSpec EcProofs.
Import ListNotations.
Open Scope nat_scope.
Open Scope list_scope.

(** ** C35.  [reaches c s fs c' s'] says that the run of [c] gets to [c'], with the catch points
    (and call_ecs, finally clauses, except clauses) [fs] in between. *)
(** If no catch point in between accepts the throw, the accepting one around them returns the
    value; of the code after the throw, only the finally clauses run. *)
Theorem C35_caught : forall (D St : Type) (c : cmd D St) s fs v t a s' ts u,
  program_tag t -> hashable t ->
  reaches c s fs (Throw v t a) s' -> Forall (passes t a) fs -> accepts ts u t a ->
  eval (Catch ts u c) s = (RVal v, unwind fs s').
Proof. exact @throw_caught. Qed.
Print Assumptions C35_caught.
(** If none at all accepts it, it propagates out of the program. *)
Theorem C35_uncaught : forall (D St : Type) (c : cmd D St) s fs v t a s',
  program_tag t -> hashable t ->
  reaches c s fs (Throw v t a) s' -> Forall (passes t a) fs ->
  eval c s = (REsc v t a, unwind fs s').
Proof. exact @throw_uncaught. Qed.
Print Assumptions C35_uncaught.

(** @catch(1) around @catch(2), finally, throw(7, tag=1); the state counts finally clauses *)
Definition start (n : nat) : state nat := mkstate [] 0 n.
Definition inner_code : cmd nat nat :=
  Catch (Some [2]) true (Finally (Bind (Throw (Data 7) (Some (User 1)) true) (fun _ => Ret (Data 0))) S).
Example C35_case :
  reaches inner_code (start 0) [FCatch (Some [2]) true; FFinally S] (Throw (Data 7) (Some (User 1)) true) (start 0) /\
  Forall (passes (St := nat) (Some (User 1)) true) [FCatch (Some [2]) true; FFinally S] /\
  accepts (Some [1]) false (Some (User 1)) true /\
  eval (Catch (Some [1]) false inner_code) (start 0) = (RVal (Data 7), start 1).
Proof.
  split; [repeat constructor|]. split; [|split; [|reflexivity]].
  - repeat constructor. cbn. intros (n & [= <-] & [E|[]]). discriminate.
  - exists 1. cbn. auto.
Qed.

(** Refuted for tags that are not hashable, although "anything comparable with ==" is allowed:
    on its way, such a throw is replaced by a TypeError at the first catch point with tags. *)
Theorem C35_unhashable_refuted :
  accepts None true (Some (Unhashable 1)) true /\
  eval (Catch None true (Catch (Some [2]) true (Throw (Data 7) (Some (Unhashable 1)) true))) (start 0) =
    (RExc TypeError, start 0).
Proof. split; reflexivity. Qed.
Print Assumptions C35_unhashable_refuted.

(** ** C36 *)
(** If the run of the function of a call_ec gets to a call of its ec, then this call_ec returns
    the value, whatever is in between. *)
Theorem C36_escapes : forall (D St : Type) (f : val D -> cmd D St) s fs v s',
  let i := fst (enter_ec s) in
  reaches (f (Ec i)) (snd (enter_ec s)) fs (Invoke (Ec i) v) s' ->
  eval (CallEc f) s = (RVal v, leave_ec i (unwind fs s')).
Proof. exact @ec_escapes. Qed.
Print Assumptions C36_escapes.
(** After the call_ec has ended, calling its ec at any later point raises RuntimeError. *)
Theorem C36_expired : forall (D St : Type) (f : val D -> cmd D St) s r s1 c fs v s2,
  eval (CallEc f) s = (r, s1) ->
  reaches c s1 fs (Invoke (Ec (fst (enter_ec s))) v) s2 ->
  eval (Invoke (Ec (fst (enter_ec s))) v : cmd D St) s2 = (RExc RuntimeError, s2).
Proof. exact @ec_expired. Qed.
Print Assumptions C36_expired.
(** Results, exceptions and escapes that are not its own pass through call_ec. *)
Theorem C36_transparent : forall (D St : Type) (f : val D -> cmd D St) s r s1,
  eval (f (Ec (fst (enter_ec s)))) (snd (enter_ec s)) = (r, s1) ->
  (forall v t a, r = REsc v t a -> hashable t /\ t <> Some (Uid (active s))) ->
  eval (CallEc f) s = (r, leave_ec (fst (enter_ec s)) s1).
Proof. exact @ec_transparent. Qed.
Print Assumptions C36_transparent.

(** call_ec inside call_ec, with a catch-all in between, escaping from the outer one *)
Definition outer_escape (outer : val nat) : cmd nat nat :=
  Catch None true (Finally (CallEc (fun inner => Bind (Invoke outer (Data 5)) (fun _ => Ret (Data 0)))) S).
Example C36_case :
  reaches (outer_escape (Ec 0)) (snd (enter_ec (start 0))) [FCatch None true; FFinally S; FEc 1]
    (Invoke (Ec 0) (Data 5)) (mkstate [(0, true); (1, true)] 2 0) /\
  eval (CallEc outer_escape) (start 0) = (RVal (Data 5), mkstate [(0, false); (1, false)] 0 1) /\
  (* the ec is returned and used later *)
  eval (Bind (CallEc (fun ec => Ret ec)) (fun w => Invoke w (Data 1))) (start 0) =
    (RExc RuntimeError, mkstate [(0, false)] 0 0 : state nat).
Proof.
  split; [|split; reflexivity]. constructor. constructor.
  change 1 with (fst (enter_ec (snd (enter_ec (start 0))))).
  change (mkstate [(0, true); (1, true)] 2 0) with (snd (enter_ec (snd (enter_ec (start 0))))).
  constructor. cbn. apply RFirst. constructor.
Qed.
