(** Specification for C60. *)
From Coq Require Import List.
From Verif Require Import Base LazyModel.
Import ListNotations.

Section LazySpec.
Context {V E St : Type}.
Variable is_uninit : V -> bool.

(** The promise [i] has been evaluated, with the result [r] *)
Definition evaluated (s : st V E St) (i : nat) (r : result V E) : Prop :=
  match r with
  | RVal v => value s i = SVal v /\ normally s i = FTrue /\ is_uninit v = false
  | RExc e => value s i = SErr e /\ normally s i = FFalse
  | RBase _ => False
  end.
(** Promises depend on each other without a cycle: [c] forces only promises of a rank below [n] *)
Inductive below (rank : nat -> nat) (n : nat) : cmd V E St -> Prop :=
| BelowDone r : below rank n (Done r)
| BelowEff g k : (forall v, below rank n (k v)) -> below rank n (Eff g k)
| BelowForce i k : rank i < n -> (forall r, below rank n (k r)) -> below rank n (Force i k).
Definition acyclic (thunk : nat -> cmd V E St) : Prop := exists rank, forall i, below rank (rank i) (thunk i).
(** A result that [Lazy] remembers *)
Definition ordinary (r : result V E) : Prop :=
  match r with RVal v => is_uninit v = false | RExc _ => True | RBase _ => False end.
End LazySpec.
