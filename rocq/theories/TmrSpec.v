(** Elapsed times, and places of calls *)
From Coq Require Import String List Bool Arith.
From Verif Require Import Base TmrModel.
Import ListNotations.
Open Scope string_scope.
Open Scope list_scope.
Open Scope nat_scope.

(** The time that a piece of a program takes *)
Fixpoint elapsed (l : list op) : nat := match l with [] => 0 | Wait d :: l => d + elapsed l | _ :: l => elapsed l end.
(** A timer that is made with this option, and is in use since *)
Definition made (l : list op) (o : nat) (q : bool) : Prop := exists a b, l = a ++ New o q :: b /\ forall q', ~ In (New o q') b.
(** The functions that unpythonic puts between a caller and a callee *)
Definition helper (f : string) : Prop :=
  f = "maybe_force_args" \/ f = "curried" \/ f = "curry" \/ f = "_currycall" \/ f = "call" \/ f = "callwith".
