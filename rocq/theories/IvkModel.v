(** Model of [invoker] (unpythonic/conditions.py 332-417), on the model of the condition system in CondModel.
    Simplified: one argument; the name of the function it makes (414) is that of namelambda, in NmlModel. *)
From Coq Require Import String List Bool Arith.
From Verif Require Import Base CondModel.

(** invoker: conditions.py 414-417 *)
Definition invoker {V St : Type} (n : string) (a : V) : cond -> prog V St := fun c => Invoke n a.
