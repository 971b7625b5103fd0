(** Specification vocabulary for C38. *)
From Coq Require Import List Arith.
From Verif Require Import Base GtcoModel.
Import ListNotations.
Open Scope list_scope.
Section GtcoSpec.
Context {V D : Type}.
(** [yields g l g']: [g] yields the items [l] and then continues as [g']. *)
Inductive yields : gen V D -> list V -> gen V D -> Prop :=
| YNil g : yields g [] g
| YCons v g l g' : yields g l g' -> yields (GYield v g) (v :: l) g'.
(** The generator that a return value stands for *)
Definition jumps_to (r : ret V D) : option (gen V D) :=
  match r with RGen g | RTramp g => Some g | _ => None end.
(** [chain g l g']: following the generators that are returned, the items [l] come out, and then
    [g'] is to run. *)
Inductive chain : gen V D -> list V -> gen V D -> Prop :=
| ChLast g l g' : yields g l g' -> chain g l g'
| ChJump g l1 r g2 l2 g' :
    yields g l1 (GReturn r) -> jumps_to r = Some g2 -> chain g2 l2 g' -> chain g (l1 ++ l2) g'.
End GtcoSpec.
