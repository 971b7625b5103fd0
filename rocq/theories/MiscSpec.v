(** Specification for C66. *)
From Coq Require Import List.
From Verif Require Import Base MiscModel.
Import ListNotations.
Open Scope list_scope.

(** The loop body only appends at the right end *)
Inductive appends {X} : list (pevent X) -> list X -> Prop :=
| ApNil : appends [] []
| ApNext es l : appends es l -> appends (PNext :: es) l
| ApAppend x es l : appends es l -> appends (PChange (fun c => c ++ [x]) :: es) (x :: l).
(** The items among the answers *)
Fixpoint items {X} (l : list (option X)) : list X := match l with [] => [] | Some x :: l => x :: items l | None :: l => items l end.
Fixpoint yielded {X} (l : list (outcome X)) : list X := match l with [] => [] | Ok x :: l => x :: yielded l | Raise _ :: l => yielded l end.
Fixpoint puts {X} (es : list (qevent X)) : list X := match es with [] => [] | QPut x :: es => x :: puts es | _ :: es => puts es end.
(** Nobody else takes from the queue *)
Definition only_slurp {X} (es : list (qevent X)) : Prop := ~ In QOther es.
Inductive subsequence {X} : list X -> list X -> Prop :=
| SubNil l : subsequence [] l
| SubKeep x a b : subsequence a b -> subsequence (x :: a) (x :: b)
| SubDrop x a b : subsequence a b -> subsequence a (x :: b).
