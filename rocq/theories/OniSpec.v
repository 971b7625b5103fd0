(** The layers of an onion of wrapper objects. *)
From Coq Require Import String List Bool Arith ZArith.
From Verif Require Import Base OniModel.
Import ListNotations.
Open Scope list_scope.

(** [innermost h n o p v]: by following the attribute n from o one comes to p, whose attribute n is v, which has
    no attribute n. *)
Inductive innermost (h : heap) (n : string) : value -> value -> value -> Prop :=
| last_layer o v : attr h o n = Some v -> attr h v n = None -> innermost h n o o v
| next_layer o w p v : attr h o n = Some w -> innermost h n w p v -> innermost h n o p v.
(** the object k layers down *)
Fixpoint layer (h : heap) (n : string) (o : value) (k : nat) : option value :=
  match k with
  | O => Some o
  | S k => match layer h n o k with Some w => attr h w n | None => None end
  end.
(** there is a layer at every depth *)
Definition endless (h : heap) (n : string) (o : value) : Prop := forall k, exists w, layer h n o k = Some w.
