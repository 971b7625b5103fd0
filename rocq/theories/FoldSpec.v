(** Specification vocabulary for folds (C16-C18). *)
From Coq Require Import List.
Import ListNotations.

(** The state of the unfolding process after [i] productions; [None] once it has
    returned None. *)
Fixpoint unfold_state {V S} (proc : S -> option (V * S)) (s : S) (i : nat) : option S :=
  match i with
  | O => Some s
  | S i' => match unfold_state proc s i' with
            | None => None
            | Some t => match proc t with None => None | Some (_, t') => Some t' end
            end
  end.

(** lo and hi occur in l; no item is below lo or above hi *)
Definition extrema {A} (ltb : A -> A -> bool) (l : list A) (m : A * A) : Prop :=
  In (fst m) l /\ In (snd m) l /\ forall x, In x l -> ltb x (fst m) = false /\ ltb (snd m) x = false.
