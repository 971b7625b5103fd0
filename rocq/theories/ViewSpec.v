(** Specification of views: what a (nested) view must read as, in terms of
    Python slicing of the current contents of the base list. *)
From Verif Require Import Base ViewModel.
From Coq Require Import ZArith List.
Import ListNotations.
Open Scope Z_scope.

(** [lst[s_k]...[s_1][s_0]]; slices are listed outermost view first. *)
Fixpoint sliced {A} (lst : list A) (slices : list pyslice) : outcome (list A) :=
  match slices with
  | [] => Ok lst
  | s :: inner => do v <- sliced lst inner; py_slice v s
  end.

(** The positions of the base list (of length [n]) that the view selects. *)
Definition selected (n : nat) (slices : list pyslice) : outcome (list nat) :=
  sliced (seq 0 n) slices.

(** A slice that counts from the front and goes forward. *)
Definition front_anchored (s : pyslice) : Prop :=
  (match sl_start s with None => True | Some k => 0 <= k end) /\
  (match sl_stop s with None => True | Some k => 0 <= k end) /\
  (match sl_step s with None => True | Some k => 0 < k end).

(** For the base lengths in [H], the length of each inner view determines what the
    next outer view selects. *)
Definition len_det (slices : list pyslice) (H : nat -> Prop) : Prop :=
  forall pre s inner, slices = pre ++ s :: inner ->
  forall n m pn pm, H n -> H m ->
    selected n inner = Ok pn -> selected m inner = Ok pm -> length pn = length pm ->
    selected n (s :: inner) = selected m (s :: inner).

(** All lengths the base list has during a history. *)
Definition nlens {A} (l0 : list A) (h : list (vop A)) : list nat :=
  length l0 :: flat_map (fun o => match o with OpMutate l => [length l] | _ => [] end) h.

(** [l'] is [l] with the items at positions [ps] replaced by [xs], pairwise in
    order and as far as the shorter of the two goes, and nothing else changed. *)
Definition assigned {A} (l : list A) (ps : list nat) (xs : list A) (l' : list A) : Prop :=
  length l' = length l /\
  (forall j p x, nth_error ps j = Some p -> nth_error xs j = Some x -> nth_error l' p = Some x) /\
  (forall p, (forall j, nth_error ps j = Some p -> (length xs <= j)%nat) -> nth_error l' p = nth_error l p).
