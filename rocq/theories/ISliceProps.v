(** Property theorems: slice syntax for iterables (C10).  The right-hand side
    [py_slice] / [znth] is Python's own slicing and indexing of a tuple (Base.v). *)
From Verif Require Import Base ISliceModel ISliceProofs.
From Coq Require Import ZArith List Bool.
Import ListNotations.
Open Scope Z_scope.

(** Full statement: for every slice with positive step, the result is Python's.
    Refuted: a negative start with a positive stop that lies before it makes the
    library raise AssertionError where Python gives the empty tuple. *)
Theorem C10_islice_slice_refuted :
  exists (l : list Z) s, sl_step s = None /\ py_slice l s = Ok [] /\ islice_slice l s = Raise AssertionError.
Proof. exists [10; 11; 12; 13; 14], (mkslice (Some (-2)) (Some 1) None). repeat split. Qed.
Print Assumptions C10_islice_slice_refuted.

(** Outside that case, all slices with positive step agree with Python. *)
Theorem C10_islice_slice_partial :
  forall (A : Type) (l : list A) s,
    1 <= (match sl_step s with Some k => k | None => 1 end) ->
    ~ (exists a b, sl_start s = Some a /\ a < 0 /\ sl_stop s = Some b /\ 0 < b < zlen l + a) ->
    islice_slice l s = py_slice l s.
Proof. exact @islice_slice_ok. Qed.
Print Assumptions C10_islice_slice_partial.
Example C10_islice_slice_ex :
  islice_slice [0;1;2;3;4;5;6;7;8;9] (mkslice (Some (-7)) (Some (-1)) (Some 2)) = Ok [3;5;7]
  /\ islice_slice [0;1;2;3;4;5;6;7;8;9] (mkslice (Some (-4)) (Some 8) None) = Ok [6;7].
Proof. split; reflexivity. Qed.

(** In the excluded case it always raises. *)
Theorem C10_islice_slice_excluded_raises :
  forall (A : Type) (l : list A) a b step,
    a < 0 -> 0 < b < zlen l + a -> islice_slice l (mkslice (Some a) (Some b) step) = Raise AssertionError.
Proof. exact @islice_bad. Qed.
Print Assumptions C10_islice_slice_excluded_raises.
Example C10_islice_slice_excluded_ex : -2 < 0 /\ 0 < 1 < zlen [10; 11; 12; 13; 14] + -2.
Proof. cbv; intuition congruence. Qed.

(** A step below 1 is rejected, never silently misread. *)
Theorem C10_islice_step_rejected :
  forall (A : Type) (l : list A) s c, sl_step s = Some c -> c < 1 ->
    islice_slice l s = Raise ValueError \/ islice_slice l s = Raise AssertionError.
Proof. exact @islice_badstep. Qed.
Print Assumptions C10_islice_step_rejected.

(** A single index: the item at that index; [None] past the end. *)
Theorem C10_islice_index :
  forall (A : Type) (l : list A) k, 0 <= k -> islice_index l k = znth l k.
Proof. exact @islice_index_nonneg. Qed.
Print Assumptions C10_islice_index.
Theorem C10_islice_negative_index :
  forall (A : Type) (l : list A) k, - zlen l <= k < 0 -> islice_index l k = znth l (k + zlen l).
Proof. exact @islice_index_neg. Qed.
Print Assumptions C10_islice_negative_index.
Example C10_islice_index_ex : islice_index [5; 6; 7] (-1) = Some 7 /\ islice_index [5; 6; 7] 3 = None.
Proof. split; reflexivity. Qed.
(** A negative index before the start gives the first item, where Python has none. *)
Theorem C10_islice_negative_index_refuted :
  exists (l : list Z) k, k + zlen l < 0 /\ islice_index l k = Some 5.
Proof. exists [5; 6], (-3). split; reflexivity. Qed.
Print Assumptions C10_islice_negative_index_refuted.
