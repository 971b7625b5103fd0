(** Property theorems: functional update (C08, C09).  Specification: FupSpec.v;
    [assigned] and [selected] are those of ViewSpec.v.  That the target itself is
    not mutated is visible in the model: [fupdate] has no effect but its result,
    as the modelled code only reads the target. *)
From Verif Require Import Base BaseProofs SliceModel ViewModel ViewSpec FupModel FupSpec FupProofs.
From Coq Require Import ZArith List Bool Lia.
Import ListNotations.
Open Scope Z_scope.

(** One index. *)
Theorem C08_fupdate_index :
  forall (A : Type) (l : list A) k x, - zlen l <= k < zlen l ->
    fupdate l [ShInt k x] = Ok (upd l (Z.to_nat (if k <? 0 then k + zlen l else k)) x).
Proof. exact @fupdate_int. Qed.
Print Assumptions C08_fupdate_index.

(** An index beyond the end is rejected, except that index = len is ignored. *)
Theorem C08_fupdate_index_rejected :
  forall (A : Type) (l : list A) k x, l <> [] -> (k < - zlen l \/ zlen l < k) ->
    fupdate l [ShInt k x] = Raise IndexError.
Proof. exact @fupdate_int_out. Qed.
Print Assumptions C08_fupdate_index_rejected.
Theorem C08_fupdate_index_at_len_ignored :
  forall (A : Type) (l : list A) x, fupdate l [ShInt (zlen l) x] = Ok l.
Proof. exact @fupdate_int_at_len. Qed.
Print Assumptions C08_fupdate_index_at_len_ignored.

(** Full statement for slices: refuted for a negative step with start = len. *)
Theorem C08_fupdate_slice_refuted :
  exists (l : list Z) s ys ps,
    in_bounds (zlen l) (sl_start s) /\ in_bounds (zlen l) (sl_stop s) /\
    selected (length l) [s] = Ok ps /\ length ys = length ps /\
    ~ exists l', fupdate l [ShSlice s (VSeq ys)] = Ok l' /\ assigned l ps ys l'.
Proof.
  exists [0; 1; 2; 3; 4], (mkslice (Some 5) None (Some (-1))), [10; 11; 12; 13; 14], [4; 3; 2; 1; 0]%nat.
  cbv [in_bounds sl_start sl_stop zlen length]. repeat split; try discriminate.
  intros (l' & E & _). vm_compute in E. discriminate.
Qed.
Print Assumptions C08_fupdate_slice_refuted.

(** A slice with a replacement sequence: the selected positions get the leading
    items of the replacement in slice order, all others keep theirs. *)
Theorem C08_fupdate_slice_partial :
  forall (A : Type) (l : list A) s ys ps,
    in_bounds (zlen l) (sl_start s) -> in_bounds (zlen l) (sl_stop s) -> ~ bad_start (zlen l) s ->
    selected (length l) [s] = Ok ps -> (length ps <= length ys)%nat ->
    exists l', fupdate l [ShSlice s (VSeq ys)] = Ok l' /\ assigned l ps (firstn (length ps) ys) l'.
Proof. exact @fupdate_slice_seq. Qed.
Print Assumptions C08_fupdate_slice_partial.

(** A replacement sequence that is too short is rejected. *)
Theorem C08_fupdate_slice_too_short :
  forall (A : Type) (l : list A) s ys ps,
    in_bounds (zlen l) (sl_start s) -> in_bounds (zlen l) (sl_stop s) -> ~ bad_start (zlen l) s ->
    selected (length l) [s] = Ok ps -> (length ys < length ps)%nat ->
    fupdate l [ShSlice s (VSeq ys)] = Raise IndexError.
Proof. exact @fupdate_short. Qed.
Print Assumptions C08_fupdate_slice_too_short.

(** A replacement that is only iterable, possibly infinite: the same, if the slice
    goes forward or the iterable is memoized. *)
Theorem C08_fupdate_slice_iterable :
  forall (A : Type) (l : list A) s it memo ps xs,
    in_bounds (zlen l) (sl_start s) -> in_bounds (zlen l) (sl_stop s) -> ~ bad_start (zlen l) s ->
    selected (length l) [s] = Ok ps -> length xs = length ps ->
    (forall i, (i < length ps)%nat -> it i = nth_error xs i) ->
    (memo = true \/ match sl_step s with Some c => 0 < c | None => True end) ->
    exists l', fupdate l [ShSlice s (VIter it memo 0)] = Ok l' /\ assigned l ps xs l'.
Proof. exact @fupdate_slice_iter. Qed.
Print Assumptions C08_fupdate_slice_iterable.

Example C08_case :
  selected 7 [mkslice (Some (-2)) (Some 0) (Some (-2))] = Ok [5; 3; 1]%nat /\
  fupdate [0; 1; 2; 3; 4; 5; 6] [ShSlice (mkslice (Some (-2)) (Some 0) (Some (-2))) (VSeq [50; 30; 10; 99])]
    = Ok [0; 10; 2; 30; 4; 50; 6] /\
  fupdate [0; 1; 2; 3] [ShSlice (mkslice (Some 1) None (Some 2)) (VIter (fun i => Some (Z.of_nat i + 7)) false 0)]
    = Ok [0; 7; 2; 8].
Proof. repeat split. Qed.

(** C09.  Several updates: if applying them one after the other, left to right, is
    defined and leads to [l'], then the single fupdate call returns [l']. *)
Theorem C09_fupdate_sequential :
  forall (A : Type) (l : list A) us l', updated_all l us l' -> fupdate l us = Ok l'.
Proof. exact @fupdate_ok. Qed.
Print Assumptions C09_fupdate_sequential.

(** In particular it agrees with composing single fupdate calls. *)
Theorem C09_fupdate_compose :
  forall (A : Type) (l : list A) u us l1 l2,
    updated l u l1 -> updated_all l1 us l2 ->
    fupdate l [u] = Ok l1 /\ fupdate l1 us = Ok l2 /\ fupdate l (u :: us) = Ok l2.
Proof.
  exact (fun A l u us l1 l2 H1 H2 =>
    conj (fupdate_ok l [u] l1 (updated_cons _ _ _ _ _ H1 (updated_nil _)))
      (conj (fupdate_ok l1 us l2 H2) (fupdate_ok l (u :: us) l2 (updated_cons _ _ _ _ _ H1 H2)))).
Qed.
Print Assumptions C09_fupdate_compose.

(** The last update of a position wins. *)
Theorem C09_last_update_wins :
  forall (A : Type) (l : list A) us k x l1,
    updated_all l us l1 -> 0 <= k < zlen l1 ->
    fupdate l (us ++ [ShInt k x]) = Ok (upd l1 (Z.to_nat k) x).
Proof. exact @fupdate_last. Qed.
Print Assumptions C09_last_update_wins.

Example C09_case :
  fupdate [0; 1; 2; 3; 4; 5; 6; 7; 8; 9]
    [ShSlice (mkslice (Some 0) (Some 10) (Some 2)) (VSeq [2; 2; 2; 2; 2]);
     ShSlice (mkslice (Some 1) (Some 10) (Some 2)) (VSeq [3; 3; 3; 3; 3]); ShInt 6 42]
  = Ok [2; 3; 2; 3; 2; 3; 42; 3; 2; 3].
Proof. reflexivity. Qed.
Example C09_hypotheses_met :
  exists l', updated_all [0; 1; 2] [ShInt 1 7; ShSlice (mkslice None None (Some (-2))) (VSeq [8; 9])] l' /\ l' = [9; 7; 8].
Proof.
  eexists. split; [|reflexivity]. econstructor; [|econstructor; [|constructor]].
  - split; [unfold zlen; simpl; lia|reflexivity].
  - repeat split. { intros ((c & _ & _) & E). discriminate. }
    exists [2; 0]%nat, [8; 9]. repeat split.
    + exists []. reflexivity.
    + intros [|[|[|j]]] p x E1 E2; simpl in *; try discriminate; injection E1 as <-; injection E2 as <-; reflexivity.
    + intros p H. destruct p as [|[|[|p]]]; simpl.
      * exfalso. specialize (H 1%nat eq_refl). simpl in H. lia.
      * reflexivity.
      * exfalso. specialize (H 0%nat eq_refl). simpl in H. lia.
      * reflexivity.
Qed.
