(** Property theorems: in_slice / index_in_slice (C07).

    The specification is Python's own slicing of [range(n)]:
    [slice_positions s n] is the list [list(range(n)[s])]. *)
From Verif Require Import Base BaseProofs SliceModel SliceProofs.
From Coq Require Import ZArith List Bool.
Import ListNotations.
Open Scope Z_scope.

(** [list(range(n)[s])], by the built-in semantics of Base.v. *)
Definition slice_positions (s : pyslice) (n : Z) : outcome (list Z) :=
  omap range_list (range_slice (range0 n) s).
(** A bound acceptable to [in_slice]: absent, or between -n and n. *)
Definition bound_in_range (n : Z) (k : option Z) : Prop :=
  match k with None => True | Some k => - n <= k <= n end.
Definition negative_step (s : pyslice) : Prop :=
  match sl_step s with Some k => k < 0 | None => False end.

(** Full C07 fails for exactly one kind of slice: negative step and start = n
    (Python clamps the start to n-1, the code does not). *)
Theorem C07_in_slice_refuted :
  exists i s n ps, 0 < n /\ - n <= i < n /\
    bound_in_range n (sl_start s) /\ bound_in_range n (sl_stop s) /\
    slice_positions s n = Ok ps /\
    ~ (exists b, in_slice i (SSlice s) (Some n) = Ok b /\ (b = true <-> In i ps)).
Proof.
  exists 4, (mkslice (Some 5) None (Some (-2))), 5, [4; 2; 0].
  cbv [bound_in_range sl_start sl_stop]. repeat split; try discriminate.
  intros (b & E & H). vm_compute in E. injection E as <-.
  destruct H as [_ H]. specialize (H (or_introl eq_refl)). discriminate.
Qed.
Print Assumptions C07_in_slice_refuted.

Theorem C07_index_in_slice_refuted :
  exists i s n ps, 0 < n /\ 0 <= i < n /\
    bound_in_range n (sl_start s) /\ bound_in_range n (sl_stop s) /\
    slice_positions s n = Ok ps /\ znth ps 0 = Some i /\
    index_in_slice i s (Some n) = Ok (Some 1).
Proof.
  exists 4, (mkslice (Some 5) None (Some (-1))), 5, [4; 3; 2; 1; 0].
  cbv [bound_in_range sl_start sl_stop]. repeat split; discriminate.
Qed.
Print Assumptions C07_index_in_slice_refuted.

(** Everywhere else [in_slice] decides membership in Python's slice. *)
Theorem C07_in_slice_partial :
  forall i s n ps,
    0 < n -> - n <= i < n ->
    bound_in_range n (sl_start s) -> bound_in_range n (sl_stop s) ->
    ~ (negative_step s /\ sl_start s = Some n) ->
    slice_positions s n = Ok ps ->
    exists b, in_slice i (SSlice s) (Some n) = Ok b /\
      (b = true <-> In (if i <? 0 then i + n else i) ps).
Proof. exact in_slice_correct'. Qed.
Print Assumptions C07_in_slice_partial.

(** ... and [index_in_slice] is the position within Python's slice, None when
    the index is not in it. *)
Theorem C07_index_in_slice_partial :
  forall i s n ps,
    0 < n -> - n <= i < n ->
    bound_in_range n (sl_start s) -> bound_in_range n (sl_stop s) ->
    ~ (negative_step s /\ sl_start s = Some n) ->
    slice_positions s n = Ok ps ->
    exists r, index_in_slice i s (Some n) = Ok r /\
      forall j, r = Some j <-> znth ps j = Some (if i <? 0 then i + n else i).
Proof. exact index_in_slice_correct'. Qed.
Print Assumptions C07_index_in_slice_partial.

(** Out-of-range bounds are rejected rather than clamped as Python does. *)
Theorem C07_out_of_range_rejected :
  forall i s n k,
    0 < n -> - n <= i <= n ->
    match sl_step s with Some c => c <> 0 | None => True end ->
    sl_start s = Some k -> (k < - n \/ n < k) ->
    in_slice i (SSlice s) (Some n) = Raise IndexError.
Proof. exact in_slice_out_of_range. Qed.
Print Assumptions C07_out_of_range_rejected.

(** An int as the slice: equality modulo the usual meaning of negatives. *)
Theorem C07_in_slice_int :
  forall i k n, 0 < n -> - n <= i < n -> - n <= k <= n ->
    in_slice i (SInt k) (Some n)
    = Ok ((if i <? 0 then i + n else i) =? (if k <? 0 then k + n else k)).
Proof. exact in_slice_int. Qed.
Print Assumptions C07_in_slice_int.

(** Without a length, non-negative start and stop: membership in the range. *)
Theorem C07_in_slice_nolength :
  forall i a b c, 0 <= i -> 0 <= a -> 0 <= b -> c <> 0 ->
    exists r, in_slice i (SSlice (mkslice (Some a) (Some b) (Some c))) None = Ok r /\
      (r = true <-> In i (range_list (mkrange a b c))).
Proof. exact in_slice_nolength. Qed.
Print Assumptions C07_in_slice_nolength.

Example C07_hypotheses_met :
  slice_positions (mkslice (Some (-2)) (Some 0) (Some (-2))) 7 = Ok [5; 3; 1] /\
  in_slice 3 (SSlice (mkslice (Some (-2)) (Some 0) (Some (-2)))) (Some 7) = Ok true /\
  index_in_slice (-4) (mkslice (Some (-2)) (Some 0) (Some (-2))) (Some 7) = Ok (Some 1).
Proof. repeat split. Qed.
