(** Property theorems: views (C04, C05, C06).  Specification: ViewSpec.v. *)
From Verif Require Import Base BaseProofs ViewModel ViewSpec ViewProofs ViewProofs2.
From Coq Require Import ZArith List Bool Lia.
Import ListNotations.
Open Scope Z_scope.

(** C04.  [v = view(l0)[s]] (or [view(l0, s)]).  After any history [h] of mutations
    of the list and of reads and writes through the view, the view reads as the
    Python slice of the current contents. *)
Theorem C04_view_live :
  forall (A : Type) (l0 : list A) (s : pyslice) (h : list (vop A)) (v : list A),
    let st := vrun (mkst l0 [fresh s]) h in
    py_slice (st_list st) s = Ok v ->
    snd (view_len st) = Ok (zlen v) /\
    snd (view_list st) = Ok v /\
    (forall k, snd (view_get st k) = py_index v k).
Proof.
  exact (fun A l0 s h v Hv =>
    let LV := history_live_det l0 [s] h v (len_det_single s _) Hv in
    conj (live_len _ _ LV) (conj (live_list _ _ LV) (fun k => live_get _ _ k LV))).
Qed.
Print Assumptions C04_view_live.

Example C04_case :
  let st := vrun (mkst [10; 20; 30; 40; 50] [fresh (mkslice (Some (-3)) None (Some 2))])
                 [OpRead 0; OpMutate [1; 2; 3; 4]; OpSet 0 (-1) 99; OpMutate [1; 2; 3; 4; 5; 6; 7]] in
  py_slice (st_list st) (mkslice (Some (-3)) None (Some 2)) = Ok [5; 7] /\ snd (view_list st) = Ok [5; 7].
Proof. split; reflexivity. Qed.

(** C05, full statement: refuted.  [v2 = view(lst)[-3:][1:]], read once, then an
    append to [lst]: [v2] keeps showing the old positions. *)
Theorem C05_nested_view_refuted :
  exists (l0 : list Z) slices h v,
    let st := vrun (mkst l0 (map fresh slices)) h in
    sliced (st_list st) slices = Ok v /\ snd (view_list st) <> Ok v.
Proof.
  exists [0; 1; 2; 3; 4], [mkslice (Some 1) None None; mkslice (Some (-3)) None None],
         [OpRead 0; OpMutate [0; 1; 2; 3; 4; 5]], [4; 5].
  split; [reflexivity|]. vm_compute. discriminate.
Qed.
Print Assumptions C05_nested_view_refuted.

(** C05, what holds: nested views of any depth are live whenever, for the lengths
    the base list takes during the history, the length of an inner view determines
    what the next view selects from it (the cache key of the code). *)
Theorem C05_nested_view_partial :
  forall (A : Type) (l0 : list A) slices (h : list (vop A)) v,
    let st := vrun (mkst l0 (map fresh slices)) h in
    len_det slices (fun n => In n (nlens l0 h)) ->
    sliced (st_list st) slices = Ok v ->
    snd (view_len st) = Ok (zlen v) /\
    snd (view_list st) = Ok v /\
    (forall k, snd (view_get st k) = py_index v k).
Proof.
  exact (fun A l0 slices h v D Hv =>
    let LV := history_live_det l0 slices h v D Hv in
    conj (live_len _ _ LV) (conj (live_list _ _ LV) (fun k => live_get _ _ k LV))).
Qed.
Print Assumptions C05_nested_view_partial.

(** Two ways to meet that condition: no mutation changes the length ... *)
Theorem C05_condition_fixed_length :
  forall slices (k : nat) (H : nat -> Prop), (forall n, H n -> n = k) -> len_det slices H.
Proof. exact len_det_const. Qed.
Print Assumptions C05_condition_fixed_length.

(** ... or all views but the outermost count from the front and go forward. *)
Theorem C05_condition_front_anchored :
  forall s inner (H : nat -> Prop), Forall front_anchored inner -> len_det (s :: inner) H.
Proof. exact len_det_front. Qed.
Print Assumptions C05_condition_front_anchored.

(** Slicing a view is slicing its value (also for [v[:]] and for no-op views). *)
Theorem C05_subscript :
  forall (A : Type) (l : list A) c s v,
    sliced l (map v_slice c) = Ok v ->
    sliced l (map v_slice (subscript c s)) = py_slice v s.
Proof. exact @sliced_subscript. Qed.
Print Assumptions C05_subscript.

Example C05_case :
  Forall front_anchored [mkslice (Some 1) None (Some 2)] /\
  let slices := [mkslice None None (Some (-1)); mkslice (Some 1) None (Some 2)] in
  let st := vrun (mkst [0; 1; 2; 3; 4] (map fresh slices)) [OpRead 0; OpMutate [0; 1; 2; 3; 4; 5]] in
  sliced (st_list st) slices = Ok [5; 3; 1] /\ snd (view_list st) = Ok [5; 3; 1].
Proof. repeat split; repeat constructor; discriminate. Qed.

(** C06.  Writes through a view, after any history.  The condition [len_det] holds
    for every single-level view ([C06_condition_single]); for nested views see
    C05.  [ps] are the positions the view selects. *)
Theorem C06_setitem :
  forall (A : Type) (l0 : list A) slices (h : list (vop A)) ps k x p,
    let st := vrun (mkst l0 (map fresh slices)) h in
    len_det slices (fun n => In n (nlens l0 h)) ->
    selected (length (st_list st)) slices = Ok ps ->
    py_index ps k = Ok p ->
    exists st', view_set st k x = (st', Ok tt) /\ st_list st' = upd (st_list st) p x.
Proof. exact (fun A l0 slices h ps k x p D S => selects_set _ ps k x p (history_selects l0 slices h ps D S)). Qed.
Print Assumptions C06_setitem.

(** An index outside the view changes nothing. *)
Theorem C06_setitem_out_of_range :
  forall (A : Type) (l0 : list A) slices (h : list (vop A)) ps k x,
    let st := vrun (mkst l0 (map fresh slices)) h in
    len_det slices (fun n => In n (nlens l0 h)) ->
    selected (length (st_list st)) slices = Ok ps ->
    py_index ps k = Raise IndexError ->
    exists st', view_set st k x = (st', Raise IndexError) /\ st_list st' = st_list st.
Proof. exact (fun A l0 slices h ps k x D S => selects_set_out _ ps k x (history_selects l0 slices h ps D S)). Qed.
Print Assumptions C06_setitem_out_of_range.

(** Slice assignment writes the selected positions in view order, pairwise, as far
    as the shorter side goes, and nothing else. *)
Theorem C06_setslice :
  forall (A : Type) (l0 : list A) slices (h : list (vop A)) ps sl qs xs,
    let st := vrun (mkst l0 (map fresh slices)) h in
    len_det slices (fun n => In n (nlens l0 h)) ->
    selected (length (st_list st)) slices = Ok ps ->
    py_slice ps sl = Ok qs ->
    exists st', view_setslice st sl (RSeq xs) = (st', Ok tt) /\
                assigned (st_list st) qs xs (st_list st').
Proof. exact (fun A l0 slices h ps sl qs xs D S => selects_setslice _ ps sl qs (RSeq xs) (history_selects l0 slices h ps D S)). Qed.
Print Assumptions C06_setslice.

(** A scalar is broadcast to all selected positions. *)
Theorem C06_setslice_scalar :
  forall (A : Type) (l0 : list A) slices (h : list (vop A)) ps sl qs x,
    let st := vrun (mkst l0 (map fresh slices)) h in
    len_det slices (fun n => In n (nlens l0 h)) ->
    selected (length (st_list st)) slices = Ok ps ->
    py_slice ps sl = Ok qs ->
    exists st', view_setslice st sl (RScalar x) = (st', Ok tt) /\
                assigned (st_list st) qs (repeat x (length qs)) (st_list st').
Proof. exact (fun A l0 slices h ps sl qs x D S => selects_setslice _ ps sl qs (RScalar x) (history_selects l0 slices h ps D S)). Qed.
Print Assumptions C06_setslice_scalar.

(** [v.reverse()] writes the reversed value of the view to the view's positions. *)
Theorem C06_reverse :
  forall (A : Type) (l0 : list A) slices (h : list (vop A)) ps v,
    let st := vrun (mkst l0 (map fresh slices)) h in
    len_det slices (fun n => In n (nlens l0 h)) ->
    selected (length (st_list st)) slices = Ok ps ->
    sliced (st_list st) slices = Ok v ->
    exists st', view_reverse st = (st', Ok tt) /\
                assigned (st_list st) ps (rev v) (st_list st').
Proof. exact @history_reverse. Qed.
Print Assumptions C06_reverse.

(** [selected] is what the view reads from, without repetitions and in range. *)
Theorem C06_selected_meaning :
  forall (A : Type) (l : list A) slices ps,
    selected (length l) slices = Ok ps ->
    exists v, sliced l slices = Ok v /\ map Some v = map (nth_error l) ps /\
              Forall (fun p => (p < length l)%nat) ps /\ NoDup ps.
Proof. exact @sliced_selected. Qed.
Print Assumptions C06_selected_meaning.

Theorem C06_condition_single : forall s (H : nat -> Prop), len_det [s] H.
Proof. exact len_det_single. Qed.
Print Assumptions C06_condition_single.

Example C06_case :
  let slices := [mkslice (Some 1) (Some (-1)) None; mkslice None None (Some 2)] in
  let st := mkst [0; 1; 2; 3; 4; 5; 6; 7; 8; 9] (map fresh slices) in
  selected 10 slices = Ok [2; 4; 6]%nat /\
  st_list (fst (view_setslice st (mkslice (Some 1) None None) (RSeq [10; 20]))) = [0; 1; 2; 3; 10; 5; 20; 7; 8; 9] /\
  st_list (fst (view_reverse st)) = [0; 1; 6; 3; 4; 5; 2; 7; 8; 9].
Proof. repeat split. Qed.
