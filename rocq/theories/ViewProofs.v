(** Proofs for ViewModel.v. *)
From Verif Require Import Base BaseProofs ViewModel ViewSpec.
From Coq Require Import ZArith List Bool Lia.
Import ListNotations.
Open Scope Z_scope.

Lemma range_len_scale p q a b c : q <> 0 -> c <> 0 ->
  range_len (mkrange (p + a * q) (p + b * q) (q * c)) = range_len (mkrange a b c).
Proof.
  intros Hq Hc.
  assert (Hqc : q * c <> 0) by nia.
  set (r1 := mkrange (p + a * q) (p + b * q) (q * c)).
  set (r2 := mkrange a b c).
  assert (E : forall i, 0 <= i -> (i < range_len r1 <-> i < range_len r2)).
  { intros i Hi.
    rewrite (range_len_spec r1 i Hqc Hi), (range_len_spec r2 i Hc Hi).
    unfold range_item. cbn [r_start r_stop r_step r1 r2].
    destruct (Z.ltb_spec 0 (q * c)); destruct (Z.ltb_spec 0 c); nia. }
  destruct (range_len_nonneg r1) as [N1|N1]; [|exfalso; cbn in N1; contradiction].
  destruct (range_len_nonneg r2) as [N2|N2]; [|exfalso; cbn in N2; contradiction].
  pose proof (E (range_len r1) N1). pose proof (E (range_len r2) N2). lia.
Qed.

(** [v] is what range [r] selects from [l]. *)
Definition reads {A} (l : list A) (r : pyrange) (v : list A) : Prop :=
  r_step r <> 0 /\ zlen v = range_len r /\
  forall i, 0 <= i < range_len r ->
    0 <= range_item r i < zlen l /\ znth v i = znth l (range_item r i).

Lemma reads_range0 {A} (l : list A) : reads l (range0 (zlen l)) l.
Proof.
  pose proof (zlen_nonneg l).
  assert (range_len (range0 (zlen l)) = zlen l).
  { unfold range_len, range0. simpl. destruct (Z.ltb_spec 0 (zlen l)); [|lia]. rewrite Z.div_1_r. lia. }
  split; [discriminate|]. split; [lia|]. intros i Hi. unfold range_item. cbn [r_start r_step range0].
  replace (0 + i * 1) with i by lia. split; [lia|]. reflexivity.
Qed.

Lemma reads_slice {A} (l : list A) r v s :
  reads l r v ->
  match range_slice r s with
  | Ok r' => exists v', py_slice v s = Ok v' /\ reads l r' v'
  | Raise e => py_slice v s = Raise e
  end.
Proof.
  intros (Hs & Hl & Hi).
  unfold range_slice. rewrite <- Hl.
  destruct (slice_indices s (zlen v)) as [[[a b] c]|e] eqn:E.
  2:{ cbn [obind]. unfold py_slice. rewrite E. reflexivity. }
  cbn [obind].
  destruct (py_slice v s) as [v'|e] eqn:Ev.
  2:{ unfold py_slice in Ev. rewrite E in Ev. discriminate. }
  exists v'. split; [reflexivity|].
  destruct (py_slice_nth v s v' Ev) as (r0 & Er0 & Hr0 & Hl0 & Hin & Hn).
  unfold range_slice in Er0.
  destruct (reads_range0 v) as (_ & RL & _). rewrite <- RL in Er0. rewrite E in Er0.
  cbn [obind] in Er0.
  assert (ER : r0 = mkrange a b c).
  { apply (f_equal (fun o => match o with Ok x => x | Raise _ => r0 end)) in Er0. cbv beta iota in Er0.
    rewrite <- Er0. unfold range_item. cbn [r_start r_stop r_step range0]. f_equal; lia. }
  subst r0. clear Er0.
  unfold range_item in *. cbn [r_start r_stop r_step range0] in *.
  assert (Hc : c <> 0) by exact Hr0.
  unfold reads. cbn [r_start r_stop r_step].
  rewrite range_len_scale by assumption.
  split; [nia|]. split; [exact Hl0|].
  intros i Hri. unfold range_item. cbn [r_start r_stop r_step].
  assert (B : 0 <= a + i * c < zlen v).
  { apply Hin. apply range_list_In_idx; [exact Hc|]. exists i. split; [exact Hri|reflexivity]. }
  replace (r_start r + a * r_step r + i * (r_step r * c))
    with (r_start r + (a + i * c) * r_step r) by ring.
  rewrite Hn by exact Hri. apply Hi. lia.
Qed.

Definition slices_of (c : vchain) : list pyslice := map v_slice c.

Lemma build_range_reads {A} (l : list A) c :
  match build_range c (zlen l) with
  | Ok r => exists v, sliced l (slices_of c) = Ok v /\ reads l r v
  | Raise e => sliced l (slices_of c) = Raise e
  end.
Proof.
  induction c as [|lv c IH]; simpl.
  - exists l. split; [reflexivity|apply reads_range0].
  - destruct (build_range c (zlen l)) as [r|e]; cbn [obind].
    + destruct IH as (v & Ev & Rv). rewrite Ev. cbn [obind]. apply reads_slice. exact Rv.
    + rewrite IH. reflexivity.
Qed.

Lemma build_range_slices c c' n : slices_of c = slices_of c' -> build_range c n = build_range c' n.
Proof.
  revert c'. induction c as [|l c IH]; intros [|l' c'] H; simpl in *; try discriminate; [reflexivity|].
  injection H as H1 H2. rewrite (IH c' H2), H1. reflexivity.
Qed.

(** Whether build_range succeeds does not depend on the length. *)
Lemma slice_indices_total s n m r : slice_indices s n = Ok r -> exists r', slice_indices s m = Ok r'.
Proof. unfold slice_indices. destruct (_ =? 0); [discriminate|]. eauto. Qed.

Lemma build_range_total c n m r : build_range c n = Ok r -> exists r', build_range c m = Ok r'.
Proof.
  revert r. induction c as [|l c IH]; intros r H; simpl in *; [eauto|].
  destruct (build_range c n) as [r1|]; [|discriminate]. cbn [obind] in H.
  destruct (IH r1 eq_refl) as (r2 & ->). cbn [obind].
  unfold range_slice in *.
  destruct (slice_indices (v_slice l) (range_len r1)) as [p|] eqn:E; [|discriminate].
  destruct (slice_indices_total _ _ (range_len r2) _ E) as (((a & b) & cc) & ->). cbn [obind]. eauto.
Qed.

(** Invariant of the caches: every cached range was computed for one of the base
    lengths in [H]. *)
Fixpoint cache_inv (H : Z -> Prop) (c : vchain) : Prop :=
  match c with
  | [] => True
  | l :: c' =>
      cache_inv H c' /\
      (v_seql l = None \/
       exists n r rin, H n /\ build_range c n = Ok r /\ build_range c' n = Ok rin /\
         v_seql l = Some (range_len rin) /\ v_cache l = Some r)
  end.

(** The condition under which length-keyed caching is right for chain [c]. *)
Fixpoint separating (H : Z -> Prop) (c : vchain) : Prop :=
  match c with
  | [] => True
  | l :: c' =>
      separating H c' /\
      forall n m r r' ri ri', H n -> H m ->
        build_range c' n = Ok ri -> build_range c' m = Ok ri' ->
        range_len ri = range_len ri' ->
        build_range c n = Ok r -> build_range c m = Ok r' ->
        range_list r = range_list r'
  end.

Lemma range_list_eq_len r r' : r_step r <> 0 -> r_step r' <> 0 ->
  range_list r = range_list r' -> range_len r = range_len r'.
Proof. intros H H' E. rewrite <- !range_list_length by assumption. rewrite E. reflexivity. Qed.

Lemma range_slice_step r s r' : r_step r <> 0 -> range_slice r s = Ok r' -> r_step r' <> 0.
Proof.
  unfold range_slice. intros Hr. destruct (slice_indices s (range_len r)) as [[[a b] c]|] eqn:E; [|discriminate].
  cbn [obind]. intros H. injection H as <-. cbn [r_step].
  pose proof (slice_indices_step _ _ _ _ _ E). nia.
Qed.

Lemma build_range_step c n r : build_range c n = Ok r -> r_step r <> 0.
Proof.
  revert r. induction c as [|l c IH]; intros r H; simpl in H.
  - injection H as <-. discriminate.
  - destruct (build_range c n) as [r1|]; [|discriminate]. cbn [obind] in H.
    eapply range_slice_step; [|exact H]. apply IH. reflexivity.
Qed.

Lemma update_cache_slices c n : slices_of (fst (update_cache c n)) = slices_of c.
Proof.
  induction c as [|l c IH]; simpl; [reflexivity|].
  destruct (update_cache c n) as [c1 rin]. cbn [fst] in IH.
  destruct (omap range_len rin) as [seql|e].
  - destruct (match v_seql l with Some m => m =? seql | None => false end).
    + cbn [fst slices_of map]. f_equal. exact IH.
    + destruct (do r <- build_range c n; range_slice r (v_slice l));
        cbn [fst slices_of map v_slice]; f_equal; exact IH.
  - cbn [fst slices_of map]. f_equal. exact IH.
Qed.

(** Two ranges that select the same positions. *)
Definition same_range (r r' : pyrange) : Prop := range_list r = range_list r'.

Lemma update_cache_ok (H : Z -> Prop) c n r :
  H n -> cache_inv H c -> separating H c -> build_range c n = Ok r ->
  cache_inv H (fst (update_cache c n)) /\
  exists r', snd (update_cache c n) = Ok r' /\ range_list r' = range_list r /\ range_len r' = range_len r /\ r_step r' <> 0.
Proof.
  intros Hn. revert r. induction c as [|l c IH]; intros r Hc Hsep Hb.
  - cbn in Hb. injection Hb as <-. cbn. split; [exact I|]. eexists. repeat split; try reflexivity; discriminate.
  - destruct Hc as (Hc & Hl). destruct Hsep as (Hsep & Hs).
    pose proof Hb as Hb0. cbn [build_range] in Hb0. destruct (build_range c n) as [rin|] eqn:Ein; [|discriminate].
    destruct (IH rin Hc Hsep eq_refl) as (IHi & r1 & Er1 & El1 & Elen & Est).
    cbn [update_cache]. pose proof (update_cache_slices c n) as SL.
    destruct (update_cache c n) as [c1 rin1]. cbn [fst snd] in *. subst rin1. cbn [omap].
    assert (SL2 : forall m, build_range c1 m = build_range c m)
      by (intro m; apply build_range_slices; exact SL).
    assert (Hstep : r_step r <> 0) by (eapply build_range_step; eauto).
    destruct (match v_seql l with Some m => m =? range_len r1 | None => false end) eqn:Hit.
    + destruct Hl as [Hl|(n0 & r0 & rin0 & Hn0 & Hb1 & Hb2 & Hq1 & Hq2)]; [rewrite Hl in Hit; discriminate|].
      rewrite Hq1 in Hit. apply Z.eqb_eq in Hit.
      assert (E : range_list r0 = range_list r).
      { eapply Hs with (n := n0) (m := n); eauto. congruence. }
      assert (r_step r0 <> 0) by (eapply build_range_step; eauto).
      split.
      * cbn [fst cache_inv]. split; [exact IHi|]. right. exists n0, r0, rin0.
        cbn [build_range]. rewrite SL2. cbn [build_range] in Hb1. repeat split; assumption.
      * cbn [snd]. rewrite Hq2. exists r0. repeat split; auto. apply range_list_eq_len; auto.
    + rewrite Hb. split.
      * cbn [fst cache_inv]. split; [exact IHi|]. right. exists n, r, rin.
        cbn [build_range v_slice v_seql v_cache]. rewrite !SL2, Ein. repeat split; auto; congruence.
      * cbn [snd]. exists r. repeat split; auto.
Qed.

Lemma cache_inv_skipn (H : Z -> Prop) k c : cache_inv H c -> cache_inv H (skipn k c).
Proof.
  revert c. induction k; intros c Hc; [exact Hc|]. destruct c; [exact I|]. simpl. apply IHk. apply Hc.
Qed.
Lemma separating_skipn (H : Z -> Prop) k c : separating H c -> separating H (skipn k c).
Proof.
  revert c. induction k; intros c Hc; [exact Hc|]. destruct c; [exact I|]. simpl. apply IHk. apply Hc.
Qed.
Lemma build_range_skipn_ok c n r k : build_range c n = Ok r -> exists r', build_range (skipn k c) n = Ok r'.
Proof.
  revert c r. induction k; intros c r Hc; [eauto|]. destruct c as [|l c]; [simpl; eauto|].
  simpl in *. destruct (build_range c n) eqn:E; [|discriminate]. eapply IHk. exact E.
Qed.

Lemma cache_inv_replace (H : Z -> Prop) k c c' :
  cache_inv H c -> slices_of c' = slices_of (skipn k c) -> cache_inv H c' ->
  cache_inv H (firstn k c ++ c').
Proof.
  revert c. induction k; intros c Hc Hs Hc'; [exact Hc'|].
  destruct c as [|l c]; [simpl in *; destruct c'; [exact I|discriminate]|].
  simpl in Hs. cbn [firstn app cache_inv]. destruct Hc as (Hc & Hl). split.
  - apply IHk; assumption.
  - assert (SL : slices_of (firstn k c ++ c') = slices_of c).
    { unfold slices_of in *. rewrite map_app, Hs, <- map_app, firstn_skipn. reflexivity. }
    assert (SL2 : forall m, build_range (firstn k c ++ c') m = build_range c m)
      by (intro m; apply build_range_slices; exact SL).
    destruct Hl as [Hl|(n0 & r0 & rin0 & Hn0 & Hb1 & Hb2 & Hq1 & Hq2)]; [left; exact Hl|].
    right. exists n0, r0, rin0. cbn [build_range] in *. rewrite !SL2. repeat split; assumption.
Qed.

Lemma separating_slices (H : Z -> Prop) c c' : slices_of c = slices_of c' -> separating H c -> separating H c'.
Proof.
  revert c'. induction c as [|l c IH]; intros [|l' c'] E; simpl; try discriminate; [auto|].
  intros (Hc & Hs). injection E as E1 E2. split; [apply IH; assumption|].
  intros n m r r' ri ri'. rewrite <- !(build_range_slices c c' _ E2), <- !E1. apply Hs.
Qed.

(** Effects of the operations on list length and caches. *)
Section Ops.
Context {A : Type}.

Lemma write_all_len (js : list Z) : forall (l : list A) xs, zlen (fst (write_all l js xs)) = zlen l.
Proof.
  induction js as [|j js IH]; intros l xs; [reflexivity|].
  destruct xs as [|x xs]; [reflexivity|]. simpl. unfold py_setitem.
  destruct (_ || _); [reflexivity|]. rewrite IH. apply zupd_length.
Qed.

(** Every operation at the outermost level leaves the chain as [update_cache] does
    (or twice so) and preserves the length. *)
Lemma view_len_st (st : vstate A) : fst (view_len st) = mkst (st_list st) (fst (update_cache (st_chain st) (zlen (st_list st)))).
Proof. unfold view_len. destruct (update_cache _ _); reflexivity. Qed.

Lemma view_set_chain (st : vstate A) k x :
  st_chain (fst (view_set st k x)) = fst (update_cache (st_chain st) (zlen (st_list st))) /\
  zlen (st_list (fst (view_set st k x))) = zlen (st_list st).
Proof.
  unfold view_set. destruct (update_cache _ _) as [c [r|e]]; cbn [fst]; [|split; reflexivity].
  destruct (_ || _); cbn [fst]; [split; reflexivity|].
  unfold py_setitem. destruct (_ || _); cbn [fst st_chain st_list]; split; try reflexivity. apply zupd_length.
Qed.

Lemma view_setslice_chain (st : vstate A) k v :
  st_chain (fst (view_setslice st k v)) = fst (update_cache (st_chain st) (zlen (st_list st))) /\
  zlen (st_list (fst (view_setslice st k v))) = zlen (st_list st).
Proof.
  unfold view_setslice. destruct (update_cache _ _) as [c r]. destruct (do r0 <- r; range_slice r0 k) as [rk|e];
    cbn [fst]; [|split; reflexivity].
  pose proof (write_all_len (range_list rk) (st_list st) (match v with RSeq xs => xs | RScalar x => repeat x (length (range_list rk)) end)) as W.
  destruct (write_all _ _ _) as [l' o]. cbn [fst st_chain st_list] in *. split; [reflexivity|exact W].
Qed.

Lemma view_list_chain (st : vstate A) :
  fst (view_list st) = mkst (st_list st) (fst (update_cache (st_chain st) (zlen (st_list st)))).
Proof. unfold view_list. destruct (update_cache _ _); reflexivity. Qed.

Lemma view_reverse_chain (st : vstate A) :
  (exists k, st_chain (fst (view_reverse st)) = Nat.iter (S k) (fun c => fst (update_cache c (zlen (st_list st)))) (st_chain st)) /\
  zlen (st_list (fst (view_reverse st))) = zlen (st_list st).
Proof.
  unfold view_reverse. pose proof (view_list_chain st) as V. destruct (view_list st) as [st' [xs|e]]; cbn [fst] in *; subst st'.
  - pose proof (view_setslice_chain (mkst (st_list st) (fst (update_cache (st_chain st) (zlen (st_list st))))) (mkslice None None (Some (-1))) (RSeq xs)) as (H1 & H2).
    rewrite H1, H2. cbn [st_chain st_list]. split; [exists 1%nat; reflexivity|reflexivity].
  - split; [exists 0%nat; reflexivity|reflexivity].
Qed.

Definition op_lens (h : list (vop A)) : list Z :=
  flat_map (fun o => match o with OpMutate l => [zlen l] | _ => [] end) h.

Definition lens_of (st : vstate A) (h : list (vop A)) (n : Z) : Prop := n = zlen (st_list st) \/ In n (op_lens h).

Definition inv (H : Z -> Prop) (st : vstate A) : Prop :=
  H (zlen (st_list st)) /\ cache_inv H (st_chain st).

Lemma iter_update (H : Z -> Prop) c n k r :
  H n -> cache_inv H c -> separating H c -> build_range c n = Ok r ->
  let c' := Nat.iter k (fun c => fst (update_cache c n)) c in
  cache_inv H c' /\ slices_of c' = slices_of c.
Proof.
  intros Hn Hc Hsep Hb. induction k as [|k (IH1 & IH2)]; [split; [exact Hc|reflexivity]|].
  cbv zeta in *. unfold Nat.iter in *. cbn [nat_rect] in *. split.
  - eapply (update_cache_ok H _ n r); try assumption.
    + eapply separating_slices; [symmetry; exact IH2|exact Hsep].
    + erewrite build_range_slices; [exact Hb|exact IH2].
  - rewrite update_cache_slices. exact IH2.
Qed.

Lemma at_level_inv (H : Z -> Prop) k (f : vstate A -> vstate A) (st : vstate A) r :
  (forall s, (exists j, st_chain (f s) = Nat.iter (S j) (fun c => fst (update_cache c (zlen (st_list s)))) (st_chain s))
             /\ zlen (st_list (f s)) = zlen (st_list s)) ->
  inv H st -> separating H (st_chain st) -> build_range (st_chain st) (zlen (st_list st)) = Ok r ->
  inv H (at_level k f st) /\ slices_of (st_chain (at_level k f st)) = slices_of (st_chain st).
Proof.
  intros Hf (I1 & I2) Hsep Hb.
  destruct (Hf (mkst (st_list st) (skipn k (st_chain st)))) as ((j & Hj) & Hl).
  cbn [st_list st_chain] in *.
  destruct (build_range_skipn_ok _ _ _ k Hb) as (r' & Hb').
  destruct (iter_update H (skipn k (st_chain st)) (zlen (st_list st)) (S j) r' I1
              (cache_inv_skipn _ _ _ I2) (separating_skipn _ _ _ Hsep) Hb') as (J1 & J2).
  rewrite <- Hj in J1, J2. unfold at_level. cbn [st_list st_chain]. split.
  - split; cbn [st_list st_chain]; [rewrite Hl; exact I1|]. apply cache_inv_replace; assumption.
  - unfold slices_of in *. rewrite map_app, J2, <- map_app, firstn_skipn. reflexivity.
Qed.

Lemma vstep_inv (H : Z -> Prop) (st : vstate A) o r :
  inv H st -> separating H (st_chain st) -> build_range (st_chain st) (zlen (st_list st)) = Ok r ->
  (forall l, o = OpMutate l -> H (zlen l)) ->
  inv H (vstep st o) /\ slices_of (st_chain (vstep st o)) = slices_of (st_chain st).
Proof.
  intros Hi Hsep Hb Ho. destruct o as [l|k|k i x|k s v|k]; cbn [vstep].
  - split; [|reflexivity]. split; [apply Ho; reflexivity|apply Hi].
  - eapply at_level_inv; eauto. intros s. rewrite view_len_st. cbn. split; [exists 0%nat; reflexivity|reflexivity].
  - eapply at_level_inv; eauto. intros s. destruct (view_set_chain s i x) as (E1 & E2). split; [exists 0%nat; exact E1|exact E2].
  - eapply at_level_inv; eauto. intros s0. destruct (view_setslice_chain s0 s v) as (E1 & E2). split; [exists 0%nat; exact E1|exact E2].
  - eapply at_level_inv; eauto. intros s. apply view_reverse_chain.
Qed.

Lemma vrun_inv (H : Z -> Prop) (h : list (vop A)) : forall st r,
  inv H st -> separating H (st_chain st) -> build_range (st_chain st) (zlen (st_list st)) = Ok r ->
  (forall n, In n (op_lens h) -> H n) ->
  inv H (vrun st h) /\ slices_of (st_chain (vrun st h)) = slices_of (st_chain st).
Proof.
  induction h as [|o h IH]; intros st r Hi Hsep Hb Hh; [split; [exact Hi|reflexivity]|].
  assert (Ho : forall l, o = OpMutate l -> H (zlen l)).
  { intros l ->. apply Hh. simpl. left. reflexivity. }
  destruct (vstep_inv H st o r Hi Hsep Hb Ho) as (J1 & J2).
  destruct (build_range_total _ _ (zlen (st_list (vstep st o))) _ Hb) as (r' & Hb').
  destruct (IH (vstep st o) r') as (K1 & K2).
  - exact J1.
  - eapply separating_slices; [symmetry; exact J2|exact Hsep].
  - rewrite <- Hb'. apply build_range_slices. exact J2.
  - intros n Hn. apply Hh. simpl. apply in_or_app. right. exact Hn.
  - split; [exact K1|]. rewrite <- J2. exact K2.
Qed.

(** Reading with a correct range gives the specified value. *)
Lemma py_index_in (l : list A) j : 0 <= j < zlen l -> py_index l j = match znth l j with Some a => Ok a | None => Raise IndexError end.
Proof. intros H. unfold py_index. destruct (Z.ltb_spec j 0); [lia|]. reflexivity. Qed.

Lemma read_all_reads (l : list A) r v : reads l r v -> read_all l (range_list r) = Ok v.
Proof.
  intros (Hs & Hl & Hi).
  assert (G : forall js vs, Forall2 (fun j x => 0 <= j < zlen l /\ znth l j = Some x) js vs -> read_all l js = Ok vs).
  { induction 1 as [|j x js vs (B & E) F IH]; [reflexivity|]. simpl.
    rewrite py_index_in by exact B. rewrite E. cbn [obind]. rewrite IH. reflexivity. }
  apply G. clear G.
  assert (L : length (range_list r) = length v).
  { pose proof (range_list_length r Hs). unfold zlen in *. lia. }
  assert (Q : forall i, (i < length v)%nat -> exists j x, nth_error (range_list r) i = Some j /\ nth_error v i = Some x /\ 0 <= j < zlen l /\ znth l j = Some x).
  { intros i Hiv. assert (B : 0 <= Z.of_nat i < range_len r) by (unfold zlen in Hl; lia).
    pose proof (range_list_nth r _ Hs B) as N1. destruct (Hi _ B) as (Bj & N2).
    unfold znth in N1, N2. destruct (Z.ltb_spec (Z.of_nat i) 0); [lia|]. rewrite Nat2Z.id in *.
    destruct (znth_Some l _ Bj) as (x & Ex).
    exists (range_item r (Z.of_nat i)), x. repeat split; try assumption; try lia.
    rewrite N2. exact Ex. }
  revert Q L. generalize (range_list r) as js. clear. intros js Q L. revert js L Q.
  induction v as [|x v IH]; intros [|j js] L Q; try discriminate; constructor.
  - destruct (Q 0%nat ltac:(simpl; lia)) as (j' & x' & E1 & E2 & B & E3). simpl in *.
    injection E1 as ->. injection E2 as ->. split; assumption.
  - apply IH; [simpl in L; lia|]. intros i Hi. destruct (Q (S i) ltac:(simpl; lia)) as (j' & x' & E1 & E2 & B & E3).
    exists j', x'. simpl in *. auto.
Qed.

Lemma range_list_item r r' i : r_step r <> 0 -> r_step r' <> 0 -> range_list r = range_list r' ->
  0 <= i < range_len r -> range_item r i = range_item r' i.
Proof.
  intros H H' E Hi. pose proof (range_list_eq_len _ _ H H' E) as EL.
  pose proof (range_list_nth r i H Hi) as N. rewrite E, range_list_nth in N by (assumption || lia). congruence.
Qed.

Lemma reads_same (l : list A) r r' v : r_step r' <> 0 -> range_list r' = range_list r -> reads l r v -> reads l r' v.
Proof.
  intros Hs' E (Hs & Hl & Hi). pose proof (range_list_eq_len _ _ Hs' Hs E) as EL.
  split; [exact Hs'|]. split; [lia|]. intros i B. rewrite (range_list_item r' r i) by (assumption). apply Hi. lia.
Qed.

(** A state whose outermost view is live with value [v]. *)
Definition live (st : vstate A) (v : list A) : Prop :=
  exists c r, update_cache (st_chain st) (zlen (st_list st)) = (c, Ok r) /\ reads (st_list st) r v.

Lemma live_len st v : live st v -> snd (view_len st) = Ok (zlen v).
Proof.
  intros (c & r & E & (Hs & Hl & Hi)). unfold view_len. rewrite E. cbn [snd omap]. congruence.
Qed.
Lemma live_list st v : live st v -> snd (view_list st) = Ok v.
Proof.
  intros (c & r & E & R). unfold view_list. rewrite E. cbn [snd obind]. apply read_all_reads. exact R.
Qed.

Lemma live_get st v k : live st v -> snd (view_get st k) = py_index v k.
Proof.
  intros (c & r & E & (Hs & Hl & Hi)). unfold view_get. rewrite E. cbn [snd obind].
  rewrite <- Hl. unfold py_index at 2. pose proof (zlen_nonneg v).
  destruct (Z.leb_spec (zlen v) k); cbn [orb].
  - rewrite znth_None; [reflexivity|]. destruct (Z.ltb_spec k 0); lia.
  - destruct (Z.ltb_spec k (- zlen v)).
    + rewrite znth_None; [reflexivity|]. destruct (Z.ltb_spec k 0); lia.
    + unfold range_index. rewrite <- Hl.
      set (k' := if k <? 0 then k + zlen v else k).
      assert (B : 0 <= k' < range_len r) by (unfold k'; destruct (Z.ltb_spec k 0); lia).
      destruct (Hi k' B) as (B2 & ->). rewrite py_index_in by exact B2. reflexivity.
Qed.

Lemma live_of_inv (H : Z -> Prop) (st : vstate A) v :
  inv H st -> separating H (st_chain st) ->
  sliced (st_list st) (slices_of (st_chain st)) = Ok v -> live st v.
Proof.
  intros (I1 & I2) Hsep Hv.
  pose proof (build_range_reads (st_list st) (st_chain st)) as B.
  destruct (build_range (st_chain st) (zlen (st_list st))) as [r|e] eqn:Eb; [|congruence].
  destruct B as (v' & E & R). rewrite Hv in E. injection E as <-.
  destruct (update_cache_ok H _ _ r I1 I2 Hsep Eb) as (_ & r' & E1 & E2 & E3 & E4).
  destruct (update_cache (st_chain st) (zlen (st_list st))) as [c o] eqn:U. cbn [snd] in E1. subst o.
  exists c, r'. split; [exact U|]. eapply reads_same; eauto.
Qed.

Lemma cache_inv_fresh (H : Z -> Prop) slices : cache_inv H (map fresh slices).
Proof. induction slices; simpl; [exact I|]. split; [assumption|]. left. reflexivity. Qed.

Lemma slices_of_fresh slices : slices_of (map fresh slices) = slices.
Proof. unfold slices_of. rewrite map_map. simpl. apply map_id. Qed.

(** Any history from a fresh chain leaves the outermost view live, given the
    separation condition on the lengths that occur. *)
Lemma history_live (l0 : list A) slices (h : list (vop A)) v :
  let st0 := mkst l0 (map fresh slices) in
  separating (lens_of st0 h) (map fresh slices) ->
  sliced (st_list (vrun st0 h)) slices = Ok v ->
  live (vrun st0 h) v.
Proof.
  intros st0 Hsep Hv.
  assert (I0 : inv (lens_of st0 h) st0).
  { split; [left; reflexivity|]. apply cache_inv_fresh. }
  pose proof (build_range_reads (st_list (vrun st0 h)) (map fresh slices)) as B.
  rewrite slices_of_fresh, Hv in B.
  destruct (build_range (map fresh slices) (zlen (st_list (vrun st0 h)))) as [r|e] eqn:Eb; [|discriminate].
  destruct (build_range_total _ _ (zlen (st_list st0)) _ Eb) as (r0 & Hb0).
  destruct (vrun_inv (lens_of st0 h) h st0 r0 I0 Hsep Hb0) as (J1 & J2).
  { intros n Hn. right. exact Hn. }
  cbn [st_chain st0] in J2. eapply live_of_inv.
  - exact J1.
  - eapply separating_slices; [symmetry; exact J2|exact Hsep].
  - rewrite J2, slices_of_fresh. exact Hv.
Qed.

End Ops.
