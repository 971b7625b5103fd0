(** Further proofs for ViewModel.v: writes, and sufficient conditions for
    nested views to be live. *)
From Verif Require Import Base BaseProofs ViewModel ViewSpec ViewProofs.
From Coq Require Import ZArith List Bool Lia FinFun.
Import ListNotations.
Open Scope Z_scope.

Lemma reads_map_Some {A} (l : list A) r v : reads l r v -> map Some v = map (znth l) (range_list r).
Proof.
  intros (Hs & Hl & Hi). apply znth_ext. intros i. rewrite !znth_map.
  destruct (Z_lt_dec i 0).
  - rewrite !znth_None by lia. reflexivity.
  - destruct (Z_lt_dec i (range_len r)).
    + rewrite range_list_nth by (assumption || lia). simpl. destruct (Hi i ltac:(lia)) as (B & E).
      rewrite E. destruct (znth_Some l _ B) as (a & ->). reflexivity.
    + rewrite !znth_None; [reflexivity| |]; rewrite ?range_list_length by assumption; lia.
Qed.

Lemma znth_seq n i : 0 <= i < Z.of_nat n -> znth (seq 0 n) i = Some (Z.to_nat i).
Proof.
  intros H. unfold znth. destruct (Z.ltb_spec i 0); [lia|].
  rewrite (nth_error_nth' _ 0%nat) by (rewrite seq_length; lia). rewrite seq_nth by lia. reflexivity.
Qed.

Lemma zlen_seq n : zlen (seq 0 n) = Z.of_nat n.
Proof. unfold zlen. rewrite seq_length. reflexivity. Qed.

Lemma reads_seq n r ps : reads (seq 0 n) r ps -> ps = map Z.to_nat (range_list r) /\ Forall (fun j => 0 <= j < Z.of_nat n) (range_list r).
Proof.
  intros R. pose proof (reads_map_Some _ _ _ R) as E. destruct R as (Hs & Hl & Hi).
  assert (F : Forall (fun j => 0 <= j < Z.of_nat n) (range_list r)).
  { apply Forall_forall. intros j Hj. apply range_list_In_idx in Hj; [|exact Hs].
    destruct Hj as (i & B & ->). rewrite <- zlen_seq. apply Hi. exact B. }
  split; [|exact F].
  assert (E2 : map Some ps = map Some (map Z.to_nat (range_list r))).
  { rewrite E, map_map. apply map_ext_in. intros j Hj. rewrite Forall_forall in F. apply znth_seq. auto. }
  clear - E2. revert E2. generalize (map Z.to_nat (range_list r)). induction ps as [|p ps IH]; intros [|q qs] E; try discriminate; [reflexivity|].
  simpl in E. injection E as -> E. f_equal. apply IH. exact E.
Qed.

Lemma reads_range_list_nat n r ps : reads (seq 0 n) r ps -> range_list r = map Z.of_nat ps.
Proof.
  intros R. destruct (reads_seq _ _ _ R) as (-> & F). rewrite map_map.
  rewrite <- (map_id (range_list r)) at 1. apply map_ext_in. intros j Hj.
  rewrite Forall_forall in F. specialize (F j Hj). lia.
Qed.


Lemma build_range_selected c n r :
  build_range c (Z.of_nat n) = Ok r ->
  exists ps, selected n (slices_of c) = Ok ps /\ reads (seq 0 n) r ps.
Proof.
  intros H. pose proof (build_range_reads (seq 0 n) c) as B. rewrite zlen_seq, H in B. exact B.
Qed.

Lemma len_det_separating slices H (Hz : Z -> Prop) :
  (forall z, Hz z -> exists n, z = Z.of_nat n /\ H n) ->
  len_det slices H -> separating Hz (map fresh slices).
Proof.
  intros HH. induction slices as [|s inner IH]; intros D; [exact I|].
  cbn [map separating]. split.
  - apply IH. intros pre s' inner' E. apply (D (s :: pre) s' inner'). rewrite E. reflexivity.
  - intros z1 z2 r r' ri ri' H1 H2 B1 B2 EL R1 R2.
    destruct (HH z1 H1) as (n & -> & Hn). destruct (HH z2 H2) as (m & -> & Hm).
    destruct (build_range_selected _ _ _ B1) as (p1 & S1 & RD1).
    destruct (build_range_selected _ _ _ B2) as (p2 & S2 & RD2).
    change (fresh s :: map fresh inner) with (map fresh (s :: inner)) in R1, R2.
    destruct (build_range_selected _ _ _ R1) as (q1 & T1 & RQ1).
    destruct (build_range_selected _ _ _ R2) as (q2 & T2 & RQ2).
    rewrite slices_of_fresh in *.
    assert (LL : length p1 = length p2).
    { destruct RD1 as (_ & L1 & _). destruct RD2 as (_ & L2 & _). unfold zlen in *. lia. }
    pose proof (D [] s inner eq_refl n m p1 p2 Hn Hm S1 S2 LL) as Q.
    rewrite T1, T2 in Q. injection Q as ->.
    rewrite (reads_range_list_nat _ _ _ RQ1), (reads_range_list_nat _ _ _ RQ2). reflexivity.
Qed.


Lemma lens_nlens {A} (l0 : list A) c h z :
  lens_of (mkst l0 c) h z -> exists n, z = Z.of_nat n /\ In n (nlens l0 h).
Proof.
  intros [->|H].
  - exists (length l0). split; [reflexivity|left; reflexivity].
  - unfold op_lens in H. apply in_flat_map in H as (o & Ho & Hz).
    destruct o; simpl in Hz; try contradiction. destruct Hz as [<-|[]].
    exists (length l). split; [reflexivity|]. right. apply in_flat_map. exists (OpMutate l). split; [exact Ho|left; reflexivity].
Qed.

Lemma history_live_det {A} (l0 : list A) slices h v :
  let st := vrun (mkst l0 (map fresh slices)) h in
  len_det slices (fun n => In n (nlens l0 h)) ->
  sliced (st_list st) slices = Ok v -> live st v.
Proof.
  intros st D Hv. eapply history_live; [|exact Hv].
  eapply len_det_separating; [|exact D]. intros z. apply lens_nlens.
Qed.

(** Single-level views. *)
Lemma len_det_single s H : len_det [s] H.
Proof.
  intros pre s' inner E. destruct pre as [|a pre].
  - injection E as -> <-. intros n m pn pm _ _ Sn Sm L. cbn in Sn, Sm.
    injection Sn as <-. injection Sm as <-. rewrite !seq_length in L. subst. reflexivity.
  - simpl in E. injection E as _ E. destruct pre; discriminate.
Qed.

(** Histories that never change the length. *)
Lemma len_det_const slices k (H : nat -> Prop) : (forall n, H n -> n = k) -> len_det slices H.
Proof. intros Hk pre s inner _ n m pn pm Hn Hm _ _ _. rewrite (Hk n Hn), (Hk m Hm). reflexivity. Qed.

(** Front-anchored inner slices. *)
Definition prefix {A} (p q : list A) : Prop := exists t, q = p ++ t.

Lemma znth_prefix {A} (p q : list A) i : prefix p q -> i < zlen p -> znth q i = znth p i.
Proof.
  intros (t & ->) H. unfold znth, zlen in *. destruct (Z.ltb_spec i 0); [reflexivity|].
  apply nth_error_app1. lia.
Qed.

Lemma prefix_by_nth {A} (p q : list A) : zlen p <= zlen q -> (forall i, 0 <= i < zlen p -> znth q i = znth p i) -> prefix p q.
Proof.
  intros L E. exists (skipn (length p) q). apply znth_ext. intros i.
  destruct (Z_lt_dec i 0); [rewrite !znth_None by lia; reflexivity|].
  destruct (Z_lt_dec i (zlen p)).
  - rewrite (E i) by lia. unfold znth, zlen in *. destruct (Z.ltb_spec i 0); [lia|].
    rewrite nth_error_app1 by lia. reflexivity.
  - unfold znth, zlen in *. destruct (Z.ltb_spec i 0); [lia|].
    rewrite nth_error_app2 by lia. rewrite <- (firstn_skipn (length p) q) at 1.
    rewrite nth_error_app2 by (rewrite firstn_length; lia).
    f_equal. rewrite firstn_length. lia.
Qed.

Lemma front_slice_prefix {A} (p q : list A) s p' q' :
  front_anchored s -> prefix p q ->
  py_slice p s = Ok p' -> py_slice q s = Ok q' -> prefix p' q'.
Proof.
  intros (F1 & F2 & F3) Hpq Hp Hq.
  destruct (py_slice_nth p s p' Hp) as (rp & Rp & Sp & Lp & Ip & Np).
  destruct (py_slice_nth q s q' Hq) as (rq & Rq & Sq & Lq & Iq & Nq).
  assert (Lpq : zlen p <= zlen q).
  { destruct Hpq as (t & ->). unfold zlen. rewrite app_length. lia. }
  pose proof (zlen_nonneg p) as Zp. pose proof (zlen_nonneg q) as Zq.
  set (c := match sl_step s with Some k => k | None => 1 end).
  assert (Hc : 0 < c) by (unfold c; destruct (sl_step s); lia).
  set (a := match sl_start s with Some k => k | None => 0 end).
  assert (Ha : 0 <= a) by (unfold a; destruct (sl_start s); lia).
  assert (RS : forall (l : list A) r, range_slice (range0 (zlen l)) s = Ok r ->
     r = mkrange (Z.min a (zlen l)) (match sl_stop s with Some k => Z.min k (zlen l) | None => zlen l end) c).
  { intros l r. pose proof (zlen_nonneg l). unfold range_slice.
    destruct (reads_range0 l) as (_ & RL & _). rewrite <- RL. unfold slice_indices. fold c.
    destruct (Z.eqb_spec c 0); [lia|]. destruct (Z.ltb_spec c 0); [lia|]. cbn [obind].
    intros E. apply (f_equal (fun o => match o with Ok x => x | Raise _ => r end)) in E. cbv beta iota in E.
    rewrite <- E. unfold range_item, clamp_index, a. cbn [r_start r_stop r_step range0].
    destruct (sl_start s) as [k|]; [destruct (Z.ltb_spec k 0); [lia|]|];
    (destruct (sl_stop s) as [k'|]; [destruct (Z.ltb_spec k' 0); [lia|]|]); f_equal; lia. }
  pose proof (RS p rp Rp) as Ep. pose proof (RS q rq Rq) as Eq. clear RS.
  assert (LEN : forall i, 0 <= i < range_len rp -> i < range_len rq /\ range_item rq i = range_item rp i /\ range_item rp i < zlen p).
  { intros i Hi.
    pose proof (proj1 (range_len_spec rp i Sp (proj1 Hi)) (proj2 Hi)) as B.
    assert (BI : 0 <= range_item rp i < zlen p).
    { apply Ip. apply range_list_In_idx; [exact Sp|]. exists i. split; [exact Hi|reflexivity]. }
    rewrite Ep in B, BI. unfold range_item in B, BI. cbn [r_start r_stop r_step] in B, BI.
    destruct (Z.ltb_spec 0 c); [|lia].
    assert (Aeq : Z.min a (zlen p) = a) by nia.
    assert (Aeq2 : Z.min a (zlen q) = a) by lia.
    split; [|split].
    - apply range_len_spec; [exact Sq|lia|]. rewrite Eq. unfold range_item. cbn [r_start r_stop r_step].
      destruct (Z.ltb_spec 0 c); [|lia]. rewrite Aeq2. rewrite Aeq in B. destruct (sl_stop s); lia.
    - rewrite Ep, Eq. unfold range_item. cbn [r_start r_stop r_step]. lia.
    - rewrite Ep. unfold range_item. cbn [r_start r_stop r_step]. lia. }
  apply prefix_by_nth.
  - rewrite Lp, Lq. destruct (Z_le_dec (range_len rp) 0).
    + destruct (range_len_nonneg rq); [lia|contradiction].
    + destruct (LEN (range_len rp - 1) ltac:(lia)). lia.
  - intros i Hi. rewrite Lp in Hi. destruct (LEN i Hi) as (B & E & B2).
    rewrite Np by lia. rewrite Nq by lia. rewrite E. apply znth_prefix; assumption.
Qed.

Lemma seq_prefix n m : (n <= m)%nat -> prefix (seq 0 n) (seq 0 m).
Proof. intros H. exists (seq n (m - n)). replace m with (n + (m - n))%nat at 1 by lia. rewrite seq_app. reflexivity. Qed.

Lemma front_selected_prefix slices n m pn pm :
  Forall front_anchored slices -> (n <= m)%nat ->
  selected n slices = Ok pn -> selected m slices = Ok pm -> prefix pn pm.
Proof.
  intros F. revert pn pm. unfold selected. induction F as [|s inner Hs F IH]; intros pn pm L Hn Hm; cbn in Hn, Hm.
  - injection Hn as <-. injection Hm as <-. apply seq_prefix. exact L.
  - destruct (sliced (seq 0 n) inner) as [vn|] eqn:En; [|discriminate].
    destruct (sliced (seq 0 m) inner) as [vm|] eqn:Em; [|discriminate].
    cbn in Hn, Hm. eapply front_slice_prefix; eauto.
Qed.

Lemma len_det_front s inner H : Forall front_anchored inner -> len_det (s :: inner) H.
Proof.
  intros F pre s' inner' E n m pn pm _ _ Sn Sm L.
  assert (F' : Forall front_anchored inner').
  { destruct pre as [|x pre]; simpl in E; injection E as -> E2; [subst; exact F|].
    rewrite E2 in F. apply Forall_app in F as (_ & F). inversion F; assumption. }
  assert (pn = pm).
  { destruct (Nat.le_ge_cases n m) as [LE|LE].
    - destruct (front_selected_prefix _ _ _ _ _ F' LE Sn Sm) as (t & ->).
      rewrite app_length in L. destruct t; [rewrite app_nil_r; reflexivity|simpl in L; lia].
    - destruct (front_selected_prefix _ _ _ _ _ F' LE Sm Sn) as (t & ->).
      rewrite app_length in L. destruct t; [rewrite app_nil_r; reflexivity|simpl in L; lia]. }
  subst pm. unfold selected in *. cbn. rewrite Sn, Sm. reflexivity.
Qed.

(** Writes. *)
Section Writes.
Context {A : Type}.

Fixpoint zassoc (p : Z) (js : list Z) (xs : list A) : option A :=
  match js, xs with
  | j :: js, x :: xs => if p =? j then Some x else zassoc p js xs
  | _, _ => None
  end.

Lemma zassoc_notin p js xs : ~ In p js -> zassoc p js xs = None.
Proof.
  revert xs. induction js as [|j js IH]; intros [|x xs] H; simpl; try reflexivity.
  destruct (Z.eqb_spec p j); [exfalso; apply H; left; auto|]. apply IH. intro. apply H. right. assumption.
Qed.

Lemma write_all_spec js : forall (l : list A) xs,
  NoDup js -> Forall (fun j => 0 <= j < zlen l) js ->
  exists l', write_all l js xs = (l', Ok tt) /\ zlen l' = zlen l /\
    forall p, znth l' p = match zassoc p js xs with Some x => Some x | None => znth l p end.
Proof.
  induction js as [|j js IH]; intros l xs ND F.
  - exists l. simpl. repeat split.
  - destruct xs as [|x xs]; [exists l; simpl; repeat split|].
    inversion ND as [|? ? Nj ND']; subst. inversion F as [|? ? Bj F']; subst.
    simpl. unfold py_setitem. destruct (Z.ltb_spec j 0); [lia|].
    destruct (Z.leb_spec (zlen l) j); [lia|]. destruct (Z.ltb_spec j 0); [lia|]. cbn [orb].
    destruct (IH (zupd l j x) xs ND') as (l' & E & L & P).
    { rewrite zupd_length. exact F'. }
    exists l'. split; [exact E|]. split; [rewrite L; apply zupd_length|].
    intros p. rewrite P, znth_zupd by exact Bj.
    destruct (Z.eqb_spec p j) as [->|]; [|reflexivity]. rewrite zassoc_notin by exact Nj. reflexivity.
Qed.

Lemma zassoc_nth p js xs x : NoDup js ->
  (zassoc p js xs = Some x <-> exists j, nth_error js j = Some p /\ nth_error xs j = Some x).
Proof.
  intros ND. revert xs. induction ND as [|q js Nq ND IH]; intros xs; simpl.
  - split; [discriminate|]. intros (j & E & _). destruct j; discriminate.
  - destruct xs as [|y xs]; [split; [discriminate|intros (j & _ & E); destruct j; discriminate]|].
    destruct (Z.eqb_spec p q) as [->|NE].
    + split.
      * intros E. exists 0%nat. split; [reflexivity|exact E].
      * intros ([|j] & E1 & E2); [exact E2|]. exfalso. apply Nq. simpl in E1. eapply nth_error_In; eauto.
    + rewrite IH. split.
      * intros (j & E1 & E2). exists (S j). split; assumption.
      * intros ([|j] & E1 & E2); [simpl in E1; congruence|]. exists j. split; assumption.
Qed.

Lemma znth_nat (l : list A) p : znth l (Z.of_nat p) = nth_error l p.
Proof. unfold znth. destruct (Z.ltb_spec (Z.of_nat p) 0); [lia|]. rewrite Nat2Z.id. reflexivity. Qed.


Lemma write_all_assigned (l : list A) ps xs :
  NoDup ps -> Forall (fun p => (p < length l)%nat) ps ->
  exists l', write_all l (map Z.of_nat ps) xs = (l', Ok tt) /\ assigned l ps xs l'.
Proof.
  intros ND F.
  assert (ND' : NoDup (map Z.of_nat ps)) by (apply FinFun.Injective_map_NoDup; [intros x y; apply Nat2Z.inj|exact ND]).
  destruct (write_all_spec (map Z.of_nat ps) l xs ND') as (l' & E & L & P).
  { apply Forall_map. eapply Forall_impl; [|exact F]. intros p Hp. cbv beta in *. unfold zlen. lia. }
  exists l'. split; [exact E|]. split; [unfold zlen in L; lia|]. split.
  - intros j p x Ep Ex. rewrite <- znth_nat, P.
    rewrite (proj2 (zassoc_nth (Z.of_nat p) (map Z.of_nat ps) xs x ND')); [reflexivity|].
    exists j. split; [|exact Ex]. rewrite nth_error_map, Ep. reflexivity.
  - intros p Hp. rewrite <- !znth_nat, P.
    destruct (zassoc (Z.of_nat p) (map Z.of_nat ps) xs) as [x|] eqn:Ez; [|reflexivity].
    apply zassoc_nth in Ez; [|exact ND']. destruct Ez as (j & E1 & E2).
    rewrite nth_error_map in E1. destruct (nth_error ps j) as [q|] eqn:Eq; [|discriminate].
    simpl in E1. injection E1 as E1. apply Nat2Z.inj in E1. subst q.
    specialize (Hp j Eq). assert (nth_error xs j <> None) by congruence. apply nth_error_Some in H. lia.
Qed.

(** A state whose outermost view selects positions [ps]. *)
Definition selects (st : vstate A) (ps : list nat) : Prop :=
  exists c r, update_cache (st_chain st) (zlen (st_list st)) = (c, Ok r) /\
     reads (seq 0 (length (st_list st))) r ps.

Lemma selects_facts st ps : selects st ps ->
  exists c r, update_cache (st_chain st) (zlen (st_list st)) = (c, Ok r) /\
    r_step r <> 0 /\ range_len r = zlen ps /\
    range_list r = map Z.of_nat ps /\ NoDup ps /\ Forall (fun p => (p < length (st_list st))%nat) ps /\
    (forall k, 0 <= k < zlen ps -> exists p, znth ps k = Some p /\ range_item r k = Z.of_nat p).
Proof.
  intros (c & r & E & R). exists c, r. split; [exact E|].
  pose proof (reads_range_list_nat _ _ _ R) as RL. pose proof (reads_seq _ _ _ R) as (_ & F).
  destruct R as (Hs & Hl & Hi). split; [exact Hs|]. split; [lia|]. split; [exact RL|]. split; [|split].
  - pose proof (range_list_NoDup r Hs) as ND. rewrite RL in ND. apply NoDup_map_inv in ND. exact ND.
  - rewrite RL in F. apply (proj1 (Forall_map _ _ _)) in F. eapply Forall_impl; [|exact F]. intros p Hp0; cbv beta in *; lia.
  - intros k Hk. destruct (znth_Some ps k Hk) as (p & Ep). exists p. split; [exact Ep|].
    pose proof (range_list_nth r k Hs ltac:(lia)) as N. rewrite RL, znth_map, Ep in N. simpl in N. congruence.
Qed.

Lemma selects_set st ps k x p :
  selects st ps -> py_index ps k = Ok p ->
  exists st', view_set st k x = (st', Ok tt) /\ st_list st' = upd (st_list st) p x.
Proof.
  intros S Hp. destruct (selects_facts st ps S) as (c & r & E & Hs & Hl & RL & ND & F & N).
  unfold view_set. rewrite E. unfold py_index in Hp.
  set (k' := if k <? 0 then k + zlen ps else k) in *.
  destruct (znth ps k') as [q|] eqn:Eq; [|discriminate]. injection Hp as ->.
  pose proof (znth_Some_inv _ _ _ Eq) as B. rewrite Hl.
  assert (C : (zlen ps <=? k) || (k <? - zlen ps) = false).
  { unfold k' in B. destruct (Z.ltb_spec k 0); destruct (Z.leb_spec (zlen ps) k); destruct (Z.ltb_spec k (- zlen ps)); lia || reflexivity. }
  rewrite C. unfold range_index. rewrite Hl. fold k'.
  destruct (N k' B) as (p' & Ep' & Er). rewrite Ep' in Eq. injection Eq as ->. rewrite Er.
  rewrite Forall_forall in F. assert (BP : (p < length (st_list st))%nat).
  { apply F. unfold znth in Ep'. destruct (k' <? 0); [discriminate|]. eapply nth_error_In; eauto. }
  unfold py_setitem. destruct (Z.ltb_spec (Z.of_nat p) 0); [lia|].
  unfold zlen. destruct (Z.leb_spec (Z.of_nat (length (st_list st))) (Z.of_nat p)); [lia|].
  destruct (Z.ltb_spec (Z.of_nat p) 0); [lia|]. cbn [orb].
  eexists. split; [reflexivity|]. cbn [st_list]. unfold zupd. destruct (Z.ltb_spec (Z.of_nat p) 0); [lia|].
  rewrite Nat2Z.id. reflexivity.
Qed.

Lemma selects_set_out st ps k x :
  selects st ps -> py_index ps k = Raise IndexError ->
  exists st', view_set st k x = (st', Raise IndexError) /\ st_list st' = st_list st.
Proof.
  intros S Hp. destruct (selects_facts st ps S) as (c & r & E & Hs & Hl & RL & ND & F & N).
  unfold view_set. rewrite E. unfold py_index in Hp.
  set (k' := if k <? 0 then k + zlen ps else k) in *.
  destruct (znth ps k') as [q|] eqn:Eq; [discriminate|]. rewrite Hl.
  assert (C : (zlen ps <=? k) || (k <? - zlen ps) = true).
  { destruct (Z.leb_spec (zlen ps) k); [reflexivity|]. destruct (Z.ltb_spec k (- zlen ps)); [reflexivity|].
    destruct (znth_Some ps k') as (y & Ey); [unfold k'; destruct (Z.ltb_spec k 0); lia|congruence]. }
  rewrite C. eexists. split; reflexivity.
Qed.

Lemma selects_setslice st ps sl qs v :
  selects st ps -> py_slice ps sl = Ok qs ->
  exists st', view_setslice st sl v = (st', Ok tt) /\
    assigned (st_list st) qs (match v with RSeq xs => xs | RScalar x => repeat x (length qs) end) (st_list st').
Proof.
  intros (c & r & E & R) Hq. unfold view_setslice. rewrite E. cbn [obind].
  pose proof (reads_slice _ _ _ sl R) as RS. destruct (range_slice r sl) as [rk|e]; [|congruence].
  destruct RS as (qs' & Eq & RQ). rewrite Hq in Eq. injection Eq as <-.
  pose proof (reads_range_list_nat _ _ _ RQ) as RL. pose proof (reads_seq _ _ _ RQ) as (_ & F).
  rewrite RL, map_length.
  assert (ND : NoDup qs).
  { destruct RQ as (Hs & _). pose proof (range_list_NoDup rk Hs) as ND. rewrite RL in ND. apply NoDup_map_inv in ND. exact ND. }
  assert (F' : Forall (fun p => (p < length (st_list st))%nat) qs).
  { rewrite RL in F. apply (proj1 (Forall_map _ _ _)) in F. eapply Forall_impl; [|exact F]. intros p Hp0; cbv beta in *; lia. }
  destruct (write_all_assigned (st_list st) qs (match v with RSeq xs => xs | RScalar x => repeat x (length qs) end) ND F')
    as (l' & W & AS).
  rewrite W. eexists. split; [reflexivity|]. exact AS.
Qed.

(** From histories to [selects]. *)
Lemma history_selects (l0 : list A) slices h ps :
  let st := vrun (mkst l0 (map fresh slices)) h in
  len_det slices (fun n => In n (nlens l0 h)) ->
  selected (length (st_list st)) slices = Ok ps -> selects st ps.
Proof.
  intros st D Hp.
  pose proof (build_range_reads (seq 0 (length (st_list st))) (map fresh slices)) as B.
  rewrite slices_of_fresh in B. unfold selected in Hp. rewrite Hp in B. rewrite zlen_seq in B.
  destruct (build_range (map fresh slices) (Z.of_nat (length (st_list st)))) as [r|] eqn:Eb; [|discriminate].
  destruct B as (ps' & E & R). injection E as <-.
  set (st0 := mkst l0 (map fresh slices)) in *.
  assert (Hsep : separating (lens_of st0 h) (map fresh slices)).
  { eapply len_det_separating; [|exact D]. intros z. apply lens_nlens. }
  assert (I0 : inv (lens_of st0 h) st0).
  { split; [left; reflexivity|]. apply cache_inv_fresh. }
  destruct (build_range_total _ _ (zlen (st_list st0)) _ Eb) as (r0 & Hb0).
  destruct (vrun_inv (lens_of st0 h) h st0 r0 I0 Hsep Hb0) as (J1 & J2).
  { intros n Hn. right. exact Hn. }
  fold st in J1, J2. cbn [st_chain st0] in J2. destruct J1 as (I1 & I2).
  assert (Eb' : build_range (st_chain st) (zlen (st_list st)) = Ok r).
  { rewrite <- Eb. apply build_range_slices. exact J2. }
  destruct (update_cache_ok _ (st_chain st) (zlen (st_list st)) r I1 I2
     (separating_slices _ _ _ (eq_sym J2) Hsep) Eb') as (_ & r' & E1 & E2 & E3 & E4).
  destruct (update_cache (st_chain st) (zlen (st_list st))) as [c o] eqn:U. cbn [snd] in E1. subst o.
  exists c, r'. split; [exact U|]. eapply reads_same; eauto.
Qed.

(** [sliced] is reading the selected positions. *)
Lemma sliced_selected (l : list A) slices ps :
  selected (length l) slices = Ok ps ->
  exists v, sliced l slices = Ok v /\ map Some v = map (nth_error l) ps /\ Forall (fun p => (p < length l)%nat) ps /\ NoDup ps.
Proof.
  intros Hp.
  pose proof (build_range_reads (seq 0 (length l)) (map fresh slices)) as B.
  rewrite slices_of_fresh in B. unfold selected in Hp. rewrite Hp in B. rewrite zlen_seq in B.
  pose proof (build_range_reads l (map fresh slices)) as B2. rewrite slices_of_fresh in B2. unfold zlen at 1 in B2.
  destruct (build_range (map fresh slices) (Z.of_nat (length l))) as [r|] eqn:Eb; [|discriminate].
  destruct B as (ps' & E & R). injection E as <-. destruct B2 as (v & Ev & Rv).
  exists v. split; [exact Ev|].
  pose proof (reads_range_list_nat _ _ _ R) as RL. pose proof (reads_seq _ _ _ R) as (_ & F).
  split; [|split].
  - rewrite (reads_map_Some _ _ _ Rv), RL, map_map. apply map_ext. intros p. apply znth_nat.
  - rewrite RL in F. apply (proj1 (Forall_map _ _ _)) in F. eapply Forall_impl; [|exact F]. intros p Hp0; cbv beta in *; lia.
  - destruct R as (Hs & _). pose proof (range_list_NoDup r Hs) as ND. rewrite RL in ND. apply NoDup_map_inv in ND. exact ND.
Qed.


(** Assignment of all positions, and reading back. *)
Lemma assigned_full (l : list A) ps xs l' :
  assigned l ps xs l' -> length xs = length ps -> map (nth_error l') ps = map Some xs.
Proof.
  intros (L & W & _) E. apply nth_error_ext. intros j. rewrite !nth_error_map.
  destruct (nth_error ps j) as [p|] eqn:Ep; destruct (nth_error xs j) as [x|] eqn:Ex; simpl.
  - f_equal. eapply W; eauto.
  - apply nth_error_None in Ex. assert (nth_error ps j <> None) by congruence. apply nth_error_Some in H. lia.
  - apply nth_error_None in Ep. assert (nth_error xs j <> None) by congruence. apply nth_error_Some in H. lia.
  - reflexivity.
Qed.

End Writes.

Lemma nth_error_rev {A} (l : list A) j : (j < length l)%nat -> nth_error (rev l) j = nth_error l (length l - 1 - j).
Proof.
  intros H. destruct l as [|d l0] eqn:El; [simpl in H; lia|]. rewrite <- El in *.
  rewrite (nth_error_nth' (rev l) d) by (rewrite rev_length; exact H).
  rewrite (nth_error_nth' l d) by lia. f_equal. rewrite rev_nth by exact H. f_equal. lia.
Qed.

Lemma py_slice_reverse {A} (l : list A) : py_slice l (mkslice None None (Some (-1))) = Ok (rev l).
Proof.
  destruct (py_slice l (mkslice None None (Some (-1)))) as [v|e] eqn:E; [|discriminate].
  f_equal. destruct (py_slice_nth _ _ _ E) as (r & Er & Hs & Hl & Hin & Hn).
  unfold range_slice in Er. destruct (reads_range0 l) as (_ & RL & _). rewrite <- RL in Er.
  pose proof (zlen_nonneg l) as NN.
  assert (r = mkrange (zlen l - 1) (-1) (-1)).
  { apply (f_equal (fun o => match o with Ok x => x | Raise _ => r end)) in Er. rewrite <- Er.
    unfold slice_indices, range_item. cbn [sl_start sl_stop sl_step obind r_start r_stop r_step range0].
    change (-1 =? 0) with false. change (-1 <? 0) with true. cbn [obind]. f_equal; lia. }
  subst r. clear Er.
  assert (LEN : range_len (mkrange (zlen l - 1) (-1) (-1)) = zlen l).
  { unfold range_len. cbn [r_start r_stop r_step]. change (0 <? -1) with false. cbv iota.
    destruct (Z.ltb_spec (-1) (zlen l - 1)); [|lia]. change (- -1) with 1. rewrite Z.div_1_r. lia. }
  rewrite LEN in *. apply nth_error_ext. intros j.
  destruct (Nat.lt_ge_cases j (length l)) as [B|B].
  - rewrite nth_error_rev by exact B. rewrite <- !znth_nat. rewrite Hn by (unfold zlen; lia).
    f_equal. unfold range_item. cbn [r_start r_stop r_step]. unfold zlen. lia.
  - rewrite (proj2 (nth_error_None v j)) by (unfold zlen in *; lia).
    symmetry. apply nth_error_None. rewrite rev_length. exact B.
Qed.

Section Reverse.
Context {A : Type}.

Lemma update_cache_again (H : Z -> Prop) c n r :
  H n -> cache_inv H c -> separating H c -> build_range c n = Ok r ->
  exists c2 r2, update_cache (fst (update_cache c n)) n = (c2, Ok r2) /\ range_list r2 = range_list r /\ r_step r2 <> 0.
Proof.
  intros Hn Hc Hs Hb. destruct (update_cache_ok H c n r Hn Hc Hs Hb) as (I1 & _).
  pose proof (update_cache_slices c n) as SL.
  destruct (update_cache_ok H (fst (update_cache c n)) n r Hn I1) as (_ & r' & E1 & E2 & E3 & E4).
  - eapply separating_slices; [symmetry; exact SL|exact Hs].
  - erewrite build_range_slices; [exact Hb|exact SL].
  - destruct (update_cache (fst (update_cache c n)) n) as [c2 o]. cbn [snd] in E1. subst o. eauto 6.
Qed.

Lemma history_reverse (l0 : list A) slices h ps v :
  let st := vrun (mkst l0 (map fresh slices)) h in
  len_det slices (fun n => In n (nlens l0 h)) ->
  selected (length (st_list st)) slices = Ok ps ->
  sliced (st_list st) slices = Ok v ->
  exists st', view_reverse st = (st', Ok tt) /\ assigned (st_list st) ps (rev v) (st_list st').
Proof.
  intros st D Hp Hv.
  pose proof (history_live_det l0 slices h v D Hv) as LV. cbv zeta in LV. fold st in LV.
  pose proof (live_list st v LV) as RD. pose proof (view_list_chain st) as VC.
  unfold view_reverse. destruct (view_list st) as [st1 o]. cbn [fst snd] in *. subst o st1.
  assert (S1 : selects (mkst (st_list st) (fst (update_cache (st_chain st) (zlen (st_list st))))) ps).
  { (* one more read in the history *)
    pose proof (history_selects l0 slices (h ++ [OpRead 0]) ps) as HS. cbv zeta in HS.
    unfold vrun in HS. rewrite fold_left_app in HS. fold (vrun (mkst l0 (map fresh slices)) h) in HS. fold st in HS.
    cbn [fold_left vstep] in HS. unfold at_level in HS. cbn [skipn firstn app] in HS.
    rewrite view_len_st in HS. cbn [st_list st_chain] in HS. apply HS; [|exact Hp].
    unfold nlens. rewrite flat_map_app. cbn [flat_map]. rewrite app_nil_r. exact D. }
  pose proof (py_slice_reverse ps) as PR.
  destruct (selects_setslice _ ps _ (rev ps) (RSeq v) S1 PR) as (st' & E & AS).
  exists st'. split; [exact E|]. cbn [st_list] in AS.
  destruct (sliced_selected _ _ _ Hp) as (v' & Ev' & MV & F & ND). fold st in Hv. rewrite Hv in Ev'. injection Ev' as <-.
  assert (LV2 : length v = length ps) by (rewrite <- (map_length Some v), MV, map_length; reflexivity).
  destruct AS as (L & W & U). split; [exact L|]. split.
  - intros j p x E1 E2.
    assert (B : (j < length ps)%nat) by (apply nth_error_Some; congruence).
    apply (W (length ps - 1 - j)%nat).
    + rewrite nth_error_rev by lia. replace (length ps - 1 - (length ps - 1 - j))%nat with j by lia. exact E1.
    + rewrite nth_error_rev in E2 by lia. rewrite <- LV2. exact E2.
  - intros p Hnp. apply U. intros j Ej. exfalso.
    assert (B : (j < length ps)%nat) by (rewrite <- (rev_length ps); apply nth_error_Some; congruence).
    rewrite nth_error_rev in Ej by exact B. specialize (Hnp _ Ej). rewrite rev_length in Hnp. lia.
Qed.

End Reverse.

Lemma py_slice_all {A} (l : list A) : py_slice l (mkslice None None None) = Ok l.
Proof.
  destruct (py_slice l (mkslice None None None)) as [v|e] eqn:E; [|discriminate].
  f_equal. destruct (py_slice_nth _ _ _ E) as (r & Er & Hs & Hl & Hin & Hn).
  unfold range_slice in Er. destruct (reads_range0 l) as (_ & RL & _). rewrite <- RL in Er.
  pose proof (zlen_nonneg l) as NN.
  assert (r = range0 (zlen l)).
  { apply (f_equal (fun o => match o with Ok x => x | Raise _ => r end)) in Er. rewrite <- Er.
    unfold slice_indices, range_item. cbn [sl_start sl_stop sl_step obind r_start r_stop r_step range0].
    change (1 =? 0) with false. change (1 <? 0) with false. cbn [obind]. unfold range0. f_equal; lia. }
  subst r. clear Er. rewrite <- RL in *. apply znth_ext. intros i.
  destruct (Z_lt_dec i 0); [rewrite !znth_None by lia; reflexivity|].
  destruct (Z_lt_dec i (zlen l)).
  - rewrite Hn by lia. f_equal. unfold range_item, range0. cbn [r_start r_step]. lia.
  - rewrite !znth_None by lia. reflexivity.
Qed.

Lemma sliced_subscript {A} (l : list A) c s v :
  sliced l (slices_of c) = Ok v -> sliced l (slices_of (subscript c s)) = py_slice v s.
Proof.
  intros Hv. unfold subscript.
  assert (NOOP : forall s0, is_noop s0 = true -> s0 = mkslice None None None).
  { intros [[|] [|] [|]]; simpl; try discriminate; reflexivity. }
  destruct (is_noop s) eqn:Es.
  - apply NOOP in Es. subst s. rewrite py_slice_all. exact Hv.
  - unfold slices_of in *. destruct c as [|lv c].
    + cbn in Hv. injection Hv as <-. reflexivity.
    + destruct (is_noop (v_slice lv)) eqn:El; cbn [map sliced v_slice fresh] in *.
      * apply NOOP in El. rewrite El in Hv.
        destruct (sliced l (map v_slice c)) as [w|] eqn:Ew; [|discriminate].
        cbn [obind] in *. rewrite py_slice_all in Hv. injection Hv as <-. reflexivity.
      * rewrite Hv. reflexivity.
Qed.
