(** Proofs for FupModel.v. *)
From Verif Require Import Base BaseProofs SliceModel SliceProofs ViewModel ViewSpec ViewProofs ViewProofs2 FupModel FupSpec.
From Coq Require Import ZArith List Bool Lia.
Import ListNotations.
Open Scope Z_scope.

Section Sem.
Context {A : Type}.

Definition vready (v : repl A) (ps : list nat) (xs : list A) (k : Z) : Prop :=
  match v with
  | VSeq ys => exists rest, ys = xs ++ rest
  | VIter it memo cnt =>
      (forall i, (i < length ps)%nat -> it i = nth_error xs i) /\
      (memo = true \/
       ((forall i p i' p', nth_error ps i = Some p -> nth_error ps i' = Some p' -> (p < p')%nat -> (i < i')%nat) /\
        (forall i p, nth_error ps i = Some p -> k <= Z.of_nat p -> cnt <= Z.of_nat i)))
  end.

Inductive sem : sseq A -> list A -> Z -> Prop :=
| sem_base l k : sem (SBase l) l k
| sem_int inner l l' k j x :
    sem inner l k -> - zlen l <= j < zlen l ->
    l' = upd l (Z.to_nat (if j <? 0 then j + zlen l else j)) x ->
    sem (SShadow inner (ShInt j x)) l' k
| sem_slice inner l l' k s v ps xs :
    sem inner l k ->
    in_bounds (zlen l) (sl_start s) -> in_bounds (zlen l) (sl_stop s) -> ~ bad_start (zlen l) s ->
    selected (length l) [s] = Ok ps -> assigned l ps xs l' -> length xs = length ps ->
    vready v ps xs k ->
    sem (SShadow inner (ShSlice s v)) l' k.

Lemma vready_le v ps xs k k' : k <= k' -> vready v ps xs k -> vready v ps xs k'.
Proof.
  intros L. destruct v as [ys|it memo cnt]; simpl; [auto|]. intros (H1 & H2). split; [exact H1|].
  destruct H2 as [H2|(H2 & H3)]; [left; exact H2|right]. split; [exact H2|]. intros i p E B. apply (H3 i p E). lia.
Qed.

Lemma sem_le s l k k' : k <= k' -> sem s l k -> sem s l k'.
Proof.
  intros L H. induction H; [constructor| |].
  - eapply sem_int; eauto.
  - eapply sem_slice; eauto. eapply vready_le; eauto.
Qed.

Lemma assigned_len (l : list A) ps xs l' : assigned l ps xs l' -> zlen l' = zlen l.
Proof. intros (H & _). unfold zlen. rewrite H. reflexivity. Qed.

Lemma sem_len s l k : sem s l k -> ss_len s = zlen l.
Proof.
  intros H. induction H; simpl; [reflexivity| |].
  - rewrite IHsem. subst l'. unfold zlen. rewrite upd_length. reflexivity.
  - rewrite IHsem. symmetry. eapply assigned_len; eauto.
Qed.

(** [selected n [s]] is Python's list of positions. *)
Lemma selected_positions n s ps : selected n [s] = Ok ps -> positions s (Z.of_nat n) = Ok (map Z.of_nat ps).
Proof.
  intros H. unfold positions.
  pose proof (build_range_reads (seq 0 n) [fresh s]) as B. rewrite zlen_seq in B.
  cbn [build_range slices_of map v_slice fresh obind] in B. unfold selected in H. rewrite H in B.
  destruct (range_slice (range0 (Z.of_nat n)) s) as [r|e]; [|discriminate].
  destruct B as (ps' & E & R). injection E as <-. cbn [omap]. f_equal.
  apply (reads_range_list_nat _ _ _ R).
Qed.

Lemma bad_start_neg n s : ~ bad_start n s ->
  ~ ((match sl_step s with Some k => k < 0 | None => False end) /\ sl_start s = Some n).
Proof. intros H (H1 & H2). apply H. split; [|exact H2]. destruct (sl_step s); [eauto|contradiction]. Qed.

Lemma repl_get_ok v ps xs k i p :
  vready v ps xs k -> length xs = length ps -> nth_error ps i = Some p -> k = Z.of_nat p ->
  exists x v', repl_get v (Z.of_nat i) = (Ok x, v') /\ nth_error xs i = Some x /\ vready v' ps xs (k + 1).
Proof.
  intros R L Ep ->. assert (B : (i < length xs)%nat) by (rewrite L; apply nth_error_Some; congruence).
  destruct (nth_error xs i) as [x|] eqn:Ex; [|apply nth_error_None in Ex; lia].
  destruct v as [ys|it memo cnt]; cbn [vready repl_get] in *.
  - destruct R as (rest & ->). exists x, (VSeq (xs ++ rest)).
    assert (zlen (xs ++ rest) <=? Z.of_nat i = false) as ->.
    { apply Z.leb_gt. unfold zlen. rewrite app_length. lia. }
    unfold py_index. destruct (Z.ltb_spec (Z.of_nat i) 0); [lia|]. rewrite znth_nat, nth_error_app1 by exact B. rewrite Ex.
    repeat split. exists rest. reflexivity.
  - destruct R as (R1 & R2). rewrite Nat2Z.id. rewrite (R1 i) by lia. rewrite Ex.
    destruct (Z.ltb_spec (Z.of_nat i) cnt) as [LT|GE].
    + destruct R2 as [->|(R2 & R3)]; [|exfalso; specialize (R3 i p Ep); lia].
      exists x, (VIter it true cnt). repeat split; auto.
    + exists x, (VIter it memo (Z.of_nat i + 1)). split; [reflexivity|]. split; [reflexivity|]. split; [exact R1|].
      destruct R2 as [->|(R2 & R3)]; [left; reflexivity|right]. split; [exact R2|].
      intros i' p' E' B'. specialize (R2 i p i' p' Ep E'). lia.
Qed.

Lemma getone_ok s : forall l k, sem s l k -> 0 <= k < zlen l ->
  exists x s', getone s k = (Ok x, s') /\ znth l k = Some x /\ sem s' l (k + 1).
Proof.
  induction s as [l0|inner IH sh]; intros l k H B.
  - inversion H; subst. destruct (znth_Some l k B) as (x & E). exists x, (SBase l). simpl.
    unfold py_index. destruct (Z.ltb_spec k 0); [lia|]. rewrite E. repeat split. constructor.
  - pose proof (sem_len _ _ _ H) as SL. cbn [getone]. rewrite SL.
    inversion H as [|? l1 ? ? j x Hin Bj El|? l1 ? ? sl v ps xs Hin Bs1 Bs2 Bad Hsel Has Hlen Hv]; subst.
    + assert (ZL : zlen (upd l1 (Z.to_nat (if j <? 0 then j + zlen l1 else j)) x) = zlen l1)
        by (unfold zlen; rewrite upd_length; reflexivity).
      rewrite ZL in *. set (j' := if j <? 0 then j + zlen l1 else j) in *.
      assert (Bj' : 0 <= j' < zlen l1) by (unfold j'; destruct (Z.ltb_spec j 0); lia).
      assert (U : forall q, znth (upd l1 (Z.to_nat j') x) q = if q =? j' then Some x else znth l1 q).
      { intros q. rewrite <- (znth_zupd l1 j' x q Bj'). unfold zupd. destruct (Z.ltb_spec j' 0); [lia|]. reflexivity. }
      rewrite in_slice_int by lia. destruct (Z.ltb_spec k 0); [lia|]. fold j'. rewrite U.
      destruct (k =? j') eqn:Ek.
      * exists x, (SShadow inner (ShInt j x)). repeat split. eapply sem_int; eauto. eapply sem_le; [|exact Hin]. lia.
      * destruct (IH l1 k Hin B) as (y & s' & G & N & S').
        assert (GO : (match inner with
                      | SBase _ => let (o, inner') := getone inner k in (o, SShadow inner' (ShInt j x))
                      | SShadow _ _ => if (zlen l1 <=? k) || (k <? - zlen l1) then (Raise IndexError, SShadow inner (ShInt j x))
                          else let (o, inner') := getone inner k in (o, SShadow inner' (ShInt j x)) end)
                = (Ok y, SShadow s' (ShInt j x))).
        { rewrite G. destruct inner; [reflexivity|].
          destruct (Z.leb_spec (zlen l1) k); [lia|]. destruct (Z.ltb_spec k (- zlen l1)); [lia|]. reflexivity. }
        rewrite GO. exists y, (SShadow s' (ShInt j x)). repeat split; [exact N|]. eapply sem_int; eauto.
    + pose proof (assigned_len _ _ _ _ Has) as ZL. rewrite ZL in *.
      pose proof (selected_positions _ _ _ Hsel) as HP. fold (zlen l1) in HP.
      pose proof (bad_start_neg _ _ Bad) as Bad'.
      destruct (in_slice_correct' k sl (zlen l1) _ ltac:(lia) ltac:(lia) Bs1 Bs2 Bad' HP) as (b & Eb & Hb).
      destruct (index_in_slice_correct' k sl (zlen l1) _ ltac:(lia) ltac:(lia) Bs1 Bs2 Bad' HP) as (r & Er & Hr).
      destruct (Z.ltb_spec k 0); [lia|]. rewrite Eb.
      unfold index_in_slice in Er. rewrite Eb in Er. cbn [obind] in Er.
      destruct Has as (L1 & W & U).
      destruct b.
      * destruct (index_in_slice_novalidate k sl (Some (zlen l1))) as [i|e]; [|discriminate].
        cbn [omap] in Er. injection Er as <-.
        pose proof (proj1 (Hr i) eq_refl) as Ni. pose proof (znth_Some_inv _ _ _ Ni) as Bi.
        rewrite znth_map in Ni. destruct (znth ps i) as [p|] eqn:Ep; [|discriminate].
        simpl in Ni. injection Ni as Ek. rewrite <- (Z2Nat.id i) in Ep by lia. rewrite znth_nat in Ep.
        destruct (repl_get_ok v ps xs k (Z.to_nat i) p Hv Hlen Ep (eq_sym Ek)) as (x & v' & G & Nx & V').
        rewrite Z2Nat.id in G by lia. rewrite G.
        exists x, (SShadow inner (ShSlice sl v')). repeat split.
        -- rewrite <- Ek, znth_nat. eapply W; eauto.
        -- eapply sem_slice; eauto; [eapply sem_le; [|exact Hin]; lia|repeat split; auto].
      * destruct (IH l1 k Hin B) as (y & s' & G & N & S').
        assert (GO : (match inner with
                      | SBase _ => let (o, inner') := getone inner k in (o, SShadow inner' (ShSlice sl v))
                      | SShadow _ _ => if (zlen l1 <=? k) || (k <? - zlen l1) then (Raise IndexError, SShadow inner (ShSlice sl v))
                          else let (o, inner') := getone inner k in (o, SShadow inner' (ShSlice sl v)) end)
                = (Ok y, SShadow s' (ShSlice sl v))).
        { rewrite G. destruct inner; [reflexivity|].
          destruct (Z.leb_spec (zlen l1) k); [lia|]. destruct (Z.ltb_spec k (- zlen l1)); [lia|]. reflexivity. }
        rewrite GO. exists y, (SShadow s' (ShSlice sl v)). repeat split.
        -- rewrite <- N. rewrite <- (Z2Nat.id k) by lia. rewrite !znth_nat. apply U.
           intros j Ej. exfalso. assert (false = true) as D; [|discriminate]. apply Hb.
           apply in_map_iff. exists (Z.to_nat k). split; [lia|]. eapply nth_error_In; eauto.
        -- eapply sem_slice; eauto; [repeat split; auto|]. eapply vready_le; [|exact Hv]. lia.
Qed.

Lemma read_from_ok m : forall s l k, sem s l k -> 0 <= k -> k + Z.of_nat m = zlen l ->
  read_from s k m = Ok (skipn (Z.to_nat k) l).
Proof.
  induction m as [|m IH]; intros s l k H Bk E.
  - simpl. f_equal. symmetry. apply skipn_all2. unfold zlen in E. lia.
  - destruct (getone_ok s l k H ltac:(lia)) as (x & s' & G & N & S'). cbn [read_from]. rewrite G.
    rewrite (IH s' l (k + 1) S') by lia. cbn [obind]. f_equal.
    replace (Z.to_nat (k + 1)) with (S (Z.to_nat k)) by lia.
    unfold znth in N. destruct (Z.ltb_spec k 0); [lia|].
    apply skipn_nth. exact N.
Qed.

Lemma ps_ordered n s ps : selected n [s] = Ok ps ->
  (match sl_step s with Some c => 0 < c | None => True end) ->
  forall i p i' p', nth_error ps i = Some p -> nth_error ps i' = Some p' -> (p < p')%nat -> (i < i')%nat.
Proof.
  intros H F i p i' p' Ei Ei' L.
  pose proof (build_range_reads (seq 0 n) [fresh s]) as B. rewrite zlen_seq in B.
  cbn [build_range slices_of map v_slice fresh obind] in B. unfold selected in H. rewrite H in B.
  destruct (range_slice (range0 (Z.of_nat n)) s) as [r|e] eqn:Er; [|discriminate].
  destruct B as (ps' & E & R). injection E as <-.
  pose proof (reads_range_list_nat _ _ _ R) as RL. destruct R as (Hs & Hl & _).
  assert (Hc : 0 < r_step r).
  { unfold range_slice in Er. destruct (slice_indices s (range_len (range0 (Z.of_nat n)))) as [[[a b] c]|] eqn:Es; [|discriminate].
    cbn [obind] in Er. apply (f_equal (fun o => match o with Ok x => r_step x | Raise _ => 0 end)) in Er. cbv beta iota in Er.
    rewrite <- Er. cbn [r_step range0]. unfold slice_indices in Es.
    destruct (match sl_step s with Some k => k | None => 1 end =? 0); [discriminate|]. injection Es as _ _ <-.
    destruct (sl_step s); lia. }
  assert (IT : forall j q, nth_error ps j = Some q -> Z.of_nat q = range_item r (Z.of_nat j)).
  { intros j q Ej. assert (0 <= Z.of_nat j < range_len r).
    { rewrite <- Hl. unfold zlen. assert (nth_error ps j <> None) as Q by congruence. apply nth_error_Some in Q. lia. }
    pose proof (range_list_nth r (Z.of_nat j) Hs H0) as N. rewrite RL, znth_map, znth_nat, Ej in N. simpl in N. congruence. }
  pose proof (IT _ _ Ei). pose proof (IT _ _ Ei'). unfold range_item in *. nia.
Qed.

Lemma updated_sem inner (l l' : list A) u : sem inner l 0 -> updated l u l' -> sem (SShadow inner u) l' 0.
Proof.
  intros H U. destruct u as [k x|s v]; simpl in U.
  - destruct U as (B & ->). eapply sem_int; eauto.
  - destruct U as (B1 & B2 & Bad & ps & xs & Sel & (Lx & Sup) & As).
    eapply sem_slice; eauto. destruct v as [ys|it memo cnt]; simpl in *.
    + exact Sup.
    + destruct Sup as (-> & S1 & S2). split; [exact S1|].
      destruct S2 as [->|S2]; [left; reflexivity|right]. split; [|intros; lia].
      destruct S2 as [F|M].
      * eapply ps_ordered; eauto.
      * intros i p i' p' Ei Ei' Lt. exfalso.
        assert (i < length ps)%nat by (apply nth_error_Some; congruence).
        assert (i' < length ps)%nat by (apply nth_error_Some; congruence).
        assert (i = i') by lia. subst. rewrite Ei in Ei'. injection Ei' as ->. lia.
Qed.

Lemma updated_len (l : list A) u l' : updated l u l' -> length l' = length l.
Proof.
  destruct u; simpl.
  - intros (_ & ->). apply upd_length.
  - intros (_ & _ & _ & ps & xs & _ & _ & (L & _)). exact L.
Qed.

Lemma fupdate_ok (l : list A) us l' : updated_all l us l' -> fupdate l us = Ok l'.
Proof.
  intros H. unfold fupdate.
  assert (G : forall inner, sem inner l 0 -> sem (fold_left SShadow us inner) l' 0 /\ length l' = length l).
  { clear - H. induction H as [l|l u l1 us l2 U H IH]; intros inner S; [split; [exact S|reflexivity]|].
    simpl. destruct (IH (SShadow inner u)) as (I1 & I2); [eapply updated_sem; eauto|].
    split; [exact I1|]. rewrite I2. eapply updated_len; eauto. }
  destruct (G (SBase l) (sem_base l 0)) as (S & L).
  rewrite (read_from_ok (length l) _ l' 0 S ltac:(lia)) by (unfold zlen; lia). reflexivity.
Qed.

(** Failures. *)
Lemma read_from_in_slice_raise m : forall inner sh k e,
  (forall k', in_slice k' (match sh with ShInt j _ => SInt j | ShSlice sl _ => SSlice sl end) (Some (ss_len inner)) = Raise e) ->
  e <> StopIterationE -> (0 < m)%nat -> read_from (SShadow (A:=A) inner sh) k m = Raise e.
Proof.
  intros inner sh k e H Ne Hm. destruct m as [|m]; [lia|]. cbn [read_from getone ss_len]. rewrite H.
  destruct e; try reflexivity; congruence.
Qed.

End Sem.

(** A replacement sequence that is too short. *)
Lemma getone_short_seq {A} (l : list A) s ys ps k i :
  in_bounds (zlen l) (sl_start s) -> in_bounds (zlen l) (sl_stop s) -> ~ bad_start (zlen l) s ->
  selected (length l) [s] = Ok ps -> nth_error ps i = Some k -> (length ys <= i)%nat ->
  getone (SShadow (SBase l) (ShSlice s (VSeq ys))) (Z.of_nat k) = (Raise IndexError, SShadow (SBase l) (ShSlice s (VSeq ys))).
Proof.
  intros B1 B2 Bad Sel Ei L.
  pose proof (selected_positions _ _ _ Sel) as HP. fold (zlen l) in HP.
  pose proof (bad_start_neg _ _ Bad) as Bad'.
  destruct (sliced_selected l [s] ps Sel) as (_ & _ & _ & F & ND).
  rewrite Forall_forall in F. pose proof (F k (nth_error_In _ _ Ei)) as Bk.
  assert (BK : 0 <= Z.of_nat k < zlen l) by (unfold zlen; lia).
  destruct (in_slice_correct' (Z.of_nat k) s (zlen l) _ ltac:(lia) ltac:(lia) B1 B2 Bad' HP) as (b & Eb & Hb).
  destruct (index_in_slice_correct' (Z.of_nat k) s (zlen l) _ ltac:(lia) ltac:(lia) B1 B2 Bad' HP) as (r & Er & Hr).
  destruct (Z.ltb_spec (Z.of_nat k) 0); [lia|].
  assert (b = true) as ->. { apply Hb. apply in_map. eapply nth_error_In; eauto. }
  cbn [getone ss_len]. rewrite Eb. unfold index_in_slice in Er. rewrite Eb in Er. cbn [obind] in Er.
  destruct (index_in_slice_novalidate (Z.of_nat k) s (Some (zlen l))) as [i'|e]; [|discriminate].
  cbn [omap] in Er. injection Er as <-.
  assert (znth (map Z.of_nat ps) (Z.of_nat i) = Some (Z.of_nat k)) as N by (rewrite znth_map, znth_nat, Ei; reflexivity).
  apply Hr in N. injection N as ->. cbn [repl_get].
  assert (zlen ys <=? Z.of_nat i = true) as ->; [|reflexivity].
  apply Z.leb_le. unfold zlen. lia.
Qed.

Lemma read_from_raise {A} (s : sseq A) e : e <> StopIterationE ->
  (forall k, fst (getone s k) = Raise e \/ exists x, getone s k = (Ok x, s)) ->
  forall m k j, (k <= j < k + Z.of_nat m) -> fst (getone s j) = Raise e -> read_from s k m = Raise e.
Proof.
  intros Ne H. induction m as [|m IH]; intros k j B Ej; [lia|]. cbn [read_from].
  destruct (H k) as [Hk|(x & Hk)].
  - destruct (getone s k) as [o s']. simpl in Hk. subst o. destruct e; try reflexivity; congruence.
  - rewrite Hk. destruct (Z.eq_dec j k) as [->|]; [rewrite Hk in Ej; discriminate|].
    rewrite (IH (k + 1) j) by (lia || assumption). reflexivity.
Qed.

Lemma fupdate_short {A} (l : list A) s ys ps :
  in_bounds (zlen l) (sl_start s) -> in_bounds (zlen l) (sl_stop s) -> ~ bad_start (zlen l) s ->
  selected (length l) [s] = Ok ps -> (length ys < length ps)%nat ->
  fupdate l [ShSlice s (VSeq ys)] = Raise IndexError.
Proof.
  intros B1 B2 Bad Sel L. unfold fupdate. cbn [fold_left].
  destruct (nth_error ps (length ys)) as [k|] eqn:Ek; [|apply nth_error_None in Ek; lia].
  pose proof (getone_short_seq l s ys ps k (length ys) B1 B2 Bad Sel Ek ltac:(lia)) as G.
  assert (Bk : (k < length l)%nat).
  { destruct (sliced_selected l [s] ps Sel) as (_ & _ & _ & F & _). rewrite Forall_forall in F.
    apply F. eapply nth_error_In; eauto. }
  pose proof (selected_positions _ _ _ Sel) as HP. fold (zlen l) in HP.
  pose proof (bad_start_neg _ _ Bad) as Bad'.
  assert (RF : forall m k0 s0, s0 = SShadow (SBase l) (ShSlice s (VSeq ys)) -> 0 <= k0 -> k0 + Z.of_nat m = zlen l ->
     k0 <= Z.of_nat k -> read_from s0 k0 m = Raise IndexError).
  { induction m as [|m IH]; intros k0 s0 -> Bk0 E Le; [unfold zlen in *; lia|].
    cbn [read_from]. destruct (Z.eq_dec k0 (Z.of_nat k)) as [->|NE]; [rewrite G; reflexivity|].
    assert (BK : 0 <= k0 < zlen l) by (unfold zlen in *; lia).
    destruct (in_slice_correct' k0 s (zlen l) _ ltac:(lia) ltac:(lia) B1 B2 Bad' HP) as (b & Eb & Hb).
    destruct (index_in_slice_correct' k0 s (zlen l) _ ltac:(lia) ltac:(lia) B1 B2 Bad' HP) as (r & Er & Hr).
    destruct (Z.ltb_spec k0 0); [lia|].
    cbn [getone ss_len]. rewrite Eb. unfold index_in_slice in Er. rewrite Eb in Er. cbn [obind] in Er.
    destruct b.
    - destruct (index_in_slice_novalidate k0 s (Some (zlen l))) as [i'|e]; [|discriminate].
      cbn [omap] in Er. injection Er as <-. cbn [repl_get].
      destruct (Z.leb_spec (zlen ys) i'); [reflexivity|].
      pose proof (proj1 (Hr i') eq_refl) as Ni. apply znth_Some_inv in Ni.
      unfold py_index. destruct (Z.ltb_spec i' 0); [lia|].
      destruct (znth_Some ys i' ltac:(lia)) as (y & ->).
      rewrite (IH (k0 + 1) (SShadow (SBase l) (ShSlice s (VSeq ys))) eq_refl) by lia. reflexivity.
    - unfold py_index. destruct (Z.ltb_spec k0 0); [lia|]. destruct (znth_Some l k0 BK) as (y & ->).
      rewrite (IH (k0 + 1) (SShadow (SBase l) (ShSlice s (VSeq ys))) eq_refl) by lia. reflexivity. }
  apply RF; [reflexivity|lia|unfold zlen; lia|lia].
Qed.

(** Out-of-range slice bounds and indices. *)
Lemma fupdate_int_out {A} (l : list A) k x :
  l <> [] -> (k < - zlen l \/ zlen l < k) -> fupdate l [ShInt k x] = Raise IndexError.
Proof.
  intros NE H. unfold fupdate. cbn [fold_left]. destruct l as [|a l]; [congruence|].
  cbn [length read_from getone ss_len].
  unfold in_slice, check_length. destruct (Z.leb_spec (zlen (a :: l)) 0); [unfold zlen in *; simpl in *; lia|].
  cbn [obind]. rewrite convert_some by (unfold zlen in *; simpl in *; lia). cbn [obind].
  unfold convert. destruct (Z.leb_spec (- zlen (a :: l)) k); destruct (Z.leb_spec k (zlen (a :: l))); try lia; reflexivity.
Qed.

Lemma fupdate_int_at_len {A} (l : list A) x : fupdate l [ShInt (zlen l) x] = Ok l.
Proof.
  unfold fupdate. cbn [fold_left].
  assert (RF : forall m k, 0 <= k -> k + Z.of_nat m = zlen l ->
     read_from (SShadow (SBase l) (ShInt (zlen l) x)) k m = Ok (skipn (Z.to_nat k) l)).
  { induction m as [|m IH]; intros k Bk E.
    - simpl. f_equal. symmetry. apply skipn_all2. unfold zlen in E. lia.
    - cbn [read_from getone ss_len]. rewrite in_slice_int by lia.
      destruct (Z.ltb_spec k 0); [lia|]. destruct (Z.ltb_spec (zlen l) 0); [lia|].
      destruct (Z.eqb_spec k (zlen l)); [lia|].
      unfold py_index. destruct (Z.ltb_spec k 0); [lia|].
      destruct (znth_Some l k ltac:(lia)) as (y & Ey). rewrite Ey. rewrite (IH (k + 1)) by lia. cbn [obind]. f_equal.
      replace (Z.to_nat (k + 1)) with (S (Z.to_nat k)) by lia.
      unfold znth in Ey. destruct (Z.ltb_spec k 0); [lia|].
      apply skipn_nth. exact Ey. }
  rewrite (RF (length l) 0) by (unfold zlen; lia). reflexivity.
Qed.

(** Existence of the specified result. *)
Lemma assigned_exists {A} (l : list A) n ps xs : n = length l -> NoDup ps -> Forall (fun p => (p < n)%nat) ps ->
  exists l', assigned l ps xs l'.
Proof. intros -> ND F. destruct (write_all_assigned l ps xs ND F) as (l' & _ & H). eauto. Qed.

Lemma fupdate_slice_seq {A} (l : list A) s ys ps :
  in_bounds (zlen l) (sl_start s) -> in_bounds (zlen l) (sl_stop s) -> ~ bad_start (zlen l) s ->
  selected (length l) [s] = Ok ps -> (length ps <= length ys)%nat ->
  exists l', fupdate l [ShSlice s (VSeq ys)] = Ok l' /\ assigned l ps (firstn (length ps) ys) l'.
Proof.
  intros B1 B2 Bad Sel L. destruct (sliced_selected l [s] ps Sel) as (_ & _ & _ & F & ND).
  destruct (assigned_exists l (length l) ps (firstn (length ps) ys) eq_refl ND F) as (l' & As).
  exists l'. split; [|exact As]. apply fupdate_ok. econstructor; [|constructor].
  simpl. repeat split; auto. exists ps, (firstn (length ps) ys). split; [exact Sel|]. split; [|exact As].
  split; [rewrite firstn_length; lia|]. exists (skipn (length ps) ys). rewrite firstn_skipn. reflexivity.
Qed.

Lemma fupdate_slice_iter {A} (l : list A) s it memo ps xs :
  in_bounds (zlen l) (sl_start s) -> in_bounds (zlen l) (sl_stop s) -> ~ bad_start (zlen l) s ->
  selected (length l) [s] = Ok ps -> length xs = length ps ->
  (forall i, (i < length ps)%nat -> it i = nth_error xs i) ->
  (memo = true \/ match sl_step s with Some c => 0 < c | None => True end) ->
  exists l', fupdate l [ShSlice s (VIter it memo 0)] = Ok l' /\ assigned l ps xs l'.
Proof.
  intros B1 B2 Bad Sel L It M. destruct (sliced_selected l [s] ps Sel) as (_ & _ & _ & F & ND).
  destruct (assigned_exists l (length l) ps xs eq_refl ND F) as (l' & As).
  exists l'. split; [|exact As]. apply fupdate_ok. econstructor; [|constructor].
  simpl. repeat split; auto. exists ps, xs. split; [exact Sel|]. split; [|exact As].
  split; [exact L|]. split; [reflexivity|]. split; [exact It|]. tauto.
Qed.

Lemma fupdate_int {A} (l : list A) k x : - zlen l <= k < zlen l ->
  fupdate l [ShInt k x] = Ok (upd l (Z.to_nat (if k <? 0 then k + zlen l else k)) x).
Proof. intros H. apply fupdate_ok. econstructor; [|constructor]. simpl. split; auto. Qed.

Lemma fupdate_empty {A} (us : list (shadow A)) : fupdate [] us = Ok [].
Proof. reflexivity. Qed.

Lemma updated_all_app {A} (l : list A) us l1 vs l2 : updated_all l us l1 -> updated_all l1 vs l2 -> updated_all l (us ++ vs) l2.
Proof. induction 1; simpl; intros; [assumption|]. econstructor; eauto. Qed.

Lemma fupdate_last {A} (l : list A) us k x l1 :
  updated_all l us l1 -> 0 <= k < zlen l1 ->
  fupdate l (us ++ [ShInt k x]) = Ok (upd l1 (Z.to_nat k) x).
Proof.
  intros H B. apply fupdate_ok. eapply updated_all_app; [exact H|]. econstructor; [|constructor].
  simpl. split; [lia|]. destruct (Z.ltb_spec k 0); [lia|]. reflexivity.
Qed.
