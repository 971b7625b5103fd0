(** Lemmas about [islice]. *)
From Verif Require Import Base BaseProofs ItrModel ItrProofs ISliceModel.
From Coq Require Import ZArith List Bool Lia.
Import ListNotations.
Open Scope Z_scope.

Lemma every_nth {A} (step : nat) : (1 <= step)%nat -> forall (l : list A) wait i,
  nth_error (every step wait l) i = nth_error l (wait + i * step).
Proof.
  intro Hs. induction l as [|x l IH]; intros wait i.
  - cbn [every]. destruct i, (wait + _)%nat; reflexivity.
  - cbn [every]. destruct wait as [|w].
    + destruct i as [|i]; [reflexivity|]. cbn [nth_error]. rewrite IH.
      replace (0 + S i * step)%nat with (S (step - 1 + i * step)) by lia. reflexivity.
    + rewrite IH. reflexivity.
Qed.

Lemma nth_error_skipn {A} n (l : list A) i : nth_error (skipn n l) i = nth_error l (n + i).
Proof. revert l; induction n; intros [|x l]; simpl; auto. destruct i; reflexivity. Qed.
Lemma nth_error_firstn {A} n (l : list A) i : nth_error (firstn n l) i = if (i <? n)%nat then nth_error l i else None.
Proof.
  revert l i; induction n; intros [|x l] [|i]; simpl; auto.
  - destruct (S i <? S n)%nat; reflexivity.
  - rewrite IHn. reflexivity.
Qed.

(** [every] of the items between two clamped bounds is the Python slice. *)
Lemma every_slice {A} (l : list A) a b c :
  0 <= a <= zlen l -> 0 <= b <= zlen l -> 1 <= c ->
  every (Z.to_nat c) 0 (skipn (Z.to_nat a) (firstn (Z.to_nat b) l)) =
  somes (map (znth l) (range_list (mkrange a b c))).
Proof.
  intros Ha Hb Hc. set (r := mkrange a b c).
  assert (Hr : r_step r <> 0) by (simpl; lia).
  assert (Hin : forall o, In o (map (znth l) (range_list r)) -> o <> None).
  { intros o Ho. apply in_map_iff in Ho as (x & <- & Hx). apply range_list_In in Hx; [|exact Hr].
    simpl in Hx. destruct (Z.ltb_spec 0 c); [|lia].
    destruct (znth_Some l x) as [y Hy]; [lia|]. rewrite Hy. discriminate. }
  apply nth_error_ext. intro i. rewrite every_nth by lia.
  rewrite nth_error_skipn, nth_error_firstn. cbn [Nat.add].
  assert (E : nth_error (map Some (somes (map (znth l) (range_list r)))) i = nth_error (map (znth l) (range_list r)) i)
    by (rewrite somes_all by exact Hin; reflexivity).
  rewrite nth_error_map in E.
  pose proof (range_len_spec r (Z.of_nat i) Hr ltac:(lia)) as L. simpl in L.
  destruct (Z.ltb_spec 0 c); [|lia]. unfold range_item in L. simpl in L.
  assert (LL := range_list_length r Hr).
  destruct (Nat.ltb_spec (Z.to_nat a + i * Z.to_nat c) (Z.to_nat b)) as [Hlt|Hge].
  - assert (Hi : Z.of_nat i < range_len r) by (apply L; lia).
    rewrite nth_error_map in E.
    pose proof (range_list_nth r (Z.of_nat i) Hr ltac:(lia)) as N. unfold znth in N at 1.
    destruct (Z.ltb_spec (Z.of_nat i) 0); [lia|]. rewrite Nat2Z.id in N. rewrite N in E. simpl in E.
    unfold range_item in E. simpl in E.
    destruct (nth_error (somes _) i) as [y|] eqn:Q; simpl in E; [|discriminate].
    injection E as E. unfold znth in E. destruct (Z.ltb_spec (a + Z.of_nat i * c) 0); [lia|].
    rewrite E. f_equal. lia.
  - symmetry. apply nth_error_None. rewrite somes_length by exact Hin. rewrite map_length.
    unfold zlen in LL. assert (~ Z.of_nat i < range_len r) by (rewrite L; lia). lia.
Qed.

(** bounds clamped to [0, len] on both sides give the same items *)
Lemma every_clamp {A} (l : list A) a b c :
  0 <= a -> 0 <= b -> 1 <= c ->
  every (Z.to_nat c) 0 (skipn (Z.to_nat a) (firstn (Z.to_nat b) l)) =
  somes (map (znth l) (range_list (mkrange (Z.min a (zlen l)) (Z.min b (zlen l)) c))).
Proof.
  intros Ha Hb Hc. pose proof (zlen_nonneg l). rewrite <- every_slice by lia. f_equal.
  unfold zlen in *. destruct (Z.le_gt_cases b (Z.of_nat (length l))) as [Hle|Hgt].
  - rewrite (Z.min_l b) by lia.
    destruct (Z.le_gt_cases a (Z.of_nat (length l))); [now rewrite Z.min_l by lia|].
    rewrite Z.min_r by lia. rewrite !skipn_all2; [reflexivity| |]; rewrite firstn_length; lia.
  - rewrite (Z.min_r b) by lia. rewrite !firstn_all2 by lia.
    destruct (Z.le_gt_cases a (Z.of_nat (length l))); [now rewrite Z.min_l by lia|].
    rewrite Z.min_r by lia. rewrite !skipn_all2; [reflexivity| |]; lia.
Qed.

Lemma islicef_ok {A} (l : list A) start stop step :
  0 <= val start -> (match stop with Some k => 0 <= k | None => True end) ->
  1 <= (match step with Some k => k | None => 1 end) ->
  islicef l start stop step =
  Ok (every (Z.to_nat (match step with Some k => k | None => 1 end)) 0
       (skipn (Z.to_nat (val start)) (firstn (Z.to_nat (match stop with Some k => k | None => zlen l end)) l))).
Proof.
  intros Hs Ht Hc. unfold islicef, val in *.
  destruct (Z.ltb_spec (match start with Some k => k | None => 0 end) 0); [lia|].
  destruct (Z.ltb_spec (match step with Some k => k | None => 1 end) 1); [lia|].
  destruct stop as [k|].
  - destruct (Z.ltb_spec k 0); [lia|]. reflexivity.
  - cbn [orb]. unfold zlen. rewrite Nat2Z.id, firstn_all. reflexivity.
Qed.

Lemma every_empty {A} step w : @every A step w [] = [].
Proof. reflexivity. Qed.

(** Items between positions p and q of l, as nested skipn/firstn. *)
Lemma skipn_firstn_swap {A} p q (l : list A) : skipn p (firstn q l) = firstn (q - p) (skipn p l).
Proof. apply skipn_firstn_comm. Qed.

Lemma islice_slice_ok {A} (l : list A) s :
  1 <= (match sl_step s with Some k => k | None => 1 end) ->
  ~ (exists a b, sl_start s = Some a /\ a < 0 /\ sl_stop s = Some b /\ 0 < b < zlen l + a) ->
  islice_slice l s = py_slice l s.
Proof.
  intros Hc Hbad. destruct s as [start stop step]. simpl in Hc, Hbad.
  pose proof (zlen_nonneg l) as Hl.
  unfold py_slice, slice_indices. cbn [sl_start sl_stop sl_step].
  set (c := match step with Some k => k | None => 1 end) in *.
  destruct (Z.eqb_spec c 0); [lia|]. destruct (Z.ltb_spec c 0); [lia|]. cbn [obind].
  unfold islice_slice. cbn [sl_start sl_stop sl_step].
  (* normal form of the right-hand side *)
  set (a := match start with None => 0 | Some k => clamp_index 0 (zlen l) (zlen l) k end).
  set (b := match stop with None => zlen l | Some k => clamp_index 0 (zlen l) (zlen l) k end).
  assert (Ha : 0 <= a <= zlen l).
  { unfold a, clamp_index. destruct start as [k|]; [|lia]. destruct (Z.ltb_spec k 0); lia. }
  assert (Hb : 0 <= b <= zlen l).
  { unfold b, clamp_index. destruct stop as [k|]; [|lia]. destruct (Z.ltb_spec k 0); lia. }
  rewrite <- every_slice by lia.
  assert (T : forall k, truthy (Some k) && neg (Some k) = (k <? 0)).
  { intro k. simpl. destruct (Z.eqb_spec k 0), (Z.ltb_spec k 0); simpl; try reflexivity; lia. }
  rewrite <- (andb_assoc (truthy start && neg start)).
  destruct (truthy start && neg start) eqn:Es.
  - destruct start as [ks|]; [|discriminate]. rewrite T in Es. apply Z.ltb_lt in Es.
    cbn [andb]. assert (Ea : a = Z.max (ks + zlen l) 0).
    { unfold a, clamp_index. destruct (Z.ltb_spec ks 0); lia. }
    destruct (truthy stop && neg stop) eqn:Et.
    + destruct stop as [kt|]; [|discriminate]. rewrite T in Et. apply Z.ltb_lt in Et.
      assert (Eb : b = Z.max (kt + zlen l) 0) by (unfold b, clamp_index; destruct (Z.ltb_spec kt 0); lia).
      rewrite islicef_ok by (simpl; auto; lia). fold c. f_equal. f_equal.
      cbn [val skipn Z.to_nat]. unfold zlen at 1. rewrite Nat2Z.id, firstn_all.
      rewrite butlastn_firstn, lastn_skipn, skipn_length.
      rewrite skipn_firstn_comm. unfold zlen in *. f_equal; [|f_equal]; lia.
    + destruct (truthy stop) eqn:Ett; cbn [negb].
      * destruct stop as [kt|]; [|discriminate]. simpl in Et, Ett. apply negb_true_iff, Z.eqb_neq in Ett.
        apply Z.ltb_ge in Et. cbn [val].
        assert (Hb2 : zlen l + ks <= kt).
        { destruct (Z.le_gt_cases (zlen l + ks) kt); [assumption|]. exfalso. apply Hbad. exists ks, kt.
          repeat split; auto; lia. }
        assert (Eb : b = Z.min kt (zlen l)) by (unfold b, clamp_index; destruct (Z.ltb_spec kt 0); lia).
        destruct (Z.ltb_spec (kt - Z.max 0 (zlen l - - ks)) 0); [lia|].
        rewrite islicef_ok by (simpl; auto; lia). fold c. f_equal. f_equal. cbn [val Z.to_nat skipn].
        rewrite lastn_skipn, skipn_firstn_comm.
        unfold zlen in *.
        replace (Z.to_nat a) with (length l - Z.to_nat (- ks))%nat by lia.
        destruct (Z.le_gt_cases kt (Z.of_nat (length l))).
        -- f_equal. lia.
        -- rewrite !firstn_all2; [reflexivity| |]; rewrite skipn_length; lia.
      * assert (St : stop = None \/ stop = Some 0).
        { destruct stop as [k|]; [|auto]. simpl in Ett. apply negb_false_iff, Z.eqb_eq in Ett. right; congruence. }
        cbn [val].
        destruct St as [-> | ->].
        -- rewrite islicef_ok by (simpl; auto; lia). fold c. f_equal. f_equal. cbn [val Z.to_nat skipn].
           unfold b. rewrite lastn_skipn, skipn_firstn_comm.
           unfold zlen in *. replace (Z.to_nat a) with (length l - Z.to_nat (- ks))%nat by lia.
           rewrite !firstn_all2; [reflexivity| |]; rewrite ?skipn_length; lia.
        -- rewrite islicef_ok by (simpl; auto; lia). fold c. f_equal. f_equal.
           cbn [val Z.to_nat skipn firstn]. unfold b, clamp_index. destruct (Z.ltb_spec 0 0); [lia|].
           rewrite Z.min_l by lia. simpl. rewrite skipn_nil. reflexivity.
  - cbn [andb]. assert (Hs : 0 <= val start).
    { destruct start as [k|]; [|simpl; lia]. rewrite T in Es. apply Z.ltb_ge in Es. exact Es. }
    assert (Ea : a = Z.min (val start) (zlen l)).
    { unfold a, clamp_index. destruct start as [k|]; simpl in *; [|lia]. destruct (Z.ltb_spec k 0); lia. }
    assert (G : forall q, 0 <= q <= zlen l ->
       skipn (Z.to_nat (val start)) (firstn (Z.to_nat q) l) = skipn (Z.to_nat a) (firstn (Z.to_nat q) l)).
    { intros q Hq. rewrite Ea. unfold zlen in *.
      destruct (Z.le_gt_cases (val start) (Z.of_nat (length l))); [now rewrite Z.min_l by lia|].
      rewrite Z.min_r by lia. rewrite !skipn_all2; [reflexivity| |]; rewrite firstn_length; lia. }
    destruct (truthy stop && neg stop) eqn:Et.
    + destruct stop as [kt|]; [|discriminate]. rewrite T in Et. apply Z.ltb_lt in Et.
      assert (Eb : b = Z.max (kt + zlen l) 0) by (unfold b, clamp_index; destruct (Z.ltb_spec kt 0); lia).
      rewrite islicef_ok by (auto; lia). fold c. f_equal. f_equal. rewrite <- G by lia. f_equal.
      unfold zlen at 1. rewrite Nat2Z.id, firstn_all, butlastn_firstn. cbn [val]. f_equal. unfold zlen in *. lia.
    + assert (Ht : match stop with Some k => 0 <= k | None => True end).
      { destruct stop as [k|]; [|exact I]. rewrite T in Et. apply Z.ltb_ge in Et. exact Et. }
      rewrite islicef_ok by auto. fold c. f_equal. f_equal.
      rewrite <- G by lia. f_equal. destruct stop as [k|].
      * assert (Eb : b = Z.min k (zlen l)) by (unfold b, clamp_index; destruct (Z.ltb_spec k 0); lia).
        rewrite Eb. unfold zlen in *. destruct (Z.le_gt_cases k (Z.of_nat (length l))); [now rewrite Z.min_l by lia|].
        rewrite Z.min_r by lia. rewrite !firstn_all2; [reflexivity| |]; lia.
      * reflexivity.
Qed.

Lemma islice_bad {A} (l : list A) a b step :
  a < 0 -> 0 < b < zlen l + a -> islice_slice l (mkslice (Some a) (Some b) step) = Raise AssertionError.
Proof.
  intros Ha Hb. unfold islice_slice, truthy, neg, val. cbn [sl_start sl_stop sl_step].
  destruct (Z.eqb_spec a 0), (Z.ltb_spec a 0), (Z.eqb_spec b 0), (Z.ltb_spec b 0); try lia. cbn [negb andb].
  destruct (Z.ltb_spec (b - Z.max 0 (zlen l - - a)) 0); [reflexivity|lia].
Qed.

Lemma islicef_badstep {A} (l : list A) a b c : c < 1 -> islicef l a b (Some c) = Raise ValueError.
Proof. intro H. unfold islicef. destruct (Z.ltb_spec c 1); [|lia]. rewrite !orb_true_r. reflexivity. Qed.

Lemma hd_error_skipn {A} n (l : list A) : hd_error (skipn n l) = nth_error l n.
Proof. revert l; induction n; intros [|x l]; simpl; auto. Qed.
Lemma islice_index_nonneg {A} (l : list A) k : 0 <= k -> islice_index l k = znth l k.
Proof.
  intro H. unfold islice_index, znth. destruct (Z.ltb_spec k 0); [lia|].
  rewrite <- hd_error_skipn. destruct (skipn (Z.to_nat k) l); reflexivity.
Qed.
Lemma islice_index_neg {A} (l : list A) k : - zlen l <= k < 0 -> islice_index l k = znth l (k + zlen l).
Proof.
  intro H. unfold islice_index, znth. destruct (Z.ltb_spec k 0); [|lia].
  destruct (Z.ltb_spec (k + zlen l) 0); [lia|]. rewrite lastn_skipn, hd_error_skipn. f_equal. unfold zlen in *. lia.
Qed.
Lemma islice_badstep {A} (l : list A) s c : sl_step s = Some c -> c < 1 ->
  islice_slice l s = Raise ValueError \/ islice_slice l s = Raise AssertionError.
Proof.
  intros E H. unfold islice_slice. rewrite E.
  repeat match goal with |- context [if ?b then _ else _] => destruct b end; auto;
    left; apply islicef_badstep; exact H.
Qed.
