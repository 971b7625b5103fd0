(** Proofs for SliceModel.v. *)
From Verif Require Import Base BaseProofs SliceModel.
From Coq Require Import ZArith List Bool Lia.
Import ListNotations.
Open Scope Z_scope.

Definition step_of (s : pyslice) : Z := match sl_step s with None => 1 | Some k => k end.
Definition bound_ok (n : Z) (k : option Z) : Prop :=
  match k with None => True | Some k => - n <= k <= n end.

Lemma convert_some n k : 0 < n -> - n <= k <= n ->
  convert (Some n) k = Ok (if k <? 0 then k + n else k).
Proof.
  intros Hn Hk. unfold convert.
  destruct (Z.leb_spec (- n) k); destruct (Z.leb_spec k n); try lia. simpl.
  destruct (Z.ltb_spec k 0); [|reflexivity].
  f_equal. rewrite <- (Z.mod_small (k + n) n) by lia.
  rewrite <- (Z_mod_plus_full k 1 n). f_equal. lia.
Qed.

Lemma canonize_ok s n :
  0 < n -> step_of s <> 0 -> bound_ok n (sl_start s) -> bound_ok n (sl_stop s) ->
  exists a b, canonize_slice s (Some n) = Ok (a, b, step_of s) /\
    a = (match sl_start s with Some k => if k <? 0 then k + n else k
                        | None => if 0 <? step_of s then 0 else n - 1 end) /\
    b = (match sl_stop s with Some k => if k <? 0 then k + n else k
                       | None => if 0 <? step_of s then n else -1 end).
Proof.
  intros Hn Hs Ha Hb. unfold canonize_slice. fold (step_of s).
  destruct (Z.eqb_spec (step_of s) 0); [lia|].
  unfold check_length. destruct (Z.leb_spec n 0); [lia|]. cbn [obind].
  destruct (sl_start s) as [k|]; destruct (sl_stop s) as [k'|];
    cbn [convert_opt omap obind bound_ok] in *;
    repeat rewrite convert_some by lia; cbn [omap obind];
    destruct (Z.ltb_spec 0 (step_of s)); cbn [omap obind];
    repeat rewrite convert_some by lia; cbn [omap obind];
    eexists; eexists; split; try reflexivity; split; try reflexivity;
    change (-1 <? 0) with true; cbv iota; lia.
Qed.

(** positions selected by a slice of a sequence of length n *)
Definition positions (s : pyslice) (n : Z) : outcome (list Z) :=
  omap range_list (range_slice (range0 n) s).

Lemma range0_len n : 0 <= n -> range_len (range0 n) = n.
Proof.
  intros H. unfold range_len, range0. simpl. destruct (Z.ltb_spec 0 n); [|lia].
  rewrite Z.div_1_r. lia.
Qed.

Lemma range0_slice s n a b c : 0 <= n -> slice_indices s n = Ok (a, b, c) ->
  range_slice (range0 n) s = Ok (mkrange a b c).
Proof.
  intros Hn H. unfold range_slice. rewrite range0_len by exact Hn. rewrite H. cbn [obind].
  unfold range_item. simpl. f_equal. f_equal; try lia. destruct c; reflexivity.
Qed.

Lemma slice_indices_ok s n : step_of s <> 0 ->
  exists a b, slice_indices s n = Ok (a, b, step_of s) /\
   a = (match sl_start s with
        | None => if step_of s <? 0 then n - 1 else 0
        | Some k => clamp_index (if step_of s <? 0 then -1 else 0) (if step_of s <? 0 then n - 1 else n) n k end) /\
   b = (match sl_stop s with
        | None => if step_of s <? 0 then -1 else n
        | Some k => clamp_index (if step_of s <? 0 then -1 else 0) (if step_of s <? 0 then n - 1 else n) n k end).
Proof.
  intros Hs. unfold slice_indices. fold (step_of s).
  destruct (Z.eqb_spec (step_of s) 0); [lia|].
  eexists; eexists; split; [reflexivity|].
  destruct (step_of s <? 0); split; reflexivity.
Qed.

Lemma in_slice_correct i s n ps :
  0 < n -> - n <= i < n ->
  bound_ok n (sl_start s) -> bound_ok n (sl_stop s) ->
  ~ (step_of s < 0 /\ sl_start s = Some n) ->
  positions s n = Ok ps ->
  exists b, in_slice i (SSlice s) (Some n) = Ok b /\
    (b = true <-> In (if i <? 0 then i + n else i) ps).
Proof.
  intros Hn Hi Ha Hb Hx Hps.
  assert (Hs : step_of s <> 0).
  { intro E. unfold positions, range_slice, slice_indices in Hps. fold (step_of s) in Hps.
    rewrite E in Hps. simpl in Hps. discriminate. }
  destruct (canonize_ok s n Hn Hs Ha Hb) as (a & b & C & Ea & Eb).
  destruct (slice_indices_ok s n Hs) as (a' & b' & C' & Ea' & Eb').
  unfold positions in Hps. rewrite (range0_slice _ _ _ _ _ (Z.lt_le_incl _ _ Hn) C') in Hps.
  simpl in Hps. injection Hps as <-.
  unfold in_slice, check_length. destruct (Z.leb_spec n 0); [lia|]. cbn [obind].
  rewrite convert_some by lia. cbn [obind]. rewrite C. cbn [obind].
  eexists. split; [reflexivity|].
  rewrite range_list_In by exact Hs. cbn [r_start r_stop r_step].
  set (i' := if i <? 0 then i + n else i).
  assert (Hi' : 0 <= i' < n) by (unfold i'; destruct (Z.ltb_spec i 0); lia).
  unfold clamp_index in *.
  assert (P : forall m, (m =? 0) = true <-> m = 0) by (intro; apply Z.eqb_eq).
  rewrite !andb_true_iff, P.
  assert (AB : a = a' \/ (step_of s > 0 /\ a >= n /\ a' >= n)).
  { subst a a'. unfold bound_ok in Ha. destruct (sl_start s) as [k|].
    - assert (step_of s < 0 -> k <> n) by (intros ? ->; tauto).
      destruct (Z.ltb_spec k 0); destruct (Z.ltb_spec (step_of s) 0); lia.
    - destruct (Z.ltb_spec (step_of s) 0); destruct (Z.ltb_spec 0 (step_of s)); lia. }
  assert (BB : b = b' \/ (step_of s < 0 /\ b >= n - 1 /\ b' >= n - 1)).
  { subst b b'. unfold bound_ok in Hb. destruct (sl_stop s) as [k|].
    - destruct (Z.ltb_spec k 0); destruct (Z.ltb_spec (step_of s) 0); lia.
    - destruct (Z.ltb_spec (step_of s) 0); destruct (Z.ltb_spec 0 (step_of s)); lia. }
  clear Ea Eb Ea' Eb' C C'.
  destruct (Z.ltb_spec 0 (step_of s)).
  - rewrite Z.leb_le, Z.ltb_lt. destruct AB as [<-|?]; destruct BB as [<-|?]; try lia; intuition lia.
  - rewrite Z.leb_le, Z.ltb_lt. destruct AB as [<-|?]; [|lia]. destruct BB as [<-|?]; intuition lia.
Qed.

Lemma index_in_slice_correct i s n ps :
  0 < n -> - n <= i < n ->
  bound_ok n (sl_start s) -> bound_ok n (sl_stop s) ->
  ~ (step_of s < 0 /\ sl_start s = Some n) ->
  positions s n = Ok ps ->
  exists r, index_in_slice i s (Some n) = Ok r /\
    forall j, r = Some j <-> znth ps j = Some (if i <? 0 then i + n else i).
Proof.
  intros Hn Hi Ha Hb Hx Hps.
  destruct (in_slice_correct i s n ps Hn Hi Ha Hb Hx Hps) as (bb & E & Hbb).
  assert (Hs : step_of s <> 0).
  { intro Q. unfold positions, range_slice, slice_indices in Hps. fold (step_of s) in Hps.
    rewrite Q in Hps. simpl in Hps. discriminate. }
  destruct (canonize_ok s n Hn Hs Ha Hb) as (a & b & C & Ea & Eb).
  destruct (slice_indices_ok s n Hs) as (a' & b' & C' & Ea' & Eb').
  unfold positions in Hps. rewrite (range0_slice _ _ _ _ _ (Z.lt_le_incl _ _ Hn) C') in Hps.
  simpl in Hps. injection Hps as <-.
  unfold index_in_slice. rewrite E. cbn [obind].
  set (i' := if i <? 0 then i + n else i) in *.
  assert (Hi' : 0 <= i' < n) by (unfold i'; destruct (Z.ltb_spec i 0); lia).
  assert (NDX : forall j, znth (range_list (mkrange a' b' (step_of s))) j = Some i' <->
     0 <= j < range_len (mkrange a' b' (step_of s)) /\ i' = range_item (mkrange a' b' (step_of s)) j).
  { intros j. split.
    - intros H. pose proof (znth_Some_inv _ _ _ H) as HB.
      rewrite range_list_length in HB by exact Hs. split; [exact HB|].
      rewrite range_list_nth in H by (exact Hs || exact HB). congruence.
    - intros (H1 & H2). rewrite range_list_nth by (exact Hs || exact H1). congruence. }
  destruct bb.
  - assert (HIN := proj1 Hbb eq_refl).
    unfold index_in_slice_novalidate. rewrite C. cbn [obind].
    rewrite convert_some by lia. cbn [obind omap]. fold i'.
    eexists. split; [reflexivity|]. intros j. rewrite NDX.
    apply range_list_In_idx in HIN; [|exact Hs]. destruct HIN as (j0 & Hj0 & Ej0).
    assert (AB : a = a').
    { assert (AA : a = a' \/ (step_of s > 0 /\ a >= n /\ a' >= n)).
      { clear - Ea Ea' Ha Hx Hs. subst a a'. unfold bound_ok in Ha. unfold clamp_index. destruct (sl_start s) as [k|].
        - assert (step_of s < 0 -> k <> n) by (intros ? ->; tauto).
          destruct (Z.ltb_spec k 0); destruct (Z.ltb_spec (step_of s) 0); lia.
        - destruct (Z.ltb_spec (step_of s) 0); destruct (Z.ltb_spec 0 (step_of s)); lia. }
      destruct AA as [AA|AA]; [exact AA|]. exfalso.
      unfold range_item in Ej0. simpl in Ej0. nia. }
    subst a'. rewrite <- AB in *. unfold range_item in *. simpl in Ej0. simpl r_start. simpl r_step.
    replace (i' - a) with (j0 * step_of s) by lia.
    rewrite Z.div_mul by exact Hs. split.
    + intros Q. injection Q as <-. split; [exact Hj0|lia].
    + intros (_ & Q). f_equal. nia.
  - eexists. split; [reflexivity|]. intros j. split; [discriminate|].
    intros Q. exfalso. assert (false = true) as D; [|discriminate]. apply Hbb.
    apply NDX in Q. apply range_list_In_idx; [exact Hs|]. exists j. exact Q.
Qed.

Lemma neg_step_iff s n : (match sl_step s with Some k => k < 0 | None => False end) /\ sl_start s = Some n
  <-> (step_of s < 0 /\ sl_start s = Some n).
Proof. unfold step_of. destruct (sl_step s); intuition lia. Qed.

Lemma in_slice_correct' i s n ps :
  0 < n -> - n <= i < n ->
  bound_ok n (sl_start s) -> bound_ok n (sl_stop s) ->
  ~ ((match sl_step s with Some k => k < 0 | None => False end) /\ sl_start s = Some n) ->
  omap range_list (range_slice (range0 n) s) = Ok ps ->
  exists b, in_slice i (SSlice s) (Some n) = Ok b /\
    (b = true <-> In (if i <? 0 then i + n else i) ps).
Proof. intros H1 H2 H3 H4 H5. rewrite neg_step_iff in H5. apply in_slice_correct; assumption. Qed.

Lemma index_in_slice_correct' i s n ps :
  0 < n -> - n <= i < n ->
  bound_ok n (sl_start s) -> bound_ok n (sl_stop s) ->
  ~ ((match sl_step s with Some k => k < 0 | None => False end) /\ sl_start s = Some n) ->
  omap range_list (range_slice (range0 n) s) = Ok ps ->
  exists r, index_in_slice i s (Some n) = Ok r /\
    forall j, r = Some j <-> znth ps j = Some (if i <? 0 then i + n else i).
Proof. intros H1 H2 H3 H4 H5. rewrite neg_step_iff in H5. apply index_in_slice_correct; assumption. Qed.

Lemma in_slice_out_of_range i s n k :
    0 < n -> - n <= i <= n ->
    match sl_step s with Some c => c <> 0 | None => True end ->
    sl_start s = Some k -> (k < - n \/ n < k) ->
    in_slice i (SSlice s) (Some n) = Raise IndexError.
Proof.
  intros Hn Hi Hs Hk Ho. unfold in_slice, check_length.
  destruct (Z.leb_spec n 0); [lia|]. cbn [obind]. rewrite convert_some by lia. cbn [obind].
  unfold canonize_slice. fold (step_of s).
  destruct (Z.eqb_spec (step_of s) 0).
  - unfold step_of in e. destruct (sl_step s); lia.
  - unfold check_length. destruct (Z.leb_spec n 0); [lia|]. cbn [obind].
    rewrite Hk. cbn [convert_opt]. unfold convert.
    destruct (Z.leb_spec (- n) k); destruct (Z.leb_spec k n); try lia; reflexivity.
Qed.

Lemma in_slice_int i k n : 0 < n -> - n <= i < n -> - n <= k <= n ->
    in_slice i (SInt k) (Some n)
    = Ok ((if i <? 0 then i + n else i) =? (if k <? 0 then k + n else k)).
Proof.
  intros Hn Hi Hk. unfold in_slice, check_length. destruct (Z.leb_spec n 0); [lia|].
  cbn [obind]. rewrite !convert_some by lia. reflexivity.
Qed.

Lemma in_slice_nolength i a b c : 0 <= i -> 0 <= a -> 0 <= b -> c <> 0 ->
    exists r, in_slice i (SSlice (mkslice (Some a) (Some b) (Some c))) None = Ok r /\
      (r = true <-> In i (range_list (mkrange a b c))).
Proof.
  intros Hi Ha Hb Hc. unfold in_slice, check_length, convert.
  destruct (Z.ltb_spec i 0); [lia|]. cbn [obind].
  unfold canonize_slice, check_length, convert_opt, convert. cbn [sl_start sl_stop sl_step].
  destruct (Z.eqb_spec c 0); [lia|].
  destruct (Z.ltb_spec a 0); [lia|]. destruct (Z.ltb_spec b 0); [lia|]. cbn [obind omap].
  eexists. split; [reflexivity|]. rewrite range_list_In by exact Hc. cbn [r_start r_stop r_step].
  rewrite !andb_true_iff, Z.eqb_eq.
  destruct (Z.ltb_spec 0 c); rewrite Z.leb_le, Z.ltb_lt; intuition lia.
Qed.
