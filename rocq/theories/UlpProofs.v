From Verif Require Import UlpModel UlpSpec.
From Coq Require Import ZArith QArith Qabs Qround Qpower Lia Lqa Setoid.
Open Scope Q_scope.

Lemma pow2_pos n : 0 < 2 ^ n. Proof. apply Qpower_0_lt. reflexivity. Qed.
Lemma pow2_nz n : ~ 2 ^ n == 0. Proof. pose proof (pow2_pos n). lra. Qed.
Lemma pow2_plus n m : 2 ^ (n + m) == 2 ^ n * 2 ^ m. Proof. apply Qpower_plus. discriminate. Qed.
Lemma pow2_S n : 2 ^ (n + 1) == 2 * 2 ^ n. Proof. rewrite pow2_plus. change (2 ^ 1) with 2. lra. Qed.
Lemma pow2_le n m : (n <= m)%Z -> 2 ^ n <= 2 ^ m. Proof. intros. apply Qpower_le_compat_l; auto. discriminate. Qed.
Lemma pow2_lt n m : (n < m)%Z -> 2 ^ n < 2 ^ m. Proof. intros. apply Qpower_lt_compat_l; auto. reflexivity. Qed.
Lemma pow2_Z n : (0 <= n)%Z -> inject_Z (2 ^ n) == 2 ^ n. Proof. intros. rewrite Zpower_Qpower by auto. reflexivity. Qed.

(** base monotonicity *)
Lemma pos_power_le a b n : 0 <= a -> a <= b -> a ^ Zpos n <= b ^ Zpos n.
Proof.
  intros P H. induction n using Pos.peano_ind; [rewrite !Qpower_1_r; auto|].
  rewrite Pos2Z.inj_succ, <- Z.add_1_r. rewrite !Qpower_plus' by lia. rewrite !Qpower_1_r.
  assert (0 <= a ^ Zpos n) by (apply Qpower_0_le; auto). nra.
Qed.
Lemma pos_power_lt a b n : 0 <= a -> a < b -> a ^ Zpos n < b ^ Zpos n.
Proof.
  intros P H. induction n using Pos.peano_ind; [rewrite !Qpower_1_r; auto|].
  rewrite Pos2Z.inj_succ, <- Z.add_1_r. rewrite !Qpower_plus' by lia. rewrite !Qpower_1_r.
  assert (0 <= a ^ Zpos n) by (apply Qpower_0_le; auto). nra.
Qed.
Lemma pos_power_le_inv a b n : 0 <= b -> a ^ Zpos n <= b ^ Zpos n -> a <= b.
Proof.
  intros P H. destruct (Qlt_le_dec b a) as [L|L]; auto. pose proof (pos_power_lt b a n P L). lra.
Qed.
(** Bernoulli *)
Lemma bernoulli_low t n : 0 <= t -> t <= 1 -> 1 - inject_Z (Zpos n) * t <= (1 - t) ^ Zpos n.
Proof.
  intros P H. induction n using Pos.peano_ind; [rewrite Qpower_1_r; unfold inject_Z; lra|].
  rewrite Pos2Z.inj_succ, <- Z.add_1_r. rewrite Qpower_plus' by lia. rewrite Qpower_1_r, inject_Z_plus.
  assert (0 <= inject_Z (Zpos n)) by (unfold Qle, inject_Z; simpl; lia). change (inject_Z 1) with 1. nra.
Qed.
Lemma bernoulli_up t n : 0 <= t -> t <= 1 -> (1 - t) ^ Zpos n * (1 + inject_Z (Zpos n) * t) <= 1.
Proof.
  intros P H. induction n using Pos.peano_ind; [rewrite Qpower_1_r; unfold inject_Z; nra|].
  rewrite Pos2Z.inj_succ, <- Z.add_1_r. rewrite Qpower_plus' by lia. rewrite Qpower_1_r, inject_Z_plus.
  assert (0 <= inject_Z (Zpos n)) by (unfold Qle, inject_Z; simpl; lia). change (inject_Z 1) with 1.
  assert (0 <= (1 - t) ^ Zpos n) by (apply Qpower_0_le; lra).
  set (p := (1 - t) ^ Zpos n) in *. set (N := inject_Z (Zpos n)) in *.
  assert ((1 - t) * (1 + (N + 1) * t) <= 1 + N * t) by nra. nra.
Qed.

Lemma Qnum_mono a b x : 0 < x -> a <= b -> le_log2 b x -> le_log2 a x.
Proof.
  unfold le_log2. intros P L H. unfold Qle in L. destruct a as [p d], b as [p' d']. cbn [Qnum Qden] in *.
  apply (pos_power_le_inv _ _ d'); [apply Qpower_0_le; lra|]. rewrite <- !Qpower_mult.
  apply Qle_trans with (2 ^ (p' * Zpos d)); [apply pow2_le; auto|]. rewrite (Z.mul_comm (Zpos d)), !Qpower_mult.
  apply pos_power_le; auto. apply Qlt_le_weak, pow2_pos.
Qed.
Lemma Qnum_mono' a b x : 0 < x -> a <= b -> log2_le x a -> log2_le x b.
Proof.
  unfold log2_le. intros P L H. unfold Qle in L. destruct a as [p d], b as [p' d']. cbn [Qnum Qden] in *.
  apply (pos_power_le_inv _ _ d); [apply Qlt_le_weak, pow2_pos|]. rewrite <- !Qpower_mult.
  apply Qle_trans with (2 ^ (p * Zpos d')); [|apply pow2_le; auto]. rewrite (Z.mul_comm (Zpos d')), !Qpower_mult.
  apply pos_power_le; auto. apply Qpower_0_le. lra.
Qed.
Lemma log2_strict a b x : 0 < x -> a < b -> log2_le x a -> le_log2 b x -> False.
Proof.
  unfold log2_le, le_log2. intros P L H1 H2. unfold Qlt in L. destruct a as [p d], b as [p' d']. cbn [Qnum Qden] in *.
  assert (2 ^ (p' * Zpos d) <= 2 ^ (p * Zpos d')).
  { rewrite !Qpower_mult. apply Qle_trans with ((x ^ Zpos d') ^ Zpos d).
    - apply pos_power_le; auto. apply Qlt_le_weak, pow2_pos.
    - rewrite <- Qpower_mult, Z.mul_comm, Qpower_mult. apply pos_power_le; auto. apply Qpower_0_le. lra. }
  pose proof (pow2_lt _ _ L). lra.
Qed.
Lemma half_between a b : a < b -> a < (a + b) / 2 /\ (a + b) / 2 < b /\ a < (b + a) / 2 /\ (b + a) / 2 < b.
Proof. intros. repeat split; (apply Qlt_shift_div_r || apply Qlt_shift_div_l); try reflexivity; lra. Qed.
Lemma nearest_faithful x y : 0 < x -> nearest x y -> faithful x y.
Proof.
  intros P [F N]. split; auto. intros z Z. destruct (N z Z) as [N1 N2]. split; intros [L H].
  - apply (log2_strict ((z + y) / 2) z x P); auto. apply half_between; auto.
  - apply (log2_strict z ((z + y) / 2) x P); auto. apply half_between; auto.
Qed.
Lemma int_float k : (-1074 <= k <= 1024)%Z -> isfloat (inject_Z k).
Proof. intros. exists k, 0%Z. repeat split; try lia. change (2 ^ 0) with 1. lra. Qed.
Lemma le_log2_int k x : le_log2 (inject_Z k) x <-> 2 ^ k <= x.
Proof. unfold le_log2. cbn [Qnum Qden inject_Z]. rewrite Qpower_1_r. reflexivity. Qed.
Lemma log2_le_int k x : log2_le x (inject_Z k) <-> x <= 2 ^ k.
Proof. unfold log2_le. cbn [Qnum Qden inject_Z]. rewrite Qpower_1_r. reflexivity. Qed.

(** between the neighbouring integers *)
Lemma faithful_bounds x y k : (-1074 <= k < 1024)%Z -> 2 ^ k <= x -> x <= 2 ^ (k + 1) -> faithful x y ->
  inject_Z k <= y /\ y <= inject_Z (k + 1).
Proof.
  intros K L U [F H]. split.
  - destruct (H _ (int_float k ltac:(lia))) as [N _]. destruct (Qlt_le_dec y (inject_Z k)); auto. destruct N. split; auto; apply le_log2_int; auto.
  - destruct (H _ (int_float (k + 1) ltac:(lia))) as [_ N]. destruct (Qlt_le_dec (inject_Z (k + 1)) y); auto. destruct N. split; auto; apply log2_le_int; auto.
Qed.
Lemma floor_is k y : inject_Z k <= y -> y < inject_Z (k + 1) -> Qfloor y = k.
Proof.
  intros L U. assert (k <= Qfloor y)%Z by (rewrite <- (Qfloor_Z k); apply Qfloor_resp_le; auto).
  pose proof (Qfloor_le y) as H1. assert (inject_Z (Qfloor y) < inject_Z (k + 1)) by lra. rewrite <- Zlt_Qlt in *. lia.
Qed.
Lemma floor_top k y : y <= inject_Z k -> (Qfloor y <= k)%Z.
Proof. intros. rewrite <- (Qfloor_Z k). apply Qfloor_resp_le; auto. Qed.

Lemma normal_bounds x m u : normal x m u -> exists k, (-1022 <= k <= 1023)%Z /\ 2 ^ k <= Qabs x /\ Qabs x < 2 ^ (k + 1) /\ u == 2 ^ (k - 52) /\
  Qabs x == inject_Z m * u.
Proof.
  intros (e & M & E & X & U). exists (e + 52)%Z. replace (e + 52 - 52)%Z with e by lia. rewrite X, U. split; [lia|].
  replace (e + 52 + 1)%Z with (53 + e)%Z by lia. rewrite (Z.add_comm e), !pow2_plus. pose proof (pow2_pos e).
  repeat split; try reflexivity.
  - apply Qmult_le_compat_r; [|lra]. rewrite <- (pow2_Z 52) by lia. rewrite <- Zle_Qle. lia.
  - apply Qmult_lt_compat_r; auto. rewrite <- (pow2_Z 53) by lia. rewrite <- Zlt_Qlt. lia.
Qed.
Lemma nz x : 0 < Qabs x -> Qeq_bool x 0 = false.
Proof. intros P. destruct (Qeq_bool x 0) eqn:E; auto. apply Qeq_bool_eq in E. rewrite E in P. discriminate. Qed.

(** the gap below the next power of two is seen by log2 *)
Lemma seen x k : (-1022 <= k <= 1023)%Z -> 0 < x -> x <= 2 ^ (k + 1) * (1 - 1 / 2 ^ 43) ->
  exists z, isfloat z /\ z < inject_Z (k + 1) /\ log2_le x z.
Proof.
  intros K P L. exists (((k + 1) * 2 ^ 43 - 1) # (2 ^ 43)). repeat split.
  - exists ((k + 1) * 2 ^ 43 - 1)%Z, (-43)%Z. repeat split; try lia.
    change (2 ^ -43) with (1 # (2 ^ 43)). unfold Qeq, Qmult, inject_Z. cbn [Qnum Qden]. lia.
  - unfold Qlt, inject_Z. cbn [Qnum Qden]. lia.
  - unfold log2_le. cbn [Qnum Qden].
    apply Qle_trans with ((2 ^ (k + 1) * (1 - 1 / 2 ^ 43)) ^ Zpos (2 ^ 43)); [apply pos_power_le; lra|].
    rewrite Qmult_power, <- Qpower_mult. change (Zpos (2 ^ 43)) with (2 ^ 43)%Z.
    replace ((k + 1) * 2 ^ 43 - 1)%Z with ((k + 1) * 2 ^ 43 + -1)%Z by lia. rewrite pow2_plus.
    apply Qmult_le_l; [apply pow2_pos|]. change (2 ^ -1) with (1 # 2).
    pose proof (bernoulli_up (1 / 2 ^ 43) (2 ^ 43)) as B. change (Zpos (2 ^ 43)) with (2 ^ 43)%Z in B.
    assert (inject_Z (2 ^ 43) * (1 / 2 ^ 43) == 1) as E by reflexivity. rewrite E in B.
    specialize (B ltac:(discriminate) ltac:(discriminate)). lra.
Qed.

Section Ulp.
Variable log2 : Q -> Q.
Lemma scaled k : (-1022 <= k <= 1023)%Z -> scaled_eps k = Val (2 ^ (k - 52)).
Proof.
  intros K. unfold scaled_eps. destruct (Z.leb_spec 1024 k); [lia|]. destruct (Z.ltb_spec (k - 52) (-1074)); [lia|]. auto.
Qed.
Lemma ulp_near x m u : normal x m u -> faithful (Qabs x) (log2 (Qabs x)) ->
  (exists r, ulp log2 (Fin x) = Val r /\ (r == u \/ r == 2 * u)) \/ (ulp log2 (Fin x) = OverflowError_ /\ u == 2 ^ 971).
Proof.
  intros N F. destruct (normal_bounds x m u N) as (k & K & L & H & U & _).
  assert (0 < Qabs x) as P by (pose proof (pow2_pos k); lra).
  destruct (faithful_bounds _ _ k ltac:(lia) L (Qlt_le_weak _ _ H) F) as [B1 B2].
  cbn [ulp]. rewrite nz by auto. destruct (Qlt_le_dec (log2 (Qabs x)) (inject_Z (k + 1))) as [C|C].
  - left. exists (2 ^ (k - 52)). rewrite (floor_is k) by auto. split; [apply scaled; auto|left; symmetry; auto].
  - assert (Qfloor (log2 (Qabs x)) = k + 1)%Z as ->.
    { rewrite (Qfloor_comp _ (inject_Z (k + 1))); [apply Qfloor_Z|lra]. }
    destruct (Z.eq_dec k 1023) as [->|NE].
    + right. split; auto.
    + left. exists (2 ^ (k + 1 - 52)). rewrite scaled by lia. split; auto. right. rewrite U.
      replace (k + 1 - 52)%Z with (k - 52 + 1)%Z by lia. apply pow2_S.
Qed.
Lemma ulp_right x m u : normal x m u -> faithful (Qabs x) (log2 (Qabs x)) -> (m <= 2 ^ 53 - 2 ^ 10)%Z ->
  exists r, ulp log2 (Fin x) = Val r /\ r == u.
Proof.
  intros N F M. destruct (normal_bounds x m u N) as (k & K & L & H & U & X).
  assert (0 < Qabs x) as P by (pose proof (pow2_pos k); lra).
  destruct (faithful_bounds _ _ k ltac:(lia) L (Qlt_le_weak _ _ H) F) as [B1 B2].
  cbn [ulp]. rewrite nz by auto. destruct (seen (Qabs x) k K P) as (z & Fz & Lz & Gz).
  { rewrite X, U. replace (k + 1)%Z with (k - 52 + 53)%Z by lia. rewrite pow2_plus.
    pose proof (pow2_pos (k - 52)). rewrite <- Qmult_assoc, Qmult_comm. apply Qmult_le_l; auto.
    assert (2 ^ 53 * (1 - 1 / 2 ^ 43) == inject_Z (2 ^ 53 - 2 ^ 10)) as -> by reflexivity. rewrite <- Zle_Qle. auto. }
  destruct F as [_ F]. destruct (F z Fz) as [_ NF].
  rewrite (floor_is k).
  - exists (2 ^ (k - 52)). split; [apply scaled; auto|symmetry; auto].
  - auto.
  - destruct (Qlt_le_dec z (log2 (Qabs x))); [destruct NF; auto|]. lra.
Qed.
Lemma ulp_tiny x : isfloat x -> ~ x == 0 -> Qabs x < 2 ^ (-1023) -> faithful (Qabs x) (log2 (Qabs x)) ->
  exists r, ulp log2 (Fin x) = Val r /\ r == 0.
Proof.
  intros I NZ T F. assert (0 < Qabs x) as P.
  { pose proof (Qabs_nonneg x). destruct (Qlt_le_dec 0 (Qabs x)); auto. destruct NZ.
    assert (Qabs x == 0) as E by lra. pose proof (Qle_Qabs x). pose proof (Qle_Qabs (-x)) as G. rewrite Qabs_opp in G. lra. }
  cbn [ulp]. rewrite nz by auto. exists 0. split; [|reflexivity].
  assert (Qfloor (log2 (Qabs x)) <= -1023)%Z as G.
  { apply floor_top. destruct F as [_ F]. destruct (F _ (int_float (-1023) ltac:(lia))) as [_ NF].
    destruct (Qlt_le_dec (inject_Z (-1023)) (log2 (Qabs x))); auto. destruct NF. split; auto. apply log2_le_int. lra. }
  unfold scaled_eps. destruct (Z.leb_spec 1024 (Qfloor (log2 (Qabs x)))); [lia|].
  destruct (Z.ltb_spec (Qfloor (log2 (Qabs x)) - 52) (-1074)); [auto|lia].
Qed.

(** just below a power of two *)
Lemma floats_below z k : (3 <= k)%Z -> isfloat z -> z < inject_Z k -> z <= inject_Z k - 1 / 2 ^ 51.
Proof.
  intros K (m & e & M & E & Z) L. destruct (Z_lt_le_dec e (-51)) as [S|S].
  - assert (z <= 2).
    { rewrite Z. destruct (Z_lt_le_dec m 0) as [N|N].
      - assert (inject_Z m <= 0) by (change 0 with (inject_Z 0); rewrite <- Zle_Qle; lia). pose proof (pow2_pos e). nra.
      - assert (inject_Z m <= 2 ^ 53) as H1 by (rewrite <- (pow2_Z 53) by lia; rewrite <- Zle_Qle; lia).
        assert (2 ^ e <= 2 ^ (-52)) as H2 by (apply pow2_le; lia).
        apply Qle_trans with ((2 ^ 53) * (2 ^ (-52))); [|discriminate].
        pose proof (pow2_pos e). assert (0 <= inject_Z m) by (change 0 with (inject_Z 0); rewrite <- Zle_Qle; lia).
        apply Qle_trans with (2 ^ 53 * 2 ^ e); [apply Qmult_le_compat_r; lra|]. apply Qmult_le_l; [reflexivity|auto]. }
    assert (3 <= inject_Z k) by (change 3 with (inject_Z 3); rewrite <- Zle_Qle; lia).
    assert (1 / 2 ^ 51 <= 1) by discriminate. lra.
  - assert (z * 2 ^ 51 == inject_Z (m * 2 ^ (e + 51))) as EQ.
    { rewrite Z, inject_Z_mult, pow2_Z by lia. rewrite pow2_plus. lra. }
    assert (inject_Z (m * 2 ^ (e + 51)) < inject_Z (k * 2 ^ 51)) as LT.
    { rewrite <- EQ, inject_Z_mult, (pow2_Z 51) by lia. apply Qmult_lt_compat_r; auto. reflexivity. }
    rewrite <- Zlt_Qlt in LT. assert (inject_Z (m * 2 ^ (e + 51)) <= inject_Z (k * 2 ^ 51 - 1)) as LE by (rewrite <- Zle_Qle; lia).
    rewrite <- EQ in LE. unfold Z.sub in LE. rewrite inject_Z_plus, inject_Z_mult, (pow2_Z 51) in LE by lia. change (inject_Z (-(1))) with (-1) in LE.
    apply (Qmult_le_r _ _ (2 ^ 51)); [reflexivity|].
    assert (1 / 2 ^ 51 * 2 ^ 51 == 1) as E1 by reflexivity.
    assert ((inject_Z k - 1 / 2 ^ 51) * 2 ^ 51 == inject_Z k * 2 ^ 51 + -1) as ->; [|exact LE].
    transitivity (inject_Z k * 2 ^ 51 - (1 / 2 ^ 51) * 2 ^ 51); [ring|rewrite E1; ring].
Qed.
Lemma below_nearest k : (3 <= k <= 1024)%Z -> nearest (2 ^ k * (1 - 1 / 2 ^ 53)) (inject_Z k).
Proof.
  intros K. set (x := 2 ^ k * (1 - 1 / 2 ^ 53)). assert (0 < x) as P.
  { unfold x. apply Qmult_lt_0_compat; [apply pow2_pos|reflexivity]. }
  assert (le_log2 ((k * 2 ^ 52 - 1) # (2 ^ 52)) x) as LL.
  { unfold le_log2. cbn [Qnum Qden]. unfold x. rewrite Qmult_power, <- Qpower_mult. change (Zpos (2 ^ 52)) with (2 ^ 52)%Z.
    replace (k * 2 ^ 52 - 1)%Z with (k * 2 ^ 52 + -1)%Z by lia. rewrite pow2_plus.
    apply Qmult_le_l; [apply pow2_pos|]. change (2 ^ -1) with (1 # 2).
    pose proof (bernoulli_low (1 / 2 ^ 53) (2 ^ 52)) as B. change (Zpos (2 ^ 52)) with (2 ^ 52)%Z in B.
    assert (inject_Z (2 ^ 52) * (1 / 2 ^ 53) == 1 # 2) as E by reflexivity. rewrite E in B.
    specialize (B ltac:(discriminate) ltac:(discriminate)). lra. }
  split; [apply int_float; lia|]. intros z Fz. split; intros L.
  - apply (Qnum_mono _ ((k * 2 ^ 52 - 1) # (2 ^ 52))); auto. pose proof (floats_below z k ltac:(lia) Fz L) as B.
    apply Qle_shift_div_r; [reflexivity|].
    assert (((k * 2 ^ 52 - 1) # 2 ^ 52) == inject_Z k - 1 / 2 ^ 52) as ->.
    { change (1 / 2 ^ 52) with (1 # (2 ^ 52)). unfold Qeq, Qminus, Qplus, Qopp, inject_Z. cbn [Qnum Qden]. lia. }
    assert (1 / 2 ^ 51 == 2 * (1 / 2 ^ 52)) as E by reflexivity. lra.
  - apply (Qnum_mono' (inject_Z k)); auto.
    + apply Qle_shift_div_l; [reflexivity|lra].
    + apply log2_le_int. unfold x. assert (1 - 1 / 2 ^ 53 <= 1) by discriminate. pose proof (pow2_pos k). nra.
Qed.
Lemma below_normal k : (3 <= k <= 1024)%Z -> normal (2 ^ k * (1 - 1 / 2 ^ 53)) (2 ^ 53 - 1) (2 ^ (k - 53)).
Proof.
  intros K. exists (k - 53)%Z. repeat split; try lia; try reflexivity. rewrite Qabs_pos.
  - replace k with (53 + (k - 53))%Z at 1 by lia. rewrite pow2_plus, <- Qmult_assoc, (Qmult_comm (2 ^ (k - 53))), Qmult_assoc.
    apply Qmult_comp; reflexivity.
  - apply Qlt_le_weak, Qmult_lt_0_compat; [apply pow2_pos|reflexivity].
Qed.
End Ulp.

(** the nearest float is unique, so that a correctly rounded log2 has no choice *)
Lemma nearest_below_unique k y : (3 <= k <= 1024)%Z -> nearest (2 ^ k * (1 - 1 / 2 ^ 53)) y -> y == inject_Z k.
Proof.
  intros K [F N]. set (x := 2 ^ k * (1 - 1 / 2 ^ 53)) in *.
  assert (0 < x) as P by (unfold x; apply Qmult_lt_0_compat; [apply pow2_pos|reflexivity]).
  destruct (N (inject_Z k) (int_float k ltac:(lia))) as [N1 N2].
  destruct (Q_dec y (inject_Z k)) as [[L|L]|E]; auto; exfalso.
  - specialize (N2 L). pose proof (floats_below y k ltac:(lia) F L) as B.
    assert ((inject_Z k + y) / 2 <= ((k * 2 ^ 52 - 1) # (2 ^ 52))) as M.
    { apply Qle_shift_div_r; [reflexivity|].
      assert (((k * 2 ^ 52 - 1) # 2 ^ 52) == inject_Z k - 1 / 2 ^ 52) as ->.
      { change (1 / 2 ^ 52) with (1 # (2 ^ 52)). unfold Qeq, Qminus, Qplus, Qopp, inject_Z. cbn [Qnum Qden]. lia. }
      assert (1 / 2 ^ 51 == 2 * (1 / 2 ^ 52)) as E by reflexivity. lra. }
    apply (Qnum_mono' _ _ x P M) in N2. unfold log2_le in N2. cbn [Qnum Qden] in N2. unfold x in N2.
    rewrite Qmult_power, <- Qpower_mult in N2. change (Zpos (2 ^ 52)) with (2 ^ 52)%Z in N2.
    replace (k * 2 ^ 52 - 1)%Z with (k * 2 ^ 52 + -1)%Z in N2 by lia. rewrite pow2_plus in N2.
    apply Qmult_le_l in N2; [|apply pow2_pos]. change (2 ^ -1) with (1 # 2) in N2.
    (* (1 - t)^n = (1 - t)^(n-1) * (1 - t) is more than 1/2 *)
    pose proof (bernoulli_low (1 / 2 ^ 53) (2 ^ 52 - 2)) as B2. change (Zpos (2 ^ 52 - 2)) with (2 ^ 52 + -2)%Z in B2.
    specialize (B2 ltac:(discriminate) ltac:(discriminate)).
    replace (2 ^ 52)%Z with (2 ^ 52 + -2 + 2)%Z in N2 by lia. rewrite Qpower_plus' in N2 by lia.
    assert ((1 - 1 / 2 ^ 53) ^ 2 * (1 - inject_Z (2 ^ 52 + -2) * (1 / 2 ^ 53)) > 1 # 2) as C by reflexivity.
    assert (0 < (1 - 1 / 2 ^ 53) ^ 2) as D by reflexivity. 
    revert N2 B2 C D. generalize ((1 - 1 / 2 ^ 53) ^ (2 ^ 52 + -2)) ((1 - 1 / 2 ^ 53) ^ 2) (1 - inject_Z (2 ^ 52 + -2) * (1 / 2 ^ 53)).
    intros p q r H1 H2 H3 H4. assert (q * r <= q * p) by (apply Qmult_le_l; auto). rewrite (Qmult_comm p q) in H1. lra.
  - specialize (N1 L). apply (log2_strict (inject_Z k) ((inject_Z k + y) / 2) x P); auto.
    + apply half_between; auto.
    + apply log2_le_int. unfold x. assert (1 - 1 / 2 ^ 53 <= 1) by discriminate. pose proof (pow2_pos k). nra.
Qed.
Lemma ulp_below log2 k : let x := 2 ^ k * (1 - 1 / 2 ^ 53) in (3 <= k <= 1024)%Z -> nearest x (log2 (Qabs x)) ->
  normal x (2 ^ 53 - 1) (2 ^ (k - 53)) /\
  ((k < 1024)%Z -> exists r, ulp log2 (Fin x) = Val r /\ r == 2 * 2 ^ (k - 53)) /\
  (k = 1024%Z -> ulp log2 (Fin x) = OverflowError_).
Proof.
  intros x K N. split; [apply below_normal; auto|]. assert (0 < x) as P by (unfold x; apply Qmult_lt_0_compat; [apply pow2_pos|reflexivity]).
  assert (Qfloor (log2 (Qabs x)) = k) as F.
  { rewrite (Qfloor_comp _ (inject_Z k)); [apply Qfloor_Z|]. apply nearest_below_unique; auto. }
  cbn [ulp]. rewrite nz by (rewrite Qabs_pos; lra). rewrite F. split.
  - intros L. rewrite scaled by lia. exists (2 ^ (k - 52)). split; auto. replace (k - 52)%Z with (k - 53 + 1)%Z by lia. apply pow2_S.
  - intros ->. reflexivity.
Qed.

(** the unit is the distance to the next float *)
Lemma ulp_next x m u z : normal x m u -> isfloat z -> Qabs x < z -> Qabs x + u <= z.
Proof.
  intros (e & M & E & X & U) (m' & e' & M' & E' & Z) L. rewrite X, U in *. rewrite Z in *. clear X U Z.
  pose proof (pow2_pos e). pose proof (pow2_pos e').
  destruct (Z_lt_le_dec e' e) as [S|S].
  - (* then z < 2^52 * 2^e *) exfalso.
    assert (inject_Z m' * 2 ^ e' < inject_Z (2 ^ 53) * 2 ^ e').
    { apply Qmult_lt_compat_r; auto. rewrite <- Zlt_Qlt. lia. }
    assert (inject_Z (2 ^ 53) * 2 ^ e' <= inject_Z (2 ^ 52) * 2 ^ e).
    { rewrite (pow2_Z 53), (pow2_Z 52) by lia. rewrite <- !pow2_plus. apply pow2_le. lia. }
    assert (inject_Z (2 ^ 52) * 2 ^ e <= inject_Z m * 2 ^ e).
    { apply Qmult_le_compat_r; [rewrite <- Zle_Qle; lia|lra]. }
    lra.
  - replace e' with ((e' - e) + e)%Z in * by lia. rewrite pow2_plus in *. rewrite <- (pow2_Z (e' - e)) in * by lia.
    rewrite Qmult_assoc, <- inject_Z_mult in *.
    assert (inject_Z m * 2 ^ e + 2 ^ e == inject_Z (m + 1) * 2 ^ e) as -> by (rewrite inject_Z_plus; change (inject_Z 1) with 1; ring).
    apply Qmult_le_compat_r; [|lra]. apply Qmult_lt_r in L; auto. rewrite <- Zlt_Qlt in L. rewrite <- Zle_Qle. lia.
Qed.
Lemma ulp_next_float x m u : normal x m u -> (m < 2 ^ 53 - 1)%Z \/ u < 2 ^ 971 -> isfloat (Qabs x + u).
Proof.
  intros (e & M & E & X & U) H.
  assert (Qabs x + u == inject_Z (m + 1) * 2 ^ e) as EQ by (rewrite X, U, inject_Z_plus; change (inject_Z 1) with 1; ring).
  destruct (Z.eq_dec (m + 1) (2 ^ 53)) as [T|T].
  - destruct H as [H|H]; [lia|]. assert (e < 971)%Z.
    { destruct (Z_lt_le_dec e 971); auto. pose proof (pow2_le 971 e ltac:(lia)). lra. }
    exists (2 ^ 52)%Z, (e + 1)%Z. repeat split; try lia. rewrite EQ, T, pow2_S, (pow2_Z 53), (pow2_Z 52) by lia.
    change (2 ^ 53) with (2 * 2 ^ 52). ring.
  - exists (m + 1)%Z, e. repeat split; auto; lia.
Qed.
Lemma ulp_special log2 : ulp log2 (Fin 0) = ValueError_ /\ ulp log2 NaN = ValueError_ /\ ulp log2 Inf = OverflowError_.
Proof. auto. Qed.

Lemma exact_faithful k : (-1074 <= k <= 1024)%Z -> faithful (2 ^ k) (inject_Z k).
Proof.
  intros K. split; [apply int_float; auto|]. intros z _. split; intros [L H].
  - apply (log2_strict (inject_Z k) z (2 ^ k) (pow2_pos k) L); auto. apply log2_le_int. lra.
  - apply (log2_strict z (inject_Z k) (2 ^ k) (pow2_pos k) L); auto. apply le_log2_int. lra.
Qed.
Lemma four : faithful 4 2 /\ normal 4 (2 ^ 52) (2 ^ (-50)) /\ ulp (fun _ => 2) (Fin 4) = Val (2 ^ (-50)).
Proof.
  split; [exact (exact_faithful 2 ltac:(lia))|]. split; [|reflexivity]. exists (-50)%Z. repeat split; try lia.
Qed.
Lemma tiny : faithful (2 ^ (-1074)) (inject_Z (-1074)) /\ isfloat (2 ^ (-1074)).
Proof. split; [exact (exact_faithful (-1074) ltac:(lia))|]. exists 1%Z, (-1074)%Z. repeat split; try lia. Qed.
