From Coq Require Import ZArith QArith Qabs Qpower Lia Lqa Setoid Floats.SpecFloat Zpower Bool.
From Verif Require Import Base AeqModel AeqSpec AeqRound.
Open Scope Q_scope.

Local Opaque Qpower.
(** * Rounding an integer times a power of two *)
Lemma shl_spec m e k : let '(mz, ez) := shl_align m e k in
  (ez = Z.min e k \/ (e <= k)%Z /\ ez = e) /\ inject_Z (Zpos mz) * 2 ^ ez == inject_Z (Zpos m) * 2 ^ e.
Proof.
  unfold shl_align. destruct (k - e)%Z as [|p|p] eqn:D; [split; [right; lia|reflexivity]| split; [right; lia|reflexivity]|].
  split; [left; lia|]. rewrite shift_pos_correct. rewrite Zpower_pos_nat. 
  replace e with (Zpos p + k)%Z by lia. rewrite pow2_plus, inject_Z_mult.
  rewrite <- Zpower_pos_nat. change (Z.pow_pos 2 p) with (2 ^ Zpos p)%Z. rewrite pow2_Z by lia. ring.
Qed.
Lemma pos_bounds m e : let d := Zpos (digits2_pos m) in
  2 ^ (d + e - 1) <= inject_Z (Zpos m) * 2 ^ e /\ inject_Z (Zpos m) * 2 ^ e < 2 ^ (d + e).
Proof.
  intros d. pose proof (digits_bounds m) as [L U]. fold d in L, U. apply inj_le in L. apply inj_lt in U.
  rewrite pow2_Z in L, U by lia. pose proof (pow2_pos e). replace (d + e - 1)%Z with (d - 1 + e)%Z by lia. rewrite !pow2_plus. split; nra.
Qed.
Lemma pos_unique m e g x : x == inject_Z (Zpos m) * 2 ^ e -> 2 ^ (g - 1) <= x -> x < 2 ^ g -> (Zpos (digits2_pos m) + e = g)%Z.
Proof.
  intros E L U. pose proof (pos_bounds m e) as [L' U']. cbv zeta in *. rewrite <- E in L', U'.
  assert (g - 1 < Zpos (digits2_pos m) + e)%Z by (apply pow2_lt_inv; lra).
  assert (Zpos (digits2_pos m) + e - 1 < g)%Z by (apply pow2_lt_inv; lra). lia.
Qed.
Lemma located_exact m e x : x == inject_Z (Zpos m) * 2 ^ e -> located (Zpos m) e loc_Exact x.
Proof.
  intros E. split; cbn; [lia|]. rewrite E. pose proof (pow2_nz e). unfold half. field. auto.
Qed.
Lemma round_pos s m e x : x == inject_Z (Zpos m) * 2 ^ e -> exists k M, rounds x s (binary_round 53 1024 s m e) k M.
Proof.
  intros E. unfold binary_round. set (g := (Zpos (digits2_pos m) + e)%Z).
  pose proof (shl_spec m e (fe g)) as S. destruct (shl_align m e (fe g)) as [mz ez]. destruct S as [EZ V].
  pose proof (pos_bounds m e) as [L U]. cbv zeta in L, U. fold g in L, U. rewrite <- E in L, U.
  assert (E' : x == inject_Z (Zpos mz) * 2 ^ ez) by (rewrite V; auto).
  assert (G : (Zpos (digits2_pos mz) + ez = g)%Z) by (apply (pos_unique mz ez g x); auto).
  exists (fe g). apply round_spec.
  - now apply located_exact.
  - cbn [Zdigits2]. now rewrite G.
  - lia.
  - apply Qlt_le_trans with (2 ^ g); auto. apply pow2_le. rewrite fe_eq. lia.
  - rewrite fe_eq. destruct (Z_le_gt_dec (g - 53) (-1074)); [left; lia|right]. replace (52 + Z.max (g - 53) (-1074))%Z with (g - 1)%Z by lia. auto.
Qed.

(** * The error *)
Definition close (x y : Q) : Prop := x - x * 2 ^ (-53) <= y /\ y <= x + x * 2 ^ (-53).
Lemma MAX_eq : MAX == 2 ^ 1024 * (1 - 2 ^ (-53)). Proof. Transparent Qpower. vm_compute. Opaque Qpower. reflexivity. Qed.
(** of a sum or difference of floats, which is a multiple of the smallest float *)
Definition good_sum (x : Q) (s : bool) (f : float) : Prop :=
  match f with
  | S754_finite s' m e => s' = s /\ bounded 53 1024 m e = true /\ close x (inject_Z (Zpos m) * 2 ^ e) /\
      (x < MIN -> inject_Z (Zpos m) * 2 ^ e == x) /\ (MIN <= x -> MIN <= inject_Z (Zpos m) * 2 ^ e)
  | S754_infinity s' => s' = s /\ MAX <= x
  | _ => False
  end.
Lemma rounds_normal x s f k M : rounds x s f k M -> 2 ^ (52 + k) <= x -> close x (inject_Z M * 2 ^ k).
Proof.
  intros R L. destruct R as [Rk RM Rn Rl Rh Rf]. replace (52 + k)%Z with (53 + k - 1)%Z in L by lia.
  assert (H : (1 # 2) * 2 ^ k <= x * 2 ^ (-53)).
  { replace k with (52 + k + 1 + (-53))%Z by lia. rewrite (pow2_plus (52 + k + 1)), pow2_S.
    replace (53 + k - 1)%Z with (52 + k)%Z in L by lia. pose proof (pow2_pos (-53)). set (u := 2 ^ (-53)) in *. nra. }
  split; lra.
Qed.
Lemma rounds_exact x s f M N : rounds x s f (-1074) M -> x == inject_Z N * 2 ^ (-1074) -> x == inject_Z M * 2 ^ (-1074).
Proof.
  intros R E. destruct R as [Rk RM Rn Rl Rh Rf]. rewrite E in *. pose proof (pow2_pos (-1074)) as P. set (u := 2 ^ (-1074)) in *.
  assert (M < N + 1)%Z by (rewrite Zlt_Qlt, inj_S; nra). assert (N < M + 1)%Z by (rewrite Zlt_Qlt, inj_S; nra).
  replace M with N by lia. reflexivity.
Qed.
Lemma rounds_inf x s s' k M : rounds x s (S754_infinity s') k M -> MAX <= x.
Proof.
  intros R. pose proof R as R0. destruct R as [Rk RM Rn Rl Rh Rf]. destruct Rf as [_ B]. destruct Rn as [->|[NM L]].
  - exfalso. assert (inject_Z M * 2 ^ (-1074) <= inject_Z (2 ^ 53) * 2 ^ (-1074)).
    { apply Qmult_le_compat_r; [apply inj_le; lia|]. pose proof (pow2_pos (-1074)). lra. }
    rewrite pow2_Z, <- pow2_plus in H by lia. pose proof (pow2_lt (53 + -1074) 1024 ltac:(lia)). lra.
  - rewrite MAX_eq. apply inj_le in NM. rewrite pow2_Z in NM by lia.
    assert ((1 # 2) * 2 ^ k <= inject_Z M * 2 ^ k * 2 ^ (-53)).
    { pose proof (pow2_pos k). pose proof (pow2_plus 52 (-53)) as Q. change (52 + -53)%Z with (-1)%Z in Q.
      assert (2 ^ (-1) == 1 # 2) as H2 by reflexivity. rewrite H2 in Q. pose proof (pow2_pos (-53)).
      set (u := 2 ^ (-53)) in *. set (w := 2 ^ 52) in *. set (z := 2 ^ k) in *. rewrite Q.
      assert (0 <= (inject_Z M - w) * (z * u)) by (apply Qmult_le_0_compat; [lra|apply Qmult_le_0_compat; lra]). lra. }
    pose proof (pow2_pos (-53)). assert (2 ^ (-53) < 1) by (pose proof (pow2_lt (-53) 0 ltac:(lia)); change (2 ^ 0) with 1 in *; lra).
    set (u := 2 ^ (-53)) in *. set (T := 2 ^ 1024) in *. nra.
Qed.
Lemma rounds_good x s f k M N : rounds x s f k M -> x == inject_Z N * 2 ^ (-1074) -> 0 < x -> good_sum x s f.
Proof.
  intros R E P. destruct (Z.eq_dec k (-1074)) as [->|NK].
  - pose proof (rounds_exact _ _ _ _ _ R E) as E2. destruct f as [s'|s'| |s' m e]; cbn.
    + destruct (ro_f _ _ _ _ _ R) as [_ ->]. rewrite E2 in P. change (inject_Z 0) with 0 in P. lra.
    + split; [apply (ro_f _ _ _ _ _ R)|]. eapply rounds_inf, R.
    + destruct (ro_f _ _ _ _ _ R).
    + destruct (ro_f _ _ _ _ _ R) as (S1 & B & V). rewrite <- E2 in V.
      assert (0 <= x * 2 ^ (-53)) by (apply Qmult_le_0_compat; [lra|apply Qlt_le_weak, pow2_pos]). repeat split; auto; try (rewrite V); try lra.
  - pose proof R as R0. destruct R as [Rk RM Rn Rl Rh Rf]. destruct Rn as [|[NM L]]; [contradiction|].
    assert (MX : MIN <= inject_Z M * 2 ^ k /\ MIN <= x).
    { pose proof (pow2_le (-1022) (52 + k) ltac:(lia)). unfold MIN. split; [|lra].
      apply inj_le in NM. rewrite pow2_Z in NM by lia. rewrite pow2_plus in H. pose proof (pow2_pos k). nra. }
    pose proof (rounds_normal _ _ _ _ _ R0 L) as C. destruct f as [s'|s'| |s' m e]; cbn.
    + destruct Rf as [_ ->]. lia.
    + split; [apply Rf|]. eapply rounds_inf, R0.
    + auto.
    + destruct Rf as (S1 & B & V). unfold close in *. rewrite V. repeat split; auto; try apply C; intros; lra.
Qed.

(** * Values *)
Lemma bounded_min m e : bounded 53 1024 m e = true -> (-1074 <= e <= 971)%Z /\ (Zpos m < 2 ^ 53)%Z /\ ((-1074 < e)%Z -> (2 ^ 52 <= Zpos m)%Z).
Proof.
  rewrite bounded_iff, fe_eq. intros [C L]. pose proof (digits_bounds m) as [DL DU]. repeat split; try lia.
  - eapply Z.lt_le_trans; [exact DU|]. apply Z.pow_le_mono_r; lia.
  - intros. replace 52%Z with (Zpos (digits2_pos m) - 1)%Z by lia. auto.
Qed.
Lemma val_multiple f : isfloat f -> exists N, val f == inject_Z N * 2 ^ (-1074).
Proof.
  unfold isfloat. destruct f as [s|s| |s m e]; cbn [valid_binary val]; try (exists 0%Z; change (inject_Z 0) with 0; lra).
  intros B. apply bounded_min in B as [[B _] _]. exists ((if s then Zneg m else Zpos m) * 2 ^ (e + 1074))%Z.
  rewrite inject_Z_mult, pow2_Z by lia. rewrite <- Qmult_assoc, <- pow2_plus. replace (e + 1074 + -1074)%Z with e by lia. reflexivity.
Qed.
Lemma lt_pos m1 e1 m2 e2 : bounded 53 1024 m1 e1 = true -> bounded 53 1024 m2 e2 = true -> (e1 < e2)%Z ->
  inject_Z (Zpos m1) * 2 ^ e1 < inject_Z (Zpos m2) * 2 ^ e2.
Proof.
  intros B1 B2 L. apply bounded_min in B1 as (E1 & U1 & _). apply bounded_min in B2 as (E2 & _ & L2). specialize (L2 ltac:(lia)).
  apply inj_lt in U1. apply inj_le in L2. rewrite pow2_Z in U1, L2 by lia. apply Qlt_le_trans with (2 ^ (53 + e1)).
  - rewrite pow2_plus. pose proof (pow2_pos e1). nra.
  - apply Qle_trans with (2 ^ (52 + e2)); [apply pow2_le; lia|]. rewrite pow2_plus. pose proof (pow2_pos e2). nra.
Qed.
Lemma val_pos m e : 0 < inject_Z (Zpos m) * 2 ^ e.
Proof. pose proof (pow2_pos e). assert (0 < inject_Z (Zpos m)) by reflexivity. nra. Qed.
Lemma inj_neg m : inject_Z (Zneg m) == - inject_Z (Zpos m). Proof. reflexivity. Qed.
Definition cmp_ok (c : option comparison) (x y : Q) : Prop :=
  match c with Some Lt => x < y | Some Eq => x == y | Some Gt => y < x | None => False end.
Lemma compare_ok a b : isfloat a -> isfloat b -> finite a -> finite b -> cmp_ok (SFcompare a b) (val a) (val b).
Proof.
  unfold isfloat. destruct a as [s|s| |s m e], b as [s2|s2| |s2 m2 e2]; cbn [valid_binary finite SFcompare val cmp_ok]; try tauto; try reflexivity.
  - intros _ _ _ _. destruct s2; cbn [cmp_ok]; pose proof (val_pos m2 e2); rewrite ?inj_neg; lra.
  - intros _ _ _ _. destruct s; cbn [cmp_ok]; pose proof (val_pos m e); rewrite ?inj_neg; lra.
  - intros B1 B2 _ _. pose proof (val_pos m e). pose proof (val_pos m2 e2).
    destruct (Z.compare_spec e e2) as [E|L|L].
    + subst e2. pose proof (pow2_pos e). change (Pcompare m m2 Eq) with (Pos.compare m m2).
      destruct s, s2; cbn [cmp_ok]; rewrite ?inj_neg; try lra; destruct (Pos.compare_spec m m2) as [->|L|L]; cbn [CompOpp cmp_ok]; rewrite ?inj_neg; try lra;
        apply Pos2Z.pos_lt_pos, inj_lt, (Qmult_lt_r _ _ _ H1) in L; lra.
    + pose proof (lt_pos _ _ _ _ B1 B2 L). destruct s, s2; cbn [cmp_ok]; rewrite ?inj_neg; lra.
    + pose proof (lt_pos _ _ _ _ B2 B1 L). destruct s, s2; cbn [cmp_ok]; rewrite ?inj_neg; lra.
Qed.
Lemma ltb_ok a b : isfloat a -> isfloat b -> finite a -> finite b -> (SFltb a b = true <-> val a < val b).
Proof. intros A B F G. pose proof (compare_ok a b A B F G) as C. unfold SFltb. destruct (SFcompare a b) as [[]|]; cbn in C; split; try discriminate; auto; try lra; tauto. Qed.
Lemma eqb_ok a b : isfloat a -> isfloat b -> finite a -> finite b -> (SFeqb a b = true <-> val a == val b).
Proof. intros A B F G. pose proof (compare_ok a b A B F G) as C. unfold SFeqb. destruct (SFcompare a b) as [[]|]; cbn in C; split; try discriminate; auto; try lra; tauto. Qed.

(** * Sums and differences *)
Lemma good_eq x y s f : x == y -> good_sum x s f -> good_sum y s f.
Proof.
  intros E. destruct f; cbn; auto; unfold close; [intros [A B]; split; auto; lra|].
  intros (A & B & (C1 & C2) & D & F). rewrite E in C1, C2. repeat split; auto; intros; rewrite <- E in *; auto.
Qed.
Lemma good_abs x s f : good_sum x s f -> good_sum x false (SFabs f).
Proof. destruct f; cbn; tauto. Qed.
Lemma good_self m e : bounded 53 1024 m e = true -> good_sum (inject_Z (Zpos m) * 2 ^ e) false (S754_finite false m e).
Proof.
  intros B. pose proof (val_pos m e). assert (0 <= inject_Z (Zpos m) * 2 ^ e * 2 ^ (-53)) by (apply Qmult_le_0_compat; [lra|apply Qlt_le_weak, pow2_pos]).
  cbn. unfold close. repeat split; auto; lra.
Qed.
Lemma norm_good m ez x : (-1074 <= ez)%Z -> ~ m = 0%Z -> x == Qabs (inject_Z m * 2 ^ ez) -> good_sum x false (SFabs (binary_normalize 53 1024 m ez false)).
Proof.
  intros E N X. assert (MU : forall p, exists N, inject_Z (Zpos p) * 2 ^ ez == inject_Z N * 2 ^ (-1074)).
  { intros p. exists (Zpos p * 2 ^ (ez + 1074))%Z. rewrite inject_Z_mult, pow2_Z by lia. rewrite <- Qmult_assoc, <- pow2_plus.
    replace (ez + 1074 + -1074)%Z with ez by lia. reflexivity. }
  destruct m as [|p|p]; [congruence| |]; cbn [binary_normalize]; destruct (MU p) as [K HK]; pose proof (val_pos p ez) as P;
    eapply (good_eq (inject_Z (Zpos p) * 2 ^ ez)), good_abs.
  - rewrite X, Qabs_pos by lra. reflexivity.
  - destruct (round_pos false p ez _ (Qeq_refl _)) as (k & M & R). eapply rounds_good; eauto.
  - rewrite X, inj_neg, Qabs_neg by lra. ring.
  - destruct (round_pos true p ez _ (Qeq_refl _)) as (k & M & R). eapply rounds_good; eauto.
Qed.
Lemma align_val s m e ez : (ez <= e)%Z -> inject_Z (cond_Zopp s (Zpos (fst (shl_align m e ez)))) * 2 ^ ez == val (S754_finite s m e).
Proof.
  intros L. pose proof (shl_spec m e ez) as S. destruct (shl_align m e ez) as [mz e']. destruct S as [D V]. assert (e' = ez) as -> by lia.
  cbn [fst val]. destruct s; cbn [cond_Zopp]; [|exact V]. change (- Zpos mz)%Z with (Zneg mz). rewrite !inj_neg. lra.
Qed.
Lemma add_good s m e s2 m2 e2 : let a := S754_finite s m e in let b := S754_finite s2 m2 e2 in isfloat a -> isfloat b ->
  good_sum (Qabs (val a) + Qabs (val b)) false (fadd (SFabs a) (SFabs b)).
Proof.
  intros a b A B. apply bounded_min in A as [[A _] _]. apply bounded_min in B as [[B _] _].
  unfold a, b. cbn [SFabs fadd SFadd].
  assert (AV : forall s m e, Qabs (val (S754_finite s m e)) == val (S754_finite false m e)).
  { intros s0 m0 e0. cbn [val]. pose proof (val_pos m0 e0). destruct s0; rewrite ?inj_neg; [rewrite Qabs_neg by lra|rewrite Qabs_pos by lra]; ring. }
  pose proof (align_val false m e (Z.min e e2) ltac:(lia)) as V1. pose proof (align_val false m2 e2 (Z.min e e2) ltac:(lia)) as V2.
  cbn [fadd]. unfold fadd. cbn [SFadd]. set (n1 := cond_Zopp false (Zpos (fst (shl_align m e (Z.min e e2))))) in *. set (n2 := cond_Zopp false (Zpos (fst (shl_align m2 e2 (Z.min e e2))))) in *.
  assert (E : Qabs (val (S754_finite s m e)) + Qabs (val (S754_finite s2 m2 e2)) == inject_Z (n1 + n2) * 2 ^ Z.min e e2).
  { rewrite inject_Z_plus, Qmult_plus_distr_l, V1, V2, !AV. reflexivity. }
  assert (P : (0 < n1 + n2)%Z) by (unfold n1, n2; cbn [cond_Zopp]; lia).
  assert (F : forall f, good_sum (Qabs (val (S754_finite s m e)) + Qabs (val (S754_finite s2 m2 e2))) false (SFabs f) -> f = SFabs f \/ True) by auto.
  clear F. destruct (n1 + n2)%Z as [|p|p]; try lia. cbn [binary_normalize].
  destruct (round_pos false p (Z.min e e2) _ E) as (k & M & R).
  eapply rounds_good; [exact R| |].
  - rewrite E. instantiate (1 := (Zpos p * 2 ^ (Z.min e e2 + 1074))%Z). rewrite inject_Z_mult, pow2_Z by lia. rewrite <- Qmult_assoc, <- pow2_plus.
    replace (Z.min e e2 + 1074 + -1074)%Z with (Z.min e e2) by lia. reflexivity.
  - rewrite E. apply val_pos.
Qed.
Lemma sub_good a b : isfloat a -> isfloat b -> finite a -> finite b -> ~ val a == val b ->
  good_sum (Qabs (val a - val b)) false (SFabs (fsub a b)).
Proof.
  unfold isfloat. destruct a as [s|s| |s m e], b as [s2|s2| |s2 m2 e2]; cbn [valid_binary finite]; try tauto; intros A B _ _ N; unfold fsub.
  - exfalso. apply N. reflexivity.
  - cbn [SFsub SFabs]. eapply good_eq, (good_self m2 e2); auto. cbn [val]. pose proof (val_pos m2 e2).
    destruct s2; rewrite ?inj_neg; [rewrite Qabs_pos by lra|rewrite Qabs_neg by lra]; ring.
  - cbn [SFsub SFabs]. eapply good_eq, (good_self m e); auto. cbn [val]. pose proof (val_pos m e).
    destruct s; rewrite ?inj_neg; [rewrite Qabs_neg by lra|rewrite Qabs_pos by lra]; ring.
  - pose proof (bounded_min _ _ A) as [[A1 _] _]. pose proof (bounded_min _ _ B) as [[B1 _] _]. cbn [SFsub].
    pose proof (align_val s m e (Z.min e e2) ltac:(lia)) as V1. pose proof (align_val s2 m2 e2 (Z.min e e2) ltac:(lia)) as V2.
    set (n1 := cond_Zopp s (Zpos (fst (shl_align m e (Z.min e e2))))) in *. set (n2 := cond_Zopp s2 (Zpos (fst (shl_align m2 e2 (Z.min e e2))))) in *.
    assert (E : val (S754_finite s m e) - val (S754_finite s2 m2 e2) == inject_Z (n1 - n2) * 2 ^ Z.min e e2).
    { rewrite <- V1, <- V2. unfold Z.sub. rewrite inject_Z_plus, inject_Z_opp. ring. }
    apply norm_good; [lia| |now rewrite E].
    intros Z0. rewrite Z0 in E. change (inject_Z 0) with 0 in E. lra.
Qed.

(** * The quotient *)
Lemma new_loc m2 r q y : (0 < m2)%Z -> (0 <= r < m2)%Z -> (0 <= q)%Z -> y * inject_Z m2 == inject_Z (q * m2 + r) ->
  holds (shr_record_of_loc q (new_location m2 r)) y.
Proof.
  intros P R Q E. rewrite inject_Z_plus, inject_Z_mult in E. pose proof (inj_lt _ _ P) as P'. change (inject_Z 0) with 0 in P'.
  assert (EX : r = 0%Z -> y == inject_Z q).
  { intros ->. change (inject_Z 0) with 0 in E. apply (Qmult_inj_r _ _ (inject_Z m2)); lra. }
  assert (RQ : (0 < r)%Z -> 0 < inject_Z r) by (intros H; apply inj_lt in H; exact H).
  assert (R2 : inject_Z r < inject_Z m2) by (apply inj_lt; lia).
  assert (CMP : forall c, (0 < r)%Z -> match c with Lt => (2 * r < m2)%Z | Eq => (2 * r = m2)%Z | Gt => (m2 < 2 * r)%Z end -> holds (shr_record_of_loc q (loc_Inexact c)) y).
  { intros c R0 C. specialize (RQ R0). destruct c; (split; [exact Q|]); cbn [shr_record_of_loc shr_m shr_r shr_s half].
    - assert (C' : 2 * inject_Z r == inject_Z m2) by (rewrite <- C, inject_Z_mult; reflexivity).
      apply (Qmult_inj_r _ _ (inject_Z m2)); lra.
    - apply inj_lt in C. rewrite inject_Z_mult in C. change (inject_Z 2) with 2 in C. split; apply (Qmult_lt_r _ _ (inject_Z m2)); lra.
    - apply inj_lt in C. rewrite inject_Z_mult in C. change (inject_Z 2) with 2 in C. split; apply (Qmult_lt_r _ _ (inject_Z m2)); lra. }
  unfold new_location, new_location_even, new_location_odd.
  assert (Z0 : Zeq_bool r 0 = true -> holds (shr_record_of_loc q loc_Exact) y).
  { intros H. apply Zeq_is_eq_bool in H. split; [exact Q|]. cbn. rewrite EX by auto. lra. }
  destruct (Z.even m2) eqn:EV; destruct (Zeq_bool r 0) eqn:ZR; try exact (Z0 eq_refl);
    (assert (R0 : (0 < r)%Z) by (apply Zeq_bool_neq in ZR; lia)).
  - apply CMP; auto. destruct (Z.compare_spec (2 * r) m2); auto.
  - apply CMP; auto. assert (~ (2 * r)%Z = m2). { intros <-. rewrite Z.even_mul in EV. discriminate. }
    destruct (Z.compare_spec (2 * r + 1) m2); lia.
Qed.
Lemma div_rounds m1 e1 m2 e2 x : x * (inject_Z (Zpos m2) * 2 ^ e2) == inject_Z (Zpos m1) * 2 ^ e1 ->
  exists k M, rounds x false (SFdiv 53 1024 (S754_finite false m1 e1) (S754_finite false m2 e2)) k M.
Proof.
  intros X. cbn [SFdiv xorb]. unfold SFdiv_core_binary. cbn [Zdigits2].
  set (G := (Zpos (digits2_pos m1) + e1 - (Zpos (digits2_pos m2) + e2))%Z). set (e' := Z.min (fe G) (e1 - e2)). set (s := (e1 - e2 - e')%Z).
  assert (S0 : (0 <= s)%Z) by (unfold s, e'; lia).
  assert (SH : match s with Z0 => Zpos m1 | Zpos _ => Z.shiftl (Zpos m1) s | Zneg _ => 0%Z end = (Zpos m1 * 2 ^ s)%Z).
  { destruct s as [|p|p]; [cbn; lia| |lia]. now rewrite Z.shiftl_mul_pow2. }
  rewrite SH. clear SH. pose proof (Z_div_mod (Zpos m1 * 2 ^ s) (Zpos m2) ltac:(lia)) as DM.
  destruct (Z.div_eucl (Zpos m1 * 2 ^ s) (Zpos m2)) as [q r]. destruct DM as [DM R].
  assert (Q0 : (0 <= q)%Z). { assert (0 < 2 ^ s)%Z by (apply Z.pow_pos_nonneg; lia). nia. }
  pose proof (pow2_pos e') as PE. pose proof (pow2_nz e') as NE. pose proof (pow2_pos e2) as PE2.
  assert (Y : x / 2 ^ e' * inject_Z (Zpos m2) == inject_Z (q * Zpos m2 + r)).
  { rewrite Z.mul_comm, <- DM, inject_Z_mult, pow2_Z by lia. unfold s. pose proof (pow2_nz e2) as N2.
    apply (Qmult_inj_r _ _ (2 ^ e' * 2 ^ e2)); [nra|].
    setoid_replace (x / 2 ^ e' * inject_Z (Zpos m2) * (2 ^ e' * 2 ^ e2)) with (x * (inject_Z (Zpos m2) * 2 ^ e2)) by (field; auto).
    rewrite X, <- pow2_plus, <- Qmult_assoc, <- pow2_plus. replace (e1 - e2 - e' + (e' + e2))%Z with e1 by lia. reflexivity. }
  pose proof (new_loc (Zpos m2) r q _ ltac:(lia) R Q0 Y) as L.
  assert (FL : inject_Z q <= x / 2 ^ e' /\ x / 2 ^ e' < inject_Z q + 1).
  { pose proof (holds_floor _ _ L) as FL. destruct (new_location (Zpos m2) r) as [|[]]; exact FL. }
  assert (X' : x == x / 2 ^ e' * 2 ^ e') by (field; auto). set (y := x / 2 ^ e') in *.
  assert (XL : 2 ^ (G - 1) < x).
  { pose proof (pos_bounds m1 e1) as [A _]. pose proof (pos_bounds m2 e2) as [_ B]. cbv zeta in *. rewrite <- X in A.
    replace (G - 1)%Z with (Zpos (digits2_pos m1) + e1 - 1 - (Zpos (digits2_pos m2) + e2))%Z by (unfold G; lia).
    set (d2 := (Zpos (digits2_pos m2) + e2)%Z) in *. set (d1 := (Zpos (digits2_pos m1) + e1 - 1)%Z) in *.
    pose proof (val_pos m2 e2) as V2. pose proof (val_pos m1 e1) as V1. rewrite <- X in V1. set (v := inject_Z (Zpos m2) * 2 ^ e2) in *.
    assert (0 < x) by nra. replace d1 with (d1 - d2 + d2)%Z in A by lia. rewrite pow2_plus in A. pose proof (pow2_pos d2).
    apply (Qmult_lt_r _ _ (2 ^ d2)); nra. }
  set (k := fe (Zdigits2 q + e')). exists k.
  assert (K0 : (-1074 <= k)%Z) by (unfold k; rewrite fe_eq; lia).
  apply round_spec; auto.
  - (* e' <= k *)
    destruct q as [|p|p]; [| |lia].
    + change (inject_Z 0) with 0 in FL. assert (x < 2 ^ e') by nra. assert (G - 1 < e')%Z by (apply pow2_lt_inv; lra).
      unfold e' in *. rewrite fe_eq in *. lia.
    + pose proof (digits_bounds p) as [DL DU]. assert (LT : x < 2 ^ (Zpos (digits2_pos p) + e')).
      { assert (inject_Z (Zpos p) + 1 <= 2 ^ Zpos (digits2_pos p)) by (rewrite <- inj_S, <- pow2_Z by lia; apply inj_le; lia). rewrite pow2_plus. nra. }
      assert (G - 1 < Zpos (digits2_pos p) + e')%Z by (apply pow2_lt_inv; lra). unfold k. cbn [Zdigits2].
      rewrite fe_eq in *. unfold e' in *. rewrite fe_eq in *. lia.
  - destruct q as [|p|p]; [| |lia].
    + change (inject_Z 0) with 0 in FL. assert (x < 2 ^ e') by nra. assert (G - 1 < e')%Z by (apply pow2_lt_inv; lra).
      apply Qlt_le_trans with (2 ^ e'); auto. apply pow2_le. unfold e' in *. rewrite fe_eq in *. lia.
    + pose proof (digits_bounds p) as [DL DU]. assert (LT : x < 2 ^ (Zpos (digits2_pos p) + e')).
      { assert (inject_Z (Zpos p) + 1 <= 2 ^ Zpos (digits2_pos p)) by (rewrite <- inj_S, <- pow2_Z by lia; apply inj_le; lia). rewrite pow2_plus. nra. }
      eapply Qlt_le_trans; [exact LT|]. apply pow2_le. unfold k. cbn [Zdigits2]. rewrite fe_eq. lia.
  - destruct q as [|p|p]; [| |lia].
    + left. change (inject_Z 0) with 0 in FL. assert (x < 2 ^ e') by nra. assert (G - 1 < e')%Z by (apply pow2_lt_inv; lra).
      unfold k. cbn [Zdigits2]. unfold e' in *. rewrite !fe_eq in *. lia.
    + destruct (Z.eq_dec k (-1074)) as [|NK]; auto. right. pose proof (digits_bounds p) as [DL DU].
      apply Qle_trans with (2 ^ (Zpos (digits2_pos p) - 1 + e')).
      * apply pow2_le. unfold k in *. cbn [Zdigits2] in *. rewrite fe_eq in *. lia.
      * apply inj_le in DL. rewrite pow2_Z in DL by lia. rewrite pow2_plus. nra.
Qed.

(** * almosteq *)
Lemma rounds_val x f k M : rounds x false f k M -> isfloat f /\ (finite f -> val f == inject_Z M * 2 ^ k) /\ (~ finite f -> f = S754_infinity false).
Proof.
  intros R. destruct R as [Rk RM Rn Rl Rh Rf]. unfold isfloat. destruct f as [s|s| |s m e]; cbn [finite val valid_binary].
  - destruct Rf as [_ ->]. split; [reflexivity|split; [intros _|tauto]]. change (inject_Z 0) with 0. lra.
  - destruct Rf as [-> _]. repeat split; auto; tauto.
  - tauto.
  - destruct Rf as (-> & B & V). repeat split; auto; tauto.
Qed.
Lemma good_val x f : good_sum x false f -> isfloat f /\ (f = S754_infinity false /\ MAX <= x \/
  exists m e, f = S754_finite false m e /\ close x (val f) /\ (x < MIN -> val f == x) /\ (MIN <= x -> MIN <= val f)).
Proof.
  unfold isfloat. destruct f as [s|s| |s m e]; cbn; try tauto.
  - intros [-> H]. auto.
  - intros (-> & B & C & D & F). split; auto. right. eauto 10.
Qed.
Lemma MIN_val : val min_normal == MIN. Proof. Transparent Qpower. vm_compute. Opaque Qpower. reflexivity. Qed.
Lemma MAX_val : val max_float == MAX. Proof. reflexivity. Qed.
Lemma MIN_float : isfloat min_normal. Proof. reflexivity. Qed.
Lemma MAX_float : isfloat max_float. Proof. reflexivity. Qed.
Lemma MIN_pos : 0 < MIN. Proof. apply pow2_pos. Qed.
Lemma MIN_MAX : MIN < MAX. Proof. Transparent Qpower. vm_compute. Opaque Qpower. reflexivity. Qed.
Lemma abs_sum_pos x y : ~ x == 0 -> 0 < Qabs x + Qabs y.
Proof.
  intros N. pose proof (Qabs_nonneg x). pose proof (Qabs_nonneg y). destruct (Qlt_le_dec 0 (Qabs x + Qabs y)); auto.
  exfalso. apply N. pose proof (Qle_Qabs x). pose proof (Qle_Qabs (- x)). rewrite Qabs_opp in *. lra.
Qed.
Lemma val_zero f : finite f -> (SFeqb f zero = true <-> val f == 0).
Proof.
  destruct f as [s|s| |s m e]; cbn [finite]; try tauto; intros _.
  - split; reflexivity.
  - cbn. pose proof (val_pos m e). destruct s; split; try discriminate; rewrite ?inj_neg; lra.
Qed.
Lemma finite_form f : finite f -> ~ val f == 0 -> exists s m e, f = S754_finite s m e.
Proof. destruct f; cbn; try tauto; [intros _ H; exfalso; apply H; reflexivity|]. eauto. Qed.
(** the denominator *)
Definition denom (x y : Q) : Q := if Qlt_le_dec MAX (Qabs x + Qabs y) then MAX else Qabs x + Qabs y.
Lemma denom_ok a b : isfloat a -> isfloat b -> finite a -> finite b -> ~ val a == 0 -> ~ val b == 0 ->
  exists m e, pymin (fadd (SFabs a) (SFabs b)) max_float = S754_finite false m e /\ close (denom (val a) (val b)) (inject_Z (Zpos m) * 2 ^ e).
Proof.
  intros A B F G NA NB. destruct (finite_form a F NA) as (s & m & e & ->). destruct (finite_form b G NB) as (s2 & m2 & e2 & ->).
  pose proof (add_good s m e s2 m2 e2 A B) as GS. cbv zeta in GS. set (S := fadd _ _) in *.
  set (x := Qabs (val (S754_finite s m e)) + Qabs (val (S754_finite s2 m2 e2))) in *.
  assert (P : 0 < x) by (apply abs_sum_pos; auto). pose proof MIN_MAX as MM. pose proof MIN_pos as MP.
  assert (U : 0 < 2 ^ (-53)) by apply pow2_pos.
  assert (UM : 0 <= MAX * 2 ^ (-53)) by (apply Qmult_le_0_compat; lra).
  apply good_val in GS as [GF [[-> GM]|(m' & e' & E & C & _ & _)]]; unfold pymin.
  - change (SFltb max_float (S754_infinity false)) with true. cbv iota.
    exists 9007199254740991%positive, 971%Z. split; auto. change (inject_Z 9007199254740991 * 2 ^ 971) with MAX.
    unfold denom. fold x. destruct (Qlt_le_dec MAX x); unfold close; [lra|]. assert (x == MAX) as -> by lra. lra.
  - assert (FS : finite S) by (rewrite E; exact Logic.I). pose proof (ltb_ok max_float S MAX_float GF Logic.I FS) as LT. rewrite MAX_val in LT.
    destruct (SFltb max_float S) eqn:L.
    + exists 9007199254740991%positive, 971%Z. split; auto. change (inject_Z 9007199254740991 * 2 ^ 971) with MAX.
      pose proof (proj1 LT eq_refl) as L'. clear LT. exfalso. rewrite E in *. cbn [val] in L'. unfold isfloat in GF. cbn [valid_binary] in GF.
      apply bounded_min in GF as (E1 & E2 & _). assert (inject_Z (Zpos m') * 2 ^ e' <= MAX); [|lra].
      unfold MAX. assert (inject_Z (Zpos m') <= inject_Z (2 ^ 53 - 1)) by (apply inj_le; lia). pose proof (pow2_le e' 971 ltac:(lia)). pose proof (pow2_pos e').
      apply Qle_trans with (inject_Z (2 ^ 53 - 1) * 2 ^ e'); [apply Qmult_le_compat_r; lra|].
      rewrite !(Qmult_comm (inject_Z (2 ^ 53 - 1))). apply Qmult_le_compat_r; auto; discriminate.
    + exists m', e'. split; auto. assert (LE : val S <= MAX). { destruct (Qlt_le_dec MAX (val S)) as [H|]; auto. apply LT in H. discriminate. }
      rewrite E in *. cbn [val] in *. set (v := inject_Z (Zpos m') * 2 ^ e') in *. unfold denom. fold x. destruct (Qlt_le_dec MAX x); auto.
      unfold close in *. split; [|lra]. assert (MAX * (1 - 2 ^ (-53)) <= x * (1 - 2 ^ (-53))); [|lra].
      apply Qmult_le_compat_r; [lra|]. pose proof (pow2_lt (-53) 0 ltac:(lia)). change (2 ^ 0) with 1 in *. lra.
Qed.
Lemma almosteq_eq a b tol : isfloat a -> isfloat b -> finite a -> finite b -> val a == val b -> almosteq a b tol = Ok true.
Proof. intros A B F G E. unfold almosteq. now rewrite (proj2 (eqb_ok a b A B F G) E). Qed.
Lemma not_true b : (b = true -> False) -> b = false. Proof. destruct b; auto. intros H. destruct (H eq_refl). Qed.
Lemma u_val : 2 ^ (-53) == 1 # 9007199254740992. Proof. reflexivity. Qed.
Lemma EPS_val : EPS == 8 # 9007199254740992. Proof. reflexivity. Qed.
Lemma almosteq_large a b tol : isfloat a -> isfloat b -> isfloat tol -> finite a -> finite b -> finite tol ->
  2 ^ (-1000) <= val tol -> val tol <= 1 -> ~ val a == 0 -> ~ val b == 0 -> MIN <= Qabs (val a - val b) ->
  (relative (val a) (val b) <= val tol * (1 - EPS) -> almosteq a b tol = Ok true) /\
  (val tol * (1 + EPS) <= relative (val a) (val b) -> almosteq a b tol = Ok false).
Proof.
  intros A B T F G FT TL TU NA NB D. pose proof MIN_pos as MP.
  assert (NE : ~ val a == val b). { intros E. assert (Z : val a - val b == 0) by lra. rewrite Z in D. change (Qabs 0) with 0 in D. lra. }
  unfold almosteq.
  rewrite (not_true (SFeqb a b)) by (rewrite (eqb_ok a b); auto).
  rewrite (not_true (SFeqb a zero)) by (rewrite (val_zero a); auto).
  rewrite (not_true (SFeqb b zero)) by (rewrite (val_zero b); auto).
  cbn [orb]. cbv zeta. pose proof (sub_good a b A B F G NE) as GS. set (d := SFabs (fsub a b)) in *. set (dx := Qabs (val a - val b)) in *.
  destruct (denom_ok a b A B F G NA NB) as (m & e & PM & CD). rewrite PM. unfold relative. fold (denom (val a) (val b)). fold dx.
  set (t := denom (val a) (val b)) in *. assert (tP : 0 < t).
  { unfold t, denom. destruct (Qlt_le_dec MAX _); [pose proof MIN_MAX; lra|]. now apply abs_sum_pos. }
  assert (tM : t <= MAX) by (unfold t, denom; destruct (Qlt_le_dec MAX _); lra).
  assert (TP : 0 < val tol) by (pose proof (pow2_pos (-1000)); lra).
  assert (DT : dx / t * t == dx) by (field; lra). set (rho := dx / t) in *.
  rewrite EPS_val. unfold truediv. change (SFeqb (S754_finite false m e) zero) with false. cbv iota. cbn [obind].
  apply good_val in GS as [DF [[-> GM]|(m1 & e1 & E & C & _ & MN)]].
  - cbn [SFltb SFcompare min_normal]. cbn [SFdiv xorb].
    assert (LT : SFltb (S754_infinity false) tol = false) by (destruct tol; cbn in *; tauto).
    change (SFltb (S754_infinity false) min_normal) with false. cbv iota. rewrite LT. split; intros H; auto.
    exfalso. assert (rho < 1) by lra. nra.
  - assert (FD : finite d) by (rewrite E; exact Logic.I).
    rewrite (not_true (SFltb d min_normal)) by (rewrite (ltb_ok d min_normal DF MIN_float FD Logic.I), MIN_val; specialize (MN D); lra).
    cbv iota. rewrite E in *. cbn [val] in *. set (dv := inject_Z (Zpos m1) * 2 ^ e1) in *. set (sv := inject_Z (Zpos m) * 2 ^ e) in *.
    pose proof (val_pos m e) as SP. fold sv in SP. pose proof (val_pos m1 e1) as DP. fold dv in DP.
    assert (QD : dv / sv * sv == dv) by (field; lra). set (q := dv / sv) in *.
    assert (q0 : 0 < q) by nra. assert (r0 : 0 < rho) by nra.
    destruct (div_rounds m1 e1 m e q QD) as (k & M & R). set (f := SFdiv 53 1024 _ _) in *.
    pose proof (rounds_val _ _ _ _ R) as (IF & FV & FI).
    unfold close in C, CD. rewrite u_val in C, CD.
    assert (B1 : q * (1 - (1 # 9007199254740992)) <= rho * (1 + (1 # 9007199254740992))).
    { apply (Qmult_lt_0_le_reg_r _ _ t); auto. assert (q * (t - t * (1 # 9007199254740992)) <= q * sv) by (rewrite !(Qmult_comm q); apply Qmult_le_compat_r; lra). lra. }
    assert (B2 : rho * (1 - (1 # 9007199254740992)) <= q * (1 + (1 # 9007199254740992))).
    { apply (Qmult_lt_0_le_reg_r _ _ t); auto. assert (q * sv <= q * (t + t * (1 # 9007199254740992))) by (rewrite !(Qmult_comm q); apply Qmult_le_compat_r; lra). lra. }
    assert (DEC : finite f \/ f = S754_infinity false).
    { destruct f; cbn in *; auto; right; apply FI; auto. }
    destruct DEC as [FF|FF].
    + specialize (FV FF). pose proof (ltb_ok f tol IF T FF FT) as LT.
      assert (ERR : val f <= q + q * (1 # 9007199254740992) + val tol * (1 # 9007199254740992) /\ q - q * (1 # 9007199254740992) - val tol * (1 # 9007199254740992) <= val f).
      { destruct (ro_normal _ _ _ _ _ R) as [->|[_ L]].
        - pose proof (ro_low _ _ _ _ _ R). pose proof (ro_high _ _ _ _ _ R). rewrite FV.
          assert ((1 # 2) * 2 ^ (-1074) <= val tol * (1 # 9007199254740992)).
          { assert (Y : (1 # 2) * 2 ^ (-1074) <= 2 ^ (-1000) * (1 # 9007199254740992)).
            { rewrite <- u_val, <- pow2_plus. pose proof (pow2_le (-1074) (-1000 + -53) ltac:(lia)). pose proof (pow2_pos (-1074)). lra. }
            lra. }
          split; lra.
        - destruct (rounds_normal _ _ _ _ _ R L) as [C1 C2]. rewrite u_val in C1, C2. rewrite FV. split; lra. }
      split; intros H.
      * rewrite (proj2 LT); auto. lra.
      * rewrite (not_true (SFltb f tol)); auto. rewrite LT. lra.
    + rewrite FF in *. assert (LT : SFltb (S754_infinity false) tol = false) by (destruct tol; cbn in *; tauto). rewrite LT. split; intros H; auto.
      exfalso. apply rounds_inf in R. assert (q < 2) by lra.
      assert (2 < MAX). { Transparent Qpower. vm_compute. reflexivity. } Opaque Qpower. lra.
Qed.
Lemma mul_rounds m e x : x == inject_Z (Zpos m) * 2 ^ e * MIN -> exists k M, rounds x false (fmul (S754_finite false m e) min_normal) k M.
Proof.
  intros X. unfold fmul, min_normal. cbn [SFmul xorb]. unfold MIN in X.
  assert (PM : (Zpos (m * 4503599627370496) = Zpos m * 2 ^ 52)%Z) by lia.
  assert (E : x == inject_Z (Zpos (m * 4503599627370496)) * 2 ^ (e + -1074)).
  { rewrite X, PM, inject_Z_mult, pow2_Z by lia. rewrite <- !Qmult_assoc, <- !pow2_plus. replace (52 + (e + -1074))%Z with (e + -1022)%Z by lia. reflexivity. }
  set (p := (m * 4503599627370496)%positive) in *. pose proof (pos_bounds p (e + -1074)) as [L U]. cbv zeta in L, U. rewrite <- E in L, U.
  assert (DP : (Zpos (digits2_pos p) = Zpos (digits2_pos m) + 52)%Z).
  { apply digits_unique; [lia|]. rewrite PM. pose proof (digits_bounds m) as [DL DU].
    replace (Zpos (digits2_pos m) + 52 - 1)%Z with (Zpos (digits2_pos m) - 1 + 52)%Z by lia. rewrite !Z.pow_add_r by lia. nia. }
  set (g := (Zpos (digits2_pos p) + (e + -1074))%Z) in *. exists (fe g). apply round_spec.
  - now apply located_exact.
  - reflexivity.
  - rewrite fe_eq. lia.
  - eapply Qlt_le_trans; [exact U|]. apply pow2_le. rewrite fe_eq. lia.
  - rewrite fe_eq. destruct (Z_le_gt_dec (g - 53) (-1074)); [left; lia|right]. replace (52 + Z.max (g - 53) (-1074))%Z with (g - 1)%Z by lia. auto.
Qed.
Lemma almosteq_small a b tol : isfloat a -> isfloat b -> isfloat tol -> finite a -> finite b -> finite tol ->
  0 < val tol -> val tol <= 1 -> ~ val a == val b -> val a == 0 \/ val b == 0 \/ Qabs (val a - val b) < MIN ->
  (Qabs (val a - val b) + TINY < val tol * MIN -> almosteq a b tol = Ok true) /\
  (val tol * MIN < Qabs (val a - val b) + TINY -> almosteq a b tol = Ok false).
Proof.
  intros A B T F G FT TL TU NE Z. pose proof MIN_pos as MP. unfold almosteq.
  rewrite (not_true (SFeqb a b)) by (rewrite (eqb_ok a b); auto). cbv zeta.
  pose proof (sub_good a b A B F G NE) as GS. set (d := SFabs (fsub a b)) in *.
  assert (EN : exists N, Qabs (val a - val b) == inject_Z N * 2 ^ (-1074)).
  { destruct (val_multiple a A) as [x X], (val_multiple b B) as [y Y]. exists (Z.abs (x - y)). rewrite X, Y.
    setoid_replace (inject_Z x * 2 ^ (-1074) - inject_Z y * 2 ^ (-1074)) with (inject_Z (x - y) * 2 ^ (-1074)).
    - rewrite Qabs_Qmult, (Qabs_pos (2 ^ (-1074))) by (apply Qlt_le_weak, pow2_pos). reflexivity.
    - unfold Z.sub. rewrite inject_Z_plus, inject_Z_opp. ring. }
  destruct EN as [N EN]. set (dx := Qabs (val a - val b)) in *.
  apply good_val in GS as [DF GS].
  assert (COND : (SFeqb a zero || SFeqb b zero || SFltb d min_normal)%bool = true).
  { destruct Z as [Z|[Z|Z]].
    - now rewrite (proj2 (val_zero a F) Z).
    - rewrite (proj2 (val_zero b G) Z). now rewrite orb_true_r.
    - destruct GS as [[_ GM]|(m1 & e1 & E & _ & EX & _)]; [pose proof MIN_MAX; lra|].
      assert (FD : finite d) by (rewrite E; exact Logic.I). rewrite (proj2 (ltb_ok d min_normal DF MIN_float FD Logic.I)); [now rewrite orb_true_r|].
      rewrite MIN_val, (EX Z). auto. }
  rewrite COND. clear COND. destruct tol as [s|s| |[] m e]; try (cbn in *; tauto).
  - exfalso. revert TL. cbn [val]. lra.
  - exfalso. cbn [val] in TL. rewrite inj_neg in TL. pose proof (val_pos m e). lra.
  - cbn [val] in *. destruct (mul_rounds m e _ (Qeq_refl _)) as (k & M & R). set (f := fmul _ _) in *. set (tv := inject_Z (Zpos m) * 2 ^ e) in *.
    assert (XL : tv * MIN <= MIN) by nra.
    assert (k = (-1074)%Z) as ->.
    { destruct (ro_normal _ _ _ _ _ R) as [|[_ L]]; auto. pose proof (ro_k _ _ _ _ _ R). assert (LL : 2 ^ (52 + k) <= 2 ^ (-1022)) by (unfold MIN in *; lra).
      destruct (Z_lt_le_dec (-1022) (52 + k)) as [H1|H1]; [|lia]. apply pow2_lt in H1. lra. }
    pose proof (rounds_val _ _ _ _ R) as (IF & FV & FI).
    assert (FF : finite f).
    { destruct f as [s|s| |s m0 e0]; cbn [finite] in *; auto; exfalso.
      - apply rounds_inf in R. pose proof MIN_MAX. lra.
      - pose proof (ro_f _ _ _ _ _ R) as Q. exact Q. }
    specialize (FV FF). pose proof (ro_low _ _ _ _ _ R) as RL. pose proof (ro_high _ _ _ _ _ R) as RH. pose proof (ro_M _ _ _ _ _ R) as RM. clear R FI.
    assert (TI : TINY == (1 # 2) * 2 ^ (-1074)) by reflexivity. rewrite TI.
    assert (MI : MIN == inject_Z (2 ^ 52) * 2 ^ (-1074)). { rewrite pow2_Z by lia. rewrite <- pow2_plus. reflexivity. }
    pose proof (pow2_pos (-1074)) as UP. set (u := 2 ^ (-1074)) in *. set (x := tv * MIN) in *.
    destruct (Qlt_le_dec dx MIN) as [SM|LG].
    + destruct GS as [[_ GM]|(m1 & e1 & E & _ & EX & _)]; [pose proof MIN_MAX; lra|].
      assert (FD : finite d) by (rewrite E; exact Logic.I). pose proof (ltb_ok d f DF IF FD FF) as LT. rewrite FV, (EX SM), EN in LT.
      rewrite EN. split; intros H.
      * rewrite (proj2 LT); auto. lra.
      * rewrite (not_true (SFltb d f)); auto. rewrite LT. intros H1.
        assert (M < N + 1)%Z by (rewrite Zlt_Qlt, inj_S; nra). assert (M <= N)%Z as L by lia. apply inj_le in L. nra.
    + split; intros H; [lra|].
      assert (ML : (M <= 2 ^ 52)%Z).
      { rewrite MI in XL. assert (M < 2 ^ 52 + 1)%Z; [|lia]. rewrite Zlt_Qlt, inj_S. nra. }
      destruct GS as [[-> GM]|(m1 & e1 & E & _ & _ & MN)].
      * destruct f; cbn in *; auto; tauto.
      * assert (FD : finite d) by (rewrite E; exact Logic.I). pose proof (ltb_ok d f DF IF FD FF) as LT. rewrite FV in LT. specialize (MN LG).
        rewrite (not_true (SFltb d f)); auto. rewrite LT. intros H1. apply inj_le in ML. rewrite MI in MN. nra.
Qed.

(** * Symmetry *)
Lemma compare_swap a b : SFcompare b a = match SFcompare a b with Some c => Some (CompOpp c) | None => None end.
Proof.
  destruct a as [s|s| |s m e], b as [s2|s2| |s2 m2 e2]; cbn; try reflexivity; try (destruct s; reflexivity); try (destruct s2; reflexivity).
  - destruct s, s2; reflexivity.
  - f_equal. change (Pcompare m m2 Eq) with (Pos.compare m m2). change (Pcompare m2 m Eq) with (Pos.compare m2 m).
    rewrite (Z.compare_antisym e e2), (Pos.compare_antisym m m2). destruct s, s2; try reflexivity; destruct (e ?= e2)%Z; cbn; auto.
Qed.
Lemma eqb_swap a b : SFeqb a b = SFeqb b a.
Proof. unfold SFeqb. rewrite (compare_swap b a). now destruct (SFcompare b a) as [[]|]. Qed.
Lemma aux_sign m e l : SFabs (binary_round_aux 53 1024 true m e l) = SFabs (binary_round_aux 53 1024 false m e l).
Proof. unfold binary_round_aux. destruct (shr_fexp 53 1024 m e l) as [r k]. destruct (shr_fexp _ _ _ _ _) as [r2 k2]. destruct (shr_m r2); auto. now destruct (k2 <=? _)%Z. Qed.
Lemma normalize_opp m e : SFabs (binary_normalize 53 1024 (- m) e false) = SFabs (binary_normalize 53 1024 m e false).
Proof. destruct m as [|p|p]; cbn [Z.opp binary_normalize]; auto; unfold binary_round; destruct (shl_align _ _ _); rewrite aux_sign; reflexivity. Qed.
Lemma sub_swap a b : SFabs (fsub a b) = SFabs (fsub b a).
Proof.
  unfold fsub. destruct a as [s|s| |s m e], b as [s2|s2| |s2 m2 e2]; cbn [SFsub SFabs]; try reflexivity; try (destruct s, s2; reflexivity).
  rewrite <- normalize_opp, (Z.min_comm e2 e). do 2 f_equal. ring.
Qed.
Lemma add_swap a b : fadd (SFabs a) (SFabs b) = fadd (SFabs b) (SFabs a).
Proof.
  unfold fadd. destruct a as [s|s| |s m e], b as [s2|s2| |s2 m2 e2]; cbn [SFadd SFabs]; try reflexivity.
  rewrite (Z.min_comm e2 e). f_equal. ring.
Qed.
Lemma almosteq_sym a b tol : almosteq a b tol = almosteq b a tol.
Proof.
  unfold almosteq. rewrite (eqb_swap b a), (sub_swap b a), (add_swap b a), (orb_comm (SFeqb b zero)). reflexivity.
Qed.
(** * Special values *)
Lemma almosteq_nan b tol : almosteq S754_nan b tol = Ok false.
Proof. unfold almosteq. cbn. destruct (SFeqb b zero); reflexivity. Qed.
Lemma almosteq_same a tol : a <> S754_nan -> almosteq a a tol = Ok true.
Proof.
  intros N. unfold almosteq. assert (SFeqb a a = true) as ->; auto. unfold SFeqb.
  destruct a as [s|s| |s m e]; cbn; try reflexivity; try congruence; [now destruct s|].
  change (Pcompare m m Eq) with (Pos.compare m m). rewrite Z.compare_refl, Pos.compare_refl. now destruct s.
Qed.
Lemma almosteq_inf s b tol : isfloat b -> finite tol -> b <> S754_infinity s -> almosteq (S754_infinity s) b tol = Ok false.
Proof.
  intros B T N. unfold almosteq.
  assert (LT : forall t, finite t -> SFltb (S754_infinity false) t = false) by (intros t H; destruct t; cbn in *; tauto).
  assert (FM : fmul tol min_normal <> S754_nan -> SFltb (S754_infinity false) (fmul tol min_normal) = false).
  { intros _. destruct (fmul tol min_normal) as [[]|[]| |[]]; reflexivity. }
  destruct b as [s2|s2| |s2 m2 e2].
  - destruct s; cbn; destruct (fmul tol min_normal) as [[]|[]| |[]]; reflexivity.
  - assert (s2 = negb s) as -> by (destruct s, s2; cbn; congruence). clear -T; destruct s; destruct tol as [[]|[]| |[]]; cbn in T; try tauto; reflexivity.
  - destruct s; reflexivity.
  - clear -T; destruct s, s2; destruct tol as [[]|[]| |[]]; cbn in T; try tauto; reflexivity.
Qed.
Lemma almosteq_total a b tol : isfloat a -> isfloat b -> exists r, almosteq a b tol = Ok r.
Proof.
  intros A B. unfold almosteq. destruct (SFeqb a b); [eauto|]. cbv zeta.
  destruct (SFeqb a zero) eqn:ZA; [cbn [orb]; eauto|]. destruct (SFeqb b zero) eqn:ZB; [cbn [orb]; eauto|]. cbn [orb].
  destruct (SFltb (SFabs (fsub a b)) min_normal); [eauto|].
  assert (NZ : SFeqb (pymin (fadd (SFabs a) (SFabs b)) max_float) zero = false).
  { destruct a as [s|s| |s m e], b as [s2|s2| |s2 m2 e2]; try discriminate; try reflexivity.
    destruct (denom_ok _ _ A B Logic.I Logic.I) as (p & k & -> & _); [intros H; apply val_zero in H; [congruence|exact Logic.I]..|]. reflexivity. }
  unfold truediv. rewrite NZ. cbn [obind]. eauto.
Qed.
(** opposite signs *)
Lemma relative_opposite x y : x < 0 -> 0 < y -> 1 <= relative x y.
Proof.
  intros X Y. unfold relative. assert (E : Qabs (x - y) == Qabs x + Qabs y).
  { rewrite !Qabs_neg by lra. rewrite (Qabs_pos y) by lra. ring. }
  assert (P : 0 < Qabs x + Qabs y) by (apply abs_sum_pos; lra). rewrite E.
  assert (0 < MAX) by (pose proof MIN_MAX; pose proof MIN_pos; lra).
  destruct (Qlt_le_dec MAX _) as [L|L]; (apply Qle_shift_div_l; [lra|]); lra.
Qed.
Lemma almosteq_signs a b tol : isfloat a -> isfloat b -> isfloat tol -> finite a -> finite b -> finite tol ->
  2 ^ (-1000) <= val tol -> val tol <= 1 # 2 -> val a < 0 -> 0 < val b -> MIN <= Qabs (val a - val b) -> almosteq a b tol = Ok false.
Proof.
  intros A B T F G FT TL TU NA PB D. apply (almosteq_large a b tol); auto; try lra.
  pose proof (relative_opposite _ _ NA PB). rewrite EPS_val. lra.
Qed.
Lemma not_transitive : almosteq one_ near_ default_tol = Ok true /\ almosteq near_ near2_ default_tol = Ok true /\
  almosteq one_ near2_ default_tol = Ok false.
Proof. vm_compute. auto. Qed.
(** tolerance 0 *)
Lemma ltb_zero f s : match f with S754_finite true _ _ | S754_infinity true => False | _ => True end -> SFltb f (S754_zero s) = false.
Proof. destruct f as [|[]| |[]]; cbn; auto; tauto. Qed.
Lemma almosteq_exact a b s : isfloat a -> isfloat b -> finite a -> finite b -> (almosteq a b (S754_zero s) = Ok true <-> val a == val b).
Proof.
  intros A B F G. split; [|now apply almosteq_eq]. intros H. destruct (Qeq_dec (val a) (val b)) as [|NE]; auto. exfalso. revert H.
  unfold almosteq. rewrite (not_true (SFeqb a b)) by (rewrite (eqb_ok a b); auto). cbv zeta.
  pose proof (sub_good a b A B F G NE) as GS. set (d := SFabs (fsub a b)) in *. apply good_val in GS as [DF GS].
  assert (DP : match d with S754_finite true _ _ | S754_infinity true => False | _ => True end).
  { destruct GS as [[-> _]|(m & e & -> & _)]; exact Logic.I. }
  destruct (SFeqb a zero || SFeqb b zero || SFltb d min_normal)%bool eqn:C.
  - change (fmul (S754_zero s) min_normal) with (S754_zero (xorb s false)). rewrite ltb_zero by auto. discriminate.
  - apply orb_false_iff in C as [C _]. apply orb_false_iff in C as [ZA ZB].
    destruct (denom_ok a b A B F G) as (m & e & -> & _); [intros V; apply val_zero in V; congruence..|].
    unfold truediv. change (SFeqb (S754_finite false m e) zero) with false. cbv iota. cbn [obind].
    rewrite ltb_zero; [discriminate|]. destruct GS as [[-> _]|(m1 & e1 & -> & _)]; [exact Logic.I|].
    destruct (div_rounds m1 e1 m e (inject_Z (Zpos m1) * 2 ^ e1 / (inject_Z (Zpos m) * 2 ^ e))) as (k & M & R).
    { pose proof (val_pos m e). field. split; [apply pow2_nz|]. discriminate. }
    apply ro_f in R. destruct (SFdiv _ _ _ _) as [|[]| |[]]; try exact Logic.I; destruct R; discriminate.
Qed.

(** * Two ints *)
Lemma int_lt_ok n m e : (int_lt n (S754_finite false m e) = true <-> inject_Z n < inject_Z (Zpos m) * 2 ^ e).
Proof.
  cbn [int_lt]. destruct (Z.leb_spec 0 e) as [L|L]; rewrite Z.ltb_lt, Zlt_Qlt, inject_Z_mult, pow2_Z by lia; [reflexivity|].
  pose proof (pow2_pos e) as P. assert (Q : 2 ^ (- e) * 2 ^ e == 1). { rewrite <- pow2_plus. replace (- e + e)%Z with 0%Z by lia. reflexivity. }
  rewrite <- (Qmult_lt_r _ _ (2 ^ e) P). setoid_replace (inject_Z n * 2 ^ (- e) * 2 ^ e) with (inject_Z n) by (rewrite <- Qmult_assoc, Q; ring). reflexivity.
Qed.
Lemma MIN_1 : MIN < 1. Proof. Transparent Qpower. vm_compute. Opaque Qpower. reflexivity. Qed.
Lemma int_not_small n f : (0 < n)%Z -> isfloat f -> finite f -> val f <= MIN -> int_lt n f = false.
Proof.
  intros N F1 F2 V. pose proof MIN_1 as M1. destruct f as [s|s| |[] m e]; try reflexivity; try (cbn in F2; tauto).
  apply not_true. rewrite int_lt_ok. cbn [val] in V. assert (1 <= n)%Z as L by lia. apply inj_le in L. change (inject_Z 1) with 1 in L. lra.
Qed.
Lemma small_product tol : isfloat tol -> finite tol -> 0 <= val tol -> val tol <= 1 -> isfloat (fmul tol min_normal) /\ finite (fmul tol min_normal) /\ val (fmul tol min_normal) <= MIN.
Proof.
  intros T FT TL TU. pose proof MIN_pos as MP. destruct tol as [s|s| |[] m e]; [|destruct FT|destruct FT| |].
  - change (fmul (S754_zero s) min_normal) with (S754_zero (xorb s false)). split; [reflexivity|]. split; [exact Logic.I|]. cbn [val]. lra.
  - exfalso. cbn [val] in TL. rewrite inj_neg in TL. pose proof (val_pos m e). lra.
  - cbn [val] in *. destruct (mul_rounds m e _ (Qeq_refl _)) as (k & M & R). set (f := fmul _ _) in *. set (tv := inject_Z (Zpos m) * 2 ^ e) in *.
    assert (XL : tv * MIN <= MIN) by nra.
    assert (k = (-1074)%Z) as ->.
    { destruct (ro_normal _ _ _ _ _ R) as [|[_ L]]; auto. pose proof (ro_k _ _ _ _ _ R). assert (LL : 2 ^ (52 + k) <= 2 ^ (-1022)) by (unfold MIN in *; lra).
      destruct (Z_lt_le_dec (-1022) (52 + k)) as [H1|H1]; [|lia]. apply pow2_lt in H1. lra. }
    pose proof (rounds_val _ _ _ _ R) as (IF & FV & FI).
    assert (FF : finite f).
    { destruct f as [s|s| |s m0 e0]; cbn [finite] in *; auto; exfalso.
      - apply rounds_inf in R. pose proof MIN_MAX. lra.
      - pose proof (ro_f _ _ _ _ _ R) as Q. exact Q. }
    split; auto. split; auto. rewrite (FV FF). pose proof (ro_low _ _ _ _ _ R) as RL.
    assert (MI : MIN == inject_Z (2 ^ 52) * 2 ^ (-1074)). { rewrite pow2_Z by lia. rewrite <- pow2_plus. reflexivity. }
    pose proof (pow2_pos (-1074)) as UP. set (u := 2 ^ (-1074)) in *. rewrite MI in XL, RL |- *.
    assert (ML : (M < 2 ^ 52 + 1)%Z). { rewrite Zlt_Qlt, inj_S. nra. } assert (M <= 2 ^ 52)%Z as L by lia. apply inj_le in L. nra.
Qed.
Lemma int_zero b tol : isfloat tol -> finite tol -> 0 <= val tol -> val tol <= 1 -> b <> 0%Z ->
  almosteq_int 0 b tol = Ok false /\ almosteq_int b 0 tol = Ok false.
Proof.
  intros T FT TL TU N. destruct (small_product tol T FT TL TU) as (F1 & F2 & F3). unfold almosteq_int.
  destruct (Z.eqb_spec 0 b) as [|_]; [congruence|]. destruct (Z.eqb_spec b 0) as [|_]; [congruence|]. cbn [orb Z.eqb]. rewrite !int_not_small by (auto; lia). auto.
Qed.
Lemma MAX_int : inject_Z max_int == MAX. Proof. Transparent Qpower. vm_compute. Opaque Qpower. reflexivity. Qed.
Lemma int_relative a b tol : isfloat tol -> finite tol -> 2 ^ (-1000) <= val tol -> val tol <= 1 -> a <> 0%Z -> b <> 0%Z ->
  inject_Z (Z.abs a + Z.abs b) <= MAX ->
  let r := inject_Z (Z.abs (a - b)) / inject_Z (Z.abs a + Z.abs b) in
  (r <= val tol * (1 - EPS) -> almosteq_int a b tol = Ok true) /\ (val tol * (1 + EPS) <= r -> almosteq_int a b tol = Ok false).
Proof.
  intros T FT TL TU NA NB S r. unfold almosteq_int. assert (TP : 0 < val tol) by (pose proof (pow2_pos (-1000)); lra).
  rewrite EPS_val.
  destruct (Z.eqb_spec a b) as [->|NE].
  { split; auto. intros H. exfalso. unfold r in H. rewrite Z.sub_diag in H. change (inject_Z (Z.abs 0)) with 0 in H. unfold Qdiv in H. lra. }
  destruct (Z.eqb_spec a 0); [congruence|]. destruct (Z.eqb_spec b 0); [congruence|]. cbn [orb]. cbv zeta.
  destruct (Z.abs (a - b)) as [|d|d] eqn:D; [lia| |lia]. rewrite int_not_small by (try reflexivity; try exact Logic.I; try lia; rewrite MIN_val; lra).
  destruct (Z.ltb_spec max_int (Z.abs a + Z.abs b)) as [L|L]; [apply inj_lt in L; rewrite MAX_int in L; lra|].
  destruct (Z.abs a + Z.abs b)%Z as [|s|s] eqn:E; try lia. unfold int_div. cbn [Z.eqb].
  pose proof (inj_lt 0 (Zpos s) ltac:(lia)) as SP. change (inject_Z 0) with 0 in SP.
  assert (X : r * (inject_Z (Zpos s) * 2 ^ 0) == inject_Z (Zpos d) * 2 ^ 0). { unfold r. change (2 ^ 0) with 1. field. lra. }
  destruct (div_rounds d 0 s 0 r X) as (k & M & R). cbn [SFdiv xorb] in R.
  destruct (SFdiv_core_binary 53 1024 (Zpos d) 0 (Zpos s) 0) as [[q e] l]. cbn [obind]. set (f := binary_round_aux _ _ _ _ _ _) in *.
  pose proof (rounds_val _ _ _ _ R) as (IF & FV & FI).
  assert (R1 : r <= 1). { apply Qle_shift_div_r; [exact SP|]. rewrite Qmult_1_l. apply inj_le. lia. }
  assert (r0 : 0 < r). { apply Qlt_shift_div_l; [exact SP|]. rewrite Qmult_0_l. reflexivity. }
  assert (FF : finite f).
  { destruct f as [s'|s'| |s' m0 e0]; cbn [finite] in *; auto; exfalso.
    - apply rounds_inf in R. assert (2 < MAX). { Transparent Qpower. vm_compute. reflexivity. } Opaque Qpower. lra.
    - pose proof (ro_f _ _ _ _ _ R) as Q. exact Q. }
  specialize (FV FF). pose proof (ltb_ok f tol IF T FF FT) as LT.
  assert (ERR : val f <= r + r * (1 # 9007199254740992) + val tol * (1 # 9007199254740992) /\ r - r * (1 # 9007199254740992) - val tol * (1 # 9007199254740992) <= val f).
  { destruct (ro_normal _ _ _ _ _ R) as [->|[_ LN]].
    - pose proof (ro_low _ _ _ _ _ R). pose proof (ro_high _ _ _ _ _ R). rewrite FV.
      assert ((1 # 2) * 2 ^ (-1074) <= val tol * (1 # 9007199254740992)).
      { assert (Y : (1 # 2) * 2 ^ (-1074) <= 2 ^ (-1000) * (1 # 9007199254740992)).
        { rewrite <- u_val, <- pow2_plus. pose proof (pow2_le (-1074) (-1000 + -53) ltac:(lia)). pose proof (pow2_pos (-1074)). lra. }
        lra. }
      split; lra.
    - destruct (rounds_normal _ _ _ _ _ R LN) as [C1 C2]. rewrite u_val in C1, C2. rewrite FV. split; lra. }
  split; intros H.
  - rewrite (proj2 LT); auto. lra.
  - rewrite (not_true (SFltb f tol)); auto. rewrite LT. lra.
Qed.
Lemma to_float_inf n : (2 ^ 1024 <= n)%Z -> to_float n = Raise OverflowError.
Proof.
  intros L. unfold to_float. destruct n as [|p|p]; try lia. cbn [binary_normalize].
  destruct (round_pos false p 0 (inject_Z (Zpos p))) as (k & M & R); [change (2 ^ 0) with 1; ring|].
  apply inj_le in L. rewrite pow2_Z in L by lia.
  destruct (binary_round 53 1024 false p 0) as [s|s| |s m e]; auto; exfalso.
  - pose proof (ro_f _ _ _ _ _ R) as [_ M0]. destruct (ro_normal _ _ _ _ _ R) as [->|[H _]]; [|lia].
    pose proof (ro_high _ _ _ _ _ R) as H. rewrite M0 in H. change (inject_Z 0) with 0 in H. pose proof (pow2_lt (-1074) 1024 ltac:(lia)). lra.
  - exact (ro_f _ _ _ _ _ R).
  - pose proof (ro_f _ _ _ _ _ R) as (_ & B & V). apply bounded_min in B as (E1 & E2 & _).
    assert (VM : inject_Z (Zpos m) * 2 ^ e <= MAX).
    { unfold MAX. assert (inject_Z (Zpos m) <= inject_Z (2 ^ 53 - 1)) by (apply inj_le; lia). pose proof (pow2_le e 971 ltac:(lia)). pose proof (pow2_pos e).
      apply Qle_trans with (inject_Z (2 ^ 53 - 1) * 2 ^ e); [apply Qmult_le_compat_r; lra|].
      rewrite !(Qmult_comm (inject_Z (2 ^ 53 - 1))). apply Qmult_le_compat_r; auto; discriminate. }
    rewrite V in VM. pose proof (ro_high _ _ _ _ _ R) as H. rewrite MAX_eq in VM.
    destruct (ro_normal _ _ _ _ _ R) as [->|[H1 H2]].
    + pose proof (ro_M _ _ _ _ _ R) as RM. assert (inject_Z M * 2 ^ (-1074) <= inject_Z (2 ^ 53) * 2 ^ (-1074)).
      { apply Qmult_le_compat_r; [apply inj_le; lia|]. pose proof (pow2_pos (-1074)). lra. }
      rewrite pow2_Z, <- pow2_plus in H0 by lia. pose proof (pow2_lt (53 + -1074) 1023 ltac:(lia)). pose proof (pow2_lt (-1074) 1023 ltac:(lia)). pose proof (pow2_S 1023). change (1023 + 1)%Z with 1024%Z in *. lra.
    + apply inj_le in H1. rewrite pow2_Z in H1 by lia. pose proof (pow2_pos k) as PK.
      assert (KM : 2 ^ (52 + k) <= inject_Z M * 2 ^ k) by (rewrite pow2_plus; nra).
      assert (KU : (52 + k < 1024)%Z). { apply pow2_lt_inv. assert (2 ^ 1024 * (1 - 2 ^ (-53)) < 2 ^ 1024); [|lra]. pose proof (pow2_pos 1024). pose proof (pow2_pos (-53)). nra. }
      assert (K9 : 2 ^ k <= 2 ^ 1024 * 2 ^ (-53)) by (rewrite <- pow2_plus; apply pow2_le; lia).
      pose proof (pow2_pos 1024). pose proof (pow2_pos (-53)). assert (0 < 2 ^ 1024 * 2 ^ (-53)) by (rewrite <- pow2_plus; apply pow2_pos). lra.
Qed.
Lemma int_overflow a b tol : a <> 0%Z -> b <> 0%Z -> (2 ^ 1024 <= Z.abs (a - b))%Z -> almosteq_int a b tol = Raise OverflowError.
Proof.
  intros NA NB D. unfold almosteq_int. assert (0 < 2 ^ 1024)%Z by (apply Z.pow_pos_nonneg; lia).
  destruct (Z.eqb_spec a b) as [->|NE]; [rewrite Z.sub_diag in D; cbn [Z.abs] in D; lia|].
  destruct (Z.eqb_spec a 0); [congruence|]. destruct (Z.eqb_spec b 0); [congruence|]. cbn [orb]. cbv zeta.
  rewrite int_not_small by (try reflexivity; try exact Logic.I; try lia; rewrite MIN_val; lra).
  assert (max_int < 2 ^ 1024)%Z by reflexivity.
  destruct (Z.ltb_spec max_int (Z.abs a + Z.abs b)) as [L|L]; [|lia]. rewrite to_float_inf by auto. reflexivity.
Qed.
