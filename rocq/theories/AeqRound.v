(** Rounding in Coq.Floats.SpecFloat, related to rational numbers. *)
From Coq Require Import ZArith QArith Qabs Qpower Lia Lqa Setoid Floats.SpecFloat Zpower.
From Verif Require Import AeqSpec.
Open Scope Q_scope.

Lemma pow2_pos n : 0 < 2 ^ n. Proof. apply Qpower_0_lt. reflexivity. Qed.
Lemma pow2_nz n : ~ 2 ^ n == 0. Proof. pose proof (pow2_pos n). lra. Qed.
Lemma pow2_plus n m : 2 ^ (n + m) == 2 ^ n * 2 ^ m. Proof. apply Qpower_plus. discriminate. Qed.
Lemma pow2_S n : 2 ^ (n + 1) == 2 * 2 ^ n. Proof. rewrite pow2_plus. change (2 ^ 1) with 2. lra. Qed.
Lemma pow2_le n m : (n <= m)%Z -> 2 ^ n <= 2 ^ m. Proof. intros. apply Qpower_le_compat_l; auto. discriminate. Qed.
Lemma pow2_lt n m : (n < m)%Z -> 2 ^ n < 2 ^ m. Proof. intros. apply Qpower_lt_compat_l; auto. reflexivity. Qed.
Lemma pow2_lt_inv n m : 2 ^ n < 2 ^ m -> (n < m)%Z.
Proof. intros H. destruct (Z_lt_le_dec n m) as [|L]; auto. apply pow2_le in L. lra. Qed.
Lemma pow2_Z n : (0 <= n)%Z -> inject_Z (2 ^ n) == 2 ^ n. Proof. intros. rewrite Zpower_Qpower by auto. reflexivity. Qed.
Lemma inj_le a b : (a <= b)%Z -> inject_Z a <= inject_Z b. Proof. now rewrite <- Zle_Qle. Qed.
Lemma inj_lt a b : (a < b)%Z -> inject_Z a < inject_Z b. Proof. now rewrite <- Zlt_Qlt. Qed.
Lemma inj_S a : inject_Z (a + 1) == inject_Z a + 1. Proof. rewrite inject_Z_plus. reflexivity. Qed.

Lemma digits_bounds m : (2 ^ (Zpos (digits2_pos m) - 1) <= Zpos m < 2 ^ Zpos (digits2_pos m))%Z.
Proof.
  induction m; cbn [digits2_pos]; [| |cbn; lia]; rewrite Pos2Z.inj_succ;
    replace (Z.succ (Zpos (digits2_pos m)) - 1)%Z with (Zpos (digits2_pos m) - 1 + 1)%Z by lia;
    rewrite Z.pow_succ_r, Z.add_1_r, Z.pow_succ_r by lia; lia.
Qed.
Lemma digits_unique m d : (0 < d)%Z -> (2 ^ (d - 1) <= Zpos m < 2 ^ d)%Z -> Zpos (digits2_pos m) = d.
Proof.
  intros D [L U]. pose proof (digits_bounds m) as [L' U'].
  assert (d - 1 < Zpos (digits2_pos m))%Z by (apply (Z.pow_lt_mono_r_iff 2); lia).
  assert (Zpos (digits2_pos m) - 1 < d)%Z by (apply (Z.pow_lt_mono_r_iff 2); lia). lia.
Qed.
Lemma digits_le m d : (0 <= d)%Z -> (Zpos m < 2 ^ d)%Z -> (Zpos (digits2_pos m) <= d)%Z.
Proof.
  intros D U. pose proof (digits_bounds m) as [L' U'].
  assert (Zpos (digits2_pos m) - 1 < d)%Z by (apply (Z.pow_lt_mono_r_iff 2); lia). lia.
Qed.

(** * Shifting right *)
(** what a record says about a number [y] *)
Definition half (b : bool) : Q := if b then 1 # 2 else 0.
Definition holds (r : shr_record) (y : Q) : Prop :=
  (0 <= shr_m r)%Z /\
  if shr_s r then inject_Z (shr_m r) + half (shr_r r) < y /\ y < inject_Z (shr_m r) + half (shr_r r) + (1 # 2)
  else y == inject_Z (shr_m r) + half (shr_r r).
Lemma holds_eq r y y' : y == y' -> holds r y -> holds r y'.
Proof. intros E [P H]. split; auto. destruct (shr_s r); lra. Qed.
Lemma inj_xO p : inject_Z (Zpos p~0) == 2 * inject_Z (Zpos p). Proof. reflexivity. Qed.
Lemma inj_xI p : inject_Z (Zpos p~1) == 2 * inject_Z (Zpos p) + 1.
Proof. change (Zpos p~1) with (2 * Zpos p + 1)%Z. rewrite inject_Z_plus, inject_Z_mult. reflexivity. Qed.
Lemma shr_1_holds r y : holds r y -> holds (shr_1 r) (y / 2).
Proof.
  assert (D : y / 2 == y * (1 # 2)) by reflexivity.
  intros H. apply (holds_eq _ (y * (1 # 2))); [now symmetry|]. clear D.
  destruct r as [m r s]. destruct H as [P H]. cbn [shr_m shr_r shr_s] in *.
  destruct m as [|p|p]; [| |lia].
  - destruct r, s; (split; [cbn; lia|]); cbn -[Qlt Qplus Qmult inject_Z] in *; change (inject_Z 0) with 0 in *; change (inject_Z 1) with 1 in *; lra.
  - destruct p as [p|p|].
    + pose proof (inj_xI p) as J. destruct r, s; (split; [cbn; lia|]); cbn -[Qlt Qplus Qmult inject_Z] in *; lra.
    + pose proof (inj_xO p) as J. destruct r, s; (split; [cbn; lia|]); cbn -[Qlt Qplus Qmult inject_Z] in *; lra.
    + destruct r, s; (split; [cbn; lia|]); cbn -[Qlt Qplus Qmult inject_Z] in *; change (inject_Z 0) with 0 in *; change (inject_Z 1) with 1 in *; lra.
Qed.
Lemma iter_holds n : forall r y, holds r y -> holds (iter_pos shr_1 n r) (y / 2 ^ Zpos n).
Proof.
  induction n as [n IH|n IH|]; cbn [iter_pos]; intros r y H.
  - apply shr_1_holds, IH, IH in H. revert H. apply holds_eq.
    replace (Zpos n~1) with (1 + Zpos n + Zpos n)%Z by lia. rewrite !pow2_plus. change (2 ^ 1) with 2. pose proof (pow2_nz (Zpos n)). field. auto.
  - apply IH, IH in H. revert H. apply holds_eq.
    replace (Zpos n~0) with (Zpos n + Zpos n)%Z by lia. rewrite !pow2_plus. pose proof (pow2_nz (Zpos n)). field. auto.
  - now apply shr_1_holds.
Qed.
(** a number [x] is at [l] between [m 2^e] and [(m + 1) 2^e] *)
Definition located (m e : Z) (l : location) (x : Q) : Prop := holds (shr_record_of_loc m l) (x / 2 ^ e).
Lemma shr_holds r e n x : (0 <= n)%Z -> holds r (x / 2 ^ e) ->
  snd (shr r e n) = (e + n)%Z /\ holds (fst (shr r e n)) (x / 2 ^ (e + n)).
Proof.
  intros N H. destruct n as [|n|n]; [| |lia]; cbn [shr fst snd].
  - now rewrite Z.add_0_r.
  - split; auto. apply (iter_holds n) in H. revert H. apply holds_eq. rewrite pow2_plus.
    pose proof (pow2_nz e). pose proof (pow2_nz (Zpos n)). field. auto.
Qed.
Lemma holds_floor r y : holds r y -> inject_Z (shr_m r) <= y /\ y < inject_Z (shr_m r) + 1.
Proof. intros [P H]. unfold half in H. destruct (shr_s r), (shr_r r); lra. Qed.
Lemma round_holds r y M : holds r y -> M = round_nearest_even (shr_m r) (loc_of_shr_record r) ->
  (M = shr_m r \/ M = shr_m r + 1)%Z /\ - (1 # 2) <= y - inject_Z M /\ y - inject_Z M <= 1 # 2.
Proof.
  intros [P H] ->. unfold half in H. destruct r as [m r s]. cbn [shr_m shr_r shr_s] in *.
  destruct r, s; cbn [loc_of_shr_record round_nearest_even]; try destruct (Z.even m);
    (split; [auto|]); rewrite ?inj_S; lra.
Qed.

(** * Rounding *)
Notation rnd := (binary_round_aux 53 1024).
Notation fe := (fexp 53 1024).
Lemma fe_eq e : fe e = Z.max (e - 53) (-1074). Proof. reflexivity. Qed.

(** What rounding gives: [M 2^k] is the multiple of [2^k] next to [x]. *)
Record rounds (x : Q) (s : bool) (f : spec_float) (k M : Z) : Prop := {
  ro_k : (-1074 <= k)%Z;
  ro_M : (0 <= M <= 2 ^ 53)%Z;
  ro_normal : k = (-1074)%Z \/ (2 ^ 52 <= M)%Z /\ 2 ^ (52 + k) <= x;
  ro_low : - (1 # 2) * 2 ^ k <= x - inject_Z M * 2 ^ k;
  ro_high : x - inject_Z M * 2 ^ k <= (1 # 2) * 2 ^ k;
  ro_f : match f with
         | S754_zero s' => s' = s /\ M = 0%Z
         | S754_finite s' m e => s' = s /\ bounded 53 1024 m e = true /\ inject_Z (Zpos m) * 2 ^ e == inject_Z M * 2 ^ k
         | S754_infinity s' => s' = s /\ 2 ^ 1024 <= inject_Z M * 2 ^ k
         | S754_nan => False
         end }.
Lemma bounded_iff m e : bounded 53 1024 m e = true <-> fe (Zpos (digits2_pos m) + e) = e /\ (e <= 971)%Z.
Proof.
  unfold bounded, canonical_mantissa. rewrite Bool.andb_true_iff. rewrite <- Zeq_is_eq_bool, Z.leb_le. reflexivity.
Qed.
Lemma round_spec s m e l x k : located m e l x -> k = fe (Zdigits2 m + e) -> (e <= k)%Z -> x < 2 ^ (53 + k) ->
  (k = (-1074)%Z \/ 2 ^ (52 + k) <= x) -> exists M, rounds x s (rnd s m e l) k M.
Proof.
  intros L K EK U N. unfold binary_round_aux, shr_fexp. rewrite <- K.
  destruct (shr_holds _ e (k - e) x ltac:(lia) L) as [E1 H1].
  replace (e + (k - e))%Z with k in * by lia.
  destruct (shr (shr_record_of_loc m l) e (k - e)) as [r e']. cbn [fst snd] in *. subst e'.
  set (M := round_nearest_even (shr_m r) (loc_of_shr_record r)).
  destruct (round_holds r _ M H1 eq_refl) as (M1 & RL & RH). pose proof (holds_floor _ _ H1) as [FL FU].
  pose proof (proj1 H1) as P. exists M. pose proof (pow2_pos k) as PK. pose proof (pow2_nz k) as NK.
  assert (X : x == x / 2 ^ k * 2 ^ k) by (field; auto). set (y := x / 2 ^ k) in *.
  assert (K0 : (-1074 <= k)%Z) by (rewrite K, fe_eq; lia).
  assert (YU : y < inject_Z (2 ^ 53)).
  { rewrite pow2_Z by lia. rewrite X, pow2_plus in U. nra. }
  assert (mU : (shr_m r < 2 ^ 53)%Z) by (rewrite Zlt_Qlt; lra).
  assert (NM : k = (-1074)%Z \/ (2 ^ 52 <= M)%Z /\ 2 ^ (52 + k) <= x).
  { destruct N as [N|N]; auto. right. split; auto. assert (2 ^ 52 < shr_m r + 1)%Z; [|lia].
    rewrite Zlt_Qlt, inj_S, pow2_Z by lia. rewrite X, pow2_plus in N. nra. }
  constructor; auto; [lia|nra|nra|].
  destruct M as [|p|p] eqn:EM; [| |lia].
  - (* zero *)
    cbn [shr_record_of_loc]. change (Zdigits2 0) with 0%Z. rewrite fe_eq.
    destruct (Z.max (0 + k - 53) (-1074) - k)%Z eqn:Q; cbn [shr shr_m]; try (split; auto). lia.
  - destruct (Z_lt_le_dec (Zpos p) (2 ^ 53)) as [LT|GE].
    + cbn [Zdigits2 shr_record_of_loc]. pose proof (digits_le p 53 ltac:(lia) LT) as DL.
      assert (Q : (fe (Zpos (digits2_pos p) + k) - k <= 0)%Z) by (rewrite fe_eq; lia).
      assert (SH : shr {| shr_m := Zpos p; shr_r := false; shr_s := false |} k (fe (Zpos (digits2_pos p) + k) - k) = ({| shr_m := Zpos p; shr_r := false; shr_s := false |}, k)).
      { destruct (fe (Zpos (digits2_pos p) + k) - k)%Z; try reflexivity. lia. }
      rewrite SH. cbn [shr_m]. clear SH. destruct (Z.leb_spec k (1024 - 53)) as [L9|G9].
      * split; auto. split; [|reflexivity]. rewrite bounded_iff. split; [|lia]. rewrite fe_eq.
        destruct NM as [->|[NM _]]; [lia|]. rewrite (digits_unique p 53) by lia. lia.
      * split; auto. destruct NM as [->|[NM _]]; [lia|]. apply Qle_trans with (inject_Z (2 ^ 52) * 2 ^ k).
        -- rewrite pow2_Z by lia. rewrite <- pow2_plus. apply pow2_le. lia.
        -- apply Qmult_le_compat_r; [apply inj_le; lia|lra].
    + assert (p = 9007199254740992%positive) by lia. subst p. cbn [shr_record_of_loc].
      change (Zdigits2 9007199254740992) with 54%Z. replace (fe (54 + k) - k)%Z with 1%Z by (rewrite fe_eq; lia).
      cbn [shr iter_pos shr_1 shr_m].
      destruct (Z.leb_spec (k + 1) (1024 - 53)) as [L9|G9]; (split; [auto|]).
      * split; [rewrite bounded_iff, fe_eq; split; [change (Zpos (digits2_pos 4503599627370496)) with 53%Z; lia|lia]|].
        rewrite pow2_S. change (inject_Z 9007199254740992) with (2 * inject_Z 4503599627370496). lra.
      * change 9007199254740992%Z with (2 ^ 53)%Z. rewrite pow2_Z by lia. rewrite <- pow2_plus. apply pow2_le. lia.
Qed.
