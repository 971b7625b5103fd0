From Verif Require Import Base MathModel MathSpec.
From Coq Require Import List Bool ZArith Arith Lia Sorted Wf_nat.
Import ListNotations.
Open Scope nat_scope.

(** ** The sieve *)
Lemma prime_factor n : 2 <= n -> exists p, prime p /\ Nat.divide p n.
Proof.
  induction n as [n IH] using lt_wf_ind. intro L.
  assert (Dec : (exists d, 2 <= d < n /\ Nat.divide d n) \/ (forall d, 2 <= d < n -> ~ Nat.divide d n)).
  { assert (G : forall m, (exists d, 2 <= d < m /\ Nat.divide d n) \/ (forall d, 2 <= d < m -> ~ Nat.divide d n)).
    { induction m as [|m [H|H]].
      - right. intros; lia.
      - left. destruct H as (d & H1 & H2). exists d. split; [lia|assumption].
      - destruct (le_lt_dec 2 m) as [Lm|Lm]; [|right; intros; lia].
        destruct (Nat.eq_dec (n mod m) 0) as [Q|Q].
        + left. exists m. split; [lia|]. apply Nat.mod_divide; lia.
        + right. intros d Hd. destruct (Nat.eq_dec d m) as [->|Ne]; [|apply H; lia].
          intro D. apply Q, Nat.mod_divide; [lia|assumption]. }
    apply G. }
  destruct Dec as [(d & Hd & D)|H].
  - destruct (IH d) as (p & Pp & Dp); [lia|lia|]. exists p. split; [assumption|]. etransitivity; eassumption.
  - exists n. split; [|reflexivity]. split; [assumption|]. intros d D.
    assert (d <= n) by (apply Nat.divide_pos_le; [lia|assumption]).
    destruct d as [|[|d]]; [|now left|].
    + destruct D as [k Hk]. lia.
    + right. destruct (Nat.eq_dec (S (S d)) n); [assumption|]. exfalso. apply (H (S (S d))); [lia|assumption].
Qed.
Lemma composite_small n : 2 <= n -> ~ prime n -> exists p, prime p /\ Nat.divide p n /\ p * p <= n.
Proof.
  intros L NP.
  assert (exists d, Nat.divide d n /\ 2 <= d < n) as (d & [k Hk] & Hd).
  { destruct (prime_factor n L) as (p & Pp & Dp). exists p. split; [assumption|].
    assert (p <= n) by (apply Nat.divide_pos_le; [lia|assumption]). pose proof Pp as [P2 _].
    destruct (Nat.eq_dec p n) as [->|]; [|lia]. contradiction. }
  assert (2 <= k) by nia.
  assert (exists e, Nat.divide e n /\ 2 <= e /\ e * e <= n) as (e & De & He & Le).
  { destruct (le_lt_dec d k).
    - exists d. split; [exists k; lia|]. split; [lia|nia].
    - exists k. split; [exists d; lia|]. split; [lia|nia]. }
  destruct (prime_factor e He) as (p & Pp & Dp). exists p. split; [assumption|].
  split; [etransitivity; eassumption|]. assert (p <= e) by (apply Nat.divide_pos_le; [lia|assumption]). nia.
Qed.

Lemma sorted_has_divisor n memo : StronglySorted lt memo ->
  has_divisor n memo = true <-> exists p, In p memo /\ p * p <= n /\ n mod p = 0.
Proof.
  induction memo as [|q memo IH]; intro S; simpl.
  - split; [discriminate|intros (p & [] & _)].
  - inversion S as [|? ? S' F]; subst. rewrite Forall_forall in F.
    destruct (Nat.leb_spec (q * q) n) as [L|L].
    + destruct (Nat.eqb_spec (n mod q) 0) as [E|E].
      * split; [intros _; exists q; auto|auto].
      * rewrite (IH S'). split; [intros (p & Hp & H); exists p; auto|].
        intros (p & [<-|Hp] & H1 & H2); [congruence|exists p; auto].
    + split; [discriminate|]. intros (p & [<-|Hp] & H1 & H2); [lia|]. specialize (F p Hp). nia.
Qed.
Lemma prime_2 : prime 2.
Proof. split; [lia|]. intros d D. assert (d <= 2) by (apply Nat.divide_pos_le; [lia|assumption]).
  destruct d as [|[|[|d]]]; auto; [destruct D; lia|lia]. Qed.
Lemma prime_odd p : prime p -> p = 2 \/ Nat.divide 2 (p + 1).
Proof.
  intros [L H]. destruct (Nat.Even_or_Odd p) as [[k E]|[k E]].
  - destruct (H 2) as [|]; [exists k; lia|lia|auto].
  - right. exists (k + 1). lia.
Qed.
Lemma candidate_prime n memo : 3 <= n -> StronglySorted lt memo -> (forall p, In p memo <-> prime p /\ p < n) ->
  has_divisor n memo = false <-> prime n.
Proof.
  intros L So M. pose proof (sorted_has_divisor n memo So) as H. split.
  - intro F. destruct (le_lt_dec 2 n) as [L2|]; [|lia].
    assert (~ ~ prime n) as NN.
    { intro NP. destruct (composite_small n L2 NP) as (p & Pp & D & Q).
      assert (has_divisor n memo = true); [|congruence]. apply H. exists p.
      assert (2 <= p) by apply Pp.
      split; [apply M; split; [assumption|nia]|]. split; [assumption|]. apply Nat.mod_divide; [lia|assumption]. }
    assert (D : forall m, (forall d, 2 <= d < m -> n mod d <> 0) \/ exists d, 2 <= d < m /\ n mod d = 0).
    { induction m as [|m [A|A]].
      - left. intros; lia.
      - destruct (Nat.eq_dec (n mod m) 0) as [E|E]; [destruct (le_lt_dec 2 m)|].
        + right. exists m. lia.
        + left. intros d Hd. apply A. lia.
        + left. intros d Hd. destruct (Nat.eq_dec d m); [subst; assumption|apply A; lia].
      - right. destruct A as (d & A1 & A2). exists d. lia. }
    destruct (D n) as [A|(d & A1 & A2)].
    + split; [assumption|]. intros d Dd. assert (d <= n) by (apply Nat.divide_pos_le; [lia|assumption]).
      destruct d as [|[|d]]; [destruct Dd; lia|now left|]. right.
      destruct (Nat.eq_dec (S (S d)) n); [assumption|]. exfalso. apply (A (S (S d))); [lia|]. apply Nat.mod_divide; [lia|assumption].
    + exfalso. apply NN. intros [_ Pn]. destruct (Pn d); [apply Nat.mod_divide; lia|lia|lia].
  - intros [_ Pn]. destruct (has_divisor n memo) eqn:E; [|reflexivity]. exfalso.
    destruct (proj1 H eq_refl) as (p & Hp & Q & D). apply M in Hp as [[P2 _] Hn].
    destruct (Pn p); [apply Nat.mod_divide; lia|lia|lia].
Qed.
Lemma fastprimes_inv m : StronglySorted lt (fastprimes m) /\
  forall p, In p (fastprimes m) <-> prime p /\ p < 2 * m + 3.
Proof.
  induction m as [|m [So M]].
  - split; [repeat constructor|]. intro p. cbn [fastprimes]. split.
    + intros [<-|[]]. split; [apply prime_2|lia].
    + intros [[L _] H]. left. lia.
  - cbn [fastprimes]. set (n := 2 * S m + 1).
    assert (C : has_divisor n (fastprimes m) = false <-> prime n).
    { apply candidate_prime; [lia|assumption|]. intro p. rewrite M. replace n with (2 * m + 3) by lia. reflexivity. }
    assert (EV : forall p, prime p -> p < 2 * S m + 3 -> p <> n -> p < 2 * m + 3).
    { intros p P Lp Np. destruct (prime_odd p P) as [->|[k Hk]]; lia. }
    destruct (has_divisor n (fastprimes m)) eqn:E.
    + split; [assumption|]. intro p. rewrite M. split; [intros [P L]; split; [assumption|lia]|].
      intros [P L]. split; [assumption|]. apply EV; auto. intros ->. apply C in P. discriminate.
    + assert (Pn : prime n) by now apply C.
      split.
      * clear - So M. assert (F : forall p, In p (fastprimes m) -> p < n) by (intros p Hp; apply M in Hp; lia). clear M.
        induction So as [|q l S' IH Fq]; simpl; [repeat constructor|]. constructor; [apply IH; intros; apply F; simpl; auto|].
        rewrite Forall_forall in *. intros x Hx. apply in_app_or in Hx as [Hx|[<-|[]]]; [auto|apply F; simpl; auto].
      * intro p. rewrite in_app_iff, M. split.
        -- intros [[P L]|[<-|[]]]; (split; [assumption|lia]).
        -- intros [P L]. destruct (Nat.eq_dec p n); [right; left; auto|]. left. split; [assumption|]. now apply EV.
Qed.
(** There is always a next prime. *)
Lemma fact_divides d n : 1 <= d <= n -> Nat.divide d (fact n).
Proof.
  induction n as [|n IH]; intro H; [lia|]. cbn [fact]. destruct (Nat.eq_dec d (S n)) as [->|Ne].
  - exists (fact n). simpl. ring.
  - destruct IH as [k Hk]; [lia|]. exists (k + n * k). simpl. rewrite Hk. ring.
Qed.
Lemma primes_unbounded n : exists p, prime p /\ n < p.
Proof.
  destruct (prime_factor (fact n + 1)) as (p & P & D). { pose proof (lt_O_fact n). lia. }
  exists p. split; [assumption|]. destruct (le_lt_dec p n) as [L|]; [|assumption]. exfalso.
  destruct P as [P2 _]. assert (D' : Nat.divide p 1).
  { apply (Nat.divide_add_cancel_r p (fact n) 1); [apply fact_divides; lia|assumption]. }
  apply Nat.divide_1_r in D'. lia.
Qed.
Lemma fastprimes_prefix m : forall m', m <= m' -> exists r, fastprimes m' = fastprimes m ++ r.
Proof.
  intros m' L. induction L as [|m' L [r IH]]; [exists []; now rewrite app_nil_r|].
  cbn [fastprimes]. destruct (has_divisor _ _); [exists r; assumption|].
  rewrite IH. rewrite <- app_assoc. eauto.
Qed.
Lemma fastprimes_long k : exists m, k <= length (fastprimes m).
Proof.
  induction k as [|k [m IH]]; [exists 0; lia|].
  destruct (primes_unbounded (2 * m + 3)) as (p & P & L). exists p.
  destruct (fastprimes_prefix m p) as [r E]; [lia|]. rewrite E, app_length. destruct r as [|x r]; [|simpl; lia].
  exfalso. rewrite app_nil_r in E. destruct (fastprimes_inv p) as [_ M]. destruct (fastprimes_inv m) as [_ M'].
  assert (In p (fastprimes p)) by (apply M; split; [assumption|lia]). rewrite E in H. apply M' in H. lia.
Qed.

(** ** A prime between sqrt n and n *)
Fixpoint binom (n k : nat) : nat :=
  match n, k with
  | _, O => 1
  | O, S _ => 0
  | S n', S k' => binom n' k' + binom n' (S k')
  end.
Lemma binom_0 n : binom n 0 = 1. Proof. now destruct n. Qed.
Lemma binom_SS n k : binom (S n) (S k) = binom n k + binom n (S k). Proof. reflexivity. Qed.
Lemma absorb n : forall k, S k * binom (S n) (S k) = S n * binom n k.
Proof.
  induction n as [|n IH]; intros k.
  - destruct k as [|k]; [reflexivity|]. rewrite binom_SS. simpl. destruct k; simpl; lia.
  - rewrite binom_SS, Nat.mul_add_distr_l, IH. destruct k as [|k].
    + rewrite !binom_0. lia.
    + specialize (IH k). rewrite (binom_SS n k) in *.
      replace (S (S k) * (binom n k + binom n (S k)))
        with (S k * (binom n k + binom n (S k)) + (binom n k + binom n (S k))) by ring.
      rewrite IH. ring.
Qed.
Lemma absorb2 n k : k <= n -> S k * binom n (S k) = (n - k) * binom n k.
Proof.
  intro L. pose proof (absorb n k) as A. rewrite binom_SS, Nat.mul_add_distr_l in A.
  rewrite Nat.mul_sub_distr_r. replace (S n * binom n k) with (n * binom n k + binom n k) in A by ring.
  replace (S k * binom n k) with (k * binom n k + binom n k) in A by ring. lia.
Qed.
Lemma harmonic k : forall n (D : Z), k <= n -> (forall i, 1 <= i <= S n -> (Z.of_nat i | D)%Z) ->
  (Z.of_nat (S n * binom n k) | D)%Z.
Proof.
  induction k as [|k IH]; intros n D L H.
  - rewrite binom_0, Nat.mul_1_r. apply H. lia.
  - destruct n as [|n]; [lia|].
    destruct (IH n D) as [q1 H1]; [lia|intros; apply H; lia|].
    destruct (IH (S n) D) as [q2 H2]; [lia|assumption|].
    exists (q1 - q2)%Z.
    pose proof (absorb n k) as A. pose proof (absorb2 (S n) k ltac:(lia)) as A2.
    apply (f_equal Z.of_nat) in A, A2.
    assert (Z.of_nat (S n - k) = Z.of_nat (S n) - Z.of_nat k)%Z as Sub by lia.
    rewrite !Nat2Z.inj_mul in *. rewrite Sub in A2. clear Sub.
    assert (K : (0 < Z.of_nat (S k))%Z) by lia.
    apply (Z.mul_reg_l _ _ (Z.of_nat (S k))); [lia|].
    set (B := Z.of_nat (binom (S n) (S k))) in *. set (C1 := Z.of_nat (binom n k)) in *.
    set (C2 := Z.of_nat (binom (S n) k)) in *.
    replace (Z.of_nat (S (S n))) with (Z.of_nat (S n) + 1)%Z in * by lia.
    set (N := Z.of_nat (S n)) in *. replace (Z.of_nat (S k)) with (Z.of_nat k + 1)%Z in * by lia.
    set (κ := Z.of_nat k) in *.
    assert (E1 : (D = q1 * ((κ + 1) * B))%Z) by (rewrite A; exact H1).
    assert (E2 : (D * (N - κ) = q2 * (N + 1) * ((κ + 1) * B))%Z) by (rewrite A2, H2; ring).
    replace ((κ + 1) * ((q1 - q2) * ((N + 1) * B)))%Z
      with ((N + 1) * (q1 * ((κ + 1) * B)) - q2 * (N + 1) * ((κ + 1) * B))%Z by ring.
    rewrite <- E1, <- E2. ring.
Qed.
Lemma central m : 4 ^ m <= S (2 * m) * binom (2 * m) m.
Proof.
  induction m as [|m IH]; [simpl; lia|].
  pose proof (absorb (2 * m + 1) m) as A1. pose proof (absorb (2 * m) m) as A2.
  pose proof (absorb2 (2 * m + 1) m ltac:(lia)) as A3.
  replace (2 * S m) with (S (2 * m + 1)) by lia. replace (S (2 * m)) with (2 * m + 1) in * by lia.
  replace (2 * m + 1 - m) with (S m) in A3 by lia. rewrite A2 in A3.
  set (b := binom (2 * m) m) in *. set (c := binom (2 * m + 1) m) in *. set (d := binom (S (2 * m + 1)) (S m)) in *.
  assert (S m * d = 2 * (S m * c)) by (rewrite A1; lia). rewrite <- A3 in H.
  cbn [Nat.pow]. clear - IH H. set (x := 4 ^ m) in *. nia.
Qed.

(** largest power of p not above n *)
Fixpoint ppow (p n fuel : nat) : nat :=
  match fuel with
  | O => 1
  | S f => let q := ppow p n f in if p * q <=? n then p * q else q
  end.
Lemma ppow_le p n fuel : 1 <= n -> ppow p n fuel <= n.
Proof. intro L. induction fuel as [|f IH]; simpl; [assumption|]. destruct (Nat.leb_spec (p * ppow p n f) n); lia. Qed.
Lemma ppow_power p n fuel : exists e, ppow p n fuel = p ^ e.
Proof. induction fuel as [|f [e IH]]; simpl; [exists 0; reflexivity|]. destruct (_ <=? _); [exists (S e); simpl; now rewrite IH|eauto]. Qed.
Lemma ppow_max p n : 2 <= p -> forall e, p ^ e <= n -> Nat.divide (p ^ e) (ppow p n n).
Proof.
  intros P e L.
  assert (G : forall f e, e <= f -> p ^ e <= n -> Nat.divide (p ^ e) (ppow p n f)).
  { induction f as [|f IH]; intros d Ld Lp.
    - assert (d = 0) by lia. subst. exists 1. reflexivity.
    - simpl. destruct (Nat.eq_dec d (S f)) as [->|Ne].
      + assert (Lf : p ^ f <= n) by (simpl in Lp; nia). specialize (IH f (le_n _) Lf).
        assert (E : ppow p n f = p ^ f).
        { destruct (ppow_power p n f) as [e' E]. destruct IH as [k Hk].
          assert (H : forall f, ppow p n f <= p ^ f).
          { clear - P. induction f as [|f IH]; [simpl; lia|]. simpl.
            assert (p * ppow p n f <= p * p ^ f) by nia. assert (1 <= p ^ f) by (apply Nat.neq_0_lt_0, Nat.pow_nonzero; lia).
            destruct (_ <=? _); nia. }
          specialize (H f). assert (1 <= p ^ f) by (apply Nat.neq_0_lt_0, Nat.pow_nonzero; lia).
          assert (k <> 0) by (intros ->; rewrite E in Hk; assert (p ^ e' <> 0) by (apply Nat.pow_nonzero; lia); lia).
          nia. }
        rewrite E. simpl in Lp. destruct (Nat.leb_spec (p * p ^ f) n); [reflexivity|lia].
      + assert (D : Nat.divide (p ^ d) (ppow p n f)) by (apply IH; [lia|assumption]).
        destruct (_ <=? _); [apply Nat.divide_mul_r|]; assumption. }
  apply G; [|assumption]. assert (e < p ^ e) by (apply Nat.pow_gt_lin_r; lia). lia.
Qed.
(** A number all of whose prime power divisors divide [D] divides [D]. *)
Lemma prime_coprime p m : prime p -> ~ Nat.divide p m -> Nat.gcd p m = 1.
Proof.
  intros [P2 P] N. destruct (P (Nat.gcd p m) (Nat.gcd_divide_l p m)) as [E|E]; [assumption|].
  exfalso. apply N. rewrite <- E. apply Nat.gcd_divide_r.
Qed.
Lemma coprime_pow p m e : Nat.gcd p m = 1 -> Nat.gcd (p ^ e) m = 1.
Proof.
  intro H. induction e as [|e IH]; [reflexivity|]. simpl.
  assert (G : Nat.divide (Nat.gcd (p * p ^ e) m) 1); [|now apply Nat.divide_1_r in G].
  set (g := Nat.gcd (p * p ^ e) m). assert (Dm : Nat.divide g m) by apply Nat.gcd_divide_r.
  assert (Dp : Nat.divide g (p * p ^ e)) by apply Nat.gcd_divide_l.
  assert (Gp : Nat.gcd g p = 1).
  { assert (Q : Nat.divide (Nat.gcd g p) (Nat.gcd p m)).
    { apply Nat.gcd_greatest; [apply Nat.gcd_divide_r|]. etransitivity; [apply Nat.gcd_divide_l|assumption]. }
    rewrite H in Q. now apply Nat.divide_1_r in Q. }
  apply Nat.gauss in Dp; [|assumption].
  rewrite <- IH. apply Nat.gcd_greatest; assumption.
Qed.
Lemma divide_by_prime_powers D : forall i, 1 <= i ->
  (forall p e, prime p -> Nat.divide (p ^ e) i -> Nat.divide (p ^ e) D) -> Nat.divide i D.
Proof.
  induction i as [i IH] using lt_wf_ind. intros L H.
  destruct (Nat.eq_dec i 1) as [->|N1]; [apply Nat.divide_1_l|].
  destruct (prime_factor i) as (p & P & Dp); [lia|]. pose proof P as [P2 _].
  assert (exists e j, i = p ^ e * j /\ ~ Nat.divide p j /\ 1 <= e) as (e & j & E & Nj & Le).
  { clear IH H. revert L N1 Dp. induction i as [i IH] using lt_wf_ind. intros L N1 [j Hj].
    destruct (Nat.eq_dec (j mod p) 0) as [Q|Q].
    - destruct (IH j) as (e & j' & E & Nj & Le); [nia|nia| |apply Nat.mod_divide; lia|].
      { intros ->. rewrite Nat.mod_1_l in Q; lia. }
      exists (S e), j'. split; [simpl; rewrite Hj, E; ring|]. split; [assumption|lia].
    - exists 1, j. split; [rewrite Hj; simpl; ring|]. split; [|lia]. intro D'. apply Q, Nat.mod_divide; [lia|assumption]. }
  assert (Pe : 2 <= p ^ e) by (destruct e; [lia|]; simpl; assert (p ^ e <> 0) by (apply Nat.pow_nonzero; lia); nia).
  assert (1 <= j) by nia.
  assert (Dj : Nat.divide j D).
  { apply IH; [nia|assumption|]. intros q f Pq Dq. apply H; [assumption|]. rewrite E. now apply Nat.divide_mul_r. }
  assert (De : Nat.divide (p ^ e) D) by (apply H; [assumption|]; exists j; rewrite E; ring).
  destruct Dj as [k Hk]. rewrite Hk in De. rewrite Nat.mul_comm in De.
  apply Nat.gauss in De; [|apply coprime_pow, prime_coprime; assumption].
  destruct De as [k' Hk']. exists k'. rewrite Hk, Hk', E. ring.
Qed.
Lemma fold_mul_divides (f : nat -> nat) x l : In x l -> Nat.divide (f x) (fold_right (fun p acc => f p * acc) 1 l).
Proof.
  induction l as [|y l IH]; intros []; simpl; subst.
  - apply Nat.divide_mul_l. reflexivity.
  - apply Nat.divide_mul_r. auto.
Qed.
Lemma fold_mul_le (f : nat -> nat) n l : (forall x, f x <= n) -> fold_right (fun p acc => f p * acc) 1 l <= n ^ length l.
Proof. intro H. induction l as [|y l IH]; simpl; [lia|]. specialize (H y). nia. Qed.
Lemma fold_mul_pos (f : nat -> nat) l : (forall x, In x l -> 1 <= f x) -> 1 <= fold_right (fun p acc => f p * acc) 1 l.
Proof. induction l as [|y l IH]; intro H; simpl; [lia|]. assert (1 <= f y) by (apply H; now left).
  assert (1 <= fold_right (fun p acc => f p * acc) 1 l) by (apply IH; intros; apply H; now right). nia. Qed.

(** 2^(2m) <= (2m+1)^(number of primes up to 2m+1) *)
Lemma chebyshev m l : (forall p, prime p -> p <= 2 * m + 1 -> In p l) -> (forall p, In p l -> 2 <= p) ->
  2 ^ (2 * m) <= (2 * m + 1) ^ length l.
Proof.
  intros Hl L2. set (N := 2 * m + 1). set (D := fold_right (fun p acc => ppow p N N * acc) 1 l).
  assert (DP : 1 <= D).
  { apply fold_mul_pos. intros x Hx. specialize (L2 x Hx). destruct (ppow_power x N N) as [e ->].
    assert (x ^ e <> 0) by (apply Nat.pow_nonzero; lia). lia. }
  assert (DL : D <= N ^ length l) by (apply fold_mul_le; intro; apply ppow_le; lia).
  assert (M : forall i, 1 <= i <= N -> Nat.divide i D).
  { intros i Hi. apply divide_by_prime_powers; [lia|]. intros p e P De.
    destruct e as [|e]; [apply Nat.divide_1_l|].
    assert (Lp : p ^ S e <= N) by (transitivity i; [apply Nat.divide_pos_le; [lia|assumption]|lia]).
    pose proof P as [P2 _].
    etransitivity; [apply (ppow_max p N P2 (S e) Lp)|]. unfold D.
    apply (fold_mul_divides (fun p => ppow p N N)). apply Hl; [assumption|].
    simpl in Lp. assert (p ^ e <> 0) by (apply Nat.pow_nonzero; lia). nia. }
  assert (Hh : (Z.of_nat (S (2 * m) * binom (2 * m) m) | Z.of_nat D)%Z).
  { apply harmonic; [lia|]. intros i Hi. destruct (M i) as [k Hk]; [lia|]. exists (Z.of_nat k). lia. }
  apply Z.divide_pos_le in Hh; [|lia]. pose proof (central m) as C.
  replace (2 ^ (2 * m)) with (4 ^ m) by (rewrite Nat.pow_mul_r; reflexivity). lia.
Qed.
Lemma pow_big s : 7 <= s -> (s + 1) * (s + 1) <= 2 ^ (s - 1).
Proof.
  intro L. replace (s - 1) with ((s - 7) + 6) by lia. replace s with ((s - 7) + 7) at 1 2 by lia. generalize (s - 7). clear.
  induction n as [|n IH]; [simpl; lia|]. simpl in *. nia.
Qed.
Lemma sorted_nodup l : StronglySorted lt l -> NoDup l.
Proof.
  induction 1 as [|x l S IH F]; constructor; [|assumption]. intro H. rewrite Forall_forall in F. specialize (F x H). lia.
Qed.
Lemma prime_357 : prime 3 /\ prime 5 /\ prime 7.
Proof. destruct (fastprimes_inv 3) as [_ M]. repeat split; apply M; simpl; tauto. Qed.
Lemma sqrt_prime n : 3 <= n -> prime n -> exists p, prime p /\ p < n /\ n < p * p.
Proof.
  intros L Pn. destruct prime_357 as (P3 & P5 & P7).
  destruct (le_lt_dec n 3) as [L3|L3]. { exists 2. split; [apply prime_2|lia]. }
  destruct (le_lt_dec n 8) as [L8|L8]. { exists 3. split; [assumption|lia]. }
  destruct (le_lt_dec n 24) as [L24|L24]. { exists 5. split; [assumption|lia]. }
  destruct (le_lt_dec n 48) as [L48|L48]. { exists 7. split; [assumption|lia]. }
  destruct (prime_odd n Pn) as [->|[k Hk]]; [lia|]. set (m := k - 1). assert (En : n = 2 * m + 1) by lia.
  destruct (fastprimes_inv m) as [So M]. set (memo := fastprimes m) in *.
  destruct (existsb (fun p => (p <? n) && (n <? p * p)) memo) eqn:E.
  - apply existsb_exists in E as (p & Hp & Q). apply andb_true_iff in Q as [Q1 Q2]. apply Nat.ltb_lt in Q1, Q2.
    exists p. split; [now apply M|auto].
  - exfalso. set (s := Nat.sqrt n). pose proof (Nat.sqrt_spec n ltac:(lia)) as [S1 S2]. fold s in S1, S2.
    assert (Ls : 7 <= s) by nia.
    set (l := n :: filter (fun p => p * p <=? n) memo).
    assert (In_l : forall p, prime p -> p <= 2 * m + 1 -> In p l).
    { intros p P Lp. destruct (Nat.eq_dec p n) as [->|Np]; [now left|]. right. apply filter_In.
      assert (Ip : In p memo) by (apply M; split; [assumption|lia]). split; [assumption|].
      apply Nat.leb_le. destruct (le_lt_dec (p * p) n); [assumption|]. exfalso.
      assert (existsb (fun p => (p <? n) && (n <? p * p)) memo = true); [|congruence].
      apply existsb_exists. exists p. split; [assumption|]. apply andb_true_iff. split; apply Nat.ltb_lt; lia. }
    assert (L2 : forall p, In p l -> 2 <= p).
    { intros p [<-|Hp]; [apply Pn|]. apply filter_In in Hp as [Hp _]. apply M in Hp as [[? _] _]. assumption. }
    assert (Len : length l <= s).
    { simpl. apply Nat.le_succ_l. apply Nat.le_lt_trans with (length (seq 2 (s - 1))); [|rewrite seq_length; lia].
      apply NoDup_incl_length; [apply NoDup_filter, sorted_nodup, So|].
      intros p Hp. apply filter_In in Hp as [Hp Q]. apply Nat.leb_le in Q. apply M in Hp as [[? _] _].
      apply in_seq. split; [assumption|]. nia. }
    pose proof (chebyshev m l In_l L2) as C. rewrite <- En in C.
    assert (n ^ length l <= n ^ s) by (apply Nat.pow_le_mono_r; lia).
    assert (n ^ s < ((s + 1) * (s + 1)) ^ s) by (apply Nat.pow_lt_mono_l; lia).
    assert (((s + 1) * (s + 1)) ^ s <= (2 ^ (s - 1)) ^ s) by (apply Nat.pow_le_mono_l, pow_big, Ls).
    rewrite <- Nat.pow_mul_r in *.
    assert (2 ^ ((s - 1) * s) <= 2 ^ (2 * m)) by (apply Nat.pow_le_mono_r; nia). lia.
Qed.
Lemma has_divisor_self_ok n memo :
  (exists p, In p memo /\ n < p * p) \/ has_divisor n memo = true ->
  has_divisor_self n memo = Ok (has_divisor n memo).
Proof.
  induction memo as [|q memo IH]; simpl; [intros [(p & [] & _)|[=]]|].
  intro H. destruct (Nat.leb_spec (q * q) n); [|reflexivity]. destruct (n mod q =? 0); [reflexivity|].
  apply IH. destruct H as [(p & [<-|Hp] & Q)|H]; [lia|left; eauto|now right].
Qed.
Lemma memprimes_eq m : memprimes m = Ok (fastprimes m).
Proof.
  induction m as [|m IH]; [reflexivity|]. cbn [memprimes]. rewrite IH. cbn [obind].
  set (n := 2 * S m + 1). destruct (fastprimes_inv m) as [So M].
  rewrite has_divisor_self_ok.
  - cbn [obind fastprimes]. fold n. now destruct (has_divisor n (fastprimes m)).
  - destruct (has_divisor n (fastprimes m)) eqn:E; [now right|]. left.
    assert (Pn : prime n). { apply (candidate_prime n (fastprimes m)); [lia|assumption| |assumption].
      intro p. rewrite M. replace n with (2 * m + 3) by lia. reflexivity. }
    destruct (sqrt_prime n) as (p & P & L & Q); [lia|assumption|]. exists p. split; [|assumption].
    apply M. split; [assumption|lia].
Qed.
(** Both versions, as the theorems state them. *)
Lemma primes_spec m : StronglySorted lt (fastprimes m) /\
  (forall p, In p (fastprimes m) <-> prime p /\ p <= 2 * m + 2) /\ memprimes m = Ok (fastprimes m).
Proof.
  destruct (fastprimes_inv m) as [So M]. split; [assumption|]. split; [|apply memprimes_eq].
  intro p. rewrite M. split; intros [P L]; (split; [assumption|lia]).
Qed.
Lemma primes_yield_all k : exists m, k <= length (fastprimes m) /\
  forall m', m <= m' -> firstn k (fastprimes m') = firstn k (fastprimes m).
Proof.
  destruct (fastprimes_long k) as [m L]. exists m. split; [assumption|]. intros m' Lm.
  destruct (fastprimes_prefix m m' Lm) as [r ->]. rewrite firstn_app.
  replace (k - length (fastprimes m)) with 0 by lia. now rewrite app_nil_r.
Qed.
