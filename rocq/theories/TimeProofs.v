(** Proofs for C65, C73. *)
From Coq Require Import String ZArith QArith Qround List Lqa Lia.
From Verif Require Import Base TimeModel TimeSpec.
Import ListNotations.
Open Scope Z_scope.
Open Scope list_scope.

Lemma floor_div s n : 0 < n -> (inject_Z (Qfloor (s / inject_Z n) * n) <= s /\ s < inject_Z (Qfloor (s / inject_Z n) * n) + inject_Z n)%Q.
Proof.
  intros Hn. assert (P : (0 < inject_Z n)%Q) by (change 0%Q with (inject_Z 0); now rewrite <- Zlt_Qlt).
  pose proof (Qfloor_le (s / inject_Z n)) as A. pose proof (Qlt_floor (s / inject_Z n)) as B.
  set (k := Qfloor (s / inject_Z n)) in *. rewrite inject_Z_mult. rewrite inject_Z_plus in B.
  assert (E : (s == s / inject_Z n * inject_Z n)%Q) by (field; lra).
  set (x := (s / inject_Z n)%Q) in *. change (inject_Z 1) with 1%Q in B. split.
  - rewrite E. apply Qmult_le_compat_r; lra.
  - rewrite E. assert (C : (x * inject_Z n < (inject_Z k + 1) * inject_Z n)%Q) by (apply Qmult_lt_compat_r; lra). lra.
Qed.
Lemma floor_mult_range s n k : 0 < n -> 0 < k -> (0 <= s)%Q -> (s < inject_Z (k * n))%Q -> 0 <= Qfloor (s / inject_Z n) < k.
Proof.
  intros Hn Hk H0 H1. destruct (floor_div s n Hn) as [A B]. set (f := Qfloor (s / inject_Z n)) in *.
  assert (L1 : (inject_Z (f * n) < inject_Z (k * n))%Q) by lra. rewrite <- Zlt_Qlt in L1.
  assert (L2 : (inject_Z 0 < inject_Z (f * n) + inject_Z n)%Q) by (change (inject_Z 0) with 0%Q; lra).
  rewrite <- inject_Z_plus in L2. rewrite <- Zlt_Qlt in L2. nia.
Qed.

Lemma human0 s : let '(d, h, m, r) := seconds_to_human s in
  (s == inject_Z (86400 * d + 3600 * h + 60 * m) + r)%Q /\ 0 <= h < 24 /\ 0 <= m < 60 /\ (0 <= r < 60)%Q.
Proof.
  unfold seconds_to_human. cbv zeta.
  change 86400%Q with (inject_Z 86400). change 3600%Q with (inject_Z 3600).
  destruct (floor_div s 86400 ltac:(lia)) as [A1 A2]. set (d := Qfloor (s / inject_Z 86400)) in *.
  set (s1 := (s - inject_Z (d * 86400))%Q) in *.
  assert (S1 : (0 <= s1 < inject_Z 86400)%Q) by (unfold s1; lra).
  destruct (floor_div s1 3600 ltac:(lia)) as [B1 B2].
  pose proof (floor_mult_range s1 3600 24 ltac:(lia) ltac:(lia) (proj1 S1) (proj2 S1)) as Hh.
  set (h := Qfloor (s1 / inject_Z 3600)) in *. set (s2 := (s1 - inject_Z (h * 3600))%Q) in *.
  assert (S2 : (0 <= s2 < inject_Z 3600)%Q) by (unfold s2; lra).
  change 60%Q with (inject_Z 60).
  destruct (floor_div s2 60 ltac:(lia)) as [C1 C2].
  pose proof (floor_mult_range s2 60 60 ltac:(lia) ltac:(lia) (proj1 S2) (proj2 S2)) as Hm.
  set (m := Qfloor (s2 / inject_Z 60)) in *. set (s3 := (s2 - inject_Z (m * 60))%Q) in *.
  split; [|split; [exact Hh|split; [exact Hm|]]].
  - unfold s3, s2, s1. rewrite !inject_Z_plus, !inject_Z_mult. ring.
  - unfold s3. lra.
Qed.
Lemma human s d h m r : seconds_to_human s = (d, h, m, r) ->
  (s == inject_Z (86400 * d + 3600 * h + 60 * m) + r)%Q /\ 0 <= h < 24 /\ 0 <= m < 60 /\ (0 <= r < 60)%Q.
Proof. intros E. pose proof (human0 s) as H. now rewrite E in H. Qed.
Lemma human_unique s d h m r d' h' m' r' :
  (s == inject_Z (86400 * d + 3600 * h + 60 * m) + r)%Q -> 0 <= h < 24 -> 0 <= m < 60 -> (0 <= r < 60)%Q ->
  (s == inject_Z (86400 * d' + 3600 * h' + 60 * m') + r')%Q -> 0 <= h' < 24 -> 0 <= m' < 60 -> (0 <= r' < 60)%Q ->
  d = d' /\ h = h' /\ m = m' /\ (r == r')%Q.
Proof.
  intros E Hh Hm Hr E' Hh' Hm' Hr'. set (a := 86400 * d + 3600 * h + 60 * m) in *. set (b := 86400 * d' + 3600 * h' + 60 * m') in *.
  assert (L1 : (inject_Z a < inject_Z b + inject_Z 60)%Q) by (change (inject_Z 60) with 60%Q; lra).
  assert (L2 : (inject_Z b < inject_Z a + inject_Z 60)%Q) by (change (inject_Z 60) with 60%Q; lra).
  rewrite <- inject_Z_plus in L1, L2. rewrite <- Zlt_Qlt in L1, L2.
  assert (d = d' /\ h = h' /\ m = m') as (-> & -> & ->) by (subst a b; nia).
  repeat split. subst a b. lra.
Qed.

Lemma int_of_floor s : (0 <= s)%Q -> int_of s = Qfloor s.
Proof. intros H. unfold int_of. apply Qle_bool_iff in H. now rewrite H. Qed.
Lemma floor_shift k r : Qfloor (inject_Z k + r) = k + Qfloor r.
Proof.
  pose proof (Qfloor_le r) as A. pose proof (Qlt_floor r) as B.
  pose proof (Qfloor_le (inject_Z k + r)) as C. pose proof (Qlt_floor (inject_Z k + r)) as D.
  set (x := Qfloor r) in *. set (y := Qfloor (inject_Z k + r)) in *.
  assert (L1 : (inject_Z y < inject_Z k + inject_Z (x + 1))%Q) by lra.
  assert (L2 : (inject_Z (k + x) < inject_Z (y + 1))%Q) by (rewrite inject_Z_plus; lra).
  rewrite <- inject_Z_plus in L1. rewrite <- Zlt_Qlt in L1, L2. lia.
Qed.
Lemma floor_small r : (0 <= r < 60)%Q -> 0 <= Qfloor r < 60.
Proof.
  intros [A B]. pose proof (Qfloor_le r). pose proof (Qlt_floor r).
  assert (L1 : (inject_Z (Qfloor r) < inject_Z 60)%Q) by (change (inject_Z 60) with 60%Q; lra).
  assert (L2 : (inject_Z 0 < inject_Z (Qfloor r + 1))%Q) by (change (inject_Z 0) with 0%Q; lra).
  rewrite <- Zlt_Qlt in L1, L2. lia.
Qed.

Lemma format_read s : (0 <= s)%Q -> read (format_human_time s) = Some (Qfloor s) /\ Forall fits (format_human_time s).
Proof.
  intros Hs. unfold format_human_time. destruct (seconds_to_human s) as [[[d h] m] r] eqn:E.
  destruct (human s d h m r E) as (Es & Hh & Hm & Hr). rewrite (int_of_floor r (proj1 Hr)).
  pose proof (floor_small r Hr) as Hf.
  assert (Ef : Qfloor s = 86400 * d + 3600 * h + 60 * m + Qfloor r) by (rewrite Es; apply floor_shift).
  assert (Hd : 0 <= d).
  { assert (L : (inject_Z 0 < inject_Z (86400 * d + 3600 * h + 60 * m + 60))%Q) by (rewrite inject_Z_plus; change (inject_Z 0) with 0%Q; change (inject_Z 60) with 60%Q; lra).
    rewrite <- Zlt_Qlt in L. nia. }
  set (f := Qfloor r) in *. rewrite Ef.
  destruct (Z.eqb_spec d 0) as [->|Nd]; [destruct (Z.eqb_spec h 0) as [->|Nh]; [destruct (Z.eqb_spec m 0) as [->|Nm]|]|]; cbn [andb].
  - destruct (f =? 1) eqn:Ef1; (split; [cbn; rewrite Ef1; f_equal; lia|]); repeat constructor; cbn; lia.
  - cbn. split; [f_equal; lia|]. repeat constructor; cbn; lia.
  - assert (X : 0 <? h = true) by (apply Z.ltb_lt; lia). rewrite X. cbn. split; [f_equal; lia|]. repeat constructor; cbn; lia.
  - assert (X : 0 <? d = true) by (apply Z.ltb_lt; lia). rewrite X. cbn [orb].
    destruct (1 <? d) eqn:E1; (split; [cbn; destruct (Z.eqb_spec d 1); [try (f_equal; lia); apply Z.ltb_lt in E1; lia | try (f_equal; lia); apply Z.ltb_ge in E1; lia]|]); repeat constructor; cbn; lia.
Qed.

(** ETA *)
Lemma qsum_sum l : (qsum l == sum l)%Q.
Proof.
  unfold qsum. assert (G : forall l a, (fold_left Qplus l a == a + sum l)%Q).
  { induction l0 as [|x l0 IH]; intros a; cbn; [ring|]. rewrite IH. ring. }
  rewrite G. ring.
Qed.
Lemma lastn_append k (l : list Q) x : deque_append k (lastn k l) x = lastn k (l ++ [x]).
Proof.
  unfold deque_append, lastn. destruct k as [n|]; [|reflexivity].
  rewrite !app_length, skipn_length. cbn [length].
  assert (G : skipn (length l - n) l ++ [x] = skipn (length l - n) (l ++ [x])).
  { rewrite skipn_app. replace (length l - n - length l)%nat with 0%nat by lia. reflexivity. }
  rewrite G.
  assert (S2 : forall a b (m : list Q), skipn a (skipn b m) = skipn (b + a) m).
  { intros a b. induction b as [|b IH]; intros m; [reflexivity|]. destruct m; [now rewrite !skipn_nil|]. cbn. apply IH. }
  rewrite S2. f_equal. lia.
Qed.
Lemma last_cons (y t : Q) ts : last (y :: ts) t = last ts y.
Proof.
  revert y t. induction ts as [|z ts IH]; intros y t; [reflexivity|].
  change (last (y :: z :: ts) t) with (last (z :: ts) t). rewrite IH. symmetry. apply IH.
Qed.
Lemma durations_app t ts x : durations t (ts ++ [x]) = durations t ts ++ [(x - last ts t)%Q].
Proof.
  revert t. induction ts as [|y ts IH]; intros t; [reflexivity|]. cbn [app durations]. rewrite IH. cbn [app].
  now rewrite last_cons.
Qed.
Lemma ticks_state now tot k times :
  let e := ticks (eta_init now tot k) times in
  t1 e = last times now /\ t0 e = now /\ total e = tot /\ completed e = Z.of_nat (length times) /\ keep_last e = k /\
  que e = lastn k (durations now times).
Proof.
  induction times as [|x times IH] using rev_ind.
  - cbn. repeat split. destruct k; reflexivity.
  - cbv zeta in *. unfold ticks in *. rewrite fold_left_app. cbn [fold_left].
    destruct IH as (A & B & C & D & F & G). set (e := fold_left (fun e t => tick t e) times (eta_init now tot k)) in *.
    cbn [tick t1 t0 total completed que keep_last]. rewrite A, B, C, D, F, G, app_length, durations_app, lastn_append.
    repeat split; try assumption. 2: cbn [length]; lia. symmetry. apply last_last.
Qed.
Lemma durations_length t ts : length (durations t ts) = length ts.
Proof. revert t. induction ts as [|x ts IH]; intros t; cbn; [reflexivity|]. now rewrite IH. Qed.
Lemma sum_durations t ts : (sum (durations t ts) == last ts t - t)%Q.
Proof.
  revert t. induction ts as [|x ts IH]; intros t; cbn [durations sum]; [cbn; ring|]. rewrite IH.
  rewrite last_cons. ring.
Qed.
Lemma lastn_length k (l : list Q) : k <> Some 0%nat -> l <> [] -> lastn k l <> [].
Proof.
  intros Hk Hl E. destruct k as [n|]; [|exact (Hl E)]. cbn in E.
  assert (L : length (skipn (length l - n) l) = 0%nat) by (now rewrite E). rewrite skipn_length in L.
  destruct l; [congruence|]. cbn [length] in L. destruct n; [congruence|]. lia.
Qed.
Lemma eta_estimate now tot k times : k <> Some 0%nat ->
  let e := ticks (eta_init now tot k) times in
  let n := Z.of_nat (length times) in
  match times with
  | [] => estimate e = Ok None
  | _ => exists q, estimate e = Ok (Some q) /\
         (q == (if (tot <=? n)%Z then 0 else inject_Z (tot - n) * mean (lastn k (durations now times))))%Q
  end.
Proof.
  intros Hk e n. destruct (ticks_state now tot k times) as (A & B & C & D & F & G). fold e in A, B, C, D, F, G. fold n in D.
  unfold estimate. rewrite C, D, G. destruct times as [|x times]; [reflexivity|].
  assert (Hn : n =? 0 = false) by (apply Z.eqb_neq; subst n; cbn [length]; lia). rewrite Hn.
  destruct (Z.leb_spec (tot - n) 0) as [L|L].
  - exists 0%Q. split; [reflexivity|]. assert (X : tot <=? n = true) by (apply Z.leb_le; lia). now rewrite X.
  - assert (X : tot <=? n = false) by (apply Z.leb_gt; lia). rewrite X.
    pose proof (lastn_length k (durations now (x :: times)) Hk ltac:(discriminate)) as Hne.
    destruct (lastn k (durations now (x :: times))) as [|y ys] eqn:Q; [congruence|].
    eexists. split; [reflexivity|]. unfold mean. now rewrite qsum_sum.
Qed.
Lemma eta_all now tot times : times <> [] -> Z.of_nat (length times) < tot ->
  exists q, estimate (ticks (eta_init now tot None) times) = Ok (Some q) /\
  (q * inject_Z (Z.of_nat (length times)) == inject_Z (tot - Z.of_nat (length times)) * (last times now - now))%Q.
Proof.
  intros Hne Hlt. pose proof (eta_estimate now tot None times ltac:(discriminate)) as H. cbv zeta in H.
  destruct times as [|x times]; [congruence|]. destruct H as (q & E & Hq). exists q. split; [exact E|].
  assert (X : tot <=? Z.of_nat (length (x :: times)) = false) by (apply Z.leb_gt; lia). rewrite X in Hq. rewrite Hq.
  cbn [lastn]. unfold mean. rewrite sum_durations, durations_length. field.
  change 0%Q with (inject_Z 0). intros Y. rewrite inject_Z_injective in Y. cbn [length] in Y. lia.
Qed.
