(** Lemmas about integer partitioning. *)
From Verif Require Import Base BaseProofs ItrModel ItrProofs NumModel NumSpec.
From Coq Require Import List Bool ZArith Lia FinFun.
Import ListNotations.
Open Scope Z_scope.

Lemma existsb_false {A} (p : A -> bool) l : existsb p l = false <-> forall x, In x l -> p x = false.
Proof.
  induction l as [|y l IH]; simpl; [split; [intros _ x []|reflexivity]|].
  rewrite orb_false_iff, IH. split; [intros [H1 H2] x [<-|Hx]; auto|intro H; split; [apply H|intros; apply H]; auto].
Qed.

Lemma zsum_ge cs t : (forall x, In x cs -> 1 <= x) -> (forall x, In x t -> In x cs) -> Z.of_nat (length t) <= zsum t.
Proof.
  intros Hc. induction t as [|x t IH]; intro Ht; [reflexivity|]. cbn [length zsum fold_right].
  assert (1 <= x) by (apply Hc, Ht; now left).
  assert (Z.of_nat (length t) <= zsum t) by (apply IH; intros; apply Ht; now right).
  unfold zsum in *. lia.
Qed.

Lemma pic_rec_spec : forall fuel n comps, 1 <= n -> (Z.to_nat n < fuel)%nat ->
  (forall x, In x comps -> 1 <= x <= n) ->
  exists ts, partition_int_custom_rec fuel n comps = Ok ts /\
    (forall t, In t ts <-> (forall x, In x t -> In x comps) /\ zsum t = n) /\
    (NoDup comps -> NoDup ts).
Proof.
  induction fuel as [|fuel IH]; intros n comps Hn Hf Hc; [lia|].
  cbn [partition_int_custom_rec]. destruct (Z.ltb_spec n 1); [lia|].
  assert (E : existsb (fun x => negb ((1 <=? x) && (x <=? n))) comps = false).
  { apply existsb_false. intros x Hx. specialize (Hc x Hx).
    destruct (Z.leb_spec 1 x), (Z.leb_spec x n); lia. }
  rewrite E. clear E.
  set (rec := fix rec (ks : list Z) : outcome (list (list Z)) := match ks with [] => Ok [] | _ => _ end).
  assert (G : forall ks, (forall x, In x ks -> In x comps) ->
    exists ts, rec ks = Ok ts /\
      (forall t, In t ts <-> exists k t', t = k :: t' /\ In k ks /\ (forall x, In x t' -> In x comps) /\ k + zsum t' = n) /\
      (NoDup comps -> NoDup ks -> NoDup ts)).
  { induction ks as [|k ks IHk]; intro Hks.
    - exists []. split; [reflexivity|]. split; [|constructor]. intro t. simpl. split; [tauto|]. intros (k & t' & _ & [] & _).
    - destruct IHk as (rest & Er & Hr & Nr); [intros; apply Hks; now right|].
      assert (Hk : 1 <= k <= n) by (apply Hc, Hks; now left).
      assert (F : exists ts, (if n - k =? 0 then Ok [[k]]
                         else do items <- partition_int_custom_rec fuel (n - k) (filter (fun x => x <=? n - k) comps);
                              Ok (map (fun item => k :: item) items)) = Ok ts /\
                 (forall t, In t ts <-> exists t', t = k :: t' /\ (forall x, In x t' -> In x comps) /\ k + zsum t' = n) /\
                 (NoDup comps -> NoDup ts)).
      { destruct (Z.eqb_spec (n - k) 0) as [Hz|Hz].
        - exists [[k]]. split; [reflexivity|]. split.
          + intro t. simpl. split.
            * intros [<-|[]]. exists []. split; [reflexivity|]. split; [intros x []|]. cbn. lia.
            * intros (t' & -> & Ht' & S). left. f_equal. destruct t' as [|y t']; [reflexivity|]. exfalso.
              pose proof (zsum_ge comps (y :: t') (fun x Hx => proj1 (Hc x Hx)) Ht') as Q. cbn [length] in Q. lia.
          + intros _. constructor; [tauto|constructor].
        - destruct (IH (n - k) (filter (fun x => x <=? n - k) comps)) as (items & Ei & Hi & Ni); try lia.
          { intros x Hx. apply filter_In in Hx as [Hx L]. apply Z.leb_le in L. specialize (Hc x Hx). lia. }
          rewrite Ei. cbn [obind]. eexists. split; [reflexivity|]. split.
          + intro t. rewrite in_map_iff. split.
            * intros (t' & <- & Ht'). exists t'. apply Hi in Ht' as [Hin S]. split; [reflexivity|]. split; [|lia].
              intros x Hx. apply Hin, filter_In in Hx. tauto.
            * intros (t' & -> & Hin & S). exists t'. split; [reflexivity|]. apply Hi. split; [|lia].
              intros x Hx. apply filter_In. split; [now apply Hin|]. apply Z.leb_le.
              assert (P : forall t', (forall x, In x t' -> In x comps) -> forall x, In x t' -> x <= zsum t').
              { clear - Hc. induction t' as [|y t' IHt]; intros Ht x Hx; [destruct Hx|]. cbn [zsum fold_right].
                assert (1 <= y) by (apply Hc, Ht; now left).
                pose proof (zsum_ge comps t' (fun x Hx => proj1 (Hc x Hx)) (fun z Hz => Ht z (or_intror Hz))).
                destruct Hx as [->|Hx].
                - unfold zsum in *. lia.
                - specialize (IHt (fun z Hz => Ht z (or_intror Hz)) x Hx). unfold zsum in *. lia. }
              specialize (P t' Hin x Hx). lia.
          + intro N. apply Injective_map_NoDup; [intros a b Q; now injection Q|]. apply Ni. now apply NoDup_filter. }
      destruct F as (ts & Et & Ht & Nt). exists (ts ++ rest).
      split; [|split].
      + change (rec (k :: ks)) with
          (do ts <- (if n - k =? 0 then Ok [[k]]
                     else do items <- partition_int_custom_rec fuel (n - k) (filter (fun x => x <=? n - k) comps);
                          Ok (map (fun item => k :: item) items));
           do rest <- rec ks; Ok (ts ++ rest)).
        rewrite Et, Er. reflexivity.
      + intro t. rewrite in_app_iff, Ht, Hr. split.
        * intros [(t' & -> & H1 & H2)|(k' & t' & -> & H1 & H2 & H3)].
          -- exists k, t'. split; [reflexivity|]. split; [now left|auto].
          -- exists k', t'. split; [reflexivity|]. split; [now right|auto].
        * intros (k' & t' & -> & [<-|H1] & H2 & H3); [left; eauto|right; eauto 6].
      + intros N Nk. inversion Nk as [|? ? Hnk Nks]; subst.
        assert (NA : forall (a b : list (list Z)), NoDup a -> NoDup b -> (forall s, In s a -> ~ In s b) -> NoDup (a ++ b)).
        { intros a b Na Nb Hab. induction Na as [|s a Hs Na IHa]; [exact Nb|]. simpl. constructor.
          - intro Q. apply in_app_or in Q as [Q|Q]; [auto|]. apply (Hab s); [now left|exact Q].
          - apply IHa. intros u Hu. apply Hab. now right. }
        apply NA; auto. intros t H1 H2. apply Ht in H1 as (t1 & -> & _). apply Hr in H2 as (k2 & t2 & Q & Hk2 & _).
        injection Q as -> _. contradiction. }
  destruct (G comps (fun x Hx => Hx)) as (ts & Et & Ht & Nt). exists ts. split; [exact Et|]. split.
  - intro t. rewrite Ht. split.
    + intros (k & t' & -> & Hk & Ht' & S). split; [intros x [<-|Hx]; auto|]. cbn [zsum fold_right]. exact S.
    + intros [Hin S]. destruct t as [|k t']; [cbn in S; lia|]. exists k, t'. split; [reflexivity|].
      split; [apply Hin; now left|]. split; [intros x Hx; apply Hin; now right|]. exact S.
  - intro N. apply Nt; auto.
Qed.

Lemma pic_spec n comps : 1 <= n -> (forall x, In x comps -> 1 <= x <= n) ->
  exists ts, partition_int_custom n comps = Ok ts /\
    (forall t, In t ts <-> (forall x, In x t -> In x comps) /\ zsum t = n) /\
    (NoDup comps -> NoDup ts).
Proof. intros. apply pic_rec_spec; auto; lia. Qed.
Lemma pic_reject n comps : n < 1 \/ (exists x, In x comps /\ ~ 1 <= x <= n) ->
  partition_int_custom n comps = Raise ValueError.
Proof.
  intro H. unfold partition_int_custom. cbn [partition_int_custom_rec]. destruct (Z.ltb_spec n 1); [reflexivity|].
  destruct (existsb _ comps) eqn:E; [reflexivity|]. exfalso. rewrite existsb_false in E.
  destruct H as [H|(x & Hx & N)]; [lia|]. specialize (E x Hx).
  destruct (Z.leb_spec 1 x), (Z.leb_spec x n); simpl in E; try discriminate. apply N. lia.
Qed.

Lemma partition_int_spec n lower upper : 1 <= lower <= upper -> upper <= n ->
  exists ts, partition_int n lower (Some upper) = Ok ts /\ NoDup ts /\
    forall t, In t ts <-> (forall x, In x t -> lower <= x <= upper) /\ zsum t = n.
Proof.
  intros H1 H2. unfold partition_int. destruct (Z.ltb_spec n 1); [lia|].
  replace ((lower <? 1) || (upper <? 1) || (n <? lower) || (n <? upper) || (upper <? lower)) with false
    by (symmetry; rewrite !orb_false_iff, !Z.ltb_ge; lia).
  assert (R : forall x, In x (range_list (mkrange (Z.min n upper) (lower - 1) (-1))) <-> lower <= x <= upper).
  { intro x. rewrite range_list_In by (simpl; lia). simpl r_step; simpl r_start; simpl r_stop.
    change (0 <? -1) with false. cbv iota.
    assert ((x - Z.min n upper) mod -1 = 0) by (apply Z.mod_divide; [lia|]; exists (Z.min n upper - x); lia).
    lia. }
  destruct (pic_spec n (range_list (mkrange (Z.min n upper) (lower - 1) (-1)))) as (ts & E & Ht & N).
  { lia. } { intros x Hx. apply R in Hx. lia. }
  exists ts. split; [exact E|]. split; [apply N, range_list_NoDup; simpl; lia|].
  intro t. rewrite Ht. split; intros [Q S]; (split; [|exact S]); intros x Hx; apply R, Q, Hx.
Qed.
Lemma partition_int_default n lower : partition_int n lower None = partition_int n lower (Some n) /\
  partition_int_triangular n lower None = partition_int_triangular n lower (Some n).
Proof. split; reflexivity. Qed.
Lemma partition_int_reject n lower upper : n < 1 \/ ~ (1 <= lower <= upper /\ upper <= n) ->
  partition_int n lower (Some upper) = Raise ValueError /\
  partition_int_triangular n lower (Some upper) = Raise ValueError.
Proof.
  intro H. unfold partition_int, partition_int_triangular. destruct (Z.ltb_spec n 1); [auto|].
  replace ((lower <? 1) || (upper <? 1) || (n <? lower) || (n <? upper) || (upper <? lower)) with true; [auto|].
  symmetry. rewrite !orb_true_iff, !Z.ltb_lt. lia.
Qed.

(** triangular numbers *)
Lemma tri_state_spec i : snd (tri_state i) = Z.of_nat i + 2 /\ 2 * fst (tri_state i) = (Z.of_nat i + 1) * (Z.of_nat i + 2).
Proof.
  induction i as [|i [IH1 IH2]]; [split; reflexivity|]. cbn [tri_state]. destruct (tri_state i) as [s r].
  cbn [fst snd] in *. split; [lia|]. subst r. nia.
Qed.
Lemma triangular_spec i : 2 * triangular i = (Z.of_nat i + 1) * (Z.of_nat i + 2).
Proof. apply tri_state_spec. Qed.
Lemma triangular_ge i : Z.of_nat i + 1 <= triangular i.
Proof. pose proof (triangular_spec i). nia. Qed.
Lemma triangular_mono i j : (i < j)%nat -> triangular i < triangular j.
Proof. intro H. pose proof (triangular_spec i). pose proof (triangular_spec j). nia. Qed.
Lemma triangulars_upto_In n : forall fuel i, (Z.to_nat n < i + fuel)%nat -> forall x,
  In x (triangulars_upto n i fuel) <-> exists j, (i <= j)%nat /\ x = triangular j /\ x <= n.
Proof.
  induction fuel as [|fuel IH]; intros i H x; cbn [triangulars_upto].
  - split; [intros []|]. intros (j & Hj & -> & L). pose proof (triangular_ge j). lia.
  - destruct (Z.leb_spec (triangular i) n) as [L|L].
    + simpl. rewrite IH by lia. split.
      * intros [<-|(j & Hj & -> & Lj)]; [exists i; auto|exists j; split; [lia|auto]].
      * intros (j & Hj & -> & Lj). destruct (Nat.eq_dec i j) as [->|]; [now left|right].
        exists j. split; [lia|auto].
    + split; [intros []|]. intros (j & Hj & -> & Lj). destruct (Nat.eq_dec i j) as [->|]; [lia|].
      pose proof (triangular_mono i j ltac:(lia)). lia.
Qed.
Lemma triangulars_upto_NoDup n : forall fuel i, NoDup (triangulars_upto n i fuel).
Proof.
  assert (G : forall fuel i x, In x (triangulars_upto n i fuel) -> exists j, (i <= j)%nat /\ x = triangular j).
  { induction fuel as [|fuel IH]; intros i x H; cbn [triangulars_upto] in H; [destruct H|].
    destruct (triangular i <=? n); [|destruct H]. destruct H as [<-|H]; [eauto|].
    apply IH in H as (j & Hj & ->). exists j. split; [lia|reflexivity]. }
  induction fuel as [|fuel IH]; intro i; cbn [triangulars_upto]; [constructor|].
  destruct (triangular i <=? n); [|constructor]. constructor; [|apply IH].
  intro F. apply G in F as (j & Hj & E). pose proof (triangular_mono i j ltac:(lia)). lia.
Qed.
Lemma partition_int_triangular_spec n lower upper : 1 <= lower <= upper -> upper <= n ->
  exists ts, partition_int_triangular n lower (Some upper) = Ok ts /\ NoDup ts /\
    forall t, In t ts <-> (forall x, In x t -> lower <= x <= upper /\ exists k, 1 <= k /\ 2 * x = k * (k + 1)) /\ zsum t = n.
Proof.
  intros H1 H2. unfold partition_int_triangular. destruct (Z.ltb_spec n 1); [lia|].
  replace ((lower <? 1) || (upper <? 1) || (n <? lower) || (n <? upper) || (upper <? lower)) with false
    by (symmetry; rewrite !orb_false_iff, !Z.ltb_ge; lia).
  set (comps := rev_ _).
  assert (R : forall x, In x comps <-> lower <= x <= upper /\ exists k, 1 <= k /\ 2 * x = k * (k + 1)).
  { intro x. unfold comps, rev_. rewrite <- in_rev, filter_In, andb_true_iff, !Z.leb_le.
    rewrite triangulars_upto_In by lia. split.
    - intros [(j & _ & -> & L) [L1 L2]]. split; [lia|]. exists (Z.of_nat j + 1). split; [lia|].
      rewrite triangular_spec. lia.
    - intros [L (k & Hk & E)]. split; [|lia]. exists (Z.to_nat (k - 1)). split; [lia|].
      split; [|lia]. pose proof (triangular_spec (Z.to_nat (k - 1))) as Q.
      rewrite Z2Nat.id in Q by lia. nia. }
  destruct (pic_spec n comps) as (ts & E & Ht & N).
  { lia. } { intros x Hx. apply R in Hx. lia. }
  exists ts. split; [exact E|]. split.
  - apply N. unfold comps, rev_. apply NoDup_rev, NoDup_filter, triangulars_upto_NoDup.
  - intro t. rewrite Ht. split; intros [Q S]; (split; [|exact S]); intros x Hx; apply R, Q, Hx.
Qed.

(** fixpoint *)
Lemma fixpoint_spec f tol : forall fuel x0 r, fixpoint f x0 tol fuel = Some r ->
  exists k, r = Nat.iter (S k) f x0 /\ Z.abs (Nat.iter k f x0 - r) <= tol /\
    forall j, (j < k)%nat -> tol < Z.abs (Nat.iter j f x0 - Nat.iter (S j) f x0).
Proof.
  assert (SH : forall n x, Nat.iter n f (f x) = Nat.iter (S n) f x).
  { induction n as [|n IH]; intro x; [reflexivity|].
    change (f (Nat.iter n f (f x)) = f (Nat.iter (S n) f x)). now rewrite IH. }
  induction fuel as [|fuel IH]; intros x0 r H; [discriminate|]. cbn [fixpoint] in H.
  destruct (Z.leb_spec (Z.abs (x0 - f x0)) tol) as [L|L].
  - injection H as <-. exists 0%nat. repeat split; [exact L|]. intros j Hj. lia.
  - apply IH in H as (k & -> & D & F). exists (S k). rewrite !SH in *. repeat split; [exact D|].
    intros [|j] Hj; [exact L|]. specialize (F j ltac:(lia)). rewrite !SH in F. exact F.
Qed.
Lemma fixpoint_terminates f tol : forall k fuel x0, (k < fuel)%nat ->
  Z.abs (Nat.iter k f x0 - Nat.iter (S k) f x0) <= tol -> exists r, fixpoint f x0 tol fuel = Some r.
Proof.
  assert (SH : forall n x, Nat.iter n f (f x) = Nat.iter (S n) f x).
  { induction n as [|n IH]; intro x; [reflexivity|].
    change (f (Nat.iter n f (f x)) = f (Nat.iter (S n) f x)). now rewrite IH. }
  induction k as [|k IH]; intros fuel x0 Hf H; (destruct fuel as [|fuel]; [lia|]); cbn [fixpoint].
  - change (Z.abs (x0 - f x0) <= tol) in H. destruct (Z.leb_spec (Z.abs (x0 - f x0)) tol); [eauto|lia].
  - destruct (Z.leb_spec (Z.abs (x0 - f x0)) tol); [eauto|]. apply IH; [lia|]. now rewrite !SH.
Qed.
Lemma fixpoint_exact f fuel x0 r : fixpoint f x0 0 fuel = Some r -> f r = r.
Proof.
  intro H. apply fixpoint_spec in H as (k & -> & D & _).
  assert (E : Nat.iter k f x0 = Nat.iter (S k) f x0) by lia.
  change (f (Nat.iter (S k) f x0) = f (Nat.iter k f x0)). now rewrite E.
Qed.

(** within *)
Fixpoint wpairs (l : list Z) : list (list Z) :=
  match l with a :: (b :: _) as r => [a; b] :: wpairs r | _ => [] end.
Lemma window2_wpairs l : window 2 l = Ok (wpairs l).
Proof.
  destruct l as [|a [|b l]]; try reflexivity.
  change (Ok (windowed [a; b] l) = Ok (wpairs (a :: b :: l))). f_equal.
  revert a b. induction l as [|c l IH]; intros a b; [reflexivity|].
  cbn [windowed tl app]. change (wpairs (a :: b :: c :: l)) with ([a; b] :: wpairs (b :: c :: l)).
  f_equal. exact (IH b c).
Qed.
Lemma within_eq tol l : within tol l = Ok (within_loop tol (wpairs l)).
Proof. unfold within. rewrite window2_wpairs. reflexivity. Qed.
Lemma within_spec tol l : exists out, within tol l = Ok out /\
  ((exists k, close tol l k /\ (forall j, (j < k)%nat -> ~ close tol l j) /\ out = firstn (k + 2) l) \/
   ((forall k, ~ close tol l k) /\ out = firstn (length l - 1) l)).
Proof.
  rewrite within_eq. eexists. split; [reflexivity|].
  induction l as [|a [|b l] IH].
  - right. split; [intros k (x & y & H & _); destruct k; discriminate|reflexivity].
  - right. split; [intros k (x & y & _ & H & _); destruct k; [discriminate|destruct k; discriminate]|reflexivity].
  - change (wpairs (a :: b :: l)) with ([a; b] :: wpairs (b :: l)). cbn [within_loop].
    destruct (Z.leb_spec (Z.abs (a - b)) tol) as [L|L].
    + left. exists 0%nat. split; [exists a, b; auto|]. split; [intros; lia|reflexivity].
    + assert (S0 : forall k, close tol (a :: b :: l) (S k) <-> close tol (b :: l) k) by (intro; reflexivity).
      assert (N0 : ~ close tol (a :: b :: l) 0).
      { intros (x & y & Hx & Hy & D). simpl in Hx, Hy. injection Hx as <-. injection Hy as <-. lia. }
      destruct IH as [(k & Hk & F & E)|[F E]].
      * left. exists (S k). split; [now apply S0|]. split; [|cbn [Nat.add firstn]; now rewrite E].
        intros [|j] Hj; [exact N0|]. rewrite S0. apply F. lia.
      * right. split; [intros [|k]; [exact N0|rewrite S0; apply F]|].
        rewrite E. cbn [length]. rewrite !Nat.sub_succ, !Nat.sub_0_r. reflexivity.
Qed.
