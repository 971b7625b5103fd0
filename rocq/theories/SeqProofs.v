From Verif Require Import Base ItrModel SeqModel SeqSpec.
From Coq Require Import List Bool QArith Qpower Qabs Qround Lia Lqa Qfield Field Arith.
Import ListNotations.
Open Scope Q_scope.

Lemma numbers_map l : numbers (map Num l) = Some l.
Proof. induction l as [|q l IH]; simpl; [reflexivity|]. now rewrite IH. Qed.
Lemma split_last_app {A} (l : list A) x : split_last (l ++ [x]) = Some (l, x).
Proof. induction l as [|y l IH]; [reflexivity|]. simpl. rewrite IH. destruct (l ++ [x]) eqn:E; [destruct l; discriminate|reflexivity]. Qed.
Lemma existsb_dots l : existsb is_dots (l ++ [Dots]) = true.
Proof. rewrite existsb_app. simpl. now rewrite orb_true_r. Qed.

Lemma geom_pow a0 r j : geom_item a0 r j == a0 * qpow r j.
Proof.
  induction j as [|j IH]; [unfold qpow; simpl; ring|]. cbn [geom_item]. rewrite IH.
  unfold qpow. replace (Z.of_nat (S j)) with (Z.of_nat j + 1)%Z by lia. rewrite Qpower_plus' by lia.
  change (r ^ 1) with r. ring.
Qed.
Lemma gen_geom x0 k j : exists q, generate (Geom x0 k) j = Num q /\ q == geom_item x0 k j.
Proof.
  cbn [generate]. eexists. split; [reflexivity|]. rewrite geom_pow. destruct (Qle_bool 1 (Qabs k)); [reflexivity|].
  unfold qpow, Qdiv. rewrite Qmult_power, Qinv_power. rewrite Qpower_1.
  rewrite Qmult_1_l. rewrite Qinv_involutive. reflexivity.
Qed.
Lemma gen_arith x0 k j : exists q, generate (Arith x0 k) j = Num q /\ q == arith_item x0 k j.
Proof. eexists. split; reflexivity. Qed.

Lemma almosteq_exact a b : almosteq Exact a b = true <-> a == b.
Proof. unfold almosteq. destruct (Qeq_bool a b) eqn:E; [|split; [discriminate|]]. - apply Qeq_bool_iff in E. tauto.
  - intro Q. apply Qeq_bool_iff in Q. congruence. Qed.

Definition seq_of (d : desc) : nat -> Q :=
  match d with
  | Const (Num a) => arith_item a 0
  | Const _ => fun _ => 0
  | Arith a k => arith_item a k
  | Geom a k => geom_item a k
  end.
Definition numeric (d : desc) : Prop := match d with Const (Num _) => True | Const _ => False | _ => True end.
Lemma gen_seq d j : numeric d -> exists q, generate d j = Num q /\ q == seq_of d j.
Proof.
  destruct d as [[a| |]|a k|a k]; simpl numeric; try tauto; intros _.
  - exists a. split; [reflexivity|]. simpl. unfold arith_item. ring.
  - apply gen_arith.
  - apply gen_geom.
Qed.

(** a triplet *)
Lemma arith_0 a d : arith_item a d 0 == a.
Proof. unfold arith_item. change (inject_Z (Z.of_nat 0)) with 0. ring. Qed.
Lemma arith_1 a d : arith_item a d 1 == a + d.
Proof. unfold arith_item. change (inject_Z (Z.of_nat 1)) with 1. ring. Qed.
Lemma arith_2 a d : arith_item a d 2 == a + 2 * d.
Proof. unfold arith_item. change (inject_Z (Z.of_nat 2)) with 2. ring. Qed.
Lemma arith_S a d j : arith_item a d (S j) == arith_item (a + d) d j.
Proof. unfold arith_item. replace (Z.of_nat (S j)) with (1 + Z.of_nat j)%Z by lia. rewrite inject_Z_plus. change (inject_Z 1) with 1. ring. Qed.
Lemma geom_S a r j : geom_item a r (S j) == geom_item (a * r) r j.
Proof. induction j as [|j IH]; [reflexivity|]. change (geom_item a r (S (S j))) with (geom_item a r (S j) * r). rewrite IH. reflexivity. Qed.
Global Instance arith_item_proper : Proper (Qeq ==> Qeq ==> eq ==> Qeq) arith_item.
Proof. intros a a' Ha d d' Hd j j' <-. unfold arith_item. now rewrite Ha, Hd. Qed.
Global Instance geom_item_proper : Proper (Qeq ==> Qeq ==> eq ==> Qeq) geom_item.
Proof. intros a a' Ha d d' Hd j j' <-. induction j as [|j IH]; simpl; [assumption|]. now rewrite IH, Hd. Qed.
Lemma triplet_ok a0 a1 a2 d : analyze3 Exact a0 a1 a2 = Done (Ok d) ->
  numeric d /\ seq_of d 0 == a0 /\ seq_of d 1 == a1 /\ seq_of d 2 == a2 /\
  match d with Geom _ k => ~ k == 0 /\ ~ a0 == 0 | _ => True end.
Proof.
  unfold analyze3. destruct (Qeq_bool (a2 - a1) (a1 - a0)) eqn:E1; cbn [andb].
  - apply Qeq_bool_iff in E1. destruct (Qeq_bool (a1 - a0) 0) eqn:E2.
    + apply Qeq_bool_iff in E2. intros [= <-]. simpl. rewrite arith_0, arith_1, arith_2. repeat split; lra.
    + assert (A : almosteq Exact (a2 - a1) (a1 - a0) = true) by now apply almosteq_exact. rewrite A.
      assert (B : Qeq_bool (a1 - a0) (a2 - a1) = true) by (apply Qeq_bool_iff; now symmetry). rewrite B.
      intros [= <-]. simpl. rewrite arith_0, arith_1, arith_2. repeat split; lra.
  - assert (A : almosteq Exact (a2 - a1) (a1 - a0) = false).
    { destruct (almosteq Exact _ _) eqn:A; [|reflexivity]. apply almosteq_exact, Qeq_bool_iff in A. congruence. }
    rewrite A. destruct (negb (Qeq_bool a0 0)) eqn:N0, (negb (Qeq_bool a1 0)) eqn:N1, (negb (Qeq_bool a2 0)) eqn:N2; cbn [andb].
    + destruct (almosteq Exact (a2 / a1) (a1 / a0)) eqn:R.
      * apply almosteq_exact in R. intros [= <-]. apply negb_true_iff in N0, N1, N2.
        apply Qeq_bool_neq in N0, N1, N2. cbn [numeric seq_of geom_item].
        assert (H1 : (a1 / a0 + a2 / a1) / 2 == a1 / a0) by (rewrite R; field; auto).
        assert (H2 : a0 * ((a1 / a0 + a2 / a1) / 2) == a1) by (rewrite H1; field; auto).
        split; [exact I|]. split; [reflexivity|]. split; [exact H2|]. split.
        { rewrite H2, H1, <- R. field. auto. }
        split; [|assumption]. intro Q. rewrite Q in H2. apply N1. rewrite <- H2. ring.
      * destruct (negb (Qeq_bool (Qabs a0) 1)); discriminate.
    + destruct (negb (Qeq_bool (Qabs a0) 1)); discriminate.
    + destruct (negb (Qeq_bool (Qabs a0) 1)); discriminate.
    + destruct (negb (Qeq_bool (Qabs a0) 1)); discriminate.
    + destruct (negb (Qeq_bool (Qabs a0) 1)); discriminate.
    + destruct (negb (Qeq_bool (Qabs a0) 1)); discriminate.
    + destruct (negb (Qeq_bool (Qabs a0) 1)); discriminate.
    + destruct (negb (Qeq_bool (Qabs a0) 1)); discriminate.
Qed.

(** the whole specification *)
Lemma agrees_trans f d e : agrees Exact f d = true -> agrees Exact f e = true -> agrees Exact d e = true.
Proof.
  destruct f, d, e; simpl; try discriminate; auto; rewrite !almosteq_exact; intros H1 H2; now rewrite H1, H2.
Qed.
Lemma agrees_refl f : agrees Exact f f = true.
Proof. destruct f; simpl; auto; apply almosteq_exact; reflexivity. Qed.
Lemma begins_cons a l f : begins (a :: l) f <-> a == f O /\ begins l (fun j => f (S j)).
Proof.
  unfold begins. split.
  - intro H. split; [apply (H O); reflexivity|]. intros j q Hq. apply (H (S j)). exact Hq.
  - intros [H1 H2] [|j] q Hq; [injection Hq as <-; assumption|]. apply H2. exact Hq.
Qed.
Lemma begins_nil f : begins [] f. Proof. intros [|j] q; discriminate. Qed.
Lemma begins_ext l f g : (forall j, f j == g j) -> begins l f -> begins l g.
Proof. intros H B j q Hq. rewrite <- H. now apply B. Qed.
Lemma shift_agree d d' : numeric d -> numeric d' -> agrees Exact d d' = true -> seq_of d 1%nat == seq_of d' O ->
  forall j, seq_of d (S j) == seq_of d' j.
Proof.
  destruct d as [[a| |]|a k|a k], d' as [[a'| |]|a' k'|a' k']; simpl numeric; try tauto; simpl agrees; try discriminate;
    cbn [seq_of]; intros _ _ Ag H j; try rewrite almosteq_exact in Ag.
  - rewrite arith_1, arith_0 in H. rewrite arith_S, H. reflexivity.
  - rewrite arith_1, arith_0 in H. rewrite arith_S, H, Ag. reflexivity.
  - rewrite geom_S. simpl in H. rewrite H, Ag. reflexivity.
Qed.
Lemma triplets_ok l : forall d ds, analyze_triplets Exact l = Done (Ok (d :: ds)) -> forallb (agrees Exact d) ds = true ->
  numeric d /\ begins l (seq_of d).
Proof.
  induction l as [|a0 l IH]; [discriminate|]. destruct l as [|a1 l]; [discriminate|]. destruct l as [|a2 l]; [discriminate|].
  intros d ds H F. cbn [analyze_triplets] in H. fold (analyze_triplets Exact (a1 :: a2 :: l)) in H.
  destruct (analyze3 Exact a0 a1 a2) as [[d0|e]|] eqn:A3; cbn [rbind] in H; [|discriminate|discriminate].
  change (match l with [] => Done (Ok []) | a3 :: _ => _ end) with (analyze_triplets Exact (a1 :: a2 :: l)) in H.
  destruct (analyze_triplets Exact (a1 :: a2 :: l)) as [[ds0|e]|] eqn:AT; cbn [rbind] in H; [|discriminate|discriminate].
  assert (d0 = d) by congruence. assert (ds0 = ds) by congruence. subst d0 ds0. clear H.
  pose proof (triplet_ok _ _ _ _ A3) as (Nd & S0 & S1 & S2 & _). split; [assumption|].
  destruct l as [|a3 l].
  - rewrite !begins_cons. repeat split; try (now symmetry). apply begins_nil.
  - destruct ds as [|d' ds'].
    + exfalso. cbn [analyze_triplets] in AT.
      destruct (analyze3 Exact a1 a2 a3) as [[?|?]|]; cbn [rbind] in AT; try discriminate.
      revert AT. match goal with |- rbind ?x _ = _ -> _ => destruct x as [[?|?]|] end; discriminate.
    + cbn [forallb] in F. apply andb_true_iff in F as [F1 F2].
      destruct (IH d' ds' eq_refl) as [Nd' B].
      { rewrite forallb_forall in *. intros e He. apply (agrees_trans d); auto. }
      rewrite begins_cons. split; [now symmetry|]. apply (begins_ext _ (seq_of d')); [|assumption].
      intro j. symmetry. apply shift_agree; auto. rewrite S1. apply begins_cons in B as [B _]. exact B.
Qed.
Lemma analyze_ok l d : analyze Exact (map Num l) = Done (Ok d) -> numeric d /\ begins l (seq_of d).
Proof.
  destruct l as [|a0 [|a1 [|a2 [|a3 l]]]].
  - discriminate.
  - simpl. intros [= <-]. split; [exact I|]. apply begins_cons. split; [symmetry; apply arith_0|apply begins_nil].
  - simpl. unfold analyze2. destruct (Qeq_bool (a1 - a0) 0) eqn:E; intros [= <-]; (split; [exact I|]);
      rewrite !begins_cons; cbn [seq_of]; rewrite arith_0, arith_1.
    + apply Qeq_bool_iff in E. split; [reflexivity|]. split; [lra|apply begins_nil].
    + split; [reflexivity|]. split; [ring|apply begins_nil].
  - simpl. intro H. apply triplet_ok in H as (N & S0 & S1 & S2 & _). split; [assumption|].
    rewrite !begins_cons. repeat split; try (now symmetry). apply begins_nil.
  - intro H. unfold analyze in H. cbn [map] in H.
    change (numbers (Num a0 :: Num a1 :: Num a2 :: Num a3 :: map Num l)) with (numbers (map Num (a0 :: a1 :: a2 :: a3 :: l))) in H.
    rewrite numbers_map in H. destruct (analyze_triplets Exact (a0 :: a1 :: a2 :: a3 :: l)) as [[[|d0 ds]|e]|] eqn:AT;
      cbn [rbind] in H; try discriminate.
    destruct (forallb (agrees Exact d0) ds) eqn:F; [|discriminate].
    assert (d0 = d) by congruence. subst d0. exact (triplets_ok _ _ _ AT F).
Qed.
Lemma s_dots md l : l <> [] -> s md (map Num l ++ [Dots]) =
  rbind (analyze md (map Num l)) (fun d => Done (Ok (fun j => Some (generate d j)))).
Proof.
  intro H. unfold s. rewrite existsb_dots. cbn [negb]. rewrite split_last_app.
  destruct (exists_last H) as (l' & x & ->). rewrite map_app. cbn [map].
  destruct (map Num l' ++ [Num x]) eqn:E; [destruct l'; discriminate|]. rewrite <- E.
  unfold iscyclic. rewrite split_last_app. reflexivity.
Qed.
Lemma s_ok l g : s Exact (map Num l ++ [Dots]) = Done (Ok g) ->
  exists d, numeric d /\ begins l (seq_of d) /\ yields g (seq_of d).
Proof.
  intro H. destruct l as [|a l]; [discriminate|]. rewrite s_dots in H by discriminate.
  destruct (analyze Exact (map Num (a :: l))) as [[d|e]|] eqn:A; cbn [rbind] in H; try discriminate.
  apply analyze_ok in A as [N B]. exists d. split; [assumption|]. split; [assumption|].
  assert (g = fun j => Some (generate d j)) by congruence. subst g.
  intro j. destruct (gen_seq d j N) as (q & -> & Q). eauto.
Qed.
Lemma s_begins l g : s Exact (map Num l ++ [Dots]) = Done (Ok g) ->
  exists f, yields g f /\ begins l f /\
    ((exists a0 d, forall j, f j == arith_item a0 d j) \/ (exists a0 r, forall j, f j == geom_item a0 r j)).
Proof.
  intro H. apply s_ok in H as (d & N & B & Y). exists (seq_of d). split; [assumption|]. split; [assumption|].
  destruct d as [[a| |]|a k|a k]; try contradiction; cbn [seq_of].
  - left. exists a, 0. reflexivity.
  - left. exists a, k. reflexivity.
  - right. exists a, k. reflexivity.
Qed.

(** acceptance *)
Lemma triplet_arith a0 a1 a2 d : a1 == a0 + d -> a2 == a0 + 2 * d ->
  exists e, analyze3 Exact a0 a1 a2 = Done (Ok e) /\
    ((d == 0 /\ e = Const (Num a0)) \/ (~ d == 0 /\ exists k, e = Arith a0 k /\ k == d)).
Proof.
  intros H1 H2. unfold analyze3.
  assert (E1 : Qeq_bool (a2 - a1) (a1 - a0) = true) by (apply Qeq_bool_iff; rewrite H2, H1; ring). rewrite E1. cbn [andb].
  destruct (Qeq_bool (a1 - a0) 0) eqn:E2.
  - eexists. split; [reflexivity|]. left. split; [|reflexivity]. apply Qeq_bool_iff in E2. rewrite H1 in E2. lra.
  - apply Qeq_bool_iff in E1. assert (A : almosteq Exact (a2 - a1) (a1 - a0) = true) by now apply almosteq_exact. rewrite A.
    symmetry in E1. apply Qeq_bool_iff in E1. rewrite E1. eexists. split; [reflexivity|]. right.
    apply Qeq_bool_neq in E2. split; [intro D; apply E2; rewrite H1, D; ring|].
    eexists. split; [reflexivity|]. rewrite H1. ring.
Qed.
Lemma triplet_geom a0 a1 a2 r : ~ a0 == 0 -> ~ r == 0 -> ~ r == 1 -> a1 == a0 * r -> a2 == a0 * r * r ->
  exists k, analyze3 Exact a0 a1 a2 = Done (Ok (Geom a0 k)) /\ k == r.
Proof.
  intros N0 Nr N1 H1 H2. unfold analyze3.
  assert (Na1 : ~ a1 == 0).
  { intro Q. rewrite H1 in Q. apply Qmult_integral in Q as [Q|Q]; contradiction. }
  assert (Na2 : ~ a2 == 0).
  { intro Q. rewrite H2 in Q. apply Qmult_integral in Q as [Q|Q]; [rewrite <- H1 in Q|]; contradiction. }
  assert (NA : ~ a2 - a1 == a1 - a0).
  { intro Q. rewrite H2, H1 in Q. assert (Z : a0 * ((r - 1) * (r - 1)) == 0) by lra.
    apply Qmult_integral in Z as [Z|Z]; [contradiction|]. apply Qmult_integral in Z as [Z|Z]; apply N1; lra. }
  assert (E1 : Qeq_bool (a2 - a1) (a1 - a0) = false).
  { destruct (Qeq_bool _ _) eqn:E; [|reflexivity]. apply Qeq_bool_iff in E. contradiction. }
  rewrite E1. cbn [andb].
  assert (A : almosteq Exact (a2 - a1) (a1 - a0) = false).
  { destruct (almosteq Exact _ _) eqn:A; [|reflexivity]. apply almosteq_exact in A. contradiction. }
  rewrite A.
  assert (B : forall x, ~ x == 0 -> negb (Qeq_bool x 0) = true).
  { intros x Nx. apply negb_true_iff. destruct (Qeq_bool x 0) eqn:E; [|reflexivity]. apply Qeq_bool_iff in E. contradiction. }
  rewrite !B by assumption. cbn [andb].
  assert (R1 : a1 / a0 == r) by (rewrite H1; field; auto).
  assert (R2 : a2 / a1 == r).
  { rewrite H2. setoid_replace (a0 * r * r) with (a1 * r) by (rewrite H1; ring). field. auto. }
  assert (R : almosteq Exact (a2 / a1) (a1 / a0) = true) by (apply almosteq_exact; now rewrite R1, R2).
  rewrite R. eexists. split; [reflexivity|]. rewrite R1, R2. field.
Qed.

Definition is_desc (e : desc) (a0 : Q) (shape : desc) : Prop :=
  match shape with
  | Const _ => exists a, e = Const (Num a) /\ a == a0
  | Arith _ d => exists a k, e = Arith a k /\ a == a0 /\ k == d
  | Geom _ r => exists a k, e = Geom a k /\ a == a0 /\ k == r
  end.
(** the description [s] finds for a sequence *)
Definition arith_shape (d : Q) : desc := if Qeq_bool d 0 then Const Dots else Arith 0 d.
Lemma is_desc_seq e a0 d : is_desc e a0 (arith_shape d) -> numeric e /\ forall j, seq_of e j == arith_item a0 d j.
Proof.
  unfold arith_shape. destruct (Qeq_bool d 0) eqn:E; simpl.
  - intros (a & -> & Ha). apply Qeq_bool_iff in E. split; [exact I|]. intro j. cbn [seq_of]. now rewrite Ha, E.
  - intros (a & k & -> & Ha & Hk). split; [exact I|]. intro j. cbn [seq_of]. now rewrite Ha, Hk.
Qed.
Lemma is_desc_geom e a0 r : is_desc e a0 (Geom 0 r) -> numeric e /\ forall j, seq_of e j == geom_item a0 r j.
Proof. intros (a & k & -> & Ha & Hk). split; [exact I|]. intro j. cbn [seq_of]. now rewrite Ha, Hk. Qed.
Lemma is_desc_agrees e e' a a' shape : is_desc e a shape -> is_desc e' a' shape -> agrees Exact e e' = true.
Proof.
  destruct shape; simpl.
  - intros (? & -> & _) (? & -> & _). reflexivity.
  - intros (? & ? & -> & _ & H) (? & ? & -> & _ & H'). apply almosteq_exact. now rewrite H, H'.
  - intros (? & ? & -> & _ & H) (? & ? & -> & _ & H'). apply almosteq_exact. now rewrite H, H'.
Qed.
Lemma triplets_shape shape (good : list Q -> Prop) :
  (forall a0 a1 a2 l, good (a0 :: a1 :: a2 :: l) -> exists e, analyze3 Exact a0 a1 a2 = Done (Ok e) /\ is_desc e a0 shape) ->
  (forall a l, good (a :: l) -> l <> [] -> good l) ->
  forall l, good l -> exists ds, analyze_triplets Exact l = Done (Ok ds) /\ length ds = (length l - 2)%nat /\
    (forall e, In e ds -> exists a, is_desc e a shape) /\
    match ds, l with e :: _, a :: _ => is_desc e a shape | _, _ => True end.
Proof.
  intros H3 Ht. induction l as [|a0 l IH]; [intros _; exists []; simpl; intuition|].
  destruct l as [|a1 l]; [intros _; exists []; simpl; intuition|].
  destruct l as [|a2 l]; [intros _; exists []; simpl; intuition|]. intro G.
  destruct (H3 _ _ _ _ G) as (e & E & D). destruct IH as (ds & A & L & I & _); [apply (Ht a0); [assumption|discriminate]|].
  exists (e :: ds). split.
  - cbn [analyze_triplets]. rewrite E. cbn [rbind].
    change (match l with [] => Done (Ok []) | a3 :: _ => _ end) with (analyze_triplets Exact (a1 :: a2 :: l)).
    rewrite A. reflexivity.
  - split; [simpl in *; lia|]. split; [|assumption]. intros e' [<-|He]; eauto.
Qed.
Lemma analyze_shape shape l ds e a : (4 <= length l)%nat -> analyze_triplets Exact l = Done (Ok (e :: ds)) ->
  (forall e', In e' ds -> exists a, is_desc e' a shape) -> is_desc e a shape ->
  analyze Exact (map Num l) = Done (Ok e).
Proof.
  intros L A I D. destruct l as [|a0 [|a1 [|a2 [|a3 l]]]]; simpl in L; try lia.
  unfold analyze. cbn [map].
  change (numbers (Num a0 :: Num a1 :: Num a2 :: Num a3 :: map Num l)) with (numbers (map Num (a0 :: a1 :: a2 :: a3 :: l))).
  rewrite numbers_map, A. cbn [rbind].
  assert (F : forallb (agrees Exact e) ds = true).
  { apply forallb_forall. intros e' He. destruct (I e' He) as [a' D']. eapply is_desc_agrees; eassumption. }
  now rewrite F.
Qed.
Lemma analyze_arith l a0 d : (2 <= length l)%nat -> begins l (arith_item a0 d) ->
  exists e, analyze Exact (map Num l) = Done (Ok e) /\ is_desc e a0 (arith_shape d).
Proof.
  intros L B.
  assert (H3 : forall x0 x1 x2 l, (exists c, begins (x0 :: x1 :: x2 :: l) (arith_item c d)) ->
     exists e, analyze3 Exact x0 x1 x2 = Done (Ok e) /\ is_desc e x0 (arith_shape d)).
  { intros x0 x1 x2 l' [c Hc]. rewrite !begins_cons in Hc. destruct Hc as (C0 & C1 & C2 & _).
    rewrite arith_0 in C0. rewrite arith_1 in C1. rewrite arith_2 in C2.
    destruct (triplet_arith x0 x1 x2 d) as (e & E & D); [now rewrite C0|now rewrite C0|].
    exists e. split; [assumption|]. unfold arith_shape. destruct D as [[Z ->]|[Z (k & -> & K)]].
    - apply Qeq_bool_iff in Z. rewrite Z. simpl. exists x0. split; reflexivity.
    - destruct (Qeq_bool d 0) eqn:E0; [apply Qeq_bool_iff in E0; contradiction|]. simpl. exists x0, k. split; [reflexivity|]. split; [reflexivity|assumption]. }
  destruct l as [|x0 [|x1 l]]; simpl in L; try lia. destruct l as [|x2 l].
  - rewrite !begins_cons in B. destruct B as (B0 & B1 & _). rewrite arith_0 in B0. rewrite arith_1 in B1.
    eexists. split; [reflexivity|]. unfold analyze2, arith_shape.
    assert (E : Qeq_bool (x1 - x0) 0 = Qeq_bool d 0).
    { apply eq_true_iff_eq. rewrite !Qeq_bool_iff, B1, B0. split; intro; lra. }
    rewrite E. destruct (Qeq_bool d 0); simpl; [eauto|]. exists x0, (x1 - x0). split; [reflexivity|]. split; [assumption|]. rewrite B1, B0. ring.
  - pose proof B as B'. rewrite !begins_cons in B'. destruct B' as (B0 & _). rewrite arith_0 in B0.
    assert (W : forall e a, is_desc e a (arith_shape d) -> a == a0 -> is_desc e a0 (arith_shape d)).
    { intros e a. unfold arith_shape. destruct (Qeq_bool d 0); simpl.
      - intros (x & -> & Hx) Ha. exists x. split; [reflexivity|]. now rewrite Hx.
      - intros (x & k & -> & Hx & Hk) Ha. exists x, k. split; [reflexivity|]. split; [now rewrite Hx|assumption]. }
    destruct l as [|x3 l].
    + destruct (H3 x0 x1 x2 []) as (e & E & D); [eauto|]. exists e. split; [exact E|]. eapply W; eassumption.
    + destruct (triplets_shape (arith_shape d) (fun l => exists c, begins l (arith_item c d)) H3) with (l := x0 :: x1 :: x2 :: x3 :: l)
        as (ds & A & Ld & I & D).
      * intros a l' [c Hc] _. exists (c + d). rewrite begins_cons in Hc. destruct Hc as [_ Hc].
        eapply begins_ext; [|exact Hc]. intro j. apply arith_S.
      * eauto.
      * destruct ds as [|e ds]; [simpl in Ld; lia|]. exists e. split; [|eapply W; eassumption].
        apply (analyze_shape (arith_shape d) _ ds e x0); auto; [simpl; lia|]. intros; apply I; now right.
Qed.
Lemma analyze_geom l a0 r : (3 <= length l)%nat -> ~ a0 == 0 -> ~ r == 0 -> ~ r == 1 -> begins l (geom_item a0 r) ->
  exists e, analyze Exact (map Num l) = Done (Ok e) /\ is_desc e a0 (Geom 0 r).
Proof.
  intros L N0 Nr N1 B.
  assert (H3 : forall x0 x1 x2 l, (exists c, ~ c == 0 /\ begins (x0 :: x1 :: x2 :: l) (geom_item c r)) ->
     exists e, analyze3 Exact x0 x1 x2 = Done (Ok e) /\ is_desc e x0 (Geom 0 r)).
  { intros x0 x1 x2 l' (c & Nc & Hc). rewrite !begins_cons in Hc. destruct Hc as (C0 & C1 & C2 & _). simpl in C0, C1, C2.
    destruct (triplet_geom x0 x1 x2 r) as (k & E & K); auto; [now rewrite C0|now rewrite C0|now rewrite C0|].
    exists (Geom x0 k). split; [assumption|]. exists x0, k. split; [reflexivity|]. split; [reflexivity|assumption]. }
  destruct l as [|x0 [|x1 [|x2 l]]]; simpl in L; try lia.
  pose proof B as B'. rewrite !begins_cons in B'. destruct B' as (B0 & _). simpl in B0.
  assert (W : forall e a, is_desc e a (Geom 0 r) -> a == a0 -> is_desc e a0 (Geom 0 r)).
  { intros e a (x & k & -> & Hx & Hk) Ha. exists x, k. split; [reflexivity|]. split; [now rewrite Hx|assumption]. }
  destruct l as [|x3 l].
  + destruct (H3 x0 x1 x2 []) as (e & E & D); [eauto|]. exists e. split; [exact E|]. eapply W; eassumption.
  + destruct (triplets_shape (Geom 0 r) (fun l => exists c, ~ c == 0 /\ begins l (geom_item c r)) H3) with (l := x0 :: x1 :: x2 :: x3 :: l)
      as (ds & A & Ld & I & D).
    * intros a l' (c & Nc & Hc) _. exists (c * r). split.
      { intro Q. apply Qmult_integral in Q as [Q|Q]; contradiction. }
      rewrite begins_cons in Hc. destruct Hc as [_ Hc]. eapply begins_ext; [|exact Hc]. intro j. apply geom_S.
    * eauto.
    * destruct ds as [|e ds]; [simpl in Ld; lia|]. exists e. split; [|eapply W; eassumption].
      apply (analyze_shape (Geom 0 r) _ ds e x0); auto; [simpl; lia|]. intros; apply I; now right.
Qed.
Lemma s_arith l a0 d : (2 <= length l)%nat -> begins l (arith_item a0 d) ->
  exists g, s Exact (map Num l ++ [Dots]) = Done (Ok g) /\ yields g (arith_item a0 d).
Proof.
  intros L B. destruct (analyze_arith l a0 d L B) as (e & A & D). rewrite s_dots by (intros ->; simpl in L; lia).
  rewrite A. cbn [rbind]. eexists. split; [reflexivity|]. apply is_desc_seq in D as [N E].
  intro j. destruct (gen_seq e j N) as (q & -> & Q). exists q. split; [reflexivity|]. now rewrite Q, E.
Qed.
Lemma s_geom l a0 r : (3 <= length l)%nat -> ~ a0 == 0 -> ~ r == 0 -> begins l (geom_item a0 r) ->
  exists g, s Exact (map Num l ++ [Dots]) = Done (Ok g) /\ yields g (geom_item a0 r).
Proof.
  intros L N0 Nr B. destruct (Qeq_dec r 1) as [R1|N1].
  - assert (E : forall j, geom_item a0 r j == arith_item a0 0 j).
    { intro j. unfold arith_item. rewrite Qmult_0_r, Qplus_0_r. induction j as [|j IH]; [reflexivity|]. cbn [geom_item]. rewrite IH, R1. ring. }
    destruct (s_arith l a0 0) as (g & H & Y); [lia|eapply begins_ext; eassumption|]. exists g. split; [assumption|].
    intro j. destruct (Y j) as (q & Hq & Q). exists q. split; [assumption|]. now rewrite E.
  - destruct (analyze_geom l a0 r L N0 Nr N1 B) as (e & A & D). rewrite s_dots by (intros ->; simpl in L; lia).
    rewrite A. cbn [rbind]. eexists. split; [reflexivity|]. apply is_desc_geom in D as [N E].
    intro j. destruct (gen_seq e j N) as (q & -> & Q). exists q. split; [reflexivity|]. now rewrite Q, E.
Qed.

(** rejection *)
Lemma triplet_raise md a0 a1 a2 e : analyze3 md a0 a1 a2 = Done (Raise e) -> e = SyntaxError.
Proof.
  unfold analyze3. destruct (_ && _); [discriminate|]. destruct (almosteq _ _ _); [discriminate|].
  destruct (_ && _); [discriminate|]. destruct (_ && _); [discriminate|]. congruence.
Qed.
Lemma triplets_raise md l e : analyze_triplets md l = Done (Raise e) -> e = SyntaxError.
Proof.
  induction l as [|a0 l IH]; [discriminate|]. destruct l as [|a1 l]; [discriminate|]. destruct l as [|a2 l]; [discriminate|].
  cbn [analyze_triplets]. destruct (analyze3 md a0 a1 a2) as [[d|e']|] eqn:A; cbn [rbind]; [|intro H; apply triplet_raise in A; congruence|discriminate].
  change (match l with [] => Done (Ok []) | a3 :: _ => _ end) with (analyze_triplets md (a1 :: a2 :: l)).
  destruct (analyze_triplets md (a1 :: a2 :: l)) as [[ds|e']|]; cbn [rbind]; try discriminate.
  intro H. apply IH. congruence.
Qed.
Lemma triplets_nonempty md a0 a1 a2 l ds : analyze_triplets md (a0 :: a1 :: a2 :: l) = Done (Ok ds) -> ds <> [].
Proof.
  cbn [analyze_triplets]. destruct (analyze3 md a0 a1 a2) as [[d|e']|]; cbn [rbind]; try discriminate.
  match goal with |- rbind ?x _ = _ -> _ => destruct x as [[?|?]|] end; cbn [rbind]; congruence.
Qed.
Lemma analyze_raise md l e : l <> [] -> analyze md (map Num l) = Done (Raise e) -> e = SyntaxError.
Proof.
  intros N H. destruct l as [|a0 [|a1 [|a2 [|a3 l]]]].
  - congruence.
  - discriminate.
  - discriminate.
  - simpl in H. now apply triplet_raise in H.
  - unfold analyze in H. cbn [map] in H.
    change (numbers (Num a0 :: Num a1 :: Num a2 :: Num a3 :: map Num l)) with (numbers (map Num (a0 :: a1 :: a2 :: a3 :: l))) in H.
    rewrite numbers_map in H. destruct (analyze_triplets md (a0 :: a1 :: a2 :: a3 :: l)) as [[ds|e']|] eqn:AT; cbn [rbind] in H.
    + apply triplets_nonempty in AT. destruct ds as [|d ds]; [congruence|]. destruct (forallb _ _); congruence.
    + apply triplets_raise in AT. congruence.
    + discriminate.
Qed.
Lemma s_reject l : l <> [] ->
  (forall a0 d, ~ begins l (arith_item a0 d)) -> (forall a0 r, ~ begins l (geom_item a0 r)) ->
  s Exact (map Num l ++ [Dots]) = Done (Raise SyntaxError) \/ s Exact (map Num l ++ [Dots]) = Unmodelled.
Proof.
  intros N NA NG. destruct (s Exact (map Num l ++ [Dots])) as [[g|e]|] eqn:E; [| |now right].
  - exfalso. apply s_begins in E as (f & _ & B & [(a0 & d & H)|(a0 & r & H)]).
    + apply (NA a0 d). eapply begins_ext; eassumption.
    + apply (NG a0 r). eapply begins_ext; eassumption.
  - left. rewrite s_dots in E by assumption. destruct (analyze Exact (map Num l)) as [[d|e']|] eqn:A; cbn [rbind] in E; try discriminate.
    apply analyze_raise in A; [|assumption]. congruence.
Qed.

(** finite arithmetic sequences *)
Lemma s_dots_last l last : l <> [] -> s Exact (map Num l ++ [Dots; Num last]) =
  rbind (analyze Exact (map Num l)) (fun d => rbind (nofterms d last) (fun n =>
     match n with
     | None => Done (Raise SyntaxError)
     | Some n => Done (Ok (fun j => if (Z.of_nat j <? n)%Z then Some (generate d j) else None))
     end)).
Proof.
  intro H. unfold s. replace (map Num l ++ [Dots; Num last]) with ((map Num l ++ [Dots]) ++ [Num last]) by now rewrite <- app_assoc.
  rewrite existsb_app, existsb_dots. cbn [negb orb]. rewrite !split_last_app.
  destruct l as [|a l]; [congruence|]. cbn [map app]. reflexivity.
Qed.
Lemma is_int_iff a : is_int a = true <-> exists z, a == inject_Z z.
Proof.
  unfold is_int. rewrite Qeq_bool_iff. split; [intro H; exists (Qfloor a); now symmetry|].
  intros [z H]. rewrite H at 2. rewrite (Qfloor_comp _ _ H), Qfloor_Z. reflexivity.
Qed.
Lemma s_finite_arith l a0 d last m : (2 <= length l)%nat -> ~ d == 0 -> begins l (arith_item a0 d) ->
  (1 <= m)%nat -> last == arith_item a0 d m ->
  exists g, s Exact (map Num l ++ [Dots; Num last]) = Done (Ok g) /\ yields_upto g (arith_item a0 d) m.
Proof.
  intros L Nd B Lm Hl. destruct (analyze_arith l a0 d L B) as (e & A & D). rewrite s_dots_last by (intros ->; simpl in L; lia).
  rewrite A. cbn [rbind]. unfold arith_shape in D. destruct (Qeq_bool d 0) eqn:E; [apply Qeq_bool_iff in E; contradiction|].
  destruct D as (a & k & -> & Ha & Hk).
  assert (Nk : ~ k == 0) by (rewrite Hk; assumption).
  assert (V : (last - a) / k == inject_Z (Z.of_nat m)).
  { rewrite Hl, Ha, Hk. unfold arith_item. field. assumption. }
  assert (I : is_int ((last - a) / k) = true) by (apply is_int_iff; eauto).
  assert (P : Qle_bool ((last - a) / k) 0 = false).
  { destruct (Qle_bool _ 0) eqn:Q; [|reflexivity]. apply Qle_bool_iff in Q. rewrite V in Q.
    change 0 with (inject_Z 0) in Q. rewrite <- Zle_Qle in Q. lia. }
  assert (F : Qfloor ((last - a) / k) = Z.of_nat m) by (rewrite (Qfloor_comp _ _ V); apply Qfloor_Z).
  unfold nofterms. rewrite I, P, F. cbn [andb negb rbind]. eexists. split; [reflexivity|]. split.
  - intros j Hj. destruct (Z.ltb_spec (Z.of_nat j) (1 + Z.of_nat m)); [|lia].
    destruct (gen_arith a k j) as (q & -> & Q). exists q. split; [reflexivity|]. now rewrite Q, Ha, Hk.
  - intros j Hj. destruct (Z.ltb_spec (Z.of_nat j) (1 + Z.of_nat m)); [lia|reflexivity].
Qed.
Lemma s_finite_arith_reject l a0 d last : (2 <= length l)%nat -> begins l (arith_item a0 d) ->
  (forall m, (1 <= m)%nat -> ~ last == arith_item a0 d m) \/ d == 0 ->
  s Exact (map Num l ++ [Dots; Num last]) = Done (Raise SyntaxError).
Proof.
  intros L B H. destruct (analyze_arith l a0 d L B) as (e & A & D). rewrite s_dots_last by (intros ->; simpl in L; lia).
  rewrite A. cbn [rbind]. unfold arith_shape in D. destruct (Qeq_bool d 0) eqn:E.
  - destruct D as (a & -> & _). reflexivity.
  - destruct D as (a & k & -> & Ha & Hk). destruct H as [H|H]; [|apply Qeq_bool_iff in H; congruence].
    assert (Nd : ~ d == 0) by (intro Q; apply Qeq_bool_iff in Q; congruence).
    unfold nofterms. destruct (is_int ((last - a) / k)) eqn:I; [|reflexivity].
    destruct (Qle_bool ((last - a) / k) 0) eqn:P; [reflexivity|]. exfalso.
    apply is_int_iff in I as [z V].
    assert (0 < z)%Z.
    { destruct (Z.lt_ge_cases 0 z) as [|Q]; [assumption|]. assert (Qle_bool ((last - a) / k) 0 = true); [|congruence].
      apply Qle_bool_iff. rewrite V. change 0 with (inject_Z 0). rewrite <- Zle_Qle. exact Q. }
    apply (H (Z.to_nat z)); [lia|]. unfold arith_item. rewrite Z2Nat.id by lia. rewrite <- V, <- Ha, <- Hk. field. now rewrite Hk.
Qed.

Lemma s_cyclic init rep : rep <> [] ->
  exists g, s Exact (init ++ [Lst rep; Dots]) = Done (Ok g) /\
    (forall j x, nth_error init j = Some x -> g j = Some x) /\
    (forall j, exists q, nth_error rep (j mod length rep) = Some q /\ g (length init + j)%nat = Some (Num q)).
Proof.
  intro N. unfold s. replace (init ++ [Lst rep; Dots]) with ((init ++ [Lst rep]) ++ [Dots]) by now rewrite <- app_assoc.
  rewrite existsb_dots. cbn [negb]. rewrite split_last_app.
  destruct (init ++ [Lst rep]) eqn:E; [destruct init; discriminate|]. rewrite <- E.
  unfold iscyclic. rewrite split_last_app. destruct rep as [|r0 rep]; [congruence|].
  eexists. split; [reflexivity|]. unfold cyclic. split.
  - intros j x ->. reflexivity.
  - intro j. assert (L : (j mod length (r0 :: rep) < length (r0 :: rep))%nat) by (apply Nat.mod_upper_bound; discriminate).
    apply nth_error_Some in L. destruct (nth_error (r0 :: rep) (j mod length (r0 :: rep))) as [q|] eqn:Q; [|congruence].
    exists q. split; [reflexivity|]. assert (nth_error init (length init + j)%nat = None) as -> by (apply nth_error_None; lia).
    replace (length init + j - length init)%nat with j by lia. now rewrite Q.
Qed.
Lemma s_plain md spec init x : spec = init ++ [x] -> (forall e, In e spec -> e <> Dots) -> (forall l, x <> Lst l) ->
  s md spec = Done (Ok (nth_error spec)).
Proof.
  intros -> ND NL. unfold s. assert (E : existsb is_dots (init ++ [x]) = false).
  { destruct (existsb is_dots (init ++ [x])) eqn:E; [|reflexivity]. apply existsb_exists in E as (e & He & Q).
    specialize (ND e He). destruct e; simpl in Q; congruence. }
  rewrite E. cbn [negb]. unfold iscyclic. rewrite split_last_app. destruct x; [reflexivity|reflexivity|]. exfalso. now apply (NL l).
Qed.

Lemma s_begins_refuted : exists l g j q q', s Ints (map Num l ++ [Dots]) = Done (Ok g) /\
  (forall x, In x l -> exists z, x = inject_Z z) /\
  nth_error l j = Some q /\ g j = Some (Num q') /\ ~ q' == q.
Proof.
  exists [0; inject_Z 10000000000; inject_Z 20000000001].
  eexists. exists 1%nat. eexists. eexists. split; [vm_compute; reflexivity|].
  split. { intros x [<-|[<-|[<-|[]]]]; eexists; reflexivity. }
  split; [reflexivity|]. split; [reflexivity|]. vm_compute. discriminate.
Qed.
