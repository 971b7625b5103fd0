From Verif Require Import Base MathModel MathSpec.
From Coq Require Import List Bool ZArith Arith Lia.
Import ListNotations.
Open Scope nat_scope.

(** termwise *)
Lemma unop_look {A B} (op : A -> B) p : forall t c,
  look (unop op t) p = Some (Sc c) <-> exists x, look t p = Some (Sc x) /\ c = op x.
Proof.
  induction p as [|i p IH]; intros [a|f] c; simpl.
  - split; [intros [= <-]; eauto|intros (x & [= <-] & ->); auto].
  - split; [discriminate|intros (x & [=] & _)].
  - split; [intros [= <-]; eauto|intros (x & [= <-] & ->); auto].
  - destruct (f i); [apply IH|]. split; [discriminate|intros (x & [=] & _)].
Qed.
Lemma binop_left_look {A B C} (op : A -> B -> C) d p : forall t c,
  look (binop_left op t d) p = Some (Sc c) <-> exists x, look t p = Some (Sc x) /\ c = op x d.
Proof.
  induction p as [|i p IH]; intros [a|f] c; simpl.
  - split; [intros [= <-]; eauto|intros (x & [= <-] & ->); auto].
  - split; [discriminate|intros (x & [=] & _)].
  - split; [intros [= <-]; eauto|intros (x & [= <-] & ->); auto].
  - destruct (f i); [apply IH|]. split; [discriminate|intros (x & [=] & _)].
Qed.
Lemma binop_right_look {A B C} (op : A -> B -> C) d p : forall t c,
  look (binop_right op d t) p = Some (Sc c) <-> exists x, look t p = Some (Sc x) /\ c = op d x.
Proof.
  induction p as [|i p IH]; intros [a|f] c; simpl.
  - split; [intros [= <-]; eauto|intros (x & [= <-] & ->); auto].
  - split; [discriminate|intros (x & [=] & _)].
  - split; [intros [= <-]; eauto|intros (x & [= <-] & ->); auto].
  - destruct (f i); [apply IH|]. split; [discriminate|intros (x & [=] & _)].
Qed.
Lemma binop_look {A B C} (op : A -> B -> C) p : forall a b c,
  look (binop op a b) p = Some (Sc c) <->
  exists x y, look a p = Some (Sc x) /\ look b p = Some (Sc y) /\ c = op x y.
Proof.
  induction p as [|i p IH]; intros [a|f] [b|g] c; simpl.
  - split; [intros [= <-]; eauto|intros (x & y & [= <-] & [= <-] & ->); auto].
  - split; [discriminate|intros (x & y & _ & [=] & _)].
  - split; [discriminate|intros (x & y & [=] & _)].
  - split; [discriminate|intros (x & y & [=] & _)].
  - split; [intros [= <-]; eauto|intros (x & y & [= <-] & [= <-] & ->); auto].
  - destruct (g i) as [t|]; [|split; [discriminate|intros (x & y & _ & [=] & _)]].
    rewrite binop_right_look. split; [intros (x & H & ->); eauto|intros (x & y & [= <-] & H & ->); eauto].
  - destruct (f i) as [t|]; [|split; [discriminate|intros (x & y & [=] & _)]].
    rewrite binop_left_look. split; [intros (x & H & ->); eauto|intros (x & y & H & [= <-] & ->); eauto].
  - destruct (f i) as [t|], (g i) as [u|]; try (split; [discriminate|]).
    + apply IH.
    + intros (x & y & _ & [=] & _).
    + intros (x & y & [=] & _).
    + intros (x & y & [=] & _).
Qed.
(** Shape: the result of two iterables has an item exactly where both do. *)
Lemma binop_shape {A B C} (op : A -> B -> C) f g : exists h, binop op (It f) (It g) = It h /\
  forall i, (exists t, h i = Some t) <-> (exists x, f i = Some x) /\ (exists y, g i = Some y).
Proof.
  eexists. split; [reflexivity|]. intro i. simpl. destruct (f i) as [x|], (g i) as [y|].
  - split; eauto.
  - split; [intros (? & [=])|intros (_ & ? & [=])].
  - split; [intros (? & [=])|intros ((? & [=]) & _)].
  - split; [intros (? & [=])|intros ((? & [=]) & _)].
Qed.

(** fibonacci *)
Lemma fib_spec i : fibonacci 0 = 1%Z /\ fibonacci 1 = 1%Z /\
  fibonacci (S (S i)) = (fibonacci i + fibonacci (S i))%Z.
Proof.
  split; [reflexivity|]. split; [reflexivity|]. unfold fibonacci. cbn [fib_state].
  destruct (fib_state i) as [a b]. simpl. lia.
Qed.

(** take *)
Lemma ends_mono {A} (s : stream A) : ends_once s -> forall i j, i <= j -> s i = None -> s j = None.
Proof. intros H i j L. induction L; auto. Qed.
Lemma stake_nth {A} (s : stream A) : ends_once s -> forall n i j,
  nth_error (stake n i s) j = if j <? n then s (i + j) else None.
Proof.
  intros E n. induction n as [|n IH]; intros i j; simpl.
  - now destruct j.
  - destruct (s i) as [x|] eqn:Hi.
    + destruct j as [|j]; simpl; [now rewrite Nat.add_0_r|]. rewrite IH.
      replace (S i + j) with (i + S j) by lia. reflexivity.
    + assert (s (i + j) = None) by (apply (ends_mono s E i); auto; lia).
      destruct (j <? S n), j; auto.
Qed.
Lemma stake_length_le {A} (s : stream A) n : forall i, length (stake n i s) <= n.
Proof. induction n as [|n IH]; intro i; simpl; [lia|]. destruct (s i); simpl; [specialize (IH (S i))|]; lia. Qed.
Lemma stake_defined {A} (s : stream A) : ends_once s -> forall n i,
  i < length (stake n 0 s) <-> i < n /\ s i <> None.
Proof.
  intros E n i. rewrite <- nth_error_Some, (stake_nth s E). simpl.
  destruct (Nat.ltb_spec i n); split; [tauto|tauto|congruence|lia].
Qed.

(** the diagonal *)
Lemma nth_error_ext {A} : forall (l l' : list A), (forall i, nth_error l i = nth_error l' i) -> l = l'.
Proof.
  induction l as [|x l IH]; intros [|y l'] H; auto.
  - specialize (H 0). discriminate.
  - specialize (H 0). discriminate.
  - f_equal; [specialize (H 0); now injection H|]. apply IH. intro i. exact (H (S i)).
Qed.
Lemma filter_seq_interval (f : nat -> bool) lo hi : forall m s,
  (forall i, s <= i < s + m -> f i = true <-> lo <= i < hi) ->
  filter f (seq s m) = seq (Nat.max lo s) (Nat.min hi (s + m) - Nat.max lo s).
Proof.
  induction m as [|m IH]; intros s H.
  - replace (Nat.min hi (s + 0) - Nat.max lo s) with 0 by lia. reflexivity.
  - cbn [seq filter]. specialize (IH (S s)). rewrite IH by (intros; apply H; lia). clear IH.
    assert (Hs := H s ltac:(lia)). destruct (f s).
    + assert (lo <= s < hi) by now apply Hs.
      replace (Nat.max lo s) with s by lia. replace (Nat.max lo (S s)) with (S s) by lia.
      replace (Nat.min hi (s + S m) - s) with (S (Nat.min hi (S s + m) - S s)) by lia. reflexivity.
    + assert (~ lo <= s < hi) by (intro Q; apply Hs in Q; discriminate).
      destruct (le_lt_dec hi s).
      * replace (Nat.min hi (S s + m) - _) with 0 by lia. replace (Nat.min hi (s + S m) - _) with 0 by lia. reflexivity.
      * replace (Nat.max lo (S s)) with (Nat.max lo s) by lia. now replace (S s + m) with (s + S m) by lia.
Qed.

Section Diag.
Context {A B : Type} (a : stream A) (b : stream B).
Hypothesis Ea : ends_once a.
Hypothesis Eb : ends_once b.

Lemma diagonal_seq k : let lx := length (stake (S k) 0 a) in let ly := length (stake (S k) 0 b) in
  diagonal a b k = seq (S k - ly) (lx - (S k - ly)).
Proof.
  cbv zeta. unfold diagonal. pose proof (stake_length_le a (S k) 0). pose proof (stake_length_le b (S k) 0).
  rewrite (filter_seq_interval _ (S k - length (stake (S k) 0 b)) (length (stake (S k) 0 a))).
  - rewrite Nat.max_0_r. now replace (Nat.min _ (0 + S k)) with (length (stake (S k) 0 a)) by lia.
  - intros i Hi. rewrite andb_true_iff.
    assert (Pa := stake_defined a Ea (S k) i). assert (Pb := stake_defined b Eb (S k) (k - i)).
    unfold defined. destruct (a i) as [u|] eqn:Ha, (b (k - i)) as [v|] eqn:Hb.
    + assert (i < length (stake (S k) 0 a)) by (apply Pa; split; [lia|discriminate]).
      assert (k - i < length (stake (S k) 0 b)) by (apply Pb; split; [lia|discriminate]). intuition lia.
    + assert (~ k - i < length (stake (S k) 0 b)) by (intro Q; apply Pb in Q; tauto).
      split; [intros [_ [=]]|lia].
    + assert (~ i < length (stake (S k) 0 a)) by (intro Q; apply Pa in Q; tauto).
      split; [intros [[=] _]|lia].
    + assert (~ i < length (stake (S k) 0 a)) by (intro Q; apply Pa in Q; tauto).
      split; [intros [[=] _]|lia].
Qed.

Lemma nth_error_skipn {X} (l : list X) : forall n i, nth_error (skipn n l) i = nth_error l (n + i).
Proof. induction l as [|x l IH]; intros [|n] i; simpl; auto. now destruct i. Qed.
Lemma nth_error_rev_ {X} (l : list X) i : i < length l -> nth_error (rev l) i = nth_error l (length l - 1 - i).
Proof.
  intro H. destruct l as [|d l']; [simpl in H; lia|]. set (l := d :: l') in *.
  rewrite (nth_error_nth' (rev l) d) by now rewrite rev_length.
  rewrite (nth_error_nth' l d) by lia. f_equal. rewrite rev_nth by assumption. f_equal. lia.
Qed.
Lemma nth_error_seq n : forall s i, nth_error (seq s n) i = if i <? n then Some (s + i) else None.
Proof.
  induction n as [|n IH]; intros s [|i]; simpl; auto.
  rewrite IH. replace (S s + i) with (s + S i) by lia. reflexivity.
Qed.

(** What one pass sees. *)
Lemma pass_lists k :
  let xs := stake (S k) 0 a in let ys := stake (S k) 0 b in
  let lx := length xs in let ly := length ys in
  map a (diagonal a b k) = map Some (skipn (S k - ly) xs) /\
  map (fun i => b (k - i)) (diagonal a b k) = map Some (rev (skipn (S k - lx) ys)).
Proof.
  cbv zeta. rewrite diagonal_seq. cbv zeta.
  pose proof (stake_length_le a (S k) 0) as La. pose proof (stake_length_le b (S k) 0) as Lb.
  assert (Na := stake_nth a Ea (S k) 0). assert (Nb := stake_nth b Eb (S k) 0).
  assert (Da := stake_defined a Ea (S k)). assert (Db := stake_defined b Eb (S k)).
  set (xs := stake (S k) 0 a) in *. set (ys := stake (S k) 0 b) in *.
  split; apply nth_error_ext; intro i; rewrite !nth_error_map, nth_error_seq.
  - rewrite nth_error_skipn, Na, Nat.add_0_l.
    destruct (Nat.ltb_spec i (length xs - (S k - length ys))) as [L|L].
    + cbn [option_map]. destruct (Nat.ltb_spec (S k - length ys + i) (S k)); [|lia].
      assert (Q : S k - length ys + i < length xs) by lia. apply Da in Q as [_ Q].
      destruct (a (S k - length ys + i)); [reflexivity|congruence].
    + cbn [option_map]. destruct (Nat.ltb_spec (S k - length ys + i) (S k)); [|reflexivity].
      destruct (a (S k - length ys + i)) eqn:E; [|reflexivity]. exfalso.
      assert (S k - length ys + i < length xs) by (apply Da; split; [assumption|congruence]). lia.
  - destruct (Nat.ltb_spec i (length xs - (S k - length ys))) as [L|L].
    + assert (LS : length (skipn (S k - length xs) ys) = length xs - (S k - length ys)) by (rewrite skipn_length; lia).
      rewrite nth_error_rev_ by lia. rewrite nth_error_skipn, LS, Nb, Nat.add_0_l. cbn [option_map].
      replace (S k - length xs + (length xs - (S k - length ys) - 1 - i)) with (k - (S k - length ys + i)) by lia.
      destruct (Nat.ltb_spec (k - (S k - length ys + i)) (S k)); [|lia].
      assert (Q : k - (S k - length ys + i) < length ys) by lia. apply Db in Q as [_ Q].
      destruct (b (k - (S k - length ys + i))); [reflexivity|congruence].
    + cbn [option_map]. destruct (nth_error (rev _) i) eqn:E; [|reflexivity].
      assert (i < length (rev (skipn (S k - length xs) ys))) by (apply nth_error_Some; congruence).
      rewrite rev_length, skipn_length in *. lia.
Qed.

Context {E D : Type} (combine : list A -> list B -> E) (reduce : E -> D).

Lemma pass_spec req k :
  match diag_pass combine reduce req a b (S k) with
  | Some d => diagonal a b k <> [] /\ (req = All -> a k <> None /\ b k <> None) /\
      exists xs ys, map a (diagonal a b k) = map Some xs /\
        map (fun i => b (k - i)) (diagonal a b k) = map Some ys /\ d = reduce (combine xs ys)
  | None => diagonal a b k = [] \/ (req = All /\ (a k = None \/ b k = None))
  end.
Proof.
  pose proof (pass_lists k) as [Px Py]. pose proof (diagonal_seq k) as Ds. cbv zeta in *.
  unfold diag_pass. cbv zeta.
  pose proof (stake_length_le a (S k) 0) as La. pose proof (stake_length_le b (S k) 0) as Lb.
  assert (Da := stake_defined a Ea (S k)). assert (Db := stake_defined b Eb (S k)).
  set (xs := stake (S k) 0 a) in *. set (ys := stake (S k) 0 b) in *.
  assert (Cx : (if ((length xs =? length ys) && (length xs <? S k)) || (length xs <? length ys) || (length ys <? length xs)
                then skipn (S k - length ys) xs else xs) = skipn (S k - length ys) xs).
  { destruct (_ || _ || _) eqn:C; [reflexivity|]. rewrite !orb_false_iff, andb_false_iff, !Nat.ltb_ge, Nat.eqb_neq in C.
    replace (S k - length ys) with 0 by lia. reflexivity. }
  assert (Cy : (if ((length xs =? length ys) && (length xs <? S k)) || (length xs <? length ys) || (length ys <? length xs)
                then skipn (S k - length xs) ys else ys) = skipn (S k - length xs) ys).
  { destruct (_ || _ || _) eqn:C; [reflexivity|]. rewrite !orb_false_iff, andb_false_iff, !Nat.ltb_ge, Nat.eqb_neq in C.
    replace (S k - length xs) with 0 by lia. reflexivity. }
  rewrite Cx, Cy. clear Cx Cy.
  assert (Ak : (length xs <? S k) = false <-> a k <> None).
  { rewrite Nat.ltb_ge. split; [intro; apply Da; lia|]. intro Q. assert (k < length xs) by (apply Da; auto). lia. }
  assert (Bk : (length ys <? S k) = false <-> b k <> None).
  { rewrite Nat.ltb_ge. split; [intro; apply Db; lia|]. intro Q. assert (k < length ys) by (apply Db; auto). lia. }
  assert (Rq : (match req with All => (length xs <? S k) || (length ys <? S k) | Any => false end) = false <->
               (req = All -> a k <> None /\ b k <> None)).
  { destruct req; [split; [intros _ [=]|auto]|]. rewrite orb_false_iff, Ak, Bk. split; auto. }
  destruct (match req with All => _ | Any => false end).
  - right. destruct req.
    + exfalso. assert (true = false); [|discriminate]. apply Rq. intros [=].
    + split; [reflexivity|]. destruct (a k); [|now left]. destruct (b k); [|now right].
      exfalso. assert (true = false); [|discriminate]. apply Rq. intros _. split; discriminate.
  - destruct (skipn (S k - length ys) xs) as [|x xs'] eqn:Sx.
    + left. destruct (diagonal a b k); [reflexivity|discriminate].
    + split; [intro Q; rewrite Q in Px; discriminate|]. split; [now apply Rq|].
      exists (x :: xs'), (rev (skipn (S k - length xs) ys)). auto.
Qed.

(** Output [k] depends on diagonal [k] only, and once there is none there are no more. *)
Lemma loop_nth req : forall fuel n k,
  nth_error (diag_loop combine reduce req a b fuel n) k =
  if (k <? fuel) && forallb (fun i => match diag_pass combine reduce req a b (n + i) with Some _ => true | None => false end) (seq 0 (S k))
  then diag_pass combine reduce req a b (n + k) else None.
Proof.
  induction fuel as [|fuel IH]; intros n k; [now destruct k|].
  cbn [diag_loop]. assert (SQ : forall m s f, forallb f (seq (S s) m) = forallb (fun i => f (S i)) (seq s m)).
  { clear. induction m as [|m IH]; intros s f; simpl; [reflexivity|]. now rewrite IH. }
  change (seq 0 (S k)) with (0 :: seq 1 k). cbn [forallb]. rewrite SQ, Nat.add_0_r.
  destruct (diag_pass combine reduce req a b n) as [d|] eqn:P.
  - destruct k as [|k]; [simpl; now rewrite Nat.add_0_r|]. cbn [nth_error]. rewrite IH.
    change (S k <? S fuel) with (k <? fuel). replace (n + S k) with (S n + k) by lia. cbn [andb].
    assert (X : forall l g h, (forall i, g i = h i) -> @forallb nat g l = forallb h l).
    { clear. intros l g h H. induction l; simpl; congruence. }
    rewrite (X (seq 0 (S k)) _ (fun i => match diag_pass combine reduce req a b (n + S i) with Some _ => true | None => false end)).
    + reflexivity.
    + intro i. now replace (S n + i) with (n + S i) by lia.
  - simpl. rewrite andb_false_r. now destruct k.
Qed.
Lemma pass_mono req n : diag_pass combine reduce req a b (S n) = None -> diag_pass combine reduce req a b (S (S n)) = None.
Proof.
  intro H. pose proof (pass_spec req n) as P. rewrite H in P. pose proof (pass_spec req (S n)) as Q.
  destruct (diag_pass combine reduce req a b (S (S n))) as [d|]; [|reflexivity]. exfalso.
  destruct Q as (Ne & Rq & _). destruct P as [P|[-> P]].
  - destruct (diagonal a b (S n)) as [|i r] eqn:Di; [congruence|].
    assert (In i (diagonal a b (S n))) by (rewrite Di; now left).
    unfold diagonal in H0. apply filter_In in H0 as [H1 H2]. apply in_seq in H1. apply andb_true_iff in H2 as [H2 H3].
    unfold defined in *.
    assert (In (Nat.pred i) (diagonal a b n)); [|rewrite P in *; contradiction].
    unfold diagonal. apply filter_In. split; [apply in_seq; lia|]. unfold defined.
    assert (a (Nat.pred i) <> None).
    { intro Q. rewrite (ends_mono a Ea (Nat.pred i) i) in H2; [discriminate|lia|assumption]. }
    assert (b (n - Nat.pred i) <> None).
    { intro Q. rewrite (ends_mono b Eb (n - Nat.pred i) (S n - i)) in H3; [discriminate|lia|assumption]. }
    now destruct (a (Nat.pred i)), (b (n - Nat.pred i)).
  - destruct (Rq eq_refl) as [R1 R2]. destruct P as [P|P]; [apply Ea in P|apply Eb in P]; contradiction.
Qed.
Lemma out_nth req fuel k :
  nth_error (diagonal_reduce combine reduce req a b fuel) k =
  if k <? fuel then diag_pass combine reduce req a b (S k) else None.
Proof.
  unfold diagonal_reduce. rewrite loop_nth. destruct (k <? fuel); [|reflexivity]. cbn [andb].
  destruct (forallb _ _) eqn:F; [reflexivity|]. symmetry.
  destruct (diag_pass combine reduce req a b (S k)) as [d|] eqn:P; [|reflexivity]. exfalso.
  assert (forallb (fun i => match diag_pass combine reduce req a b (1 + i) with Some _ => true | None => false end) (seq 0 (S k)) = true); [|congruence].
  apply forallb_forall. intros i Hi. apply in_seq in Hi. simpl.
  destruct (diag_pass combine reduce req a b (S i)) eqn:Pi; [reflexivity|]. exfalso.
  assert (M : forall j, i <= j -> diag_pass combine reduce req a b (S j) = None).
  { intros j L. induction L; [assumption|]. now apply pass_mono. }
  rewrite M in P by lia. discriminate.
Qed.
Lemma diagonal_spec req fuel k :
  match nth_error (diagonal_reduce combine reduce req a b fuel) k with
  | Some d => k < fuel /\ diagonal a b k <> [] /\ (req = All -> a k <> None /\ b k <> None) /\
      exists xs ys, map a (diagonal a b k) = map Some xs /\
        map (fun i => b (k - i)) (diagonal a b k) = map Some ys /\ d = reduce (combine xs ys)
  | None => fuel <= k \/ diagonal a b k = [] \/ (req = All /\ (a k = None \/ b k = None))
  end.
Proof.
  rewrite out_nth. destruct (Nat.ltb_spec k fuel); [|auto].
  pose proof (pass_spec req k) as P. destruct (diag_pass combine reduce req a b (S k)); auto.
Qed.
End Diag.

(** cauchyprod *)
Lemma fold_add_shift l : forall x, fold_left Z.add l x = (x + fold_left Z.add l 0)%Z.
Proof. induction l as [|y l IH]; intro x; simpl; [lia|]. rewrite IH, (IH y). lia. Qed.
Lemma pysum_cons x l : pysum (x :: l) = (x + pysum l)%Z.
Proof. unfold pysum. simpl. now rewrite fold_add_shift. Qed.
Lemma sum_seq f k : sum_upto f k = pysum (map f (seq 0 (S k))).
Proof.
  induction k as [|k IH]; [unfold pysum; simpl; lia|]. cbn [sum_upto]. rewrite IH.
  rewrite (seq_S (S k)), map_app. unfold pysum. rewrite fold_left_app. simpl. reflexivity.
Qed.
Lemma pysum_filter (f : nat -> Z) g l : (forall i, In i l -> g i = false -> f i = 0%Z) ->
  pysum (map f (filter g l)) = pysum (map f l).
Proof.
  induction l as [|i l IH]; intro H; [reflexivity|]. simpl. rewrite pysum_cons.
  rewrite <- IH by (intros; apply H; simpl; auto).
  destruct (g i) eqn:G; [simpl; now rewrite pysum_cons|]. rewrite (H i); simpl; auto; lia.
Qed.
Lemma cauchy_sum (a b : stream Z) (l : list nat) (xs ys : list Z) k : map a l = map Some xs -> map (fun i => b (k - i)) l = map Some ys ->
  pysum (zipmul xs ys) = pysum (map (fun i => coef a i * coef b (k - i))%Z l).
Proof.
  revert xs ys. induction l as [|i l IH]; intros [|x xs] [|y ys] Hx Hy; try discriminate; [reflexivity|].
  simpl in *. injection Hx as Hx Hx'. injection Hy as Hy Hy'. rewrite !pysum_cons, (IH xs ys) by assumption.
  unfold coef at 3 4. now rewrite Hx, Hy.
Qed.
Lemma cauchy_spec (a b : stream Z) req fuel k : ends_once a -> ends_once b ->
  match nth_error (cauchyprod req a b fuel) k with
  | Some c => k < fuel /\ c = sum_upto (fun i => coef a i * coef b (k - i))%Z k
  | None => True
  end.
Proof.
  intros Ea Eb. pose proof (diagonal_spec a b Ea Eb zipmul pysum req fuel k) as P.
  unfold cauchyprod. destruct (nth_error _ k) as [c|]; [|exact I].
  destruct P as (L & _ & _ & xs & ys & Hx & Hy & ->). split; [assumption|].
  rewrite (cauchy_sum a b _ xs ys k Hx Hy), sum_seq. unfold diagonal. apply pysum_filter.
  intros i _ F. unfold coef, defined in *. destruct (a i), (b (k - i)); simpl in F; try discriminate; lia.
Qed.

Lemma of_list_ends {A} (l : list A) : ends_once (of_list l).
Proof. intros i H. apply nth_error_None in H. apply nth_error_None. lia. Qed.
Lemma length_nth {X} (l : list X) m : (forall k, nth_error l k <> None <-> k < m) -> length l = m.
Proof.
  intro H. destruct (lt_eq_lt_dec (length l) m) as [[L|E]|G]; [|assumption|].
  - apply H in L. apply nth_error_Some in L. lia.
  - assert (Q : nth_error l m <> None) by (now apply nth_error_Some). apply H in Q. lia.
Qed.
Lemma diagonal_nonempty {A B} (la : list A) (lb : list B) k :
  diagonal (of_list la) (of_list lb) k <> [] <-> la <> [] /\ lb <> [] /\ k < length la + length lb - 1.
Proof.
  split.
  - intro H. destruct (diagonal _ _ k) as [|i r] eqn:Di; [congruence|].
    assert (Q : In i (diagonal (of_list la) (of_list lb) k)) by (rewrite Di; now left).
    apply filter_In in Q as [Q1 Q2]. apply in_seq in Q1. apply andb_true_iff in Q2 as [Q2 Q3]. unfold defined, of_list in *.
    assert (i < length la) by (apply nth_error_Some; destruct (nth_error la i); congruence).
    assert (k - i < length lb) by (apply nth_error_Some; destruct (nth_error lb (k - i)); congruence).
    repeat split; try lia; intros ->; simpl in *; lia.
  - intros (Na & Nb & L) Di.
    assert (0 < length la) by (destruct la; [congruence|simpl; lia]).
    assert (0 < length lb) by (destruct lb; [congruence|simpl; lia]).
    set (i := Nat.min k (length la - 1)).
    assert (Q : In i (diagonal (of_list la) (of_list lb) k)); [|rewrite Di in Q; contradiction].
    apply filter_In. split; [apply in_seq; lia|]. unfold defined, of_list.
    assert (nth_error la i <> None) by (apply nth_error_Some; lia).
    assert (nth_error lb (k - i) <> None) by (apply nth_error_Some; lia).
    now destruct (nth_error la i), (nth_error lb (k - i)).
Qed.
Lemma cauchy_length (la lb : list Z) fuel :
  length (cauchyprod Any (of_list la) (of_list lb) fuel) =
    Nat.min fuel (match la, lb with [], _ | _, [] => 0 | _, _ => length la + length lb - 1 end) /\
  length (cauchyprod All (of_list la) (of_list lb) fuel) = Nat.min fuel (Nat.min (length la) (length lb)).
Proof.
  assert (H := fun req k => diagonal_spec (of_list la) (of_list lb) (of_list_ends la) (of_list_ends lb) zipmul pysum req fuel k).
  assert (M : (match la, lb with [], _ | _, [] => 0 | _, _ => length la + length lb - 1 end) =
              if (length la =? 0) || (length lb =? 0) then 0 else length la + length lb - 1) by now destruct la, lb.
  assert (Ba : forall k, of_list la k <> None <-> k < length la) by (intro; apply nth_error_Some).
  assert (Bb : forall k, of_list lb k <> None <-> k < length lb) by (intro; apply nth_error_Some).
  split; apply length_nth; intro k; unfold cauchyprod.
  - specialize (H Any k). rewrite M. pose proof (diagonal_nonempty la lb k) as N. destruct (nth_error _ k).
    + destruct H as (L & Ne & _). apply N in Ne as (N1 & N2 & N3).
      destruct la; [congruence|]. destruct lb; [congruence|]. simpl in *. split; [lia|congruence].
    + split; [congruence|]. intro L. exfalso. destruct H as [H|[H|[[=] _]]]; [lia|].
      apply N in H; [exact H|]. destruct la; [simpl in *; lia|]. destruct lb; [simpl in *; lia|].
      split; [congruence|]. split; [congruence|]. simpl in *. lia.
  - specialize (H All k). pose proof (diagonal_nonempty la lb k) as N. destruct (nth_error _ k).
    + destruct H as (L & _ & Q & _). destruct (Q eq_refl) as [Q1 Q2]. apply Ba in Q1. apply Bb in Q2. split; [lia|congruence].
    + split; [congruence|]. intro L. exfalso. destruct H as [H|[H|[_ [H|H]]]]; [lia| | |].
      * apply N in H; [exact H|]. split; [intros ->; simpl in *; lia|]. split; [intros ->; simpl in *; lia|]. lia.
      * apply (Ba k) in H; [exact H|lia].
      * apply (Bb k) in H; [exact H|lia].
Qed.

(** commutativity *)
Lemma sum_ext f g k : (forall i, i <= k -> f i = g i) -> sum_upto f k = sum_upto g k.
Proof. induction k as [|k IH]; intro H; simpl; [apply H; lia|]. rewrite IH by (intros; apply H; lia). now rewrite H. Qed.
Lemma sum_first f k : sum_upto f (S k) = (f 0%nat + sum_upto (fun i => f (S i)) k)%Z.
Proof. induction k as [|k IH]; [simpl; lia|]. cbn [sum_upto] in *. rewrite IH. lia. Qed.
Lemma sum_rev f k : sum_upto f k = sum_upto (fun i => f (k - i)) k.
Proof.
  revert f. induction k as [|k IH]; intro f; [reflexivity|]. rewrite sum_first, (IH (fun i => f (S i))).
  cbn [sum_upto]. rewrite Nat.sub_diag. rewrite Z.add_comm. f_equal. apply sum_ext. intros i Hi. f_equal. lia.
Qed.
Lemma diagonal_flip {A B} (a : stream A) (b : stream B) k : diagonal a b k = [] <-> diagonal b a k = [].
Proof.
  assert (G : forall (A B : Type) (a : stream A) (b : stream B), diagonal a b k = [] -> diagonal b a k = []).
  { intros A' B' a' b' H. destruct (diagonal b' a' k) as [|i r] eqn:E; [reflexivity|]. exfalso.
    assert (Q : In i (diagonal b' a' k)) by (rewrite E; now left). apply filter_In in Q as [Q1 Q2]. apply in_seq in Q1.
    assert (Q : In (k - i) (diagonal a' b' k)); [|rewrite H in Q; contradiction].
    apply filter_In. split; [apply in_seq; lia|]. replace (k - (k - i)) with i by lia. now rewrite andb_comm. }
  split; apply G.
Qed.
Lemma cauchy_comm (a b : stream Z) req fuel : ends_once a -> ends_once b ->
  cauchyprod req a b fuel = cauchyprod req b a fuel.
Proof.
  intros Ea Eb. apply nth_error_ext. intro k.
  pose proof (cauchy_spec a b req fuel k Ea Eb) as P. pose proof (cauchy_spec b a req fuel k Eb Ea) as Q.
  pose proof (diagonal_spec a b Ea Eb zipmul pysum req fuel k) as P'.
  pose proof (diagonal_spec b a Eb Ea zipmul pysum req fuel k) as Q'. unfold cauchyprod in *.
  destruct (nth_error (diagonal_reduce zipmul pysum req a b fuel) k),
           (nth_error (diagonal_reduce zipmul pysum req b a fuel) k).
  - destruct P as [_ ->], Q as [_ ->]. f_equal. rewrite sum_rev. apply sum_ext. intros i Hi.
    replace (k - (k - i)) with i by lia. apply Z.mul_comm.
  - exfalso. destruct P' as (L & Ne & R & _). destruct Q' as [Q'|[Q'|[E Q']]]; [lia| |destruct (R E), Q'; contradiction].
    apply Ne. now apply diagonal_flip.
  - exfalso. destruct Q' as (L & Ne & R & _). destruct P' as [P'|[P'|[E P']]]; [lia| |destruct (R E), P'; contradiction].
    apply Ne. now apply diagonal_flip.
  - reflexivity.
Qed.

(** polynomial multiplication *)
Definition conv (f g : nat -> Z) (k : nat) : Z := sum_upto (fun i => f i * g (k - i)%nat)%Z k.
Fixpoint evalN (h : nat -> Z) (N : nat) (x : Z) : Z :=
  match N with O => 0%Z | S N' => (h 0%nat + x * evalN (fun k => h (S k)) N' x)%Z end.
Lemma evalN_ext N : forall h h' x, (forall k, k < N -> h k = h' k) -> evalN h N x = evalN h' N x.
Proof. induction N as [|N IH]; intros h h' x H; simpl; [reflexivity|]. rewrite H by lia. f_equal. f_equal. apply IH. intros; apply H; lia. Qed.
Lemma evalN_lin N : forall h h' c x, evalN (fun k => c * h k + h' k)%Z N x = (c * evalN h N x + evalN h' N x)%Z.
Proof. induction N as [|N IH]; intros; simpl; [lia|]. rewrite IH. ring. Qed.
Lemma evalN_zero N x : forall h, (forall k, h k = 0%Z) -> evalN h N x = 0%Z.
Proof. induction N as [|N IH]; intros h H; simpl; [reflexivity|]. rewrite IH, H; [lia|]. intro; apply H. Qed.
Lemma evalN_coef l x : forall N, length l <= N -> evalN (coef (of_list l)) N x = poly l x.
Proof.
  induction l as [|c l IH]; intros N L.
  - apply evalN_zero. intro k. unfold coef, of_list. now destruct k.
  - destruct N as [|N]; [simpl in L; lia|]. simpl. f_equal. f_equal. rewrite <- (IH N) by (simpl in L; lia). reflexivity.
Qed.
Lemma conv_S f g k : conv f g (S k) = (f 0%nat * g (S k) + conv (fun i => f (S i)) g k)%Z.
Proof. unfold conv. rewrite sum_first. reflexivity. Qed.
Lemma conv_poly la lb x : forall N, length la + length lb <= N ->
  evalN (conv (coef (of_list la)) (coef (of_list lb))) N x = (poly la x * poly lb x)%Z.
Proof.
  induction la as [|a la IH]; intros N L.
  - simpl. rewrite evalN_zero; [lia|]. intro k. unfold conv.
    rewrite (sum_ext _ (fun _ => 0%Z)) by (intros i _; unfold coef, of_list; destruct i; reflexivity).
    induction k; simpl; lia.
  - destruct N as [|N]; [simpl in L; lia|]. simpl in L.
    assert (E : evalN (conv (coef (of_list (a :: la))) (coef (of_list lb))) (S N) x =
                (a * evalN (coef (of_list lb)) (S N) x + x * evalN (conv (coef (of_list la)) (coef (of_list lb))) N x)%Z).
    { cbn [evalN]. rewrite (evalN_ext N _ (fun k => (a * coef (of_list lb) (S k) + conv (coef (of_list la)) (coef (of_list lb)) k))%Z).
      - rewrite (evalN_lin N (fun k => coef (of_list lb) (S k))). unfold conv at 1. simpl. change (coef (of_list (a :: la)) 0) with a. ring.
      - intros k _. rewrite conv_S. reflexivity. }
    rewrite E, IH by lia. rewrite evalN_coef by lia. cbn [poly]. ring.
Qed.
Lemma poly_nth l : forall N x, length l <= N -> poly l x = evalN (fun k => match nth_error l k with Some c => c | None => 0%Z end) N x.
Proof. intros. symmetry. rewrite <- (evalN_coef l x N) by assumption. reflexivity. Qed.
Lemma cauchy_poly la lb fuel x : length la + length lb <= fuel ->
  poly (cauchyprod Any (of_list la) (of_list lb) fuel) x = (poly la x * poly lb x)%Z.
Proof.
  intro L. rewrite <- (conv_poly la lb x fuel L).
  assert (Lc : length (cauchyprod Any (of_list la) (of_list lb) fuel) <= fuel) by (rewrite (proj1 (cauchy_length la lb fuel)); lia).
  rewrite (poly_nth _ fuel x Lc). apply evalN_ext. intros k Hk.
  pose proof (cauchy_spec _ _ Any fuel k (of_list_ends la) (of_list_ends lb)) as P.
  pose proof (diagonal_spec _ _ (of_list_ends la) (of_list_ends lb) zipmul pysum Any fuel k) as D. unfold cauchyprod in *.
  destruct (nth_error _ k); [apply P|]. destruct D as [D|[D|[[=] _]]]; [lia|].
  unfold conv. rewrite sum_seq. rewrite <- (pysum_filter _ (fun i => defined (of_list la) i && defined (of_list lb) (k - i))).
  - unfold diagonal in D. rewrite D. reflexivity.
  - intros i _ F. unfold coef, defined in *. destruct (of_list la i), (of_list lb (k - i)); simpl in F; try discriminate; lia.
Qed.
