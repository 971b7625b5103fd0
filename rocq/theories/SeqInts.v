(** [s] on small integers: the tolerance of [almosteq] makes no difference. *)
From Verif Require Import Base ItrModel SeqModel SeqSpec SeqProofs.
From Coq Require Import List Bool QArith Qpower Qabs Qround Lia Lqa Qfield Field Arith.
Import ListNotations.
Open Scope Q_scope.

(** A quotient of small integers *)
Definition small (q : Q) : Prop := exists n m : Z, (Z.abs n < 10000)%Z /\ (0 < Z.abs m < 5000)%Z /\ q * inject_Z m == inject_Z n.
Lemma inject_abs z : Qabs (inject_Z z) == inject_Z (Z.abs z).
Proof. reflexivity. Qed.
Lemma inject_minus a b : inject_Z (a - b) == inject_Z a - inject_Z b.
Proof. unfold Z.sub, Qminus. rewrite inject_Z_plus, inject_Z_opp. reflexivity. Qed.
Lemma small_almost a b : small a -> small b -> almosteq Ints a b = almosteq Exact a b.
Proof.
  intros (n & m & N & M & E) (n' & m' & N' & M' & E'). unfold almosteq.
  destruct (Qeq_bool a b) eqn:Q; [reflexivity|]. apply Qeq_bool_neq in Q.
  destruct (Qeq_bool a 0) eqn:A0; cbn [orb]; [reflexivity|]. destruct (Qeq_bool b 0) eqn:B0; [reflexivity|].
  apply negb_false_iff. apply Qle_bool_iff. apply Qeq_bool_neq in A0.
  assert (P : 0 < Qabs a + Qabs b).
  { assert (0 < Qabs a). { destruct (Qlt_le_dec 0 (Qabs a)) as [L|L]; [exact L|]. exfalso. apply A0. apply Qabs_Qle_condition in L. lra. }
    pose proof (Qabs_nonneg b). lra. }
  apply Qle_shift_div_l; [exact P|].
  set (c := Qabs (inject_Z m) * Qabs (inject_Z m')).
  assert (Mp : 0 < Qabs (inject_Z m)). { rewrite inject_abs. change 0 with (inject_Z 0). rewrite <- Zlt_Qlt. lia. }
  assert (Mp' : 0 < Qabs (inject_Z m')). { rewrite inject_abs. change 0 with (inject_Z 0). rewrite <- Zlt_Qlt. lia. }
  assert (C : 0 < c) by (apply Qmult_lt_0_compat; assumption).
  apply (Qmult_le_r _ _ c C).
  assert (H1 : Qabs (a - b) * c == inject_Z (Z.abs (n * m' - n' * m))).
  { unfold c. rewrite <- !Qabs_Qmult. rewrite <- inject_abs. apply Qabs_wd. rewrite inject_minus, !inject_Z_mult, <- E, <- E'. ring. }
  assert (H2 : (Qabs a + Qabs b) * c == inject_Z (Z.abs (n * m') + Z.abs (n' * m))).
  { unfold c. rewrite inject_Z_plus, <- !inject_abs, !inject_Z_mult, <- E, <- E', !Qabs_Qmult. ring. }
  rewrite H1. rewrite <- Qmult_assoc, H2.
  assert (NZ : (n * m' - n' * m <> 0)%Z).
  { intro Z0. apply Q. assert (Hz : (a - b) * (inject_Z m * inject_Z m') == 0).
    { transitivity (inject_Z (n * m' - n' * m)); [|rewrite Z0; reflexivity]. rewrite inject_minus, !inject_Z_mult, <- E, <- E'. ring. }
    apply Qmult_integral in Hz. destruct Hz as [Hz|Hz]; [lra|]. exfalso. apply Qmult_integral in Hz.
    destruct Hz as [Hz|Hz]; [rewrite Hz in Mp; discriminate|rewrite Hz in Mp'; discriminate]. }
  apply Qle_trans with 1.
  - apply Qle_trans with ((1 # 100000000) * inject_Z 100000000); [|discriminate].
    apply Qmult_le_l; [reflexivity|]. rewrite <- Zle_Qle. rewrite !Z.abs_mul. nia.
  - change 1 with (inject_Z 1). rewrite <- Zle_Qle. lia.
Qed.
Lemma small_wd a b : a == b -> small a -> small b.
Proof. intros Q (n & m & N & M & E). exists n, m. rewrite <- Q. auto. Qed.
Lemma small_diff a b : small_int a -> small_int b -> small (a - b).
Proof.
  intros (z & E & B) (z' & E' & B'). exists (z - z')%Z, 1%Z. split; [lia|]. split; [lia|].
  rewrite E, E', inject_minus. ring.
Qed.
Lemma small_ratio a b : small_int a -> small_int b -> ~ b == 0 -> small (a / b).
Proof.
  intros (z & E & B) (z' & E' & B') N. exists z, z'. split; [lia|]. split.
  - assert (z' <> 0)%Z by (intros ->; apply N; rewrite E'; reflexivity). lia.
  - rewrite <- E', <- E. field. exact N.
Qed.

Definition deq (d d' : desc) : Prop :=
  match d, d' with
  | Const x, Const y => x = y
  | Arith a k, Arith b l => a = b /\ k == l
  | Geom a k, Geom b l => a = b /\ k == l
  | _, _ => False
  end.
Definition dsmall (d : desc) : Prop := match d with Const _ => True | Arith _ k | Geom _ k => small k end.
Definition rsame {A B} (R : A -> B -> Prop) (x : res A) (y : res B) : Prop :=
  match x, y with
  | Done (Ok a), Done (Ok b) => R a b
  | Done (Raise e), Done (Raise e') => e = e'
  | Unmodelled, Unmodelled => True
  | _, _ => False
  end.
Definition dsame (d d' : desc) : Prop := deq d d' /\ dsmall d.
Lemma analyze3_same a0 a1 a2 : small_int a0 -> small_int a1 -> small_int a2 ->
  rsame dsame (analyze3 Ints a0 a1 a2) (analyze3 Exact a0 a1 a2).
Proof.
  intros H0 H1 H2. unfold analyze3. rewrite (small_almost (a2 - a1) (a1 - a0)) by (apply small_diff; assumption).
  destruct (Qeq_bool (a2 - a1) (a1 - a0) && Qeq_bool (a1 - a0) 0); [cbn [rsame]; split; cbn; auto|].
  destruct (almosteq Exact (a2 - a1) (a1 - a0)) eqn:A.
  { apply almosteq_exact in A.
    assert (Qeq_bool (a1 - a0) (a2 - a1) = true) as -> by (apply Qeq_bool_iff; symmetry; exact A). cbn [rsame].
    split; [split; reflexivity|]. cbn [dsmall]. apply small_diff; assumption. }
  destruct (Qeq_bool a0 0) eqn:Z0; cbn [negb andb]. { destruct (_ && _); cbn; auto. }
  destruct (Qeq_bool a1 0) eqn:Z1; cbn [negb andb]. { rewrite andb_false_r. cbn. auto. }
  destruct (Qeq_bool a2 0) eqn:Z2; cbn [negb andb]. { rewrite andb_false_r. cbn. auto. }
  apply Qeq_bool_neq in Z0, Z1, Z2.
  rewrite (small_almost (a2 / a1) (a1 / a0)) by (apply small_ratio; assumption).
  destruct (almosteq Exact (a2 / a1) (a1 / a0)) eqn:R.
  - apply almosteq_exact in R. cbn [rsame].
    assert (K : (a1 / a0 + a2 / a1) / 2 == a1 / a0) by (rewrite R; field; auto).
    assert (K2 : (if Qeq_bool (inject_Z (Qfloor (a1 / a0))) (a1 / a0) && Qeq_bool (inject_Z (Qfloor (a2 / a1))) (a2 / a1)
                  then inject_Z (Qfloor (a1 / a0)) else (a1 / a0 + a2 / a1) / 2) == a1 / a0).
    { destruct (Qeq_bool (inject_Z (Qfloor (a1 / a0))) (a1 / a0)) eqn:F; cbn [andb]; [|exact K].
      destruct (Qeq_bool _ (a2 / a1)); [|exact K]. apply Qeq_bool_iff. exact F. }
    split.
    + split; [reflexivity|]. rewrite K2. symmetry. exact K.
    + cbn [dsmall]. eapply small_wd; [symmetry; exact K2|]. apply small_ratio; assumption.
  - destruct (negb (Qeq_bool (Qabs a0) 1) && true && true); cbn; auto.
Qed.
Lemma triplets_same l : Forall small_int l -> rsame (Forall2 dsame) (analyze_triplets Ints l) (analyze_triplets Exact l).
Proof.
  induction l as [|a0 l IH]; intro F; [cbn; constructor|]. inversion F as [|? ? S0 F']; subst. specialize (IH F').
  destruct l as [|a1 l]; [cbn; constructor|]. destruct l as [|a2 l]; [cbn; constructor|].
  change (rsame (Forall2 dsame) (rbind (analyze3 Ints a0 a1 a2) (fun d => rbind (analyze_triplets Ints (a1 :: a2 :: l)) (fun ds => Done (Ok (d :: ds)))))
     (rbind (analyze3 Exact a0 a1 a2) (fun d => rbind (analyze_triplets Exact (a1 :: a2 :: l)) (fun ds => Done (Ok (d :: ds)))))).
  inversion F' as [|? ? S1 F'']; subst. inversion F'' as [|? ? S2 _]; subst.
  pose proof (analyze3_same a0 a1 a2 S0 S1 S2) as T.
  destruct (analyze3 Ints a0 a1 a2) as [[d|e]|], (analyze3 Exact a0 a1 a2) as [[d'|e']|]; cbn [rsame rbind] in *; try contradiction; auto.
  destruct (analyze_triplets Ints (a1 :: a2 :: l)) as [[ds|e]|], (analyze_triplets Exact (a1 :: a2 :: l)) as [[ds'|e']|]; cbn [rsame rbind] in *; try contradiction; auto.
Qed.
Lemma almost_wd a b c d : a == c -> b == d -> almosteq Exact a b = almosteq Exact c d.
Proof.
  intros E F. destruct (almosteq Exact a b) eqn:X; destruct (almosteq Exact c d) eqn:Y; auto.
  - apply almosteq_exact in X. assert (almosteq Exact c d = true); [|congruence]. apply almosteq_exact. rewrite <- E, <- F. exact X.
  - apply almosteq_exact in Y. assert (almosteq Exact a b = true); [|congruence]. apply almosteq_exact. rewrite E, F. exact Y.
Qed.
Lemma agrees_same f d f' d' : dsame f f' -> dsame d d' -> agrees Ints f d = agrees Exact f' d'.
Proof.
  intros [E S0] [E' S1]. destruct f, f'; cbn in E; try contradiction; destruct d, d'; cbn in E'; try contradiction; cbn [agrees]; auto;
    destruct E as [_ E], E' as [_ E']; rewrite small_almost by assumption; apply almost_wd; assumption.
Qed.
Lemma analyze_same spec : (forall q, In (Num q) spec -> small_int q) -> rsame deq (analyze Ints spec) (analyze Exact spec).
Proof.
  intro H. unfold analyze. destruct spec as [|x [|y rest]]; [cbn; auto|destruct x; cbn; auto|].
  set (spec := x :: y :: rest) in *.
  assert (F : forall l, numbers spec = Some l -> Forall small_int l).
  { clearbody spec. induction spec as [|e spec IH]; cbn; intros l E.
    - injection E as <-. constructor.
    - destruct e; try discriminate. destruct (numbers spec) as [l0|] eqn:E0; [|discriminate]. injection E as <-. constructor.
      + apply H. left. reflexivity.
      + apply IH; [|reflexivity]. intros q0 I0. apply H. right. exact I0. }
  assert (P : forall l, numbers spec = Some l -> (2 <= length l)%nat).
  { intros l E. unfold spec in E. cbn in E. destruct x; try discriminate. destruct y; try discriminate. destruct (numbers rest); [|discriminate]. injection E as <-. cbn. lia. }
  destruct (numbers spec) as [l|]; [|reflexivity]. specialize (F l eq_refl). specialize (P l eq_refl).
  destruct l as [|a0 [|a1 [|a2 [|a3 l]]]]; try (cbn in P; lia).
  - cbn. unfold analyze2. destruct (Qeq_bool _ _); cbn; auto. split; reflexivity.
  - inversion F as [|? ? S0 F0]; subst. inversion F0 as [|? ? S1 F1]; subst. inversion F1 as [|? ? S2 F2]; subst.
    pose proof (analyze3_same a0 a1 a2 S0 S1 S2) as T.
    destruct (analyze3 Ints a0 a1 a2) as [[d|e]|], (analyze3 Exact a0 a1 a2) as [[d'|e']|]; cbn [rsame] in *; try contradiction; auto. apply T.
  - pose proof (triplets_same _ F) as T.
    destruct (analyze_triplets Ints (a0 :: a1 :: a2 :: a3 :: l)) as [[ds|e]|], (analyze_triplets Exact (a0 :: a1 :: a2 :: a3 :: l)) as [[ds'|e']|];
      cbn [rsame rbind] in *; try contradiction; auto.
    destruct T as [|f f' ds ds' T0 T]; [reflexivity|].
    assert (G : forallb (agrees Ints f) ds = forallb (agrees Exact f') ds').
    { clear F P. induction T as [|d d' ds ds' Td T IH]; [reflexivity|]. cbn. rewrite IH, (agrees_same f d f' d' T0 Td). reflexivity. }
    rewrite G. destruct (forallb _ ds'); [apply T0|reflexivity].
Qed.
Lemma gen_same d d' j : deq d d' -> same_elt (generate d j) (generate d' j).
Proof.
  destruct d as [x|a k|a k], d' as [y|b l|b l]; cbn [deq]; try contradiction.
  - intros ->. destruct y; cbn; auto; reflexivity.
  - intros [-> E]. cbn. rewrite E. reflexivity.
  - intros [-> E]. destruct (gen_geom b k j) as (q & -> & Q). destruct (gen_geom b l j) as (q' & -> & Q'). cbn. rewrite Q, Q', E. reflexivity.
Qed.
Lemma nof_same d d' last : deq d d' -> nofterms d last = nofterms d' last.
Proof.
  destruct d as [x|a k|a k], d' as [y|b l|b l]; cbn [deq]; try contradiction; auto.
  intros [-> E]. cbn [nofterms]. assert (Q : (last - b) / k == (last - b) / l) by (rewrite E; reflexivity).
  unfold is_int. rewrite (Qfloor_comp _ _ Q).
  assert (Qeq_bool (inject_Z (Qfloor ((last - b) / l))) ((last - b) / k) = Qeq_bool (inject_Z (Qfloor ((last - b) / l))) ((last - b) / l)) as -> by (rewrite Q; reflexivity).
  assert (Qle_bool ((last - b) / k) 0 = Qle_bool ((last - b) / l) 0) as -> by (rewrite Q; reflexivity). reflexivity.
Qed.
Lemma split_in {A} (l init : list A) x : split_last l = Some (init, x) -> l = init ++ [x].
Proof.
  revert init. induction l as [|a l IH]; intros init H; [discriminate|]. cbn in H.
  destruct l as [|b l]; [injection H as <- <-; reflexivity|].
  destruct (split_last (b :: l)) as [[i y]|] eqn:E; [|discriminate]. injection H as <- <-. rewrite (IH i eq_refl). reflexivity.
Qed.
Lemma same_refl (x : res (nat -> option elt)) : same_result x x.
Proof.
  destruct x as [[g|e]|]; cbn; auto. intro j. destruct (g j) as [[q| |]|]; cbn; auto; reflexivity.
Qed.
Theorem s_small spec : (forall q, In (Num q) spec -> small_int q) -> same_result (s Ints spec) (s Exact spec).
Proof.
  intro H. unfold s. destruct (negb (existsb is_dots spec)); [apply same_refl|].
  destruct (split_last spec) as [[spec1 last]|] eqn:S1; [|apply same_refl]. apply split_in in S1.
  assert (H1 : forall q, In (Num q) spec1 -> small_int q) by (intros q I0; apply H; rewrite S1, in_app_iff; auto).
  assert (D : forall sp, (forall q, In (Num q) sp -> small_int q) ->
     same_result (rbind (analyze Ints sp) (fun d => Done (Ok (fun j => Some (generate d j)))))
                 (rbind (analyze Exact sp) (fun d => Done (Ok (fun j => Some (generate d j)))))).
  { intros sp Hs. pose proof (analyze_same sp Hs) as T.
    destruct (analyze Ints sp) as [[d|e]|], (analyze Exact sp) as [[d'|e']|]; cbn [rsame rbind same_result] in *; try contradiction; auto.
    intro j. exact (gen_same d d' j T). }
  assert (L : same_result
    match split_last spec1 with
    | None => Done (Raise ValueError)
    | Some ([], Dots) => Done (Raise SyntaxError)
    | Some (spec2, Dots) => rbind (analyze Ints spec2) (fun d => match last with
        | Num q => rbind (nofterms d q) (fun n => match n with None => Done (Raise SyntaxError)
             | Some n => Done (Ok (fun j => if (Z.of_nat j <? n)%Z then Some (generate d j) else None)) end)
        | _ => match d with Const _ => Done (Raise SyntaxError) | _ => Done (Raise TypeError) end end)
    | Some _ => Done (Raise SyntaxError) end
    match split_last spec1 with
    | None => Done (Raise ValueError)
    | Some ([], Dots) => Done (Raise SyntaxError)
    | Some (spec2, Dots) => rbind (analyze Exact spec2) (fun d => match last with
        | Num q => rbind (nofterms d q) (fun n => match n with None => Done (Raise SyntaxError)
             | Some n => Done (Ok (fun j => if (Z.of_nat j <? n)%Z then Some (generate d j) else None)) end)
        | _ => match d with Const _ => Done (Raise SyntaxError) | _ => Done (Raise TypeError) end end)
    | Some _ => Done (Raise SyntaxError) end).
  { destruct (split_last spec1) as [[spec2 e]|] eqn:S2; [|apply same_refl]. apply split_in in S2.
    destruct e; [destruct spec2; apply same_refl| |destruct spec2; apply same_refl].
    destruct spec2 as [|x spec2]; [apply same_refl|].
    assert (H2 : forall q, In (Num q) (x :: spec2) -> small_int q) by (intros q I0; apply H1; rewrite S2, in_app_iff; auto).
    pose proof (analyze_same (x :: spec2) H2) as T.
    destruct (analyze Ints (x :: spec2)) as [[d|e]|], (analyze Exact (x :: spec2)) as [[d'|e']|]; cbn [rsame rbind same_result] in *; try contradiction; auto.
    assert (C : same_result match d with Const _ => Done (Raise SyntaxError) | _ => Done (Raise TypeError) end
       match d' with Const _ => Done (Raise SyntaxError) | _ => Done (Raise TypeError) end).
    { destruct d, d'; cbn in T; try contradiction; reflexivity. }
    destruct last as [q| |l0]; [|exact C|exact C]. rewrite (nof_same d d' q T).
    destruct (nofterms d' q) as [[[n|]|e]|]; cbn [rbind same_result]; auto.
    intro j. destruct (Z.of_nat j <? n)%Z; [exact (gen_same d d' j T)|exact Logic.I]. }
  destruct last as [q| |l0]; [destruct spec1; exact L| |destruct spec1; exact L].
  destruct spec1 as [|x spec1]; [apply same_refl|].
  destruct (iscyclic (x :: spec1)) as [[[init rep]|]|e]; [apply same_refl|exact (D _ H1)|apply same_refl].
Qed.

(** Misplaced [...] and lists *)
Theorem s_syntax md :
  (forall init l, ~ In Dots init -> s md (init ++ [Lst l]) = Done (Raise SyntaxError)) /\
  (forall init, s md (init ++ [Lst []; Dots]) = Done (Raise SyntaxError)) /\
  s md [Dots] = Done (Raise SyntaxError) /\
  (forall x, x <> Dots -> s md [Dots; x] = Done (Raise SyntaxError)) /\
  (forall init x y, In Dots init -> x <> Dots -> y <> Dots -> s md (init ++ [x; y]) = Done (Raise SyntaxError)) /\
  (forall x l, s md [x; Dots; Lst l] = Done (Raise SyntaxError)).
Proof.
  assert (SL : forall (l : list elt) x y, l ++ [x; y] = (l ++ [x]) ++ [y]) by (intros; rewrite <- app_assoc; reflexivity).
  assert (ND : forall l, ~ In Dots l -> existsb is_dots l = false).
  { intros l N. destruct (existsb is_dots l) eqn:E; [|reflexivity]. apply existsb_exists in E. destruct E as (x & I0 & X). destruct x; try discriminate. contradiction. }
  assert (YD : forall l, In Dots l -> existsb is_dots l = true) by (intros l I0; apply existsb_exists; exists Dots; auto).
  repeat split.
  - intros init l N. unfold s. rewrite (ND (init ++ [Lst l])) by (rewrite in_app_iff; cbn; intuition discriminate). cbn [negb].
    unfold iscyclic. rewrite split_last_app. destruct l; reflexivity.
  - intro init. unfold s. rewrite (YD (init ++ _)) by (rewrite in_app_iff; cbn; auto). cbn [negb]. rewrite SL, split_last_app.
    unfold iscyclic. rewrite split_last_app. destruct (init ++ [Lst []]) eqn:E; [destruct init; discriminate|reflexivity].
  - intros [q| |l] X; [reflexivity|congruence|reflexivity].
  - intros init x y I0 X Y. unfold s. rewrite (YD (init ++ _)) by (rewrite in_app_iff; auto). cbn [negb]. rewrite SL, split_last_app, split_last_app.
    assert (Z : match init with [] => Done (Raise SyntaxError) | _ => Done (Raise SyntaxError) end = @Done (nat -> option elt) (Raise SyntaxError)) by (destruct init; reflexivity).
    destruct (init ++ [x]) eqn:E; [destruct init; discriminate|]. destruct y; [|congruence|]; destruct x; try congruence; destruct init; reflexivity.
  - intros x l. destruct x; reflexivity.
Qed.

Corollary s_begins_small l g : Forall small_int l -> s Ints (map Num l ++ [Dots]) = Done (Ok g) ->
  exists f, yields g f /\ begins l f /\
    ((exists a0 d, forall j, f j == arith_item a0 d j) \/ (exists a0 r, forall j, f j == geom_item a0 r j)).
Proof.
  intros F E. pose proof (s_small (map Num l ++ [Dots])) as T.
  assert (H : forall q, In (Num q) (map Num l ++ [Dots]) -> small_int q).
  { intros q I0. apply in_app_iff in I0. destruct I0 as [I0|[I0|[]]]; [|discriminate]. apply in_map_iff in I0. destruct I0 as (x & X & I0).
    injection X as ->. exact (proj1 (Forall_forall _ _) F q I0). }
  specialize (T H). rewrite E in T. destruct (s Exact (map Num l ++ [Dots])) as [[h|e]|] eqn:E'; cbn in T; try contradiction.
  destruct (s_begins l h E') as (f & Y & B & C). exists f. split; [|auto]. intro j. destruct (Y j) as (q & G & Q).
  specialize (T j). rewrite G in T. destruct (g j) as [[p| |]|]; cbn in T; try contradiction; try discriminate. exists p. split; [reflexivity|]. rewrite T. exact Q.
Qed.
Corollary s_arith_small l a0 d : Forall small_int l -> (2 <= length l)%nat -> begins l (arith_item a0 d) ->
  exists g, s Ints (map Num l ++ [Dots]) = Done (Ok g) /\ yields g (arith_item a0 d).
Proof.
  intros F L B. pose proof (s_small (map Num l ++ [Dots])) as T.
  assert (H : forall q, In (Num q) (map Num l ++ [Dots]) -> small_int q).
  { intros q I0. apply in_app_iff in I0. destruct I0 as [I0|[I0|[]]]; [|discriminate]. apply in_map_iff in I0. destruct I0 as (x & X & I0).
    injection X as ->. exact (proj1 (Forall_forall _ _) F q I0). }
  specialize (T H). destruct (s_arith l a0 d L B) as (h & E & Y). rewrite E in T.
  destruct (s Ints (map Num l ++ [Dots])) as [[g|e]|]; cbn in T; try contradiction. exists g. split; [reflexivity|].
  intro j. destruct (Y j) as (q & G & Q). specialize (T j). rewrite G in T. destruct (g j) as [[p| |]|]; cbn in T; try contradiction; try discriminate.
  exists p. split; [reflexivity|]. rewrite T. exact Q.
Qed.

Lemma almost_close a b : almosteq Ints a b = true <-> a == b \/ close a b.
Proof.
  unfold almosteq, close. destruct (Qeq_bool a b) eqn:Q.
  { apply Qeq_bool_iff in Q. tauto. }
  apply Qeq_bool_neq in Q. split.
  - destruct (Qeq_bool a 0) eqn:A0; cbn [orb]; [discriminate|]. destruct (Qeq_bool b 0) eqn:B0; [discriminate|]. intro N. right.
    apply Qeq_bool_neq in A0.
    assert (P : 0 < Qabs a + Qabs b).
    { assert (0 < Qabs a). { destruct (Qlt_le_dec 0 (Qabs a)) as [L|L]; [exact L|]. exfalso. apply A0. apply Qabs_Qle_condition in L. lra. }
      pose proof (Qabs_nonneg b). lra. }
    apply negb_true_iff in N. apply Qnot_le_lt. intro L. assert (Qle_bool (1 # 100000000) (Qabs (a - b) / (Qabs a + Qabs b)) = true); [|congruence].
    apply Qle_bool_iff. apply Qle_shift_div_l; assumption.
  - intros [C|C]; [contradiction|].
    assert (A0 : ~ a == 0).
    { intro Z. rewrite Z in C. setoid_replace (0 - b) with (- b) in C by ring. rewrite Qabs_opp in C. change (Qabs 0) with 0 in C. pose proof (Qabs_nonneg b). lra. }
    assert (B0 : ~ b == 0).
    { intro Z. rewrite Z in C. setoid_replace (a - 0) with a in C by ring. change (Qabs 0) with 0 in C. pose proof (Qabs_nonneg a). lra. }
    destruct (Qeq_bool a 0) eqn:A1; [apply Qeq_bool_iff in A1; contradiction|]. destruct (Qeq_bool b 0) eqn:B1; [apply Qeq_bool_iff in B1; contradiction|].
    cbn [orb]. apply negb_true_iff. destruct (Qle_bool _ _) eqn:L; [|reflexivity]. exfalso. apply Qle_bool_iff in L.
    assert (P : 0 < Qabs a + Qabs b).
    { assert (0 < Qabs a). { destruct (Qlt_le_dec 0 (Qabs a)) as [L'|L']; [exact L'|]. exfalso. apply A0. apply Qabs_Qle_condition in L'. lra. }
      pose proof (Qabs_nonneg b). lra. }
    apply (Qmult_le_r _ _ _ P) in L. unfold Qdiv in L. rewrite <- Qmult_assoc in L. rewrite (Qmult_comm (/ _)), Qmult_inv_r in L by lra. lra.
Qed.
Lemma s3 md a0 a1 a2 : s md [Num a0; Num a1; Num a2; Dots] = rbind (analyze3 md a0 a1 a2) (fun d => Done (Ok (fun j => Some (generate d j)))).
Proof. reflexivity. Qed.
Theorem s_tolerant a0 a1 a2 : let d1 := a1 - a0 in let d2 := a2 - a1 in let r1 := a1 / a0 in let r2 := a2 / a1 in
  ~ d1 == d2 ->
  (close d2 d1 -> exists g, s Ints [Num a0; Num a1; Num a2; Dots] = Done (Ok g) /\ yields g (arith_item a0 ((a2 - a0) / 2))) /\
  (~ close d2 d1 -> ~ a0 == 0 -> ~ a1 == 0 -> ~ a2 == 0 -> close r2 r1 -> (forall z, ~ r1 == inject_Z z) ->
   exists g, s Ints [Num a0; Num a1; Num a2; Dots] = Done (Ok g) /\ yields g (geom_item a0 ((r1 + r2) / 2))).
Proof.
  cbn zeta. intro D. rewrite s3. unfold analyze3.
  assert (Qeq_bool (a2 - a1) (a1 - a0) = false) as E1.
  { destruct (Qeq_bool _ _) eqn:E; [|reflexivity]. apply Qeq_bool_iff in E. exfalso. apply D. symmetry. exact E. }
  assert (Qeq_bool (a1 - a0) (a2 - a1) = false) as E2.
  { destruct (Qeq_bool (a1 - a0) (a2 - a1)) eqn:E; [|reflexivity]. apply Qeq_bool_iff in E. contradiction. }
  rewrite E1, E2. cbn [andb]. split.
  - intro C. assert (almosteq Ints (a2 - a1) (a1 - a0) = true) as -> by (apply almost_close; auto). cbn [rbind]. eexists. split; [reflexivity|].
    intro j. destruct (gen_arith a0 ((a1 - a0 + (a2 - a1)) / 2) j) as (q & G & Q). exists q. rewrite G. split; [reflexivity|].
    rewrite Q. setoid_replace ((a1 - a0 + (a2 - a1)) / 2) with ((a2 - a0) / 2) by field. reflexivity.
  - intros C N0 N1 N2 R NZ.
    assert (almosteq Ints (a2 - a1) (a1 - a0) = false) as ->.
    { destruct (almosteq Ints _ _) eqn:A; [|reflexivity]. apply almost_close in A. destruct A as [A|A]; [exfalso; apply D; symmetry; exact A|contradiction]. }
    assert (Z : forall q, ~ q == 0 -> Qeq_bool q 0 = false).
    { intros q N. destruct (Qeq_bool q 0) eqn:E; [|reflexivity]. apply Qeq_bool_iff in E. contradiction. }
    rewrite (Z a0 N0), (Z a1 N1), (Z a2 N2). cbn [negb andb].
    assert (almosteq Ints (a2 / a1) (a1 / a0) = true) as -> by (apply almost_close; auto).
    assert (Qeq_bool (inject_Z (Qfloor (a1 / a0))) (a1 / a0) = false) as ->.
    { destruct (Qeq_bool (inject_Z (Qfloor (a1 / a0))) (a1 / a0)) eqn:E; [|reflexivity]. apply Qeq_bool_iff in E. exfalso. apply (NZ (Qfloor (a1 / a0))). symmetry. exact E. }
    cbn [andb rbind]. eexists. split; [reflexivity|]. intro j. destruct (gen_geom a0 ((a1 / a0 + a2 / a1) / 2) j) as (q & G & Q). exists q. rewrite G. auto.
Qed.
