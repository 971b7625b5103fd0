(** Proofs for the macros dlet, blet and so on (C113). *)
From Coq Require Import String List ZArith Bool Arith Lia.
From Verif Require Import Base CollModel EnvModel DlmModel DlmSpec.
Import ListNotations.
Open Scope string_scope.
Open Scope list_scope.
Open Scope nat_scope.

(** ** Induction over trees *)
Lemma ex_induct (P : ex -> Prop) :
  (forall z, P (Num z)) -> (forall x, P (Var x)) -> (forall o l, Forall P l -> P (Prim o l)) -> (forall f l, P f -> Forall P l -> P (Call f l)) ->
  (forall ps b, P b -> P (Lam ps b)) -> (forall x e, P e -> P (Wal x e)) -> (forall n x, P (EGet n x)) -> (forall n x e, P e -> P (ESet n x e)) ->
  forall e, P e.
Proof.
  intros H1 H2 H3 H4 H5 H6 H7 H8. fix IH 1. intros [z|x|o l|f l|ps b|x e|n x|n x e].
  - apply H1.
  - apply H2.
  - apply H3. induction l; constructor; auto.
  - apply H4; [apply IH|]. induction l; constructor; auto.
  - apply H5, IH.
  - apply H6, IH.
  - apply H7.
  - apply H8, IH.
Qed.
Lemma stm_induct (P : stm -> Prop) :
  (forall e, P (Expr e)) -> (forall x e, P (Assign x e)) -> (forall e, P (Return e)) -> (forall e a b, Forall P a -> Forall P b -> P (If e a b)) ->
  (forall f decos k ps ds b, Forall P b -> P (Def f decos k ps ds b)) -> (forall c m bs f decos ps ds b, Forall P b -> P (Dlet c m bs f decos ps ds b)) ->
  forall s, P s.
Proof.
  intros H1 H2 H3 H4 H5 H6. fix IH 1. intros [e|x e|e|e a b|f decos k ps ds b|c m bs f decos ps ds b].
  - apply H1.
  - apply H2.
  - apply H3.
  - apply H4; [induction a|induction b]; constructor; auto.
  - apply H5. induction b; constructor; auto.
  - apply H6. induction b; constructor; auto.
Qed.
Lemma map_ext_Forall {A B} (f g : A -> B) l : Forall (fun x => f x = g x) l -> map f l = map g l.
Proof. induction 1; cbn; congruence. Qed.
Lemma Forall_mp {A} (P Q : A -> Prop) l : Forall (fun x => P x -> Q x) l -> Forall P l -> Forall Q l.
Proof. induction 1; intros F; inversion F; subst; constructor; auto. Qed.
Lemma forallb_Forall {A} (f : A -> bool) l : forallb f l = true <-> Forall (fun x => f x = true) l.
Proof. rewrite forallb_forall, Forall_forall. reflexivity. Qed.
Lemma mem_in x l : mem x l = true <-> In x l.
Proof. unfold mem. rewrite existsb_exists. split; [intros (y & I & E); apply String.eqb_eq in E; now subst|]. intros I. exists x. split; [auto|apply String.eqb_refl]. Qed.
Lemma mem_app x a b : mem x (a ++ b) = mem x a || mem x b.
Proof. apply existsb_app. Qed.
Lemma mem_cons x y l : mem x (y :: l) = String.eqb x y || mem x l.
Proof. reflexivity. Qed.
Lemma mem_minus x l r : mem x (minus l r) = mem x l && negb (mem x r).
Proof.
  induction l as [|y l IH]; [reflexivity|]. unfold minus in *. cbn [filter]. rewrite mem_cons. destruct (String.eqb_spec x y) as [->|F].
  - destruct (mem y r) eqn:E; cbn [negb]; [rewrite IH; cbn; now rewrite andb_false_r|]. rewrite mem_cons, String.eqb_refl. reflexivity.
  - cbn [orb]. destruct (mem y r); cbn [negb]; [exact IH|]. rewrite mem_cons. apply String.eqb_neq in F. rewrite F. exact IH.
Qed.

(** ** dletseq is the nested functions *)
Section Ext.
Variable L : list string.
Variable en : nat.
Lemma ours_ext a a' l x : (forall x, In x L -> mem x a = mem x a') -> ours L a l x = ours L a' l x.
Proof.
  intros H. unfold ours. destruct (mem x L) eqn:E; [|reflexivity]. cbn. rewrite !mem_app, (H x); [reflexivity|now apply mem_in].
Qed.
Lemma tr_e_ext p e : forall a a' l, (forall x, In x L -> mem x a = mem x a') -> tr_e L en p a l e = tr_e L en p a' l e.
Proof.
  induction e using ex_induct; intros a a' l' A; cbn; auto.
  - destruct p; [reflexivity|]. now rewrite (ours_ext a a').
  - f_equal. apply map_ext_Forall. eapply Forall_impl; [|exact H]. cbn. auto.
  - f_equal; [auto|]. apply map_ext_Forall. eapply Forall_impl; [|exact H]. cbn. auto.
  - f_equal. apply IHe. intros x I. rewrite !mem_app. now rewrite (A x I).
  - rewrite (ours_ext a a'), (IHe a a') by auto. reflexivity.
  - f_equal. auto.
Qed.
Lemma body_ext f g : forall b l, Forall (fun s => forall l, f l s = g l s) b -> body f l b = body g l b.
Proof. induction b as [|s b IH]; intros l F; [reflexivity|]. inversion F; subst. cbn. rewrite H1. f_equal. auto. Qed.
Lemma tr_s_ext p s : forall a a' l, (forall x, In x L -> mem x a = mem x a') -> tr_s L en p a l s = tr_s L en p a' l s.
Proof.
  assert (M : forall l0 a a' l, (forall x, In x L -> mem x a = mem x a') -> map (tr_e L en p a l) l0 = map (tr_e L en p a' l) l0).
  { intros. apply map_ext. intros. now apply tr_e_ext. }
  induction s using stm_induct; intros a0 a' l' A; cbn; try (f_equal; auto using tr_e_ext; fail).
  - f_equal; [now apply tr_e_ext| |]; apply map_ext_Forall; (eapply Forall_impl; [|eassumption]); cbn; auto.
  - assert (A' : forall x, In x L -> mem x (a0 ++ f :: ps) = mem x (a' ++ f :: ps)) by (intros x I; rewrite !mem_app; now rewrite (A x I)).
    f_equal.
    + now apply M.
    + destruct k as [k|]; [|reflexivity]. cbn. f_equal. unfold tr_k. f_equal. apply map_ext. intros [x e]. cbn. f_equal. now apply tr_e_ext.
    + now apply M.
    + apply body_ext. eapply Forall_impl; [|exact H]. cbn. auto.
Qed.
(** code that mentions none of the names stays as it is *)
Lemma tr_e_none p e : forall a l, (forall x, In x L -> mentions x e = false) -> tr_e L en p a l e = e.
Proof.
  assert (O : forall a l x, (forall y, In y L -> String.eqb x y = false) -> ours L a l x = false).
  { intros a l x H. unfold ours. destruct (mem x L) eqn:E; [|reflexivity]. apply mem_in in E. specialize (H x E). now rewrite String.eqb_refl in H. }
  induction e using ex_induct; intros a l' H0; cbn in *; auto.
  - destruct p; [reflexivity|]. rewrite O; auto.
  - f_equal. rewrite <- (map_id l) at 2. apply map_ext_Forall. apply Forall_forall. intros y I. rewrite Forall_forall in H. apply H; [auto|].
    intros x Ix. specialize (H0 x Ix). destruct (mentions x y) eqn:E; auto. rewrite <- H0. symmetry. apply existsb_exists. eauto.
  - assert (B : forall x, In x L -> mentions x e = false /\ existsb (mentions x) l = false) by (intros x I; now apply orb_false_iff, H0).
    f_equal; [apply IHe; intros x I; now apply B|]. rewrite <- (map_id l) at 2. apply map_ext_Forall. apply Forall_forall. intros y I. rewrite Forall_forall in H. apply H; [auto|].
    intros x Ix. destruct (B x Ix) as [_ B2]. destruct (mentions x y) eqn:E; auto. rewrite <- B2. symmetry. apply existsb_exists. eauto.
  - f_equal. auto.
  - assert (B : forall y, In y L -> String.eqb x y = false /\ mentions y e = false) by (intros y I; now apply orb_false_iff, H0).
    rewrite IHe by (intros y I; now apply B). destruct p; [|reflexivity]. rewrite O; [reflexivity|]. intros y I. now apply B.
  - f_equal. auto.
Qed.
Lemma tr_l_none p l : forall a m, none_of L l = true -> map (tr_e L en p a m) l = l.
Proof.
  intros a m H. rewrite <- (map_id l) at 2. apply map_ext_Forall. apply Forall_forall. intros e I. apply tr_e_none. intros x Ix.
  unfold none_of in H. rewrite forallb_forall in H. specialize (H x Ix). apply negb_true_iff in H. destruct (mentions x e) eqn:E; auto.
  rewrite <- H. symmetry. apply existsb_exists. eauto.
Qed.
End Ext.

Lemma let_decorator_def d c r bs f decos ps ds b :
  let_decorator d c r bs (Def f decos None ps ds b) =
  Def f (map (tr_e (map fst bs) d Names [] []) (map (tr_e (map fst bs) d Assigns [] []) decos))
      (Some (mkL c r (if r then map (fun x => (fst x, letlike_e (map fst bs) d (snd x))) bs else bs) d)) ps
      (map (tr_e (map fst bs) d Names (f :: ps) []) (map (tr_e (map fst bs) d Assigns (f :: ps) []) ds))
      (body (tr_s (map fst bs) d Names (f :: ps)) [] (body (tr_s (map fst bs) d Assigns (f :: ps)) [] b)).
Proof. reflexivity. Qed.
Lemma decorator_params d c x v f i decos ps ds b : mem x (f :: ps) = false -> x <> i -> none_of [x] ds = true ->
  let_decorator d c false [(x, v)] (Def f decos None ps ds b) =
  with_params f ps ds (let_decorator d c false [(x, v)] (Def i decos None [] [] b)).
Proof.
  intros A B C. rewrite !let_decorator_def. cbn [with_params map fst].
  assert (E : forall y, In y [x] -> mem y (f :: ps) = mem y [i]).
  { intros y [<-|[]]. rewrite A. cbn. destruct (String.eqb_spec x i); [contradiction|reflexivity]. }
  f_equal.
  - rewrite (tr_l_none [x] d Assigns ds _ _ C). now rewrite tr_l_none.
  - assert (G : forall p b, body (tr_s [x] d p (f :: ps)) [] b = body (tr_s [x] d p [i]) [] b).
    { intros p b0. apply body_ext. apply Forall_forall. intros s _ l. now apply tr_s_ext. }
    rewrite !G. reflexivity.
Qed.
Section Seq.
Variable inner : nat -> string.
Lemma impl_shape bs : bs <> [] -> forall d c decos b, exists decos' k b', dletseq_impl inner d c bs decos b = Def (inner d) decos' k [] [] b'.
Proof.
  intros N d c decos b. destruct bs as [|b0 [|b1 r]]; [congruence| |]; cbn [dletseq_impl]; rewrite let_decorator_def; eauto.
Qed.
Lemma nested_ok bs : forall d c f decos ps ds b, bs <> [] -> (forall x n, In x (map fst bs) -> x <> inner n) ->
  match bs with [] => True | (x, _) :: _ => mem x (f :: ps) = false /\ none_of [x] ds = true end ->
  expand inner d (nested inner d c bs f decos ps ds b) = with_params f ps ds (dletseq_impl inner d c bs decos (map (expand inner (d + length bs)) b)).
Proof.
  induction bs as [|[x v] bs IH]; intros d c f decos ps ds b N I H; [congruence|]. destruct H as [H1 H2].
  destruct bs as [|b1 r].
  - cbn [nested dletseq_impl expand length]. rewrite (decorator_params d c x v f (inner d)); auto; [|apply I; now left]. now rewrite Nat.add_1_r.
  - set (rest := b1 :: r) in *. change (nested inner d c ((x, v) :: rest) f decos ps ds b) with
      (Dlet c Let [(x, v)] f [] ps ds [nested inner (S d) c rest (inner (S d)) decos [] [] b; Return (if c then Var (inner (S d)) else Call (Var (inner (S d))) [])]).
    cbn [expand map]. rewrite IH; [|discriminate| |].
    2:{ intros y n Iy. apply I. now right. }
    2:{ subst rest. destruct b1 as [y w]. split; [|reflexivity]. cbn. rewrite orb_false_r. apply String.eqb_neq. apply I. right. now left. }
    rewrite (decorator_params d c x v f (inner d)); auto; [|apply I; now left]. f_equal.
    change (dletseq_impl inner d c ((x, v) :: rest) decos (map (expand inner (d + length ((x, v) :: rest))) b)) with
      (let_decorator d c false [(x, v)] (Def (inner d) [] None [] [] [dletseq_impl inner (S d) c rest decos (map (expand inner (d + length ((x, v) :: rest))) b);
         Return (if c then Var (inner (S d)) else Call (Var (inner (S d))) [])])).
    do 3 f_equal. replace (d + length ((x, v) :: rest)) with (S d + length rest) by (cbn [length]; lia).
    destruct (impl_shape rest ltac:(discriminate) (S d) c decos (map (expand inner (S d + length rest)) b)) as (d' & k & b' & ->). reflexivity.
Qed.
Lemma seq_nested s : seq_ok s = true -> (forall x n, In x (let_names s) -> x <> inner n) -> forall d, expand inner d s = expand inner d (unnest inner d s).
Proof.
  induction s using stm_induct; intros S0 Nn d; cbn [unnest expand]; auto.
  - cbn in S0, Nn. apply andb_true_iff in S0 as [S1 S2]. apply forallb_Forall in S1, S2.
    f_equal; rewrite map_map; apply map_ext_Forall; [revert H S1|revert H0 S2]; intros F1 F2; rewrite Forall_forall in *; intros y I; (apply F1; auto);
      intros x n Ix; apply Nn; apply in_or_app; [left|right]; apply in_flat_map; eauto.
  - cbn in S0, Nn. apply forallb_Forall in S0. f_equal. rewrite map_map. apply map_ext_Forall. rewrite Forall_forall in *. intros y I. apply H; auto. intros x n Ix. apply Nn. apply in_flat_map. eauto.
  - assert (B : forall d, map (expand inner d) b = map (expand inner d) (map (unnest inner d) b)).
    { intros d0. cbn in S0. apply andb_true_iff in S0 as [_ S0]. apply forallb_Forall in S0. rewrite map_map. apply map_ext_Forall. rewrite Forall_forall in *. intros y I. apply H; auto.
      intros x n Ix. apply Nn. cbn. apply in_or_app. right. apply in_flat_map. eauto. }
    destruct m; cbn [expand].
    + now rewrite <- B.
    + rewrite B. destruct bs as [|[x v] bs]; [discriminate|]. cbn in S0. apply andb_true_iff in S0 as [S0 _]. apply andb_true_iff in S0 as [S1 S2].
      rewrite nested_ok; [reflexivity|discriminate| |].
      * intros y n Iy. apply Nn. cbn [let_names]. apply in_or_app. now left.
      * split; [now apply negb_true_iff|]. exact S2.
    + now rewrite <- B.
Qed.
End Seq.
