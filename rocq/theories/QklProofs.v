(** Proofs for C129. *)
From Coq Require Import String List Bool Arith Lia Permutation.
From Verif Require Import Base QklModel QklSpec.
Import ListNotations.
Open Scope string_scope.
Open Scope list_scope.
Open Scope nat_scope.

Section P.
Variable mynames : list string.
Definition isf (x : string) : Prop := In x mynames.
Notation tr := (transform mynames).
Notation visit := (visit mynames).
Definition trs := fix trs (n : nat) (l : list tree) : list tree * nat :=
  match l with
  | [] => ([], n)
  | t :: l => let (t, n) := tr n t in let (l, n) := trs n l in (t :: l, n)
  end.
Definition vs (k : nat) := fix vs (n : nat) (l : list tree) : option (list tree * nat) :=
  match l with
  | [] => Some ([], n)
  | t :: l =>
      match visit k n t with
      | Some (t, n) => match vs n l with Some (l, n) => Some (t :: l, n) | None => None end
      | None => None
      end
  end.

Lemma mine_spec x : mine mynames (User x) = true <-> isf x.
Proof.
  unfold mine, isf. rewrite existsb_exists. split.
  - intros (y & H & E). apply String.eqb_eq in E. now subst.
  - intros H. exists x. split; [assumption|apply String.eqb_refl].
Qed.
Lemma name_cases n x : (x = User "_" /\ transform_name n x = (Gen n, S n)) \/ (x <> User "_" /\ transform_name n x = (x, n)).
Proof.
  destruct (transform_name n x) eqn:E. unfold transform_name in E.
  destruct x as [s|i]; [|right; split; [discriminate|congruence]].
  destruct (string_dec s "_") as [->|D]; [left; split; congruence|right].
  split; [congruence|]. rewrite <- E.
  destruct s as [|[[] [] [] [] [] [] [] []] [|? ?]]; try reflexivity. now destruct D.
Qed.

(** [reads], where the first tree may contain generated names *)
Inductive rd (infn : bool) : tree -> tree -> list nm -> Prop :=
| d_slot i : infn = true -> rd infn (TName (User "_")) (TName (Gen i)) [Gen i]
| d_name x : infn = false \/ x <> User "_" -> rd infn (TName x) (TName x) []
| d_cap k : rd infn (TCap k) (TCap k) []
| d_node k l l' ps : rds infn l l' ps -> rd infn (TNode k l) (TNode k l') ps
| d_sub x i x' i' ps qs : mine mynames x = false -> rd infn (TName x) (TName x') ps -> rd infn i i' qs ->
    rd infn (TSub x i) (TSub x' i') (ps ++ qs)
| d_lam xs b b' ps : rd infn b b' ps -> rd infn (TLam xs b) (TLam xs b') ps
| d_fn x b b' ps : mine mynames x = true -> rd true b b' ps -> NoDup ps -> rd infn (TSub x b) (TLam ps b') []
with rds (infn : bool) : list tree -> list tree -> list nm -> Prop :=
| d_nil : rds infn [] [] []
| d_cons t t' l l' ps qs : rd infn t t' ps -> rds infn l l' qs -> rds infn (t :: l) (t' :: l') (ps ++ qs).

Scheme rd_i := Induction for rd Sort Prop
with rds_i := Induction for rds Sort Prop.
Combined Scheme rd_mut from rd_i, rds_i.

Section TreeInd.
Variable P : tree -> Prop.
Hypothesis Hn : forall x, P (TName x).
Hypothesis Hc : forall k, P (TCap k).
Hypothesis Hd : forall k l, Forall P l -> P (TNode k l).
Hypothesis Hs : forall x i, P i -> P (TSub x i).
Hypothesis Hl : forall ps b, P b -> P (TLam ps b).
Fixpoint tree_ind' (t : tree) : P t :=
  match t with
  | TName x => Hn x
  | TCap k => Hc k
  | TNode k l => Hd k l ((fix all (l : list tree) : Forall P l := match l with [] => Forall_nil _ | t :: l => Forall_cons _ (tree_ind' t) (all l) end) l)
  | TSub x i => Hs x i (tree_ind' i)
  | TLam ps b => Hl ps b (tree_ind' b)
  end.
End TreeInd.

Lemma rd_false : (forall b t t' ps, rd b t t' ps -> b = false -> ps = []) /\ (forall b l l' ps, rds b l l' ps -> b = false -> ps = []).
Proof.
  assert (H : forall b, (forall t t' ps, rd b t t' ps -> b = false -> ps = []) /\ (forall l l' ps, rds b l l' ps -> b = false -> ps = [])).
  2:{ split; intros b; apply H. }
  intros b.
  enough (X : (forall b t t' ps, rd b t t' ps -> b = false -> ps = [])).
  { split; [apply X|]. induction 1; intros E; [reflexivity|]. rewrite (X _ _ _ _ H E). now rewrite IHrds. }
  clear b. fix F 5. intros b t t' ps H. destruct H; intros E; try reflexivity.
  - congruence.
  - revert E. induction H; intros E; [reflexivity|]. rewrite (F _ _ _ _ H E). now rewrite IHrds.
  - rewrite (F _ _ _ _ H0 E), (F _ _ _ _ H1 E). reflexivity.
  - exact (F _ _ _ _ H E).
Qed.

Lemma gens_app n m p : n <= m -> m <= p -> map Gen (seq n (m - n)) ++ map Gen (seq m (p - m)) = map Gen (seq n (p - n)).
Proof.
  intros A B. rewrite <- map_app. f_equal. replace (p - n) with ((m - n) + (p - m)) by lia.
  rewrite seq_app. now replace (n + (m - n)) with m by lia.
Qed.
Lemma gens_1 n : map Gen (seq n (S n - n)) = [Gen n].
Proof. now replace (S n - n) with 1 by lia. Qed.
Lemma gens_0 n : map Gen (seq n (n - n)) = [].
Proof. now rewrite Nat.sub_diag. Qed.

Lemma tr_rd : forall t n t1 n1, tr n t = (t1, n1) ->
  n <= n1 /\ forall t', rd false t1 t' [] -> rd true t t' (map Gen (seq n (n1 - n))).
Proof.
  induction t as [x|k|k l IH|x i IH|ps b IH] using tree_ind'; intros n t1 n1 E.
  - cbn in E. destruct (name_cases n x) as [[-> N]|[D N]]; rewrite N in E; injection E as <- <-; (split; [lia|]); intros t' R.
    + rewrite gens_1. inversion R; subst. now constructor.
    + rewrite gens_0. inversion R; subst; try discriminate. constructor. now right.
  - cbn in E. injection E as <- <-. split; [lia|]. intros t' R. rewrite gens_0. inversion R; subst. constructor.
  - change (tr n (TNode k l)) with (let (l, n) := trs n l in (TNode k l, n)) in E.
    destruct (trs n l) as [l1 m] eqn:T. injection E as <- <-.
    assert (X : n <= m /\ forall l', rds false l1 l' [] -> rds true l l' (map Gen (seq n (m - n)))).
    { clear k. revert n l1 m T. induction IH as [|t l A F IHl]; intros n l1 m T; cbn in T.
      - injection T as <- <-. split; [lia|]. intros l' R. rewrite gens_0. inversion R; subst. constructor.
      - destruct (tr n t) as [t2 n2] eqn:T1. destruct (trs n2 l) as [l2 n3] eqn:T2. injection T as <- <-.
        destruct (A _ _ _ T1) as [L1 R1]. destruct (IHl _ _ _ T2) as [L2 R2]. split; [lia|]. intros l' R.
        inversion R; subst. match goal with A : rd _ _ _ _, B : rds _ _ _ _ |- _ => pose proof (proj1 rd_false _ _ _ _ A eq_refl); pose proof (proj2 rd_false _ _ _ _ B eq_refl); subst end.
        rewrite <- (gens_app n n2 n3) by lia. constructor; auto. }
    destruct X as [L X]. split; [exact L|]. intros t' R. inversion R; subst. constructor. auto.
  - cbn [transform] in E. destruct (mine mynames x) eqn:M.
    + injection E as <- <-. split; [lia|]. intros t' R. rewrite gens_0. inversion R; subst; [congruence|]. now constructor.
    + destruct (name_cases n x) as [[-> N]|[D N]]; rewrite N in E.
      * destruct (tr (S n) i) as [i1 m] eqn:T. injection E as <- <-. destruct (IH _ _ _ T) as [L R1]. split; [lia|].
        intros t' R. inversion R; subst; try discriminate.
        match goal with A : rd _ (TName _) _ _, B : rd _ i1 _ _ |- _ => rename A into HA; pose proof (proj1 rd_false _ _ _ _ HA eq_refl); pose proof (proj1 rd_false _ _ _ _ B eq_refl); subst end.
        rewrite <- (gens_app n (S n) m) by lia. apply d_sub; auto. rewrite gens_1. inversion HA; subst. now constructor.
      * destruct (tr n i) as [i1 m] eqn:T. injection E as <- <-. destruct (IH _ _ _ T) as [L R1]. split; [lia|].
        intros t' R. inversion R; subst; try congruence.
        match goal with A : rd _ (TName _) _ _, B : rd _ i1 _ _ |- _ => rename A into HA; pose proof (proj1 rd_false _ _ _ _ HA eq_refl); pose proof (proj1 rd_false _ _ _ _ B eq_refl); subst end.
        change (map Gen (seq n (m - n))) with ([] ++ map Gen (seq n (m - n))). apply d_sub; auto.
        inversion HA; subst; try discriminate. constructor. now right.
  - cbn [transform] in E. destruct (tr n b) as [b1 m] eqn:T. injection E as <- <-. destruct (IH _ _ _ T) as [L R1]. split; [lia|].
    intros t' R. inversion R; subst. constructor. auto.
Qed.

Lemma visit_rd : forall k n t t' n', visit k n t = Some (t', n') -> rd false t t' [].
Proof.
  induction k as [|k IH]; intros n t t' n' E; [discriminate|].
  destruct t as [x|j l|x i|ps b|j]; cbn [QklModel.visit] in E.
  - injection E as <- <-. constructor. now left.
  - change (match vs k n l with Some (l, n) => Some (TNode j l, n) | None => None end = Some (t', n')) in E.
    destruct (vs k n l) as [[l1 m]|] eqn:V; [|discriminate]. injection E as <- <-. constructor.
    clear j. revert n l1 m V. induction l as [|t l IHl]; intros n l1 m V; cbn in V.
    + injection V as <- <-. constructor.
    + destruct (visit k n t) as [[t1 n1]|] eqn:T; [|discriminate]. destruct (vs k n1 l) as [[l2 n2]|] eqn:V2; [|discriminate].
      injection V as <- <-. change (@nil nm) with (@nil nm ++ []). constructor; eauto.
  - destruct (mine mynames x) eqn:M.
    + unfold fn_ in E. destruct (tr n i) as [b m] eqn:T. apply IH in E. inversion E; subst.
      apply d_fn; [exact M| |].
      * apply (tr_rd _ _ _ _ T). assumption.
      * apply FinFun.Injective_map_NoDup; [congruence|apply seq_NoDup].
    + destruct (visit k n i) as [[i1 m]|] eqn:T; [|discriminate]. injection E as <- <-.
      change (@nil nm) with (@nil nm ++ []). apply d_sub; eauto. constructor. now left.
  - destruct (visit k n b) as [[b1 m]|] eqn:T; [|discriminate]. injection E as <- <-. constructor. eauto.
  - injection E as <- <-. constructor.
Qed.

Lemma mine_false x : mine mynames (User x) = false -> ~ isf x.
Proof. intros H K. apply mine_spec in K. congruence. Qed.

Fixpoint rd_reads b t t' ps (H : rd b t t' ps) {struct H} : written t -> reads isf b t t' ps
with rds_reads b l l' ps (H : rds b l l' ps) {struct H} : Forall written l -> reads_all isf b l l' ps.
Proof.
  - destruct H; intros Wr; inversion Wr; subst.
    + now constructor.
    + match goal with U : user _ |- _ => destruct U as [s ->] end. constructor. destruct H; [now left|right; congruence].
    + constructor.
    + constructor. eapply rds_reads; eassumption.
    + match goal with U : user _ |- _ => destruct U as [s ->] end. constructor; [now apply mine_false| |].
      * eapply rd_reads; [eassumption|]. constructor. now exists s.
      * eapply rd_reads; eassumption.
    + constructor. eapply rd_reads; eassumption.
    + match goal with U : user _ |- _ => destruct U as [s ->] end. constructor; [now apply mine_spec| |assumption].
      eapply rd_reads; eassumption.
  - destruct H; intros Wr; inversion Wr; subst; constructor.
    + eapply rd_reads; eassumption.
    + eapply rds_reads; eassumption.
Qed.

Lemma visit_reads k n t t' n' : written t -> visit k n t = Some (t', n') -> reads isf false t t' [].
Proof. intros Wr E. exact (rd_reads _ _ _ _ (visit_rd _ _ _ _ _ E) Wr). Qed.

(** No fn[...] is left *)
Lemma rd_none : forall b t t' ps, rd b t t' ps -> ~ uses_fn isf t'.
Proof.
  fix F 5. intros b t t' ps H. destruct H; intros U.
  - inversion U.
  - inversion U.
  - inversion U.
  - assert (X : forall t, In t l' -> ~ uses_fn isf t).
    { clear U. induction H; intros u I; [destruct I|]. destruct I as [<-|I]; [exact (F _ _ _ _ H)|exact (IHrds u I)]. }
    inversion U; subst. eapply X; eassumption.
  - inversion U; subst.
    + assert (x = User x0) by (inversion H0; subst; congruence). subst. now apply mine_false in H.
    + exact (F _ _ _ _ H1 H3).
  - inversion U; subst. exact (F _ _ _ _ H H1).
  - inversion U; subst. exact (F _ _ _ _ H0 H3).
Qed.
Lemma visit_none k n t t' n' : visit k n t = Some (t', n') -> ~ uses_fn isf t'.
Proof. intros E. exact (rd_none _ _ _ _ (visit_rd _ _ _ _ _ E)). Qed.

(** Without fn[...] nothing changes *)
Lemma rd_same : forall b t t' ps, rd b t t' ps -> b = false -> ~ uses_fn isf t -> written t -> t' = t.
Proof.
  fix F 5. intros b t t' ps H. destruct H; intros B U Wr.
  - congruence.
  - reflexivity.
  - reflexivity.
  - f_equal. assert (X : forall t, In t l -> ~ uses_fn isf t) by (intros t I K; apply U; econstructor; eassumption).
    assert (Y : Forall written l) by (inversion Wr; assumption).
    clear U Wr. induction H; [reflexivity|]. inversion Y; subst. f_equal.
    + apply (F _ _ _ _ H); [reflexivity|apply X; now left|assumption].
    + apply IHrds; [reflexivity|intros u I; apply X; now right|assumption].
  - inversion Wr; subst. f_equal; [inversion H0; subst; congruence|]. apply (F _ _ _ _ H1); [reflexivity| |assumption].
    intros K. apply U. now constructor.
  - inversion Wr; subst. f_equal. apply (F _ _ _ _ H); [reflexivity| |assumption]. intros K. apply U. now constructor.
  - exfalso. inversion Wr; subst. match goal with U : user _ |- _ => destruct U as [s ->] end. apply U. constructor. now apply mine_spec.
Qed.
Lemma visit_same k n t t' n' : written t -> ~ uses_fn isf t -> visit k n t = Some (t', n') -> t' = t.
Proof. intros Wr U E. exact (rd_same _ _ _ _ (visit_rd _ _ _ _ _ E) eq_refl U Wr). Qed.

(** Generated names are used once *)
Lemma tr_params : forall t n t1 n1, tr n t = (t1, n1) -> gen_params t1 = gen_params t.
Proof.
  induction t as [x|k|k l IH|x i IH|ps b IH] using tree_ind'; intros n t1 n1 E.
  - cbn in E. destruct (transform_name n x). now injection E as <- <-.
  - cbn in E. now injection E as <- <-.
  - change (tr n (TNode k l)) with (let (l, n) := trs n l in (TNode k l, n)) in E.
    destruct (trs n l) as [l1 m] eqn:T. injection E as <- <-. cbn. clear k.
    revert n l1 m T. induction IH as [|t l A F IHl]; intros n l1 m T; cbn in T.
    + now injection T as <- <-.
    + destruct (tr n t) as [t2 n2] eqn:T1. destruct (trs n2 l) as [l2 n3] eqn:T2. injection T as <- <-. cbn.
      now rewrite (A _ _ _ T1), (IHl _ _ _ T2).
  - cbn [transform] in E. destruct (mine mynames x); [now injection E as <- <-|].
    destruct (transform_name n x) as [x1 m]. destruct (tr m i) as [i1 m1] eqn:T. injection E as <- <-. cbn. exact (IH _ _ _ T).
  - cbn [transform] in E. destruct (tr n b) as [b1 m] eqn:T. injection E as <- <-. cbn. now rewrite (IH _ _ _ T).
Qed.
Definition added (n n' : nat) (g g' : list nat) : Prop :=
  n <= n' /\ exists new, Permutation g' (g ++ new) /\ NoDup new /\ Forall (fun i => n <= i < n') new.
Lemma added_refl n g : added n n g g.
Proof. split; [lia|]. exists []. rewrite app_nil_r. split; [apply Permutation_refl|]. split; constructor. Qed.
Lemma added_app n m p g g' h h' : added n m g g' -> added m p h h' -> added n p (g ++ h) (g' ++ h').
Proof.
  intros (L1 & a & P1 & N1 & F1) (L2 & b & P2 & N2 & F2). split; [lia|]. exists (a ++ b).
  split.
  - etransitivity; [apply Permutation_app; eassumption|]. rewrite <- !app_assoc. apply Permutation_app_head.
    rewrite !app_assoc. apply Permutation_app_tail. apply Permutation_app_comm.
  - rewrite Forall_forall in F1, F2. split.
    + clear P1 P2. induction N1 as [|x a I N IH]; [assumption|]. cbn. constructor.
      * rewrite in_app_iff. intros [K|K]; [contradiction|]. specialize (F1 x (or_introl eq_refl)). specialize (F2 x K). lia.
      * apply IH. intros y K. apply F1. now right.
    + apply Forall_app. split; apply Forall_forall; intros x K; [specialize (F1 x K)|specialize (F2 x K)]; lia.
Qed.
Lemma gens_params n k : flat_map (fun p => match p with Gen i => [i] | User _ => [] end) (map Gen (seq n k)) = seq n k.
Proof. revert n. induction k as [|k IH]; intros n; [reflexivity|]. cbn. now rewrite IH. Qed.
Lemma visit_params : forall k n t t' n', visit k n t = Some (t', n') -> added n n' (gen_params t) (gen_params t').
Proof.
  induction k as [|k IH]; intros n t t' n' E; [discriminate|].
  destruct t as [x|j l|x i|ps b|j]; cbn [QklModel.visit] in E.
  - injection E as <- <-. apply added_refl.
  - change (match vs k n l with Some (l, n) => Some (TNode j l, n) | None => None end = Some (t', n')) in E.
    destruct (vs k n l) as [[l1 m]|] eqn:V; [|discriminate]. injection E as <- <-. cbn.
    clear j. revert n l1 m V. induction l as [|t l IHl]; intros n l1 m V; cbn in V.
    + injection V as <- <-. apply added_refl.
    + destruct (visit k n t) as [[t1 n1]|] eqn:T; [|discriminate]. destruct (vs k n1 l) as [[l2 n2]|] eqn:V2; [|discriminate].
      injection V as <- <-. cbn. eapply added_app; eauto.
  - destruct (mine mynames x) eqn:M.
    + unfold fn_ in E. destruct (tr n i) as [b m] eqn:T. apply IH in E. cbn in E. rewrite gens_params, (tr_params _ _ _ _ T) in E.
      pose proof (proj1 (tr_rd _ _ _ _ T)) as L. destruct E as (L2 & new & Pm & N & F). split; [lia|]. exists (seq n (m - n) ++ new).
      split; [|split].
      * cbn. etransitivity; [exact Pm|]. rewrite !app_assoc. apply Permutation_app_tail. apply Permutation_app_comm.
      * pose proof (seq_NoDup (m - n) n) as N1. rewrite Forall_forall in F. 
        assert (F1 : forall y, In y (seq n (m - n)) -> y < m) by (intros y K; apply in_seq in K; lia).
        clear Pm. revert N1 F1. induction (seq n (m - n)) as [|y l IHl]; intros N1 F1; [assumption|]. inversion N1; subst. cbn. constructor.
        -- rewrite in_app_iff. intros [K|K]; [contradiction|]. specialize (F _ K). specialize (F1 y (or_introl eq_refl)). lia.
        -- apply IHl; [assumption|]. intros z K. apply F1. now right.
      * apply Forall_app. split; apply Forall_forall; intros y K.
        -- apply in_seq in K. lia.
        -- rewrite Forall_forall in F. specialize (F _ K). lia.
    + destruct (visit k n i) as [[i1 m]|] eqn:T; [|discriminate]. injection E as <- <-. cbn. eauto.
  - destruct (visit k n b) as [[b1 m]|] eqn:T; [|discriminate]. injection E as <- <-. cbn. apply IH in T.
    destruct T as (L & new & Pm & N & F). split; [lia|]. exists new. split; [|auto]. rewrite <- app_assoc. now apply Permutation_app_head.
  - injection E as <- <-. apply added_refl.
Qed.
Lemma written_params : forall t, written t -> gen_params t = [].
Proof.
  induction t as [x|k|k l IH|x i IH|ps b IH] using tree_ind'; intros Wr; inversion Wr; subst; try reflexivity.
  - cbn. induction IH as [|t l A F IHl]; [reflexivity|]. inversion H0; subst. cbn. rewrite A, IHl; auto. now constructor.
  - cbn. auto.
  - cbn. rewrite IH by assumption. rewrite app_nil_r. induction H1 as [|p ps [s ->] F IHp]; [reflexivity|]. cbn. apply IHp. now constructor.
Qed.
Lemma visit_distinct k n t t' n' : written t -> visit k n t = Some (t', n') ->
  NoDup (gen_params t') /\ forall i, In i (gen_params t') -> n <= i < n'.
Proof.
  intros Wr E. apply visit_params in E. rewrite (written_params t Wr) in E. destruct E as (L & new & Pm & N & F). cbn in Pm. split.
  - eapply Permutation_NoDup; [|exact N]. now apply Permutation_sym.
  - intros i I. rewrite Forall_forall in F. apply F. eapply Permutation_in; eassumption.
Qed.

(** The expansion ends *)
Fixpoint size (t : tree) : nat :=
  match t with
  | TName _ | TCap _ => 1
  | TNode _ l => S (list_sum (map size l))
  | TSub _ i => S (S (size i))
  | TLam _ b => S (size b)
  end.
Lemma tr_size : forall t n t1 n1, tr n t = (t1, n1) -> size t1 = size t.
Proof.
  induction t as [x|k|k l IH|x i IH|ps b IH] using tree_ind'; intros n t1 n1 E.
  - cbn in E. destruct (transform_name n x). now injection E as <- <-.
  - cbn in E. now injection E as <- <-.
  - change (tr n (TNode k l)) with (let (l, n) := trs n l in (TNode k l, n)) in E.
    destruct (trs n l) as [l1 m] eqn:T. injection E as <- <-. cbn. f_equal. clear k.
    revert n l1 m T. induction IH as [|t l A F IHl]; intros n l1 m T; cbn in T.
    + now injection T as <- <-.
    + destruct (tr n t) as [t2 n2] eqn:T1. destruct (trs n2 l) as [l2 n3] eqn:T2. injection T as <- <-. cbn.
      rewrite (A _ _ _ T1). f_equal. exact (IHl _ _ _ T2).
  - cbn [transform] in E. destruct (mine mynames x); [now injection E as <- <-|].
    destruct (transform_name n x) as [x1 m]. destruct (tr m i) as [i1 m1] eqn:T. injection E as <- <-. cbn. now rewrite (IH _ _ _ T).
  - cbn [transform] in E. destruct (tr n b) as [b1 m] eqn:T. injection E as <- <-. cbn. now rewrite (IH _ _ _ T).
Qed.
Lemma visit_ends : forall k n t, size t <= k -> exists t' n', visit k n t = Some (t', n').
Proof.
  induction k as [|k IH]; intros n t L; [destruct t; cbn in L; lia|].
  destruct t as [x|j l|x i|ps b|j]; cbn [QklModel.visit].
  - eauto.
  - change (exists t' n', match vs k n l with Some (l, n) => Some (TNode j l, n) | None => None end = Some (t', n')).
    assert (X : exists l' n', vs k n l = Some (l', n')).
    { cbn [size] in L. apply le_S_n in L. clear j. revert n. induction l as [|t l IHl]; intros n; [cbn; eauto|].
      change (size t + list_sum (map size l) <= k) in L. cbn [vs].
      destruct (IH n t) as (t1 & n1 & ->); [lia|]. destruct (IHl ltac:(lia) n1) as (l1 & n2 & ->). eauto. }
    destruct X as (l' & n' & ->). eauto.
  - cbn in L. destruct (mine mynames x).
    + unfold fn_. destruct (tr n i) as [b m] eqn:T. apply IH. cbn. rewrite (tr_size _ _ _ _ T). lia.
    + destruct (IH n i) as (i1 & n1 & ->); [lia|]. eauto.
  - cbn in L. destruct (IH n b) as (b1 & n1 & ->); [lia|]. eauto.
  - eauto.
Qed.
End P.

Lemma extract_spec fnm bindings x : In x (extract_bindings fnm bindings) <-> bound fnm bindings x.
Proof.
  unfold extract_bindings, bound. rewrite in_map_iff. split.
  - intros ([y m] & <- & H). apply filter_In in H. destruct H as [H E]. cbn in *. apply Nat.eqb_eq in E. now subst.
  - intros H. exists (x, fnm). split; [reflexivity|]. apply filter_In. split; [assumption|apply Nat.eqb_refl].
Qed.
Lemma reads_ext (p q : string -> Prop) : (forall x, p x <-> q x) -> forall b t t' ps, reads p b t t' ps -> reads q b t t' ps.
Proof.
  intros E. fix F 5. intros b t t' ps H. destruct H.
  - now constructor.
  - now constructor.
  - constructor.
  - constructor. induction H; constructor; [now apply F|auto].
  - constructor; [now rewrite <- E| |]; now apply F.
  - constructor. now apply F.
  - constructor; [now rewrite <- E| |assumption]. now apply F.
Qed.
Lemma uses_ext (p q : string -> Prop) : (forall x, p x <-> q x) -> forall t, uses_fn p t -> uses_fn q t.
Proof. intros E t H. induction H; [constructor; now apply E|now constructor|econstructor; eassumption|now constructor]. Qed.

Lemma quick_reads fnm bindings k n t t' n' : written t -> quicklambda fnm bindings k n t = Some (t', n') ->
  reads (bound fnm bindings) false t t' [].
Proof. intros Wr E. eapply reads_ext; [apply extract_spec|]. eapply visit_reads; eassumption. Qed.
Lemma quick_none fnm bindings k n t t' n' : quicklambda fnm bindings k n t = Some (t', n') -> ~ uses_fn (bound fnm bindings) t'.
Proof. intros E U. eapply visit_none; [exact E|]. eapply uses_ext; [|exact U]. intros x. symmetry. apply extract_spec. Qed.
Lemma quick_same fnm bindings k n t t' n' : written t -> ~ uses_fn (bound fnm bindings) t ->
  quicklambda fnm bindings k n t = Some (t', n') -> t' = t.
Proof. intros Wr U E. eapply visit_same; [exact Wr| |exact E]. intros K. apply U. eapply uses_ext; [|exact K]. apply extract_spec. Qed.
Lemma quick_distinct fnm bindings k n t t' n' : written t -> quicklambda fnm bindings k n t = Some (t', n') ->
  NoDup (gen_params t') /\ forall i, In i (gen_params t') -> n <= i < n'.
Proof. apply visit_distinct. Qed.
Lemma quick_ends fnm bindings t : exists k0, forall k n, k0 <= k -> exists t' n', quicklambda fnm bindings k n t = Some (t', n').
Proof. exists (size t). intros k n L. now apply visit_ends. Qed.
