From Coq Require Import String List ZArith Bool Arith Lia DecimalString.
From Verif Require Import Base CollModel EnvModel TmsModel TmsSpec.
Import ListNotations.
Open Scope string_scope.
Open Scope list_scope.
Open Scope nat_scope.

Definition optP (P : ex -> Prop) (m : option ex) : Prop := match m with Some m => P m | None => True end.
Section Ind.
Variable P : ex -> Prop.
Hypothesis HCon : forall k, P (Con k).
Hypothesis HVar : forall x, P (Var x).
Hypothesis HPrim : forall o l, Forall P l -> P (Prim o l).
Hypothesis HCmp : forall e l, P e -> Forall (fun oe : nat * ex => P (snd oe)) l -> P (Cmp e l).
Hypothesis HIfE : forall e a b, P e -> P a -> P b -> P (IfE e a b).
Hypothesis HLam : forall ps b, P b -> P (Lam ps b).
Hypothesis HCall : forall f args, P f -> Forall P args -> P (Call f args).
Hypothesis HThe : forall e, P e -> P (The e).
Hypothesis HTest : forall e m, P e -> optP P m -> P (Test e m).
Hypothesis HUncond : forall u m, P m -> P (Uncond u m).
Hypothesis HRaises : forall x e m, P e -> optP P m -> P (Raises x e m).
Hypothesis HMark : forall u, P (Mark u).
Hypothesis HRec : forall n t e, P e -> P (Rec n t e).
Hypothesis HAssert : forall n e m, P e -> P m -> P (Assert n e m).
Hypothesis HAssertR : forall x e m, P e -> P m -> P (AssertR x e m).
Fixpoint ex_induct (e : ex) : P e :=
  let go := fix go (l : list ex) : Forall P l :=
    match l return Forall P l with [] => Forall_nil _ | e :: l => Forall_cons _ (ex_induct e) (go l) end in
  let om (m : option ex) : optP P m := match m return optP P m with Some m => ex_induct m | None => I end in
  match e return P e with
  | Con k => HCon k
  | Var x => HVar x
  | Prim o l => HPrim o l (go l)
  | Cmp e l => HCmp e l (ex_induct e)
      ((fix gk (l : list (nat * ex)) : Forall (fun oe : nat * ex => P (snd oe)) l :=
          match l return Forall (fun oe : nat * ex => P (snd oe)) l with
          | [] => Forall_nil _
          | (k, e) :: l => Forall_cons (k, e) (ex_induct e) (gk l)
          end) l)
  | IfE e a b => HIfE e a b (ex_induct e) (ex_induct a) (ex_induct b)
  | Lam ps b => HLam ps b (ex_induct b)
  | Call f args => HCall f args (ex_induct f) (go args)
  | The e => HThe e (ex_induct e)
  | Test e m => HTest e m (ex_induct e) (om m)
  | Uncond u m => HUncond u m (ex_induct m)
  | Raises x e m => HRaises x e m (ex_induct e) (om m)
  | Mark u => HMark u
  | Rec n t e => HRec n t e (ex_induct e)
  | Assert n e m => HAssert n e m (ex_induct e) (ex_induct m)
  | AssertR x e m => HAssertR x e m (ex_induct e) (ex_induct m)
  end.
End Ind.
Section IndS.
Variable P : stm -> Prop.
Hypothesis HExpr : forall e, P (Expr e).
Hypothesis HAssign : forall x e, P (Assign x e).
Hypothesis HReturn : forall e, P (Return e).
Hypothesis HIf : forall e a b, Forall P a -> Forall P b -> P (If e a b).
Hypothesis HDef : forall f ps b, Forall P b -> P (Def f ps b).
Hypothesis HTestB : forall m b, Forall P b -> P (TestB m b).
Hypothesis HAssertB : forall n m b, Forall P b -> P (AssertB n m b).
Hypothesis HRaisesB : forall x m b, Forall P b -> P (RaisesB x m b).
Hypothesis HAssertRB : forall x m b, Forall P b -> P (AssertRB x m b).
Fixpoint stm_induct (s : stm) : P s :=
  let go := fix go (l : list stm) : Forall P l :=
    match l return Forall P l with [] => Forall_nil _ | e :: l => Forall_cons _ (stm_induct e) (go l) end in
  match s return P s with
  | Expr e => HExpr e
  | Assign x e => HAssign x e
  | Return e => HReturn e
  | If e a b => HIf e a b (go a) (go b)
  | Def f ps b => HDef f ps b (go b)
  | TestB m b => HTestB m b (go b)
  | AssertB n m b => HAssertB n m b (go b)
  | RaisesB x m b => HRaisesB x m b (go b)
  | AssertRB x m b => HAssertRB x m b (go b)
  end.
End IndS.

Lemma map_ext_Forall : forall A B (f g : A -> B) l, Forall (fun x => f x = g x) l -> map f l = map g l.
Proof. intros A B f g l H. induction H; cbn; congruence. Qed.
Lemma flat_map_ext_Forall : forall A B (f g : A -> list B) l, Forall (fun x => f x = g x) l -> flat_map f l = flat_map g l.
Proof. intros A B f g l H. induction H; cbn; congruence. Qed.
Lemma existsb_ext_Forall : forall A (f g : A -> bool) l, Forall (fun x => f x = g x) l -> existsb f l = existsb g l.
Proof. intros A f g l H. induction H; cbn; congruence. Qed.
Lemma flat_map_map : forall A B C (f : B -> list C) (g : A -> B) l, flat_map f (map g l) = flat_map (fun x => f (g x)) l.
Proof. intros. induction l; cbn; congruence. Qed.
Lemma Forall_forallb : forall A (P : A -> Prop) (p : A -> bool) l,
  Forall (fun x => p x = true -> P x) l -> forallb p l = true -> Forall P l.
Proof.
  intros A P p l H. induction H; cbn; intros E; [constructor|]. apply andb_true_iff in E as [E1 E2].
  constructor; auto.
Qed.
Ltac ands := repeat match goal with H : andb _ _ = true |- _ => apply andb_true_iff in H; destruct H end.

(** * Simulations *)
Section Sim.
Variable W : Type.
Variable RF : fobj -> fobj -> Prop.
Variable RL : list (ex * value) -> list (ex * value) -> Prop.
Hypothesis RL_nil : RL [] [].
Definition RR (a b : report) : Prop := how a = how b /\ message a = message b /\ RL (captured a) (captured b).
Definition rel (s s' : st W) : Prop :=
  frames s = frames s' /\ Forall2 RF (funs s) (funs s') /\ Forall2 RL (caps s) (caps s') /\ Forall2 RR (reports s) (reports s') /\ world s = world s'.
Definition Sim {A} (m m' : M W A) : Prop := forall s s', rel s s' ->
  match m s, m' s' with
  | Some (r, t), Some (r', t') => r = r' /\ rel t t'
  | None, None => True
  | _, _ => False
  end.
Lemma sim_ret : forall A (a : A), Sim (ret a) (ret a).
Proof. intros A a s s' H. cbn. split; auto. Qed.
Lemma sim_raise : forall A x, Sim (A := A) (raise x) (raise x).
Proof. intros A a s s' H. cbn. split; auto. Qed.
Lemma sim_bind : forall A B (m m' : M W A) (f f' : A -> M W B), Sim m m' -> (forall a, Sim (f a) (f' a)) -> Sim (mbind m f) (mbind m' f').
Proof.
  intros A B m m' f f' H1 H2 s s' R. specialize (H1 s s' R). unfold mbind.
  destruct (m s) as [[[a|x] t]|], (m' s') as [[[a'|x'] t']|]; try contradiction; try exact I;
    destruct H1 as [E R']; try discriminate E.
  - injection E as ->. apply H2. exact R'.
  - split; [congruence | exact R'].
Qed.
Lemma sim_observe : forall A (m m' : M W A), Sim m m' -> Sim (observe W m) (observe W m').
Proof.
  intros A m m' H s s' R. specialize (H s s' R). unfold observe.
  destruct (m s) as [[r t]|], (m' s') as [[r' t']|]; try contradiction; try exact I.
  destruct H as [-> R']. split; auto.
Qed.
Lemma sim_get_var : forall c x, Sim (get_var W c x) (get_var W c x).
Proof.
  intros c x s s' R. unfold get_var. destruct (R) as (E & _). rewrite E.
  destruct (nth_error _ _) as [f|]; [destruct (dict_get _ _ _)|]; split; auto.
Qed.
Lemma sim_set_var : forall c x v, Sim (set_var W c x v) (set_var W c x v).
Proof.
  intros c x v s s' R. unfold set_var. destruct (R) as (E & R2 & R3 & R4 & R5). rewrite E.
  destruct (nth_error _ _) as [f|]; split; auto. repeat split; cbn; auto.
Qed.
Lemma sim_alloc : forall f, Sim (alloc W f) (alloc W f).
Proof.
  intros f s s' R. unfold alloc. destruct R as (E & R2 & R3 & R4 & R5). rewrite E. split; [auto|]. repeat split; cbn; auto; congruence.
Qed.
Lemma Forall2_len : forall A B (P : A -> B -> Prop) l l', Forall2 P l l' -> length l = length l'.
Proof. intros A B P l l' H. induction H; cbn; congruence. Qed.
Lemma sim_new_fun : forall f f', RF f f' -> Sim (new_fun W f) (new_fun W f').
Proof.
  intros f f' H s s' R. unfold new_fun. destruct R as (E & R2 & R3 & R4 & R5). rewrite (Forall2_len _ _ _ _ _ R2).
  split; [auto|]. repeat split; cbn; auto. apply Forall2_app; auto.
Qed.
Lemma sim_new_cap : Sim (new_cap W) (new_cap W).
Proof.
  intros s s' R. unfold new_cap. destruct R as (E & R2 & R3 & R4 & R5). rewrite (Forall2_len _ _ _ _ _ R3).
  split; [auto|]. repeat split; cbn; auto. apply Forall2_app; auto.
Qed.
Lemma sim_tell : forall r r', RR r r' -> Sim (tell W r) (tell W r').
Proof.
  intros r r' H s s' R. unfold tell. destruct R as (E & R2 & R3 & R4 & R5).
  split; [auto|]. repeat split; cbn; auto. apply Forall2_app; auto.
Qed.
Lemma sim_on_world : forall f, Sim (on_world W f) (on_world W f).
Proof.
  intros f s s' R. unfold on_world. destruct R as (E & R2 & R3 & R4 & R5). rewrite R5.
  destruct (f (world s')) as [[d|x] w]; split; auto; repeat split; cbn; auto.
Qed.
Lemma sim_do_prim : forall prim o l, Sim (do_prim W prim o l) (do_prim W prim o l).
Proof. intros. unfold do_prim. destruct (cons_of l); [apply sim_on_world | apply sim_raise]. Qed.
Lemma sim_do_compare : forall compare o a b, Sim (do_compare W compare o a b) (do_compare W compare o a b).
Proof.
  intros. unfold do_compare. destruct a as [a| |], b as [b| |]; try apply sim_raise. apply sim_on_world.
Qed.
Lemma Forall2_nth : forall A B (P : A -> B -> Prop) l l' i, Forall2 P l l' ->
  match nth_error l i, nth_error l' i with Some a, Some b => P a b | None, None => True | _, _ => False end.
Proof. intros A B P l l' i H. revert i. induction H; intros [|i]; cbn; auto. apply IHForall2. Qed.
Definition after_ (m : value) (r : outcome value) (l : list (ex * value)) : M W value :=
  match r with
  | Ok (VMark u) => mbind (tell W (mkR (Requested u) l m)) (fun _ => ret None_)
  | Ok v => if truthy v then ret None_ else mbind (tell W (mkR Failed l m)) (fun _ => ret None_)
  | Raise x => mbind (tell W (mkR (Errored x) l m)) (fun _ => ret None_)
  end.
Lemma assert_eq : forall t m, assert_ W t m =
  mbind (new_cap W) (fun i => mbind (observe W (t i)) (fun r => mbind (get_cap W i) (fun l => after_ m r l))).
Proof. reflexivity. Qed.
Lemma sim_after : forall m r l l', RL l l' -> Sim (after_ m r l) (after_ m r l').
Proof.
  intros m r l l' H. unfold after_.
  assert (T : forall h, Sim (mbind (tell W (mkR h l m)) (fun _ => ret None_)) (mbind (tell W (mkR h l' m)) (fun _ => ret None_))).
  { intros h. apply sim_bind; [apply sim_tell; repeat split; cbn; auto | intros; apply sim_ret]. }
  destruct r as [[k|r|u]|x]; try apply T; destruct (truthy _); try apply T; apply sim_ret.
Qed.
Lemma sim_assert : forall t t' m, (forall i, Sim (t i) (t' i)) -> Sim (assert_ W t m) (assert_ W t' m).
Proof.
  intros t t' m H. rewrite !assert_eq. apply sim_bind; [apply sim_new_cap | intros i].
  apply sim_bind; [apply sim_observe; apply H | intros r].
  intros s s' R. unfold mbind, get_cap. destruct (R) as (_ & _ & R3 & _).
  pose proof (Forall2_nth _ _ _ _ _ i R3) as N.
  destruct (nth_error (caps s) i) as [l|], (nth_error (caps s') i) as [l'|]; try contradiction.
  - apply (sim_after m r l l' N s s' R).
  - split; auto.
Qed.
Lemma sim_assert_raises : forall x t t' m, Sim t t' -> Sim (assert_raises W x t m) (assert_raises W x t' m).
Proof.
  intros x t t' m H. unfold assert_raises. apply sim_bind; [apply sim_observe; exact H | intros r].
  destruct r as [v|y]; [|destruct (exn_eqb x y); [apply sim_ret|]];
    (apply sim_bind; [apply sim_tell; repeat split; cbn; auto | intros; apply sim_ret]).
Qed.
Lemma sim_evals : forall ev ev' (g : ex -> ex) l, Forall (fun e => Sim (ev e) (ev' (g e))) l -> Sim (evals_ W ev l) (evals_ W ev' (map g l)).
Proof.
  intros ev ev' g l H. induction H; cbn; [apply sim_ret|].
  apply sim_bind; [assumption | intros v]. apply sim_bind; [assumption | intros r]. apply sim_ret.
Qed.
Lemma sim_compares : forall compare ev ev' (g : ex -> ex) l, Forall (fun oe : nat * ex => Sim (ev (snd oe)) (ev' (g (snd oe)))) l ->
  forall v, Sim (compares_ W compare ev v l) (compares_ W compare ev' v (map (fun oe => (fst oe, g (snd oe))) l)).
Proof.
  intros compare ev ev' g l H. induction H as [|[o e] l H1 H2 IH]; intros v; cbn -[truthy]; [apply sim_ret|].
  apply sim_bind; [assumption | intros w]. apply sim_bind; [apply sim_do_compare | intros b].
  destruct l as [|oe l]; cbn -[truthy compares_]; [apply sim_ret|].
  destruct (truthy b); [apply IH | apply sim_ret].
Qed.
Lemma sim_execs : forall ex ex' (g : stm -> stm) l, Forall (fun e => Sim (ex e) (ex' (g e))) l -> Sim (execs_ W ex l) (execs_ W ex' (map g l)).
Proof.
  intros ex0 ex' g l H. induction H; cbn; [apply sim_ret|].
  apply sim_bind; [assumption | intros [v|]]; [apply sim_ret | assumption].
Qed.
End Sim.

(** * The expansion does what is documented *)
Lemma simple_no_mark : forall e r, simple r e = true -> r <> Marks -> marked e = false /\ has_mark e = false.
Proof.
  induction e using ex_induct; intros r S N; cbn in *; auto; try discriminate.
  - assert (F : Forall (fun e => marked e = false /\ has_mark e = false) l).
    { eapply Forall_forallb; [|exact S]. eapply Forall_impl; [|exact H]. intros e He Se. exact (He r Se N). }
    clear - F. induction F as [|e l [A B] F IH]; cbn; auto. rewrite A, B. exact IH.
  - ands. destruct (IHe r H0 N) as [-> ->]. cbn.
    assert (F : Forall (fun oe : nat * ex => marked (snd oe) = false /\ has_mark (snd oe) = false) l).
    { eapply Forall_forallb; [|exact H1]. eapply Forall_impl; [|exact H]. intros e0 He Se. exact (He r Se N). }
    clear - F. induction F as [|e0 l [A B] F IH]; cbn; auto. rewrite A, B. exact IH.
  - ands. destruct (IHe1 r H N) as [-> ->]. destruct (IHe2 r H1 N) as [-> ->]. destruct (IHe3 r H0 N) as [-> ->]. auto.
  - exact (IHe r S N).
  - ands. destruct (IHe r H0 N) as [-> ->]. cbn.
    assert (F : Forall (fun e => marked e = false /\ has_mark e = false) args).
    { eapply Forall_forallb; [|exact H1]. eapply Forall_impl; [|exact H]. intros e0 He Se. exact (He r Se N). }
    clear - F. induction F as [|e0 l [A B] F IH]; cbn; auto. rewrite A, B. exact IH.
  - destruct r; congruence.
Qed.
Lemma simple_marked : forall e r, simple r e = true -> marked e = has_mark e.
Proof.
  induction e using ex_induct; intros r S; cbn in *; auto; try discriminate.
  - apply existsb_ext_Forall. eapply Forall_forallb; [|exact S]. eapply Forall_impl; [|exact H]. cbn. intros e He Se. exact (He r Se).
  - ands. rewrite (IHe r H0). f_equal. apply existsb_ext_Forall.
    apply (Forall_forallb _ _ (fun oe => simple r (snd oe))); [|exact H1]. eapply Forall_impl; [|exact H]. cbn. intros oe He Se. exact (He r Se).
  - ands. rewrite (IHe1 r H), (IHe2 r H1), (IHe3 r H0). reflexivity.
  - exact (IHe r S).
  - ands. rewrite (IHe r H0). f_equal. apply existsb_ext_Forall.
    eapply Forall_forallb; [|exact H1]. eapply Forall_impl; [|exact H]. cbn. intros e0 He Se. exact (He r Se).
Qed.
Lemma simples_no_mark : forall s, simples Inner s = true -> markeds s = false /\ has_marks s = false.
Proof.
  induction s using stm_induct; intros S; cbn in *; auto; try discriminate.
  - apply (simple_no_mark _ Inner); [exact S | discriminate].
  - apply (simple_no_mark _ Inner); [exact S | discriminate].
  - destruct e as [e|]; cbn in *; auto. apply (simple_no_mark _ Inner); [exact S | discriminate].
  - ands. destruct (simple_no_mark e Inner H1 ltac:(discriminate)) as [-> ->]. cbn.
    assert (F : Forall (fun s => markeds s = false /\ has_marks s = false) a) by (eapply Forall_forallb; eassumption).
    assert (G : Forall (fun s => markeds s = false /\ has_marks s = false) b) by (eapply Forall_forallb; eassumption).
    assert (K : forall l, Forall (fun s => markeds s = false /\ has_marks s = false) l -> existsb markeds l = false /\ existsb has_marks l = false).
    { clear. intros l F. induction F as [|e0 l [A B] F IH]; cbn; auto. rewrite A, B. exact IH. }
    destruct (K _ F) as [-> ->]. destruct (K _ G) as [-> ->]. auto.
  - assert (F : Forall (fun s => markeds s = false /\ has_marks s = false) b) by (eapply Forall_forallb; eassumption).
    clear - F. induction F as [|e0 l [A B] F IH]; cbn; auto. rewrite A, B. exact IH.
  - split; [|reflexivity]. ands.
    assert (F : Forall (fun s => markeds s = false /\ has_marks s = false) b) by (eapply Forall_forallb; eassumption).
    clear - F. induction F as [|e0 l [A B] F IH]; cbn; auto. rewrite A. exact IH.
  - split; [|reflexivity]. ands.
    assert (F : Forall (fun s => markeds s = false /\ has_marks s = false) b) by (eapply Forall_forallb; eassumption).
    clear - F. induction F as [|e0 l [A B] F IH]; cbn; auto. rewrite A. exact IH.
Qed.
Lemma simples_marked : forall s, simples Marks s = true -> markeds s = has_marks s.
Proof.
  induction s using stm_induct; intros S; cbn in *; auto; try discriminate.
  - apply (simple_marked _ _ S).
  - apply (simple_marked _ _ S).
  - destruct e as [e|]; cbn in *; auto. apply (simple_marked _ _ S).
  - ands. rewrite (simple_marked _ _ H1). f_equal; [f_equal|]; apply existsb_ext_Forall; eapply Forall_forallb; eassumption.
  - apply existsb_ext_Forall; eapply Forall_forallb; eassumption.
  - ands. assert (F : Forall (fun s => markeds s = false) b).
    { eapply Forall_forallb; [|exact H1]. apply Forall_forall. intros s _ Hs. apply simples_no_mark. exact Hs. }
    clear - F. induction F as [|e0 l A F IH]; cbn; auto. rewrite A. exact IH.
  - ands. assert (F : Forall (fun s => markeds s = false) b).
    { eapply Forall_forallb; [|exact H1]. apply Forall_forall. intros s _ Hs. apply simples_no_mark. exact Hs. }
    clear - F. induction F as [|e0 l A F IH]; cbn; auto. rewrite A. exact IH.
Qed.
Lemma transform_id : forall e r n, simple r e = true -> has_mark e = false -> transform n e = e.
Proof.
  induction e using ex_induct; intros r j S N; cbn in *; auto; try discriminate.
  - f_equal. rewrite <- (map_id l) at 2. apply map_ext_Forall.
    revert S N. induction H as [|e l He Hl IH]; cbn; intros S N; constructor; apply andb_true_iff in S as [S1 S2]; apply orb_false_iff in N as [N1 N2]; eauto.
  - apply andb_true_iff in S as [S1 S2]. apply orb_false_iff in N as [N1 N2]. rewrite (IHe r j S1 N1). f_equal.
    rewrite <- (map_id l) at 2. apply map_ext_Forall.
    revert S2 N2. clear IHe S1 N1. induction H as [|[o e0] l He Hl IH]; cbn; intros S N; constructor; apply andb_true_iff in S as [S1 S2]; apply orb_false_iff in N as [N1 N2]; eauto.
    cbn in *. rewrite (He r j S1 N1). reflexivity.
  - ands. apply orb_false_iff in N as [N N3]. apply orb_false_iff in N as [N1 N2].
    rewrite (IHe1 r j), (IHe2 r j), (IHe3 r j); auto.
  - rewrite (IHe r j); auto.
  - apply andb_true_iff in S as [S1 S2]. apply orb_false_iff in N as [N1 N2]. rewrite (IHe r j S1 N1). f_equal.
    rewrite <- (map_id args) at 2. apply map_ext_Forall.
    revert S2 N2. clear IHe S1 N1. induction H as [|e0 l He Hl IH]; cbn; intros S N; constructor; apply andb_true_iff in S as [S1 S2]; apply orb_false_iff in N as [N1 N2]; eauto.
Qed.

Lemma stored_implicit : forall n text b b', flat_map stored (implicit_return n text b b') = flat_map stored b'.
Proof.
  intros n text. induction b as [|s b IH]; intros b'; [reflexivity|].
  destruct s as [e|x e|[e|]|e a b0|f ps b0|m b0|k m b0|xr m b0|xr m b0]; destruct b' as [|s' b']; try reflexivity;
    try (cbn; rewrite IH; reflexivity).
  destruct s' as [e'|x' e'|[e'|]|e' a' b0'|f' ps' b0'|m' b0'|k' m' b0'|xr' m' b0'|xr' m' b0']; try reflexivity; cbn; rewrite ?IH; reflexivity.
Qed.
Lemma stored_expands : forall s k d, stored (expands k d s) = stored s.
Proof.
  induction s using stm_induct; intros k d; cbn; auto.
  rewrite !flat_map_map. f_equal; apply flat_map_ext_Forall; (eapply Forall_impl; [|eassumption]); cbn; auto.
Qed.
Lemma stored_map_expands : forall b k d, flat_map stored (map (expands k d) b) = flat_map stored b.
Proof. intros. rewrite flat_map_map. apply flat_map_ext_Forall. apply Forall_forall. intros. apply stored_expands. Qed.

Section Captures.
Variable W : Type.
Variable prim : nat -> list con -> W -> outcome con * W.
Variable compare : nat -> con -> con -> W -> outcome con * W.
(** which test the marks in a region belong to *)
Definition okr (r : region) (k : option nat) (cs : list (nat * nat)) : Prop :=
  match r with
  | Outside => k = None
  | Marks => exists n i cs', k = Some n /\ cs = (n, i) :: cs'
  | Inner => exists n i cs', k = Some n /\ cs = i :: cs'
  end.
Definition bodyR (cs : list (nat * nat)) (b b' : body) : Prop :=
  exists r k, okr r k cs /\
  match b with
  | BE e => simple r e = true /\ b' = BE (expand k (length cs) e)
  | BS l => forallb (simples r) l = true /\ b' = BS (map (expands k (length cs)) l)
  end.
Definition objR (f g : fobj) : Prop := fps f = fps g /\ fc f = fc g /\ fcs f = fcs g /\ bodyR (fcs f) (fbody f) (fbody g).
Notation SIM := (Sim W objR eq).
Notation REL := (rel W objR eq).

Lemma lookup_head : forall n i cs, lookup n ((n, i) :: cs) = Some i.
Proof. intros. unfold lookup. cbn. rewrite Nat.eqb_refl. reflexivity. Qed.
Lemma upd_Forall2 : forall A (P : A -> A -> Prop) l l' i a a', Forall2 P l l' -> P a a' -> Forall2 P (upd l i a) (upd l' i a').
Proof.
  intros A P l l' i a a' H. revert i. induction H; intros [|i] E; cbn; auto.
Qed.
Lemma sim_record : forall i t v, SIM (record W i t v) (record W i t v).
Proof.
  intros i t v s s' R. unfold record. destruct R as (E & R2 & R3 & R4 & R5).
  assert (Ec : caps s = caps s') by (clear - R3; induction R3; cbn; congruence). rewrite Ec.
  destruct (nth_error (caps s') i); split; auto; repeat split; cbn; auto.
  clear. generalize (upd (caps s') i (l ++ [(t, v)])) as x. intros x; induction x; constructor; auto.
Qed.
Variable ap ap' : value -> list value -> M W value.
Hypothesis AP : forall f vs, SIM (ap f vs) (ap' f vs).
Notation ev := (eval W prim compare ap).
Notation ev' := (eval W prim compare ap').
Notation xs := (exec W prim compare ap).
Notation xs' := (exec W prim compare ap').
Lemma eval_imp : forall A e c cs, (forall a l, e <> Cmp a l) -> eval W prim compare A true e c cs = eval W prim compare A false e c cs.
Proof. intros A e c cs H. destruct e; try reflexivity. exfalso. eapply H. reflexivity. Qed.
Lemma implicit_other : forall n t e e', (forall a l, e <> Cmp a l) -> implicit n t e e' = e'.
Proof. intros n t e e' H. destruct e; try reflexivity. exfalso. eapply H. reflexivity. Qed.
Lemma sim_assoc : forall A B C (m0 : M W C) (m : M W A) (f : A -> M W B) (g : B -> M W C),
  SIM m0 (mbind m (fun v => mbind (f v) g)) -> SIM m0 (mbind (mbind m f) (fun v => mbind (ret v) g)).
Proof.
  intros A B C m0 m f g H s s' R. specialize (H s s' R). unfold mbind, ret in *.
  destruct (m s') as [[[a|x] t]|]; auto.
Qed.
Definition simE (e : ex) : Prop := forall r k c cs, simple r e = true -> okr r k cs ->
  SIM (ev false e c cs) (ev' false (expand k (length cs) e) c cs).
Definition simI (e : ex) : Prop := forall r k c n i cs, simple r e = true -> okr r k ((n, i) :: cs) ->
  SIM (ev true e c ((n, i) :: cs)) (ev' false (implicit n (fun l => l) e (expand k (S (length cs)) e)) c ((n, i) :: cs)).
Lemma sim_message : forall m c cs, optP simE m -> opt_all (simple Outside) m = true ->
  SIM (match m with Some m => ev false m c cs | None => ret None_ end) (ev' false (no_message m (expand None (length cs))) c cs).
Proof.
  intros [m|] c cs H S; cbn in *; [|apply sim_ret]. apply (H Outside); auto. reflexivity.
Qed.
Lemma sim_eval_both : forall e, simE e /\ simI e.
Proof.
  assert (K : forall e, (forall a l, e <> Cmp a l) -> simE e -> simE e /\ simI e).
  { intros e N H. split; [exact H|]. intros r k c n i cs S O. rewrite eval_imp, implicit_other by exact N. apply (H r k c ((n, i) :: cs) S O). }
  induction e using ex_induct.
  all: try (apply K; [discriminate|]; intros r kk c cs S O; cbn in S |- *; try discriminate S).
  - apply sim_ret.
  - apply sim_get_var.
  - apply sim_bind; [apply sim_evals | intros vs; apply sim_do_prim].
    eapply Forall_forallb; [|exact S]. eapply Forall_impl; [|exact H]. cbn. intros e [He _] Se. exact (He r kk c cs Se O).
  - destruct IHe as [IHe _].
    assert (C : forall r k c cs v, forallb (fun oe => simple r (snd oe)) l = true -> okr r k cs ->
      SIM (compares_ W compare (fun e => ev false e c cs) v l)
          (compares_ W compare (fun e => ev' false e c cs) v (map (fun oe => (fst oe, expand k (length cs) (snd oe))) l))).
    { intros r k c cs v S O. apply sim_compares. apply (Forall_forallb _ _ (fun oe => simple r (snd oe))); [|exact S].
      eapply Forall_impl; [|exact H]. cbn. intros oe [He _] Se. exact (He r k c cs Se O). }
    split.
    + intros r k c cs S O. cbn in S |- *. ands. apply sim_bind; [apply (IHe r); assumption | intros v].
      apply sim_bind; [apply sim_ret | intros v']. apply (C r); assumption.
    + intros r k c n i cs S O. cbn in S. ands. unfold implicit. cbn -[lookup]. rewrite lookup_head.
      pose proof (IHe r k c _ H0 O) as E1. specialize (C r k c ((n, i) :: cs)). cbn in E1, C.
      apply sim_assoc. apply sim_bind; [exact E1 | intros v]. apply sim_bind; [apply sim_record | intros a]. apply C; assumption.
  - ands. destruct IHe1 as [I1 _], IHe2 as [I2 _], IHe3 as [I3 _]. apply sim_bind; [apply (I1 r); assumption | intros v].
    destruct (truthy v); [apply (I2 r) | apply (I3 r)]; assumption.
  - apply sim_new_fun. repeat split; cbn; auto. exists r, kk. auto.
  - ands. destruct IHe as [IHe _]. apply sim_bind; [apply (IHe r); assumption | intros f].
    apply sim_bind; [apply sim_evals | intros vs; apply AP].
    eapply Forall_forallb; [|exact H1]. eapply Forall_impl; [|exact H]. cbn. intros e0 [He _] Se. exact (He r kk c cs Se O).
  - destruct r; try discriminate S. ands. destruct O as (n & i & cs' & -> & ->). apply negb_true_iff in H.
    cbn [expand]. rewrite (transform_id e Marks n H0 H). cbn -[lookup]. rewrite lookup_head.
    destruct IHe as [IHe _]. apply sim_bind; [apply (IHe Marks (Some n) c ((n, i) :: cs')); [assumption|] | intros v; apply sim_record].
    exists n, i, cs'. auto.
  - ands. assert (Em : optP simE m) by (destruct m; cbn in *; [apply H | exact I]).
    apply sim_bind; [apply sim_message; assumption | intros w]. apply sim_assert; [reflexivity|]. intros i.
    rewrite (simple_marked e Marks H0). destruct IHe as [IHe IHi].
    assert (O' : okr Marks (Some (length cs)) ((length cs, i) :: cs)) by (exists (length cs), i, cs; auto).
    destruct (has_mark e); cbn [negb].
    + apply (IHe Marks (Some (length cs)) c ((length cs, i) :: cs)); assumption.
    + apply (IHi Marks); assumption.
  - destruct IHe as [IHe _]. apply sim_bind; [apply (IHe Outside); [assumption | reflexivity] | intros w].
    apply sim_assert; [reflexivity|]. intros i. apply sim_ret.
  - ands. assert (Em : optP simE m) by (destruct m; cbn in *; [apply H | exact I]).
    apply sim_bind; [apply sim_message; assumption | intros w]. apply sim_assert_raises; [reflexivity|]. destruct IHe as [IHe _].
    apply (IHe Outside); [assumption | reflexivity].
Qed.
Lemma sim_eval : forall e r k c cs, simple r e = true -> okr r k cs ->
  SIM (ev false e c cs) (ev' false (expand k (length cs) e) c cs).
Proof. intros e. apply (sim_eval_both e). Qed.
Lemma sim_eval_imp : forall e r k c n i cs, simple r e = true -> okr r k ((n, i) :: cs) ->
  SIM (ev true e c ((n, i) :: cs)) (ev' false (implicit n (fun l => l) e (expand k (S (length cs)) e)) c ((n, i) :: cs)).
Proof. intros e. apply (sim_eval_both e). Qed.

Definition simS (s : stm) : Prop := forall r k c cs, simples r s = true -> okr r k cs ->
  SIM (xs false s c cs) (xs' false (expands k (length cs) s) c cs).
Lemma exec_imp : forall A s c cs, is_return s = false -> exec W prim compare A true s c cs = exec W prim compare A false s c cs.
Proof. intros A s c cs H. destruct s; try reflexivity. discriminate. Qed.
Lemma implicit_text : forall n t e e', (forall a l, e = Cmp a l -> t a = a) -> implicit n t e e' = implicit n (fun l => l) e e'.
Proof. intros n t e e' H. destruct e; try reflexivity. cbn. rewrite (H _ _ eq_refl). reflexivity. Qed.
Lemma sim_opt : forall e r k c cs, opt_all (simple r) e = true -> okr r k cs ->
  SIM (opt_eval W prim compare ap false e c cs) (opt_eval W prim compare ap' false (option_map (expand k (length cs)) e) c cs).
Proof. intros [e|] r k c cs S O; cbn in *; [apply (sim_eval e r); assumption | apply sim_ret]. Qed.
(** the body of a test block *)
Lemma sim_block_body : forall text b r k c n i cs, Forall simS b -> forallb (simples r) b = true -> okr r k ((n, i) :: cs) ->
  (forall e, In (Return (Some e)) b -> forall a l, e = Cmp a l -> text a = a) ->
  SIM (execs_ W (fun s => xs true s c ((n, i) :: cs)) b)
      (execs_ W (fun s => xs' false s c ((n, i) :: cs)) (implicit_return n text b (map (expands k (S (length cs))) b))).
Proof.
  intros text b r k c n i cs H. induction H as [|s b Hs Hb IH]; intros S O T; [apply sim_ret|].
  cbn in S. ands. assert (T' : forall e, In (Return (Some e)) b -> forall a l, e = Cmp a l -> text a = a) by (intros; eapply T; [right|]; eassumption).
  destruct (is_return s) eqn:E.
  - destruct s as [| |[e|]| | | | | |]; try discriminate E.
    + cbn [map implicit_return expands option_map]. cbn in H. rewrite implicit_text by (eapply T; left; reflexivity).
      cbn [execs_ exec opt_eval].
      assert (X : SIM (mbind (ev true e c ((n, i) :: cs)) (fun v => ret (Some v)))
        (mbind (ev' false (implicit n (fun l => l) e (expand k (Datatypes.S (length cs)) e)) c ((n, i) :: cs)) (fun v => ret (Some v)))).
      { apply sim_bind; [apply (sim_eval_imp e r); assumption | intros; apply sim_ret]. }
      intros s s' R. specialize (X s s' R). unfold mbind in *.
      destruct (ev true e c ((n, i) :: cs) s) as [[[v|x] t]|], (ev' false _ c ((n, i) :: cs) s') as [[[v'|x'] t']|];
        cbn in *; try contradiction; try exact I; destruct X as [X R']; try discriminate X.
      * injection X as <-. split; auto.
      * injection X as <-. split; auto.
    + cbn. intros s s' R. cbn. split; auto.
  - assert (E2 : implicit_return n text (s :: b) (map (expands k (Datatypes.S (length cs))) (s :: b)) =
      expands k (Datatypes.S (length cs)) s :: implicit_return n text b (map (expands k (Datatypes.S (length cs))) b)).
    { destruct s; try reflexivity; discriminate E. }
    rewrite E2. cbn [execs_]. rewrite exec_imp by exact E.
    apply sim_bind; [apply (Hs r k c ((n, i) :: cs)); assumption | intros [v|]]; [apply sim_ret | apply IH; assumption].
Qed.
Lemma execs_app : forall (f : stm -> M W (option value)) a b s,
  execs_ W f (a ++ b) s = mbind (execs_ W f a) (fun r => match r with Some v => ret (Some v) | None => execs_ W f b end) s.
Proof.
  intros f a b. induction a as [|x a IH]; intros s; [reflexivity|]. cbn [app execs_]. unfold mbind.
  destruct (f x s) as [[[[v|]|y] t]|]; try reflexivity. rewrite IH. reflexivity.
Qed.
Lemma returns : forall A imp b c cs s t, existsb is_return b = true -> execs_ W (fun s => exec W prim compare A imp s c cs) b s <> Some (Ok None, t).
Proof.
  intros A imp b c cs s t. revert s. induction b as [|x b IH]; intros s H; cbn in H; [discriminate|].
  destruct (is_return x) eqn:E.
  - destruct x; try discriminate E. cbn [execs_ exec]. unfold mbind, ret.
    match goal with |- context [opt_eval ?a ?b ?c0 ?d ?e ?f ?g ?h s] => destruct (opt_eval a b c0 d e f g h s) as [[[v|y] t']|] end; congruence.
  - cbn [execs_]. unfold mbind, ret.
    match goal with |- context [exec ?a ?b ?c0 ?d ?e ?f ?g ?h s] => destruct (exec a b c0 d e f g h s) as [[[[v|]|y] t']|] end; try congruence.
    apply IH. exact H.
Qed.
Lemma sim_close : forall imp b b2 c cs, SIM (execs_ W (fun s => xs imp s c cs) b) (execs_ W (fun s => xs' false s c cs) b2) ->
  SIM (mbind (execs_ W (fun s => xs imp s c cs) b) (fun r => ret (match r with Some v => v | None => True_ end)))
      (mbind (execs_ W (fun s => xs' false s c cs) (if existsb is_return b then b2 else b2 ++ [Return (Some (Con (CBool true)))]))
        (fun r => ret (match r with Some v => v | None => None_ end))).
Proof.
  intros imp b b2 c cs H s s' R. specialize (H s s' R).
  destruct (existsb is_return b) eqn:E.
  - unfold mbind. pose proof (fun t => returns ap imp b c cs s t E) as N.
    destruct (execs_ W (fun s => xs imp s c cs) b s) as [[[[v|]|x] t]|], (execs_ W (fun s => xs' false s c cs) b2 s') as [[[[v'|]|x'] t']|];
      try contradiction; try exact I; destruct H as [H R']; try discriminate H; cbn.
    + injection H as <-. split; auto. 
    + exfalso. exact (N t eq_refl).
    + injection H as <-. split; auto. 
  - unfold mbind. rewrite execs_app. unfold mbind.
    destruct (execs_ W (fun s => xs imp s c cs) b s) as [[[[v|]|x] t]|], (execs_ W (fun s => xs' false s c cs) b2 s') as [[[[v'|]|x'] t']|];
      try contradiction; try exact I; destruct H as [H R']; try discriminate H; cbn.
    + injection H as <-. split; auto.
    + split; auto.
    + injection H as <-. split; auto.
Qed.
Lemma locals_block : forall b (b2 : list stm) (t : bool), flat_map stored b2 = flat_map stored b ->
  locals_of [] (BS (if t then b2 else b2 ++ [Return (Some (Con (CBool true)))])) = locals_of [] (BS b).
Proof. intros b b2 t H. unfold locals_of. f_equal. destruct t; [exact H|]. rewrite flat_map_app. cbn. rewrite app_nil_r. exact H. Qed.
Lemma sim_exec : forall s, simS s.
Proof.
  induction s using stm_induct; intros r k c cs S O; cbn [simples] in S; try discriminate S.
  - apply sim_bind; [apply (sim_eval e r); assumption | intros; apply sim_ret].
  - apply sim_bind; [apply (sim_eval e r); assumption | intros v]. apply sim_bind; [apply sim_set_var | intros; apply sim_ret].
  - apply sim_bind; [apply (sim_opt e r); assumption | intros; apply sim_ret].
  - ands. apply sim_bind; [apply (sim_eval e r); assumption | intros v].
    destruct (truthy v); apply sim_execs; (eapply Forall_forallb; [|eassumption]);
      (eapply Forall_impl; [|eassumption]); cbn; intros s Hs Ss; apply (Hs r); assumption.
  - cbn [exec expands]. apply sim_bind; [apply sim_new_fun | intros g; apply sim_bind; [apply sim_set_var | intros; apply sim_ret]].
    repeat split; cbn; auto. exists r, k. auto.
  - ands. cbn [exec expands].
    apply sim_bind; [apply (sim_message m c cs); [destruct m; cbn; auto; apply sim_eval_both | assumption] | intros w].
    apply sim_bind; [|intros; apply sim_ret]. apply sim_assert; [reflexivity|]. intros i.
    set (d := length cs).
    assert (B : exists b2 k2, okr (in_block r) k2 ((d, i) :: cs) /\ flat_map stored b2 = flat_map stored b /\
      (forall c, SIM (execs_ W (fun s => xs (negb (existsb has_marks b)) s c ((d, i) :: cs)) b) (execs_ W (fun s => xs' false s c ((d, i) :: cs)) b2)) /\
      match k with
      | Some n => implicit_return d (transform n) b (map (expands (Some n) (Datatypes.S d)) b)
      | None => let b' := map (expands (Some d) (Datatypes.S d)) b in if existsb markeds b then b' else implicit_return d (fun l => l) b b'
      end = b2).
    { destruct r; cbn [in_block] in *.
      - cbn in O. subst k. assert (O' : okr Marks (Some d) ((d, i) :: cs)) by (exists d, i, cs; auto).
        assert (Em : existsb markeds b = existsb has_marks b).
        { apply existsb_ext_Forall. eapply Forall_forallb; [|exact H1]. apply Forall_forall. intros s _ Hs. apply simples_marked. exact Hs. }
        rewrite Em. cbv zeta. destruct (existsb has_marks b); eexists; exists (Some d); split; [exact O'| |exact O'|]; (split; [|split; [|reflexivity]]).
        + apply stored_map_expands.
        + intros c'. apply sim_execs. eapply Forall_forallb; [|exact H1]. eapply Forall_impl; [|exact H]. cbn. intros s Hs Ss. apply (Hs Marks (Some d) c' ((d, i) :: cs)); assumption.
        + rewrite stored_implicit. apply stored_map_expands.
        + intros c'. apply (sim_block_body (fun l => l) b Marks (Some d) c' d i cs); auto.
      - destruct O as (n & j & cs' & -> & Ecs).
        assert (O' : okr Inner (Some n) ((d, i) :: cs)) by (exists n, (d, i), cs; auto).
        assert (Em : existsb has_marks b = false).
        { clear - H1. induction b as [|s b IH]; [reflexivity|]. cbn in *. ands. destruct (simples_no_mark s H) as [_ ->]. auto. }
        rewrite Em. eexists; exists (Some n); split; [exact O'|]. split; [|split; [|reflexivity]].
        + rewrite stored_implicit. apply stored_map_expands.
        + intros c'. apply (sim_block_body (transform n) b Inner (Some n) c' d i cs); auto.
          intros e He a l ->. rewrite forallb_forall in H1. specialize (H1 _ He). cbn in H1. ands.
          apply (transform_id a Inner); [assumption|]. apply (simple_no_mark a Inner); [assumption | discriminate].
      - destruct O as (n & j & cs' & -> & Ecs).
        assert (O' : okr Inner (Some n) ((d, i) :: cs)) by (exists n, (d, i), cs; auto).
        assert (Em : existsb has_marks b = false).
        { clear - H1. induction b as [|s b IH]; [reflexivity|]. cbn in *. ands. destruct (simples_no_mark s H) as [_ ->]. auto. }
        rewrite Em. eexists; exists (Some n); split; [exact O'|]. split; [|split; [|reflexivity]].
        + rewrite stored_implicit. apply stored_map_expands.
        + intros c'. apply (sim_block_body (transform n) b Inner (Some n) c' d i cs); auto.
          intros e He a l ->. rewrite forallb_forall in H1. specialize (H1 _ He). cbn in H1. ands.
          apply (transform_id a Inner); [assumption|]. apply (simple_no_mark a Inner); [assumption | discriminate]. }
    destruct B as (b2 & k2 & _ & Es & Hb & Eb). fold d. cbv zeta. cbv zeta in Eb. rewrite Eb. rewrite (locals_block b b2 _ Es).
    apply sim_bind; [apply sim_alloc | intros j]. apply (sim_close _ b b2). apply Hb.
  - ands. cbn [exec expands].
    apply sim_bind; [apply (sim_message m c cs); [destruct m; cbn; auto; apply sim_eval_both | assumption] | intros w].
    apply sim_bind; [|intros; apply sim_ret]. apply sim_assert_raises; [reflexivity|].
    assert (El : locals_of [] (BS (map (expands k (length cs)) b)) = locals_of [] (BS b)).
    { unfold locals_of. f_equal. apply stored_map_expands. }
    rewrite El. apply sim_bind; [apply sim_alloc | intros j]. apply sim_bind; [|intros; apply sim_ret].
    assert (O' : okr (in_raises r) k cs).
    { destruct r; cbn in O |- *; auto. destruct O as (n & i & cs' & -> & ->). exists n, (n, i), cs'. auto. }
    apply sim_execs. eapply Forall_forallb; [|exact H1]. eapply Forall_impl; [|exact H]. cbn. intros s Hs Ss. apply (Hs (in_raises r)); assumption.
Qed.
Lemma sim_enter : forall f g args, objR f g -> SIM (enter W prim compare ap f args) (enter W prim compare ap' g args).
Proof.
  intros [ps b c cs] [ps' b' c' cs'] args (E1 & E2 & E3 & r & k & O & B). cbn in *. subst ps' c' cs'. unfold enter. cbn [fps fc fcs fbody].
  destruct b as [e|l]; destruct B as [S ->].
  - apply sim_bind; [apply sim_alloc | intros i]. apply (sim_eval e r); assumption.
  - assert (El : locals_of ps (BS (map (expands k (length cs)) l)) = locals_of ps (BS l)).
    { unfold locals_of. f_equal. apply stored_map_expands. }
    rewrite El. apply sim_bind; [apply sim_alloc | intros i]. apply sim_bind; [|intros; apply sim_ret].
    apply sim_execs. eapply Forall_forallb; [|exact S]. apply Forall_forall. intros s _ Ss. apply (sim_exec s r); assumption.
Qed.
End Captures.
Lemma sim_call : forall W prim compare fuel f vs, Sim W objR eq (call W prim compare fuel f vs) (call W prim compare fuel f vs).
Proof.
  intros W prim compare. induction fuel as [|fuel IH]; intros f vs; [intros s s' R; exact I|].
  cbn -[enter]. destruct f as [k|r|u]; try apply sim_raise. intros s s' R. destruct (R) as (_ & R2 & _).
  pose proof (Forall2_nth _ _ _ _ _ r R2) as N.
  destruct (nth_error (funs s) r) as [f|], (nth_error (funs s') r) as [g|]; try contradiction; [|split; auto].
  destruct (N) as (E & _). rewrite E. destruct (length vs =? length (fps g)); [|split; auto].
  apply (sim_enter W prim compare _ _ (IH) f g _ N s s' R).
Qed.
Lemma captures : forall W prim compare fuel globals p (w : W), forallb (simples Outside) p = true ->
  run W prim compare fuel globals (expand_program p) w = run W prim compare fuel globals p w.
Proof.
  intros W prim compare fuel globals p w S. unfold run, execs, expand_program.
  assert (X : Sim W objR eq (execs_ W (fun s => exec W prim compare (call W prim compare fuel) false s [] []) p)
    (execs_ W (fun s => exec W prim compare (call W prim compare fuel) false s [] []) (map (expands None 0) p))).
  { apply sim_execs. eapply Forall_forallb; [|exact S]. apply Forall_forall. intros s _ Ss.
    apply (sim_exec W prim compare _ _ (sim_call W prim compare fuel) s Outside None [] []); [exact Ss | reflexivity]. }
  set (s0 := mkS [mkF [] (map (fun g => (fst g, VCon (snd g))) globals)] [] [] [] w).
  assert (R : rel W objR eq s0 s0) by (repeat split; constructor). specialize (X s0 s0 R).
  destruct (execs_ W _ p s0) as [[r t]|], (execs_ W _ (map _ p) s0) as [[r' t']|]; try contradiction; try reflexivity.
  destruct X as [-> (_ & _ & _ & R4 & ->)]. f_equal. f_equal. f_equal.
  clear - R4. induction R4 as [|[h1 c1 m1] [h2 c2 m2] l l' (E1 & E2 & E3) F IH]; [reflexivity|]. cbn in *. congruence.
Qed.

(** * Marks do not change what the program does *)
Fixpoint strip (e : ex) : ex :=
  match e with
  | Con _ | Var _ | Mark _ => e
  | Prim o l => Prim o (map strip l)
  | Cmp e l => Cmp (strip e) (map (fun oe => (fst oe, strip (snd oe))) l)
  | IfE e a b => IfE (strip e) (strip a) (strip b)
  | Lam ps b => Lam ps (strip b)
  | Call f args => Call (strip f) (map strip args)
  | The e => The (strip e)
  | Test e m => Test (strip e) (option_map strip m)
  | Uncond u m => Uncond u (strip m)
  | Raises x e m => Raises x (strip e) (option_map strip m)
  | Rec n t e => strip e
  | Assert n e m => Assert n (strip e) (strip m)
  | AssertR x e m => AssertR x (strip e) (strip m)
  end.
Fixpoint strips (s : stm) : stm :=
  match s with
  | Expr e => Expr (strip e)
  | Assign x e => Assign x (strip e)
  | Return e => Return (option_map strip e)
  | If e a b => If (strip e) (map strips a) (map strips b)
  | Def f ps b => Def f ps (map strips b)
  | TestB m b => TestB (option_map strip m) (map strips b)
  | AssertB n m b => AssertB n (strip m) (map strips b)
  | RaisesB x m b => RaisesB x (option_map strip m) (map strips b)
  | AssertRB x m b => AssertRB x (strip m) (map strips b)
  end.
(** expanded, and the variables e_n are there *)
Definition inb (n : nat) (ks : list nat) : bool := existsb (Nat.eqb n) ks.
Fixpoint scoped (ks : list nat) (e : ex) : bool :=
  match e with
  | Con _ | Var _ | Mark _ => true
  | Prim _ l => forallb (scoped ks) l
  | Cmp e l => scoped ks e && forallb (fun oe => scoped ks (snd oe)) l
  | IfE e a b => scoped ks e && scoped ks a && scoped ks b
  | Lam _ b => scoped ks b
  | Call f args => scoped ks f && forallb (scoped ks) args
  | The _ | Test _ _ | Uncond _ _ | Raises _ _ _ => false
  | Rec n _ e => inb n ks && scoped ks e
  | Assert n e m => scoped (n :: ks) e && scoped ks m
  | AssertR _ e m => scoped ks e && scoped ks m
  end.
Fixpoint scopeds (ks : list nat) (s : stm) : bool :=
  match s with
  | Expr e | Assign _ e => scoped ks e
  | Return e => opt_all (scoped ks) e
  | If e a b => scoped ks e && forallb (scopeds ks) a && forallb (scopeds ks) b
  | Def _ _ b => forallb (scopeds ks) b
  | TestB _ _ | RaisesB _ _ _ => false
  | AssertRB _ m b => scoped ks m && forallb (scopeds ks) b
  | AssertB n m b => scoped ks m && forallb (scopeds (n :: ks)) b
  end.
Lemma stored_strips : forall s, stored (strips s) = stored s.
Proof.
  induction s using stm_induct; cbn; auto.
  rewrite !flat_map_map. f_equal; apply flat_map_ext_Forall; assumption.
Qed.
Lemma stored_map_strips : forall b, flat_map stored (map strips b) = flat_map stored b.
Proof. intros. rewrite flat_map_map. apply flat_map_ext_Forall. apply Forall_forall. intros. apply stored_strips. Qed.

Definition anyL (a b : list (ex * value)) : Prop := True.
Definition bodyS (ks : list nat) (b b' : body) : Prop :=
  match b with
  | BE e => scoped ks e = true /\ b' = BE (strip e)
  | BS l => forallb (scopeds ks) l = true /\ b' = BS (map strips l)
  end.
Definition objS (f g : fobj) : Prop := fps f = fps g /\ fc f = fc g /\ fcs f = fcs g /\ bodyS (map fst (fcs f)) (fbody f) (fbody g).
Section Strip.
Variable W : Type.
Variable prim : nat -> list con -> W -> outcome con * W.
Variable compare : nat -> con -> con -> W -> outcome con * W.
Variable ap ap' : value -> list value -> M W value.
(** the numbers of lists, e_n, are those of lists *)
Definition live (cs : list (nat * nat)) (s : st W) : Prop := forall n i, In (n, i) cs -> i < length (caps s).
Definition wf (s : st W) : Prop := Forall (fun f => live (fcs f) s) (funs s).
Definition rel1 (s s' : st W) : Prop := rel W objS anyL s s' /\ wf s.
(** like Sim, but lists of values stay *)
Definition Sim1 {A} (P : st W -> Prop) (m m' : M W A) : Prop := forall s s', rel1 s s' -> P s ->
  match m s, m' s' with
  | Some (r, t), Some (r', t') => r = r' /\ rel1 t t' /\ length (caps s) <= length (caps t)
  | None, None => True
  | _, _ => False
  end.
Lemma live_mono : forall cs s t, live cs s -> length (caps s) <= length (caps t) -> live cs t.
Proof. intros cs s t H L n i I. specialize (H n i I). lia. Qed.
Lemma wf_mono : forall (s t : st W), wf s -> funs t = funs s -> length (caps s) <= length (caps t) -> wf t.
Proof.
  intros s t H E L. unfold wf in *. rewrite E. eapply Forall_impl; [|exact H]. intros f Hf. exact (live_mono _ _ _ Hf L).
Qed.
(** simple steps *)
Definition quiet {A} (m : M W A) : Prop := forall s r t, m s = Some (r, t) -> funs t = funs s /\ length (caps s) <= length (caps t).
Lemma sim1_quiet : forall A (P : st W -> Prop) (m m' : M W A), Sim W objS anyL m m' -> quiet m -> Sim1 P m m'.
Proof.
  intros A P m m' H Q s s' [R Wf] _. specialize (H s s' R). specialize (Q s).
  destruct (m s) as [[r t]|], (m' s') as [[r' t']|]; try contradiction; try exact I.
  destruct H as [-> R']. destruct (Q _ _ eq_refl) as [Q1 Q2]. repeat split; auto; try apply R'. eapply wf_mono; eassumption.
Qed.
Lemma quiet_ret : forall A (a : A), quiet (ret a).
Proof. intros A a s r t E. injection E as <- <-. auto. Qed.
Lemma quiet_raise : forall A x, quiet (A := A) (raise x).
Proof. intros A a s r t E. injection E as <- <-. auto. Qed.
Lemma quiet_get_var : forall c x, quiet (get_var W c x).
Proof.
  intros c x s r t. unfold get_var. destruct (nth_error _ _); [destruct (dict_get _ _ _)|]; intros E; injection E as <- <-; auto.
Qed.
Lemma quiet_set_var : forall c x v, quiet (set_var W c x v).
Proof. intros c x v s r t. unfold set_var. destruct (nth_error _ _); intros E; injection E as <- <-; auto. Qed.
Lemma quiet_alloc : forall f, quiet (alloc W f).
Proof. intros f s r t E. injection E as <- <-. auto. Qed.
Lemma quiet_tell : forall f, quiet (tell W f).
Proof. intros f s r t E. injection E as <- <-. auto. Qed.
Lemma quiet_new_cap : quiet (new_cap W).
Proof. intros s r t E. injection E as <- <-. cbn. rewrite app_length. split; auto. lia. Qed.
Lemma quiet_on_world : forall f, quiet (on_world W f).
Proof. intros f s r t. unfold on_world. destruct (f (world s)) as [[d|x] w]; intros E; injection E as <- <-; auto. Qed.
Lemma quiet_prim : forall o l, quiet (do_prim W prim o l).
Proof. intros o l. unfold do_prim. destruct (cons_of l); [apply quiet_on_world | apply quiet_raise]. Qed.
Lemma quiet_compare : forall o a b, quiet (do_compare W compare o a b).
Proof. intros o a b. unfold do_compare. destruct a, b; try apply quiet_raise. apply quiet_on_world. Qed.
Definition stable (P : st W -> Prop) : Prop := forall s t, P s -> length (caps s) <= length (caps t) -> P t.
Lemma stable_live : forall cs, stable (live cs).
Proof. intros cs s t H L. eapply live_mono; eassumption. Qed.
Lemma sim1_bind : forall A B (P : st W -> Prop) (m m' : M W A) (f f' : A -> M W B), stable P ->
  Sim1 P m m' -> (forall a, Sim1 P (f a) (f' a)) -> Sim1 P (mbind m f) (mbind m' f').
Proof.
  intros A B P m m' f f' S H1 H2 s s' R Ps. specialize (H1 s s' R Ps). unfold mbind.
  destruct (m s) as [[[a|x] t]|], (m' s') as [[[a'|x'] t']|]; try contradiction; try exact I;
    destruct H1 as (E & R' & L); try discriminate E.
  - injection E as ->. specialize (H2 a' t t' R' (S _ _ Ps L)).
    destruct (f a' t) as [[r u]|], (f' a' t') as [[r' u']|]; try contradiction; try exact I.
    destruct H2 as (E2 & R2 & L2). repeat split; auto; try apply R2. lia.
  - injection E as ->. auto.
Qed.
Lemma sim1_ret : forall A (P : st W -> Prop) (a : A), Sim1 P (ret a) (ret a).
Proof. intros. apply sim1_quiet; [apply sim_ret | apply quiet_ret]. Qed.
Lemma sim1_observe : forall A (P : st W -> Prop) (m m' : M W A), Sim1 P m m' -> Sim1 P (observe W m) (observe W m').
Proof.
  intros A P m m' H s s' R Ps. specialize (H s s' R Ps). unfold observe.
  destruct (m s) as [[r t]|], (m' s') as [[r' t']|]; try contradiction; try exact I.
  destruct H as (-> & H). auto.
Qed.
Lemma sim1_new_fun : forall cs f f', fcs f = cs -> objS f f' -> Sim1 (live cs) (new_fun W f) (new_fun W f').
Proof.
  intros cs f f' Ecs O s s' [R Wf] L. pose proof (sim_new_fun W objS anyL f f' O s s' R) as H.
  unfold new_fun in *. destruct H as [H1 H2]. repeat split; auto; try apply H2.
  unfold wf in *. cbn. apply Forall_app. split; [exact Wf|]. constructor; [|constructor]. intros n i Hi. cbn. rewrite Ecs in Hi. exact (L n i Hi).
Qed.
Lemma sim1_after : forall P m r l l', Sim1 P (after_ W m r l) (after_ W m r l').
Proof.
  intros P m r l l'.
  assert (T : forall h, Sim1 P (mbind (tell W (mkR h l m)) (fun _ => ret None_)) (mbind (tell W (mkR h l' m)) (fun _ => ret None_))).
  { intros h. apply sim1_quiet.
    - apply sim_bind; [apply sim_tell; repeat split; cbn; auto | intros; apply sim_ret].
    - intros s r' t E. injection E as <- <-. auto. }
  unfold after_. destruct r as [[k|r|u]|x]; try apply T; destruct (truthy _); try apply T; apply sim1_ret.
Qed.
Lemma sim1_assert : forall n cs t t' m, (forall i, Sim1 (live ((n, i) :: cs)) (t i) (t' i)) -> Sim1 (live cs) (assert_ W t m) (assert_ W t' m).
Proof.
  intros n cs t t' m H.
  assert (X : forall i, Sim1 (live ((n, i) :: cs)) (mbind (observe W (t i)) (fun r => mbind (get_cap W i) (fun l => after_ W m r l)))
                                        (mbind (observe W (t' i)) (fun r => mbind (get_cap W i) (fun l => after_ W m r l)))).
  { intros i. apply sim1_bind; [apply stable_live | apply sim1_observe; apply H | intros r].
    intros u u' Ru Lu. unfold mbind, get_cap. destruct (Ru) as [Ru1 _]. destruct Ru1 as (_ & _ & R3 & _).
    pose proof (Forall2_nth _ _ _ _ _ i R3) as Nn.
    destruct (nth_error (caps u) i) as [l|], (nth_error (caps u') i) as [l'|]; try contradiction.
    - apply (sim1_after (live ((n, i) :: cs)) m r l l' u u' Ru Lu).
    - auto. }
  rewrite !assert_eq. intros s s' RW L.
  pose proof (sim1_quiet _ (live cs) _ _ (sim_new_cap W objS anyL I) quiet_new_cap s s' RW L) as N. cbn in N.
  destruct N as (E & R1 & L1). injection E as Ei.
  assert (L' : live ((n, length (caps s)) :: cs) (mkS (frames s) (funs s) (caps s ++ [[]]) (reports s) (world s))).
  { intros k j [Hj|Hj].
    - injection Hj as <- <-. cbn. rewrite app_length. cbn. lia.
    - specialize (L k j Hj). cbn. rewrite app_length. lia. }
  specialize (X (length (caps s)) _ _ R1 L').
  change (mbind (new_cap W) ?f s) with (f (length (caps s)) (mkS (frames s) (funs s) (caps s ++ [[]]) (reports s) (world s))).
  change (mbind (new_cap W) ?f s') with (f (length (caps s')) (mkS (frames s') (funs s') (caps s' ++ [[]]) (reports s') (world s'))).
  cbv beta. rewrite <- Ei.
  match goal with |- match ?a with _ => _ end => destruct a as [[r u]|] end;
  match goal with |- match ?a with _ => _ end => destruct a as [[r' u']|] end; try contradiction; try exact I.
  destruct X as (X1 & X2 & X3). cbn in X3. rewrite app_length in X3. cbn in X3. repeat split; auto; try apply X2. lia.
Qed.
Hypothesis AP : forall f vs, Sim1 (fun _ => True) (ap f vs) (ap' f vs).
Lemma sim1_weaken : forall A (P : st W -> Prop) (m m' : M W A), Sim1 (fun _ => True) m m' -> Sim1 P m m'.
Proof. intros A P m m' H s s' R _. exact (H s s' R I). Qed.
Lemma lookup_in : forall n cs, inb n (map fst cs) = true -> exists i, lookup n cs = Some i /\ In (n, i) cs.
Proof.
  intros n cs. unfold inb, lookup. induction cs as [|[k i] cs IH]; cbn; [discriminate|]. intros H.
  rewrite Nat.eqb_sym. destruct (n =? k) eqn:E; cbn.
  - apply Nat.eqb_eq in E as ->. exists i. auto.
  - destruct (IH H) as (j & J1 & J2). exists j. auto.
Qed.
Lemma Forall2_upd_l : forall A (l l' : list A) (P : A -> A -> Prop) i a, Forall2 P l l' -> (forall b, P a b) -> Forall2 P (upd l i a) l'.
Proof. intros A l l' P i a H Q. revert i. induction H; intros [|i]; cbn; auto. Qed.
Lemma upd_len : forall A (l : list A) i a, length (upd l i a) = length l.
Proof. induction l; intros [|i] b; cbn; auto. Qed.
Lemma sim1_record : forall cs n i t v, In (n, i) cs -> Sim1 (live cs) (record W i t v) (ret v).
Proof.
  intros cs n i t v Hi s s' [R Wf] L. specialize (L n i Hi). unfold record, ret.
  destruct (nth_error (caps s) i) as [l|] eqn:E; [|apply nth_error_None in E; lia].
  split; [reflexivity|]. split; [split|].
  - destruct R as (R1 & R2 & R3 & R4 & R5). repeat split; cbn; auto. apply Forall2_upd_l; [exact R3 | intros; exact I].
  - eapply wf_mono; [exact Wf | reflexivity | cbn; rewrite upd_len; auto].
  - cbn. rewrite upd_len. auto.
Qed.
Notation ev := (eval W prim compare ap).
Notation ev' := (eval W prim compare ap').
Notation xs := (exec W prim compare ap).
Notation xs' := (exec W prim compare ap').
Lemma sim1_evals : forall (P : st W -> Prop) e0 e1 (g : ex -> ex) l, stable P -> Forall (fun e => Sim1 P (e0 e) (e1 (g e))) l -> Sim1 P (evals_ W e0 l) (evals_ W e1 (map g l)).
Proof.
  intros P e0 e1 g l S H. induction H; cbn; [apply sim1_ret|].
  apply sim1_bind; [assumption|assumption | intros v]. apply sim1_bind; [assumption|assumption | intros r]. apply sim1_ret.
Qed.
Lemma sim1_compares : forall (P : st W -> Prop) e0 e1 (g : ex -> ex) l, stable P -> Forall (fun oe : nat * ex => Sim1 P (e0 (snd oe)) (e1 (g (snd oe)))) l ->
  forall v, Sim1 P (compares_ W compare e0 v l) (compares_ W compare e1 v (map (fun oe => (fst oe, g (snd oe))) l)).
Proof.
  intros P e0 e1 g l S H. induction H as [|[o e] l H1 H2 IH]; intros v; cbn -[truthy]; [apply sim1_ret|].
  apply sim1_bind; [assumption|assumption | intros w].
  apply sim1_bind; [assumption | apply sim1_quiet; [apply sim_do_compare | apply quiet_compare] | intros b].
  destruct l as [|oe l]; cbn -[truthy compares_]; [apply sim1_ret|].
  destruct (truthy b); [apply IH | apply sim1_ret].
Qed.
Lemma sim1_execs : forall (P : st W -> Prop) e0 e1 (g : stm -> stm) l, stable P -> Forall (fun e => Sim1 P (e0 e) (e1 (g e))) l -> Sim1 P (execs_ W e0 l) (execs_ W e1 (map g l)).
Proof.
  intros P e0 e1 g l S H. induction H; cbn; [apply sim1_ret|].
  apply sim1_bind; [assumption|assumption | intros [v|]]; [apply sim1_ret | assumption].
Qed.
Lemma sim1_assert_raises : forall x cs t t' w, Sim1 (live cs) t t' -> Sim1 (live cs) (assert_raises W x t w) (assert_raises W x t' w).
Proof.
  intros x cs t t' w H. unfold assert_raises.
  apply sim1_bind; [apply stable_live | apply sim1_observe; auto | intros r].
  assert (T : forall h, Sim1 (live cs) (mbind (tell W (mkR h [] w)) (fun _ => ret None_)) (mbind (tell W (mkR h [] w)) (fun _ => ret None_))).
  { intros h. apply sim1_bind; [apply stable_live | | intros; apply sim1_ret].
    apply sim1_quiet; [apply sim_tell; repeat split; cbn; auto | apply quiet_tell]. }
  destruct r as [v|y]; [|destruct (exn_eqb x y); [apply sim1_ret|]]; apply T.
Qed.
Lemma sim1_eval : forall e c cs, scoped (map fst cs) e = true -> Sim1 (live cs) (ev false e c cs) (ev' false (strip e) c cs).
Proof.
  induction e using ex_induct; intros c cs S; cbn in S |- *; try discriminate S.
  - apply sim1_ret.
  - apply sim1_quiet; [apply sim_get_var | apply quiet_get_var].
  - apply sim1_bind; [apply stable_live| |intros vs; apply sim1_quiet; [apply sim_do_prim | apply quiet_prim]].
    apply sim1_evals; [apply stable_live|]. eapply Forall_forallb; [|exact S]. eapply Forall_impl; [|exact H]. cbn. auto.
  - ands. apply sim1_bind; [apply stable_live | auto | intros v]. apply sim1_bind; [apply stable_live | apply sim1_ret | intros v'].
    apply sim1_compares; [apply stable_live|].
    apply (Forall_forallb _ _ (fun oe => scoped (map fst cs) (snd oe))); [|exact H1]. eapply Forall_impl; [|exact H]. cbn. auto.
  - ands. apply sim1_bind; [apply stable_live | auto | intros v]. destruct (truthy v); auto.
  - apply sim1_new_fun; [reflexivity|]. repeat split; auto.
  - ands. apply sim1_bind; [apply stable_live | auto | intros f].
    apply sim1_bind; [apply stable_live | | intros vs; apply sim1_weaken; apply AP].
    apply sim1_evals; [apply stable_live|]. eapply Forall_forallb; [|exact H1]. eapply Forall_impl; [|exact H]. cbn. auto.
  - apply sim1_ret.
  - rename e1 into tx, e2 into e, IHe1 into IHe. ands. destruct (lookup_in _ _ H) as (i & E & Hi). rewrite E.
    intros s s' R L. pose proof (IHe c cs H0 s s' R L) as X. unfold mbind.
    destruct (ev false e c cs s) as [[[v|x] t0]|], (ev' false (strip e) c cs s') as [[[v'|x'] t']|]; try contradiction; try exact I;
      destruct X as (E1 & R1 & L1); try discriminate E1.
    + injection E1 as <-. pose proof (sim1_record cs n i tx v Hi t0 t' R1 (live_mono _ _ _ L L1)) as Y.
      destruct (record W i tx v t0) as [[r u]|]; [|contradiction]. cbn in Y. destruct Y as (-> & Y2 & Y3). repeat split; auto; try apply Y2. lia.
    + auto.
  - ands. apply sim1_bind; [apply stable_live | auto | intros w]. apply (sim1_assert n). intros i. apply IHe1. exact H.
  - ands. apply sim1_bind; [apply stable_live | auto | intros w]. apply sim1_assert_raises. auto.
Qed.
Lemma sim1_exec : forall s c cs, scopeds (map fst cs) s = true -> Sim1 (live cs) (xs false s c cs) (xs' false (strips s) c cs).
Proof.
  induction s using stm_induct; intros c cs S; cbn [scopeds] in S; try discriminate S.
  - apply sim1_bind; [apply stable_live | apply sim1_eval; assumption | intros; apply sim1_ret].
  - apply sim1_bind; [apply stable_live | apply sim1_eval; assumption | intros v].
    apply sim1_bind; [apply stable_live | apply sim1_quiet; [apply sim_set_var | apply quiet_set_var] | intros; apply sim1_ret].
  - destruct e as [e|]; cbn; (apply sim1_bind; [apply stable_live | | intros; apply sim1_ret]); [apply sim1_eval; exact S | apply sim1_ret].
  - ands. apply sim1_bind; [apply stable_live | apply sim1_eval; assumption | intros v].
    destruct (truthy v); (apply sim1_execs; [apply stable_live|]); (eapply Forall_forallb; [|eassumption]);
      (eapply Forall_impl; [|eassumption]); cbn; auto.
  - cbn [exec strips]. apply sim1_bind; [apply stable_live | apply sim1_new_fun; [reflexivity|] | intros g;
      apply sim1_bind; [apply stable_live | apply sim1_quiet; [apply sim_set_var | apply quiet_set_var] | intros; apply sim1_ret]].
    repeat split; auto.
  - ands. cbn [exec strips]. apply sim1_bind; [apply stable_live | apply sim1_eval; assumption | intros w].
    apply sim1_bind; [apply stable_live | | intros; apply sim1_ret]. apply (sim1_assert n). intros i.
    assert (El : locals_of [] (BS (map strips b)) = locals_of [] (BS b)) by (unfold locals_of; f_equal; apply stored_map_strips).
    rewrite El. apply sim1_bind; [apply stable_live | apply sim1_quiet; [apply sim_alloc | apply quiet_alloc] | intros j].
    apply sim1_bind; [apply stable_live | | intros; apply sim1_ret].
    apply sim1_execs; [apply stable_live|]. eapply Forall_forallb; [|exact H1]. eapply Forall_impl; [|exact H]. cbn. intros s Hs Ss. apply Hs. exact Ss.
  - ands. cbn [exec strips]. apply sim1_bind; [apply stable_live | apply sim1_eval; assumption | intros w].
    apply sim1_bind; [apply stable_live | | intros; apply sim1_ret]. apply sim1_assert_raises.
    assert (El : locals_of [] (BS (map strips b)) = locals_of [] (BS b)) by (unfold locals_of; f_equal; apply stored_map_strips).
    rewrite El. apply sim1_bind; [apply stable_live | apply sim1_quiet; [apply sim_alloc | apply quiet_alloc] | intros j].
    apply sim1_bind; [apply stable_live | | intros; apply sim1_ret].
    apply sim1_execs; [apply stable_live|]. eapply Forall_forallb; [|exact H1]. eapply Forall_impl; [|exact H]. cbn. intros s Hs Ss. apply Hs. exact Ss.
Qed.
Lemma sim1_enter : forall f g args, objS f g -> Sim1 (live (fcs f)) (enter W prim compare ap f args) (enter W prim compare ap' g args).
Proof.
  intros [ps b c cs] [ps' b' c' cs'] args (E1 & E2 & E3 & B). cbn [fps fc fcs fbody] in *. subst ps' c' cs'. unfold enter. cbn [fps fc fcs fbody].
  destruct b as [e|l]; destruct B as [S ->].
  - apply sim1_bind; [apply stable_live | apply sim1_quiet; [apply sim_alloc | apply quiet_alloc] | intros i]. apply sim1_eval; assumption.
  - assert (El : locals_of ps (BS (map strips l)) = locals_of ps (BS l)) by (unfold locals_of; f_equal; apply stored_map_strips).
    rewrite El. apply sim1_bind; [apply stable_live | apply sim1_quiet; [apply sim_alloc | apply quiet_alloc] | intros i].
    apply sim1_bind; [apply stable_live | | intros; apply sim1_ret].
    apply sim1_execs; [apply stable_live|]. eapply Forall_forallb; [|exact S]. apply Forall_forall. intros s _ Ss. apply sim1_exec; assumption.
Qed.
End Strip.
Lemma sim1_call : forall W prim compare fuel f vs, Sim1 W (fun _ => True) (call W prim compare fuel f vs) (call W prim compare fuel f vs).
Proof.
  intros W prim compare. induction fuel as [|fuel IH]; intros f vs; [intros s s' R _; exact I|].
  cbn -[enter]. destruct f as [k|r|u]; try (apply sim1_quiet; [apply sim_raise | apply quiet_raise]).
  intros s s' R _. destruct (R) as [(_ & R2 & _) Wf].
  pose proof (Forall2_nth _ _ _ _ _ r R2) as N.
  destruct (nth_error (funs s) r) as [f|] eqn:Ef, (nth_error (funs s') r) as [g|]; try contradiction; [|split; auto].
  destruct (N) as (E & _). rewrite E. destruct (length vs =? length (fps g)); [|split; auto].
  apply (sim1_enter W prim compare _ _ IH f g _ N s s' R).
  unfold wf in Wf. rewrite Forall_forall in Wf. apply Wf. eapply nth_error_In; exact Ef.
Qed.
Lemma strip_run : forall W prim compare fuel globals p (w : W), forallb (scopeds []) p = true ->
  same_run (run W prim compare fuel globals p w) (run W prim compare fuel globals (map strips p) w).
Proof.
  intros W prim compare fuel globals p w S. unfold run, execs.
  assert (X : Sim1 W (live W []) (execs_ W (fun s => exec W prim compare (call W prim compare fuel) false s [] []) p)
    (execs_ W (fun s => exec W prim compare (call W prim compare fuel) false s [] []) (map strips p))).
  { apply sim1_execs; [apply stable_live|]. eapply Forall_forallb; [|exact S]. apply Forall_forall. intros s _ Ss.
    apply (sim1_exec W prim compare _ _ (sim1_call W prim compare fuel) s [] []). exact Ss. }
  set (s0 := mkS [mkF [] (map (fun g => (fst g, VCon (snd g))) globals)] [] [] [] w).
  assert (R : rel1 W s0 s0) by (split; [repeat split; constructor | constructor]).
  assert (L : live W [] s0) by (intros n i []). specialize (X s0 s0 R L).
  destruct (execs_ W _ p s0) as [[r t]|], (execs_ W _ (map _ p) s0) as [[r' t']|]; try contradiction; try exact I.
  destruct X as (-> & ((_ & _ & _ & R4 & ->) & _) & _). cbn. split; [reflexivity|]. split; [|reflexivity].
  clear - R4. induction R4 as [|a b l l' (E1 & E2 & _) F IH]; constructor; [split; assumption | assumption].
Qed.
Lemma same_run_sym : forall W (a b : option (outcome (option value) * list report * W)), same_run a b -> same_run b a.
Proof.
  intros W [[[r l] w]|] [[[r' l'] w']|]; cbn; auto. intros (-> & F & ->). split; [reflexivity|]. split; [|reflexivity].
  induction F as [|x y l l' [A B] F IH]; constructor; [split; auto | assumption].
Qed.
Lemma same_run_trans : forall W (a b c : option (outcome (option value) * list report * W)), same_run a b -> same_run b c -> same_run a c.
Proof.
  intros W [[[r l] w]|] [[[r' l'] w']|] [[[r2 l2] w2]|]; cbn; try tauto. intros (-> & F & ->) (-> & G & ->). split; [reflexivity|]. split; [|reflexivity].
  clear r2 w2. revert l2 G. induction F as [|x y l l' [A B] F IH]; intros l2 G; inversion G as [|? ? ? ? [A2 B2] G']; subst; constructor.
  - split; congruence.
  - apply IH; assumption.
Qed.

(** what the expansions of programs with and without marks have in common *)
Definition okk (t : bool) (k : option nat) (ks : list nat) : Prop := match k with Some n => In n ks | None => t = false end.
Lemma inb_In : forall n ks, In n ks -> inb n ks = true.
Proof. intros n ks H. unfold inb. apply existsb_exists. exists n. split; [exact H | apply Nat.eqb_refl]. Qed.
Lemma forallb_map : forall A B (f : B -> bool) (g : A -> B) l, forallb f (map g l) = forallb (fun x => f (g x)) l.
Proof. intros. induction l; cbn; congruence. Qed.
Lemma Forall_to_forallb : forall A (p : A -> bool) l, Forall (fun x => p x = true) l -> forallb p l = true.
Proof. intros A p l H. induction H; cbn; auto. rewrite H. exact IHForall. Qed.
Lemma scoped_implicit : forall n t e e' ks, In n ks -> scoped ks e' = true -> scoped ks (implicit n t e e') = true.
Proof.
  intros n t e e' ks H S. destruct e, e'; try exact S. cbn in *. apply andb_true_iff in S as [-> ->]. rewrite (inb_In _ _ H). reflexivity.
Qed.
Lemma scoped_message : forall m d ks, optP (fun m => forall t k d ks, placed t m = true -> okk t k ks -> scoped ks (expand k d m) = true) m ->
  opt_all (placed false) m = true -> scoped ks (no_message m (expand None d)) = true.
Proof. intros [m|] d ks H P; cbn in *; [|reflexivity]. apply (H false); [exact P | reflexivity]. Qed.
Lemma scoped_expand : forall e t k d ks, placed t e = true -> okk t k ks -> scoped ks (expand k d e) = true.
Proof.
  induction e using ex_induct; intros b k0 d ks P O; cbn in P |- *; try discriminate P; auto.
  - rewrite forallb_map. apply Forall_to_forallb. eapply Forall_forallb; [|exact P]. eapply Forall_impl; [|exact H]. cbn. eauto.
  - ands. rewrite (IHe b); auto. cbn. rewrite forallb_map. apply Forall_to_forallb.
    apply (Forall_forallb _ _ (fun oe => placed b (snd oe))); [|exact H1]. eapply Forall_impl; [|exact H]. cbn. eauto.
  - ands. rewrite (IHe1 b), (IHe2 b), (IHe3 b); auto.
  - apply (IHe b); assumption.
  - ands. rewrite (IHe b); auto. cbn. rewrite forallb_map. apply Forall_to_forallb. eapply Forall_forallb; [|exact H1]. eapply Forall_impl; [|exact H]. cbn. eauto.
  - ands. subst b. destruct k0 as [n|]; [|discriminate O]. cbn. rewrite (inb_In _ _ O). apply (IHe true); assumption.
  - ands. rewrite scoped_message by assumption. rewrite andb_true_r.
    assert (X : scoped (d :: ks) (expand (Some d) (S d) e) = true) by (apply (IHe true); [assumption | left; reflexivity]).
    destruct (marked e); [exact X|]. apply scoped_implicit; [left; reflexivity | exact X].
  - apply (IHe false); [exact P | reflexivity].
  - ands. rewrite scoped_message by assumption. rewrite (IHe false); auto. reflexivity.
Qed.
Lemma scoped_implicit_return : forall n t ks b b', In n ks -> forallb (scopeds ks) b' = true -> forallb (scopeds ks) (implicit_return n t b b') = true.
Proof.
  intros n t ks b b' H. revert b'. induction b as [|s b IH]; intros b' S; [exact S|].
  destruct b' as [|s' b']; [destruct s as [| |[]| | | | | |]; reflexivity|]. cbn in S. apply andb_true_iff in S as [S1 S2].
  assert (X : forallb (scopeds ks) (s' :: implicit_return n t b b') = true) by (cbn; rewrite S1; apply IH; exact S2).
  destruct s as [| |[e|]| | | | | |]; try exact X.
  - destruct s' as [| |[e'|]| | | | | |]; try (cbn [implicit_return]; cbn; rewrite ?S1, ?S2; cbn in S1; rewrite ?S1, ?S2; reflexivity); try exact X.
    cbn in S1 |- *. rewrite scoped_implicit; assumption.
  - cbn. rewrite S1, S2. reflexivity.
Qed.
Lemma scopeds_expands : forall s t k d ks, placeds t s = true -> okk t k ks -> scopeds ks (expands k d s) = true.
Proof.
  induction s using stm_induct; intros t k d ks P O; cbn [placeds] in P; try discriminate P.
  - apply (scoped_expand e t); assumption.
  - apply (scoped_expand e t); assumption.
  - destruct e as [e|]; cbn in *; [apply (scoped_expand e t); assumption | reflexivity].
  - ands. cbn. rewrite (scoped_expand e t) by assumption. cbn. rewrite !forallb_map.
    apply andb_true_iff; split; apply Forall_to_forallb; (eapply Forall_forallb; [|eassumption]); (eapply Forall_impl; [|eassumption]); cbn; eauto.
  - cbn. rewrite forallb_map. apply Forall_to_forallb. eapply Forall_forallb; [|exact P]. eapply Forall_impl; [|exact H]. cbn. eauto.
  - ands. cbn [expands scopeds].
    rewrite scoped_message; [|destruct m; cbn; [apply scoped_expand | exact I]|assumption]. cbn [andb].
    assert (X : forall k', In (match k' with Some n => n | None => d end) (d :: ks) ->
      forallb (scopeds (d :: ks)) (map (expands (Some (match k' with Some n => n | None => d end)) (S d)) b) = true).
    { intros k' I'. rewrite forallb_map. apply Forall_to_forallb. eapply Forall_forallb; [|exact H1]. eapply Forall_impl; [|exact H].
      cbn. intros s Hs Ps. apply (Hs true); [exact Ps | exact I']. }
    assert (Y : forallb (scopeds (d :: ks)) (match k with
                | Some n => implicit_return d (transform n) b (map (expands (Some n) (S d)) b)
                | None => let b' := map (expands (Some d) (S d)) b in
                          if existsb markeds b then b' else implicit_return d (fun l => l) b b'
                end) = true).
    { destruct k as [n|].
      - apply scoped_implicit_return; [left; reflexivity|]. apply (X (Some n)). right. exact O.
      - cbv zeta. specialize (X None (or_introl eq_refl)). destruct (existsb markeds b); [exact X|].
        apply scoped_implicit_return; [left; reflexivity | exact X]. }
    cbv zeta in Y |- *. destruct (existsb is_return b); [exact Y|]. rewrite forallb_app, Y. reflexivity.
  - ands. cbn [expands scopeds].
    rewrite scoped_message; [|destruct m; cbn; [apply scoped_expand | exact I]|assumption]. cbn [andb].
    rewrite forallb_map. apply Forall_to_forallb. eapply Forall_forallb; [|exact H1]. eapply Forall_impl; [|exact H].
    cbn. intros s Hs Ps. apply (Hs false); [exact Ps|]. destruct k; cbn in *; auto.
Qed.

Lemma strip_implicit : forall n t e e', strip (implicit n t e e') = strip e'.
Proof. intros n t e e'. destruct e, e'; reflexivity. Qed.
Lemma strip_message : forall m d, optP (fun m => forall t k k' d, placed t m = true -> (k = None -> t = false) -> strip (expand k d m) = strip (expand k' d (unmark m))) m ->
  opt_all (placed false) m = true -> strip (no_message m (expand None d)) = strip (no_message (option_map unmark m) (expand None d)).
Proof. intros [m|] d H P; cbn in *; [|reflexivity]. apply (H false); auto. Qed.
Lemma strip_expand : forall e t k k' d, placed t e = true -> (k = None -> t = false) -> strip (expand k d e) = strip (expand k' d (unmark e)).
Proof.
  induction e using ex_induct; intros b k0 k' d P O; cbn in P |- *; try discriminate P; auto.
  - f_equal. rewrite !map_map. apply map_ext_Forall. eapply Forall_forallb; [|exact P]. eapply Forall_impl; [|exact H]. cbn. eauto.
  - ands. rewrite (IHe b k0 k'); auto. f_equal. rewrite !map_map. apply map_ext_Forall.
    apply (Forall_forallb _ _ (fun oe => placed b (snd oe))); [|exact H1]. eapply Forall_impl; [|exact H]. cbn. intros oe He Pe. f_equal. eauto.
  - ands. rewrite (IHe1 b k0 k'), (IHe2 b k0 k'), (IHe3 b k0 k'); auto.
  - rewrite (IHe b k0 k'); auto.
  - ands. rewrite (IHe b k0 k'); auto. f_equal. rewrite !map_map. apply map_ext_Forall. eapply Forall_forallb; [|exact H1]. eapply Forall_impl; [|exact H]. cbn. eauto.
  - ands. subst b. destruct k0 as [n|]; [|discriminate (O eq_refl)]. cbn. apply (IHe true); assumption.
  - ands. rewrite (strip_message m d H H1). f_equal.
    assert (X : strip (expand (Some d) (S d) e) = strip (expand (Some d) (S d) (unmark e))) by (apply (IHe true); [assumption | discriminate]).
    destruct (marked e), (marked (unmark e)); rewrite ?strip_implicit; exact X.
  - rewrite (IHe false None None); auto.
  - ands. rewrite (strip_message m d H H1). rewrite (IHe false None None); auto.
Qed.
Lemma strips_implicit_return : forall n t b b', map strips (implicit_return n t b b') = map strips b'.
Proof.
  intros n t. induction b as [|s b IH]; intros b'; [reflexivity|].
  destruct s as [e|x e|[e|]|e a b0|f ps b0|m b0|k m b0|xr m b0|xr m b0]; destruct b' as [|s' b']; try reflexivity;
    try (cbn; rewrite IH; reflexivity).
  destruct s' as [e'|x' e'|[e'|]|e' a' b0'|f' ps' b0'|m' b0'|k' m' b0'|xr' m' b0'|xr' m' b0']; try reflexivity; cbn; rewrite ?IH, ?strip_implicit; reflexivity.
Qed.
Lemma existsb_map : forall A B (f : B -> bool) (g : A -> B) l, existsb f (map g l) = existsb (fun x => f (g x)) l.
Proof. intros. induction l; cbn; congruence. Qed.
Lemma strips_expands : forall s t k k' d, placeds t s = true -> (k = None -> t = false) -> strips (expands k d s) = strips (expands k' d (unmarks s)).
Proof.
  induction s using stm_induct; intros t k k' d P O; cbn [placeds] in P; try discriminate P.
  - cbn. rewrite (strip_expand e t k k'); auto.
  - cbn. rewrite (strip_expand e t k k'); auto.
  - destruct e as [e|]; cbn in *; [rewrite (strip_expand e t k k'); auto | reflexivity].
  - ands. cbn. rewrite (strip_expand e t k k') by auto. rewrite !map_map.
    f_equal; apply map_ext_Forall; (eapply Forall_forallb; [|eassumption]); (eapply Forall_impl; [|eassumption]); cbn; eauto.
  - cbn. f_equal. rewrite !map_map. apply map_ext_Forall. eapply Forall_forallb; [|exact P]. eapply Forall_impl; [|exact H]. cbn. eauto.
  - ands. cbn [expands strips unmarks]. rewrite (strip_message m d); [|destruct m; cbn; [apply strip_expand | exact I]|assumption]. f_equal.
    assert (X : forall n n', map strips (map (expands (Some n) (S d)) b) = map strips (map (expands (Some n') (S d)) (map unmarks b))).
    { intros n n'. rewrite !map_map. apply map_ext_Forall. eapply Forall_forallb; [|exact H1]. eapply Forall_impl; [|exact H].
      cbn. intros s Hs Ps. apply (Hs true); [exact Ps | discriminate]. }
    assert (Er : existsb is_return (map unmarks b) = existsb is_return b).
    { rewrite existsb_map. apply existsb_ext_Forall. apply Forall_forall. intros [] _; reflexivity. }
    rewrite Er.
    assert (Y : map strips (match k with
                | Some n => implicit_return d (transform n) b (map (expands (Some n) (S d)) b)
                | None => let b' := map (expands (Some d) (S d)) b in
                          if existsb markeds b then b' else implicit_return d (fun l => l) b b'
                end) = map strips (match k' with
                | Some n => implicit_return d (transform n) (map unmarks b) (map (expands (Some n) (S d)) (map unmarks b))
                | None => let b' := map (expands (Some d) (S d)) (map unmarks b) in
                          if existsb markeds (map unmarks b) then b' else implicit_return d (fun l => l) (map unmarks b) b'
                end)).
    { cbv zeta. destruct k, k', (existsb markeds b), (existsb markeds (map unmarks b)); rewrite ?strips_implicit_return; apply X. }
    cbv zeta in Y |- *. destruct (existsb is_return b); [exact Y|]. rewrite !map_app. f_equal. exact Y.
  - ands. cbn [expands strips unmarks]. rewrite (strip_message m d); [|destruct m; cbn; [apply strip_expand | exact I]|assumption]. f_equal.
    rewrite !map_map. apply map_ext_Forall. eapply Forall_forallb; [|exact H1]. eapply Forall_impl; [|exact H].
    cbn. intros s Hs Ps. apply (Hs false); auto.
Qed.
Lemma placed_unmark : forall e t t', placed t e = true -> placed t' (unmark e) = true.
Proof.
  induction e using ex_induct; intros b b' P; cbn in P |- *; try discriminate P; auto.
  - rewrite forallb_map. apply Forall_to_forallb. eapply Forall_forallb; [|exact P]. eapply Forall_impl; [|exact H]. cbn. eauto.
  - ands. rewrite (IHe b b'); auto. cbn. rewrite forallb_map. apply Forall_to_forallb.
    apply (Forall_forallb _ _ (fun oe => placed b (snd oe))); [|exact H1]. eapply Forall_impl; [|exact H]. cbn. eauto.
  - ands. rewrite (IHe1 b b'), (IHe2 b b'), (IHe3 b b'); auto.
  - eauto.
  - ands. rewrite (IHe b b'); auto. cbn. rewrite forallb_map. apply Forall_to_forallb. eapply Forall_forallb; [|exact H1]. eapply Forall_impl; [|exact H]. cbn. eauto.
  - ands. eauto.
  - ands. rewrite (IHe true true); auto. destruct m; cbn in *; eauto.
  - eauto.
  - ands. rewrite (IHe false false); auto. destruct m; cbn in *; eauto.
Qed.
Lemma placeds_unmark : forall s t t', placeds t s = true -> placeds t' (unmarks s) = true.
Proof.
  induction s using stm_induct; intros t t' P; cbn [placeds unmarks] in *; try discriminate P.
  - eapply placed_unmark; exact P.
  - eapply placed_unmark; exact P.
  - destruct e; cbn in *; [eapply placed_unmark; exact P | reflexivity].
  - ands. rewrite (placed_unmark e t t') by assumption. rewrite !forallb_map. cbn.
    apply andb_true_iff; split; apply Forall_to_forallb; (eapply Forall_forallb; [|eassumption]); (eapply Forall_impl; [|eassumption]); cbn; eauto.
  - rewrite forallb_map. apply Forall_to_forallb. eapply Forall_forallb; [|exact P]. eapply Forall_impl; [|exact H]. cbn. eauto.
  - ands. apply andb_true_iff. split; [destruct m; cbn in *; [eapply placed_unmark; eassumption | reflexivity]|].
    rewrite forallb_map. apply Forall_to_forallb. eapply Forall_forallb; [|exact H1]. eapply Forall_impl; [|exact H]. cbn. eauto.
  - ands. apply andb_true_iff. split; [destruct m; cbn in *; [eapply placed_unmark; eassumption | reflexivity]|].
    rewrite forallb_map. apply Forall_to_forallb. eapply Forall_forallb; [|exact H1]. eapply Forall_impl; [|exact H]. cbn. eauto.
Qed.
Lemma transparent : forall W prim compare fuel globals p (w : W), forallb (placeds false) p = true ->
  same_run (run W prim compare fuel globals (expand_program p) w) (run W prim compare fuel globals (expand_program (map unmarks p)) w).
Proof.
  intros W prim compare fuel globals p w P.
  assert (S1 : forallb (scopeds []) (expand_program p) = true).
  { unfold expand_program. rewrite forallb_map. apply Forall_to_forallb. eapply Forall_forallb; [|exact P]. apply Forall_forall.
    cbn. intros s _ Ps. apply (scopeds_expands s false); [exact Ps | reflexivity]. }
  assert (S2 : forallb (scopeds []) (expand_program (map unmarks p)) = true).
  { unfold expand_program. rewrite !forallb_map. apply Forall_to_forallb. eapply Forall_forallb; [|exact P]. apply Forall_forall.
    cbn. intros s _ Ps. apply (scopeds_expands _ false); [|reflexivity]. eapply placeds_unmark. exact Ps. }
  assert (E : map strips (expand_program p) = map strips (expand_program (map unmarks p))).
  { unfold expand_program. rewrite !map_map. apply map_ext_Forall. eapply Forall_forallb; [|exact P]. apply Forall_forall.
    cbn. intros s _ Ps. apply (strips_expands s false); auto. }
  eapply same_run_trans; [apply strip_run; exact S1|]. rewrite E. apply same_run_sym. apply strip_run. exact S2.
Qed.

(** * Verdicts *)
Lemma verdict : forall W prim compare ap n e m c cs (s s1 s2 : st W) w r l,
  eval W prim compare ap false m c cs s = Some (Ok w, s1) ->
  eval W prim compare ap false e c ((n, length (caps s1)) :: cs)
    (mkS (frames s1) (funs s1) (caps s1 ++ [[]]) (reports s1) (world s1)) = Some (r, s2) ->
  nth_error (caps s2) (length (caps s1)) = Some l ->
  eval W prim compare ap false (Assert n e m) c cs s = Some (Ok None_, add_reports s2 (reported r l w)).
Proof.
  intros W prim compare ap n e m c cs s s1 s2 w r l Hm He Hl.
  assert (T : forall s : st W, s = add_reports s []) by (intros [a b c0 d f]; unfold add_reports; cbn; rewrite app_nil_r; reflexivity).
  cbn -[truthy]. unfold mbind at 1. rewrite Hm. unfold assert_. unfold mbind at 1. cbn -[truthy].
  unfold mbind at 1. unfold observe. rewrite He. unfold mbind at 1, get_cap. rewrite Hl. unfold reported.
  assert (U : ret None_ s2 = Some (Ok None_, add_reports s2 [])) by (unfold ret; rewrite <- T; reflexivity).
  destruct r as [[[z|str|[]|]|f|u]|x]; cbn; try reflexivity; try exact U.
  - destruct z; cbn; try reflexivity; exact U.
  - destruct str; cbn; [reflexivity | exact U].
Qed.
Lemma verdict_raises : forall W prim compare ap x e m c cs (s s1 s2 : st W) w r,
  eval W prim compare ap false m c cs s = Some (Ok w, s1) ->
  eval W prim compare ap false e c cs s1 = Some (r, s2) ->
  exists l, reported_raises x r w l /\ eval W prim compare ap false (AssertR x e m) c cs s = Some (Ok None_, add_reports s2 l).
Proof.
  intros W prim compare ap x e m c cs s s1 s2 w r Hm He.
  assert (T : forall s : st W, s = add_reports s []) by (intros [a b c0 d f]; unfold add_reports; cbn; rewrite app_nil_r; reflexivity).
  cbn. unfold mbind at 1. rewrite Hm. unfold assert_raises, mbind at 1, observe. rewrite He. unfold exn_eqb.
  destruct r as [v|y]; cbn.
  - eexists. split; [reflexivity|]. reflexivity.
  - destruct (exn_eq_dec x y) as [E|E]; cbn.
    + exists []. split; [left; auto|]. unfold ret. rewrite <- T. reflexivity.
    + eexists. split; [right; auto|]. reflexivity.
Qed.
Lemma verdict_block : forall W prim compare ap n m b c cs (s s1 s2 : st W) w r l,
  eval W prim compare ap false m c cs s = Some (Ok w, s1) ->
  execs W prim compare ap false b (length (frames s1) :: c) ((n, length (caps s1)) :: cs)
    (mkS (frames s1 ++ [mkF (flat_map stored b) []]) (funs s1) (caps s1 ++ [[]]) (reports s1) (world s1)) = Some (r, s2) ->
  nth_error (caps s2) (length (caps s1)) = Some l ->
  exec W prim compare ap false (AssertB n m b) c cs s = Some (Ok None, add_reports s2 (reported (block_value r) l w)).
Proof.
  intros W prim compare ap n m b c cs s s1 s2 w r l Hm He Hl.
  assert (T : forall s : st W, s = add_reports s []) by (intros [a b' c0 d f]; unfold add_reports; cbn; rewrite app_nil_r; reflexivity).
  cbn -[truthy]. unfold mbind at 1. rewrite Hm. unfold mbind at 1. unfold assert_. unfold mbind at 1. cbn -[truthy].
  unfold mbind at 1. unfold observe. unfold mbind at 1. cbn [alloc frames funs caps reports world]. unfold mbind at 1.
  unfold execs in He. rewrite He. unfold reported.
  assert (U : ret (W := W) None_ s2 = Some (Ok None_, add_reports s2 [])) by (unfold ret; rewrite <- T; reflexivity).
  destruct r as [[v|]|x]; cbn -[truthy]; unfold mbind at 1, get_cap; rewrite Hl.
  - destruct v as [[z|str|[]|]|f|u]; cbn; rewrite <- ?T; try reflexivity.
    + destruct z; cbn; rewrite <- ?T; reflexivity.
    + destruct str; cbn; rewrite <- ?T; reflexivity.
  - cbn. reflexivity.
  - cbn. reflexivity.
Qed.
Lemma verdict_raises_block : forall W prim compare ap x m b c cs (s s1 s2 : st W) w r,
  eval W prim compare ap false m c cs s = Some (Ok w, s1) ->
  execs W prim compare ap false b (length (frames s1) :: c) cs
    (mkS (frames s1 ++ [mkF (flat_map stored b) []]) (funs s1) (caps s1) (reports s1) (world s1)) = Some (r, s2) ->
  exists l, reported_raises x (block_value r) w l /\ exec W prim compare ap false (AssertRB x m b) c cs s = Some (Ok None, add_reports s2 l).
Proof.
  intros W prim compare ap x m b c cs s s1 s2 w r Hm He.
  assert (T : forall s : st W, s = add_reports s []) by (intros [a b' c0 d f]; unfold add_reports; cbn; rewrite app_nil_r; reflexivity).
  cbn. unfold mbind at 1. rewrite Hm. unfold mbind at 1. unfold assert_raises, mbind at 1, observe. unfold mbind at 1.
  cbn [alloc frames funs caps reports world]. unfold mbind at 1. unfold execs in He. cbn [locals_of app]. rewrite He. unfold exn_eqb.
  destruct r as [[v|]|y]; cbn.
  - eexists. split; reflexivity.
  - eexists. split; reflexivity.
  - destruct (exn_eq_dec x y) as [E|E]; cbn.
    + exists []. split; [left; auto|]. rewrite <- T. reflexivity.
    + eexists. split; [right; auto|]. reflexivity.
Qed.

(** * Trivialities *)
Lemma digits_not_quoted : forall n s, digits n <> quote s.
Proof.
  intros n s. unfold digits, quote. destruct (Nat.to_uint n); discriminate.
Qed.
Lemma has_quote_digits : forall n, has_quote (digits n) = false.
Proof. intros n. unfold digits. induction (Nat.to_uint n); cbn; auto. Qed.
Lemma len_app : forall a b, String.length (a ++ b)%string = String.length a + String.length b.
Proof. intros. induction a; cbn; congruence. Qed.
Lemma trivial : forall v, shown [(repr v, v)] = [(repr v ++ " = " ++ repr v)%string].
Proof.
  intros v. unfold shown, canonize. cbn [map fst snd filter].
  assert (E : String.eqb (repr v) (repr_string (repr v)) = false).
  { apply String.eqb_neq. intros E. apply (f_equal String.length) in E. revert E. unfold repr_string, quote.
    destruct (has_quote (repr v)); rewrite !len_app; cbn; lia. }
  rewrite E. reflexivity.
Qed.
