From Coq Require Import String List ZArith Bool Arith Lia.
From Verif Require Import Base CollModel EnvModel NmlModel NmlSpec.
Import ListNotations.
Open Scope string_scope.
Open Scope list_scope.
Open Scope nat_scope.

(** * Induction *)
Definition okey (P : ex -> Prop) (k : option ex) : Prop := match k with Some k => P k | None => True end.
Section Ind.
Variable P : ex -> Prop.
Hypothesis HCon : forall k, P (Con k).
Hypothesis HVar : forall x, P (Var x).
Hypothesis HPrim : forall o l, Forall P l -> P (Prim o l).
Hypothesis HNameOf : forall e, P e -> P (NameOf e).
Hypothesis HItem : forall e k, P e -> P k -> P (Item e k).
Hypothesis HLam : forall ps ds l b, Forall P ds -> P b -> P (Lam ps ds l b).
Hypothesis HCall : forall f args kws, P f -> Forall P args -> Forall (fun kw => P (snd kw)) kws -> P (Call f args kws).
Hypothesis HShl : forall x e, P e -> P (Shl x e).
Hypothesis HWal : forall x e, P e -> P (Wal x e).
Hypothesis HLet : forall bs b, Forall (fun xe => P (snd xe)) bs -> P b -> P (Let bs b).
Hypothesis HDict : forall l, Forall (fun kv => okey P (fst kv) /\ P (snd kv)) l -> P (Dict l).
Hypothesis HNameCall : forall n e, P e -> P (NameCall n e).
Fixpoint ex_induct (e : ex) : P e :=
  let go := fix go (l : list ex) : Forall P l :=
    match l return Forall P l with [] => Forall_nil _ | e :: l => Forall_cons _ (ex_induct e) (go l) end in
  match e return P e with
  | Con k => HCon k
  | Var x => HVar x
  | Prim o l => HPrim o l (go l)
  | NameOf e => HNameOf e (ex_induct e)
  | Item e k => HItem e k (ex_induct e) (ex_induct k)
  | Lam ps ds l b => HLam ps ds l b (go ds) (ex_induct b)
  | Call f args kws => HCall f args kws (ex_induct f) (go args)
      ((fix gk (l : list (option string * ex)) : Forall (fun kw => P (snd kw)) l :=
          match l return Forall (fun kw => P (snd kw)) l with
          | [] => Forall_nil _
          | (k, e) :: l => Forall_cons (k, e) (ex_induct e) (gk l)
          end) kws)
  | Shl x e => HShl x e (ex_induct e)
  | Wal x e => HWal x e (ex_induct e)
  | Let bs b => HLet bs b
      ((fix gk (l : list (string * ex)) : Forall (fun xe => P (snd xe)) l :=
          match l return Forall (fun xe => P (snd xe)) l with
          | [] => Forall_nil _
          | (x, e) :: l => Forall_cons (x, e) (ex_induct e) (gk l)
          end) bs) (ex_induct b)
  | Dict l => HDict l
      ((fix gk (l : list (option ex * ex)) : Forall (fun kv => okey P (fst kv) /\ P (snd kv)) l :=
          match l return Forall (fun kv => okey P (fst kv) /\ P (snd kv)) l with
          | [] => Forall_nil _
          | (k, e) :: l => Forall_cons (k, e) (conj (match k return okey P k with Some k => ex_induct k | None => I end) (ex_induct e)) (gk l)
          end) l)
  | NameCall n e => HNameCall n e (ex_induct e)
  end.
End Ind.
Section IndS.
Variable P : stm -> Prop.
Hypothesis HExpr : forall e, P (Expr e).
Hypothesis HAssign : forall x e, P (Assign x e).
Hypothesis HReturn : forall e, P (Return e).
Hypothesis HIf : forall e a b, Forall P a -> Forall P b -> P (If e a b).
Hypothesis HDef : forall f decos ps ds b, Forall P b -> P (Def f decos ps ds b).
Fixpoint stm_induct (s : stm) : P s :=
  let go := fix go (l : list stm) : Forall P l :=
    match l return Forall P l with [] => Forall_nil _ | e :: l => Forall_cons _ (stm_induct e) (go l) end in
  match s return P s with
  | Expr e => HExpr e
  | Assign x e => HAssign x e
  | Return e => HReturn e
  | If e a b => HIf e a b (go a) (go b)
  | Def f decos ps ds b => HDef f decos ps ds b (go b)
  end.
End IndS.
Lemma map_ext_Forall : forall A B (f g : A -> B) l, Forall (fun x => f x = g x) l -> map f l = map g l.
Proof. intros A B f g l H. induction H; cbn; congruence. Qed.
Lemma flat_map_ext_Forall : forall A B (f g : A -> list B) l, Forall (fun x => f x = g x) l -> flat_map f l = flat_map g l.
Proof. intros A B f g l H. induction H; cbn; congruence. Qed.
Lemma existsb_ext_Forall : forall A (f g : A -> bool) l, Forall (fun x => f x = g x) l -> existsb f l = existsb g l.
Proof. intros A f g l H. induction H; cbn; congruence. Qed.
Lemma flat_map_map : forall A B C (f : B -> list C) (g : A -> B) l, flat_map f (map g l) = flat_map (fun x => f (g x)) l.
Proof. intros. induction l; cbn; congruence. Qed.
Lemma existsb_map : forall A B (f : B -> bool) (g : A -> B) l, existsb f (map g l) = existsb (fun x => f (g x)) l.
Proof. intros. induction l; cbn; congruence. Qed.

(** * Without the names *)
Fixpoint strip (t : ex) : ex :=
  match t with
  | Con k => Con k
  | Var x => Var x
  | Prim o l => Prim o (map strip l)
  | NameOf e => NameOf (strip e)
  | Item e k => Item (strip e) (strip k)
  | Lam ps ds l b => Lam ps (map strip ds) l (strip b)
  | Call f args kws => Call (strip f) (map strip args) (map (fun kw => (fst kw, strip (snd kw))) kws)
  | Shl x e => Shl x (strip e)
  | Wal x e => Wal x (strip e)
  | Let bs b => Let (map (fun xe => (fst xe, strip (snd xe))) bs) (strip b)
  | Dict l => Dict (map (fun kv => (option_map strip (fst kv), strip (snd kv))) l)
  | NameCall (CStr _) e => strip e
  | NameCall n e => NameCall n (strip e)
  end.
Fixpoint strips (s : stm) : stm :=
  match s with
  | Expr e => Expr (strip e)
  | Assign x e => Assign x (strip e)
  | Return e => Return (strip e)
  | If e a b => If (strip e) (map strips a) (map strips b)
  | Def f decos ps ds b => Def f (map strip decos) ps (map strip ds) (map strips b)
  end.
Definition stripb (b : body) : body := match b with BE b => BE (strip b) | BS b => BS (map strips b) end.

Ltac fa H := eapply Forall_impl; [| exact H]; cbn beta; intros.
Lemma walrused_strip : forall e, walrused (strip e) = walrused e.
Proof.
  induction e using ex_induct; cbn -[flat_map map]; try congruence.
  - rewrite flat_map_map. apply flat_map_ext_Forall; assumption.
  - rewrite flat_map_map. apply flat_map_ext_Forall; assumption.
  - rewrite IHe, !flat_map_map. f_equal. f_equal; apply flat_map_ext_Forall; assumption.
  - rewrite IHe, !flat_map_map. f_equal. apply flat_map_ext_Forall; assumption.
  - rewrite flat_map_map. apply flat_map_ext_Forall. fa H. destruct a as [[k |] e]; cbn in *; destruct H0; congruence.
  - destruct n; cbn; assumption.
Qed.
Lemma stored_strips : forall s, stored (strips s) = stored s.
Proof.
  induction s using stm_induct; cbn -[flat_map map]; rewrite ?walrused_strip; try reflexivity.
  - f_equal. rewrite !flat_map_map. f_equal; apply flat_map_ext_Forall; assumption.
  - f_equal. rewrite !flat_map_map. f_equal; apply flat_map_ext; intros; apply walrused_strip.
Qed.
Lemma locals_strip : forall ps b, locals_of ps (stripb b) = locals_of ps b.
Proof.
  intros ps [b | b]; unfold locals_of; cbn -[flat_map map]; f_equal.
  - apply walrused_strip.
  - rewrite flat_map_map. apply flat_map_ext. intros; apply stored_strips.
Qed.
Definition nm := some_in is_nameof.
Definition nms := some_ins is_nameof.
Lemma nm_strip : forall e, nm (strip e) = nm e.
Proof.
  unfold nm. induction e using ex_induct; cbn -[existsb map]; try congruence.
  - rewrite existsb_map. apply existsb_ext_Forall; assumption.
  - rewrite existsb_map, IHe. f_equal. apply existsb_ext_Forall; assumption.
  - rewrite IHe, !existsb_map. f_equal; [f_equal |]; apply existsb_ext_Forall; assumption.
  - rewrite IHe, !existsb_map. f_equal. apply existsb_ext_Forall; assumption.
  - rewrite existsb_map. apply existsb_ext_Forall. fa H. destruct a as [[k |] e]; cbn in *; destruct H0; congruence.
  - destruct n; cbn; assumption.
Qed.
Lemma nms_strip : forall s, nms (strips s) = nms s.
Proof.
  unfold nms. induction s using stm_induct; cbn -[existsb map]; try apply nm_strip.
  - rewrite !existsb_map. f_equal; [f_equal; [apply nm_strip |] |]; apply existsb_ext_Forall; assumption.
  - rewrite !existsb_map. f_equal; [f_equal |]; apply existsb_ext_Forall; try assumption; apply Forall_forall; intros; apply nm_strip.
Qed.
Definition nmb (b : body) : bool := match b with BE b => nm b | BS b => existsb nms b end.

(** * The two programs run in the same way *)
Section Sim.
Variable W : Type.
Variable prim : nat -> list con -> W -> outcome con * W.
Definition objR (f g : fobj) : Prop :=
  fps f = fps g /\ fds f = fds g /\ fc f = fc g /\ fbody g = stripb (fbody f) /\ nmb (fbody f) = false.
Definition SR (s t : st W) : Prop := frames s = frames t /\ world s = world t /\ Forall2 objR (funs s) (funs t).
Definition sim {A} (m n : M W A) : Prop := forall s t, SR s t ->
  match m s, n t with
  | None, None => True
  | Some (r, s'), Some (r', t') => r = r' /\ SR s' t'
  | _, _ => False
  end.
Lemma sim_ret : forall A (a : A), sim (ret a) (ret a).
Proof. intros A a s t H. cbn. auto. Qed.
Lemma sim_raise : forall A x, @sim A (raise x) (raise x).
Proof. intros A a s t H. cbn. auto. Qed.
Lemma sim_bind : forall A B (m n : M W A) (f g : A -> M W B), sim m n -> (forall a, sim (f a) (g a)) -> sim (mbind m f) (mbind n g).
Proof.
  intros A B m n f g Hm Hf s t R. specialize (Hm s t R). unfold mbind.
  destruct (m s) as [[r s'] |], (n t) as [[r' t'] |]; try contradiction; auto.
  destruct Hm as [<- R']. destruct r; [apply Hf; exact R' | auto].
Qed.
Lemma F2_nth : forall A B (R : A -> B -> Prop) l l' i, Forall2 R l l' ->
  match nth_error l i, nth_error l' i with Some a, Some b => R a b | None, None => True | _, _ => False end.
Proof. intros A B R l l' i H. revert i. induction H; intros [| i]; cbn; auto. apply IHForall2. Qed.
Lemma F2_len : forall A B (R : A -> B -> Prop) l l', Forall2 R l l' -> length l = length l'.
Proof. intros A B R l l' H. induction H; cbn; congruence. Qed.
Lemma F2_upd_l : forall A B (R : A -> B -> Prop) l l' i a, Forall2 R l l' -> (forall b, nth_error l' i = Some b -> R a b) -> Forall2 R (upd l i a) l'.
Proof.
  intros A B R l l' i a H. revert i. induction H; intros [| i] Ha; cbn; constructor; auto.
Qed.
Lemma sim_get : forall c x, sim (get_var W c x) (get_var W c x).
Proof.
  intros c x s t R. unfold get_var. destruct R as (Hf & Hw & Ho). rewrite <- Hf.
  destruct (nth_error (frames s) _); [destruct (dict_get _ _ _) |]; repeat split; auto.
Qed.
Lemma sim_set : forall c x v, sim (set_var W c x v) (set_var W c x v).
Proof.
  intros c x v s t R. unfold set_var. destruct R as (Hf & Hw & Ho). rewrite <- Hf.
  destruct (nth_error (frames s) _); repeat split; cbn; auto.
Qed.
Lemma sim_alloc : forall f, sim (alloc W f) (alloc W f).
Proof. intros f s t (Hf & Hw & Ho). unfold alloc. rewrite <- Hf. repeat split; cbn; auto. Qed.
Lemma sim_new : forall f g, objR f g -> sim (new_fun W f) (new_fun W g).
Proof.
  intros f g R s t (Hf & Hw & Ho). unfold new_fun. rewrite (F2_len _ _ _ _ _ Ho). repeat split; cbn; auto.
  apply Forall2_app; auto.
Qed.
Lemma sim_prim : forall o l, sim (do_prim W prim o l) (do_prim W prim o l).
Proof.
  intros o l s t (Hf & Hw & Ho). unfold do_prim. destruct (cons_of l); [| repeat split; auto].
  rewrite <- Hw. destruct (prim o l0 (world s)) as [[d | x] w]; repeat split; auto.
Qed.
Lemma objR_name : forall x f g, objR f g -> objR (mkfun x (fps f) (fds f) (fbody f) (fc f)) g.
Proof. intros x f g (H1 & H2 & H3 & H4 & H5). repeat split; cbn; auto. Qed.
Lemma sim_rename : forall n v, match n with CStr _ => False | _ => True end -> sim (rename W n v) (rename W n v).
Proof.
  intros n v Hn s t (Hf & Hw & Ho). unfold rename. destruct v as [| r |]; try (repeat split; auto; fail).
  pose proof (F2_nth _ _ _ _ _ r Ho) as H. destruct (nth_error (funs s) r), (nth_error (funs t) r); try contradiction;
  destruct n; try contradiction; repeat split; auto.
Qed.
Lemma rename_ret : forall x v, sim (rename W (CStr x) v) (ret v).
Proof.
  intros x v s t (Hf & Hw & Ho). unfold rename. destruct v as [| r |]; try (repeat split; auto; fail).
  pose proof (F2_nth _ _ _ _ _ r Ho) as H. destruct (nth_error (funs s) r) eqn:E; [| repeat split; auto].
  repeat split; cbn; auto. apply F2_upd_l; auto. intros b Hb. rewrite Hb in H. apply objR_name; exact H.
Qed.
Lemma sim_bind_ret : forall A (m n : M W A) f, sim m n -> (forall a, sim (f a) (ret a)) -> sim (mbind m f) n.
Proof.
  intros A m n f Hm Hf s t R. specialize (Hm s t R). unfold mbind.
  destruct (m s) as [[r s'] |], (n t) as [[r' t'] |]; try contradiction; auto.
  destruct Hm as [<- R']. destruct r as [a |]; [| auto]. specialize (Hf a s' t' R'). destruct (f a s') as [[r'' s''] |]; cbn in Hf; auto.
Qed.
Lemma sim_item : forall v k, sim (item W v k) (item W v k).
Proof.
  intros v k. unfold item. destruct v; try apply sim_raise. destruct k; try apply sim_raise.
  destruct (get_item l k); [apply sim_ret | apply sim_raise].
Qed.
Lemma sim_keywords : forall k v, sim (keywords W k v) (keywords W k v).
Proof.
  intros k v. unfold keywords. destruct k; [apply sim_ret |]. destruct v; try apply sim_raise.
  destruct (names_of l); [apply sim_ret | apply sim_raise].
Qed.
Lemma sim_entries : forall k v, sim (entries W k v) (entries W k v).
Proof. intros k v. unfold entries. destruct k; [apply sim_ret |]. destruct v; try apply sim_raise. apply sim_ret. Qed.

Section Ap.
Variables ap ap' : value -> list value -> list (string * value) -> M W value.
Hypothesis Hap : forall f args kws, sim (ap f args kws) (ap' f args kws).
Notation eval1 := (eval W prim ap).
Notation eval2 := (eval W prim ap').
Lemma existsb_cons_false : forall A (f : A -> bool) a l, existsb f (a :: l) = false -> f a = false /\ existsb f l = false.
Proof. intros. cbn in H. apply orb_false_iff in H. exact H. Qed.
Lemma evals_sim : forall l, Forall (fun e => nm e = false -> forall c, sim (eval1 e c) (eval2 (strip e) c)) l ->
  existsb nm l = false -> forall c, sim (evals W prim ap l c) (evals W prim ap' (map strip l) c).
Proof.
  intros l H. induction H; intros Hn c.
  - apply sim_ret.
  - apply existsb_cons_false in Hn as [Hn1 Hn2]. cbn. apply sim_bind; [apply H; exact Hn1 |]. intros v.
    apply sim_bind; [apply IHForall; exact Hn2 |]. intros; apply sim_ret.
Qed.
Ltac orb H := repeat (apply orb_false_iff in H as [H ?]).
Lemma eval_sim : forall e, nm e = false -> forall c, sim (eval1 e c) (eval2 (strip e) c).
Proof.
  induction e using ex_induct; intros Hn c.
  - apply sim_ret.
  - apply sim_get.
  - cbn. apply sim_bind; [apply (evals_sim l H Hn) | intros; apply sim_prim].
  - discriminate.
  - unfold nm in Hn; cbn in Hn; orb Hn. cbn. apply sim_bind; [apply IHe1; assumption |]. intros.
    apply sim_bind; [apply IHe2; assumption |]. intros; apply sim_item.
  - unfold nm in Hn; cbn in Hn; orb Hn. cbn. apply sim_bind; [apply (evals_sim ds H Hn) |]. intros.
    apply sim_new. repeat split; auto.
  - unfold nm in Hn; cbn in Hn; orb Hn. cbn -[fst snd]. apply sim_bind; [apply IHe; assumption |]. intros.
    apply sim_bind; [apply (evals_sim args H H2) |]. intros.
    apply sim_bind; [| intros; apply Hap].
    clear - H0 H1. induction H0 as [| [k e] l]; [apply sim_ret |]. apply existsb_cons_false in H1 as [Hn1 Hn2]. cbn in *.
    apply sim_bind; [apply H; exact Hn1 |]. intros v. apply sim_bind; [apply sim_keywords |]. intros.
    apply sim_bind; [apply IHForall; exact Hn2 |]. intros; apply sim_ret.
  - cbn. apply sim_bind; [apply IHe; assumption |]. intros. apply sim_bind; [apply sim_set |]. intros; apply sim_ret.
  - cbn. apply sim_bind; [apply IHe; assumption |]. intros. apply sim_bind; [apply sim_set |]. intros; apply sim_ret.
  - unfold nm in Hn; cbn in Hn; orb Hn. cbn -[fst snd map]. rewrite map_map. cbn [fst snd].
    apply sim_bind.
    + clear - H Hn. induction H as [| [x e] l]; [apply sim_ret |]. apply existsb_cons_false in Hn as [Hn1 Hn2]. cbn in *.
      apply sim_bind; [apply H; exact Hn1 |]. intros v. apply sim_bind; [apply IHForall; exact Hn2 |]. intros; apply sim_ret.
    + intros. apply sim_bind; [apply sim_alloc |]. intros. apply IHe; assumption.
  - unfold nm in Hn; cbn in Hn. cbn -[fst snd map]. apply sim_bind; [| intros; apply sim_ret].
    induction H as [| [[k |] e] l [H1 H2]]; [apply sim_ret | |]; apply existsb_cons_false in Hn as [Hn1 Hn2]; cbn in *.
    + orb Hn1. apply sim_bind; [apply H1; assumption |]. intros a. apply sim_bind; [apply H2; assumption |]. intros v.
      apply sim_bind; [apply sim_ret |]. intros. apply sim_bind; [apply IHForall; exact Hn2 |]. intros; apply sim_ret.
    + apply sim_bind; [apply H2; assumption |]. intros v.
      apply sim_bind; [apply (sim_entries None) |]. intros. apply sim_bind; [apply IHForall; exact Hn2 |]. intros; apply sim_ret.
  - assert (nm e = false) as Hn' by exact Hn. specialize (IHe Hn' c). destruct n as [z | x |]; cbn.
    + apply sim_bind; [exact IHe |]. intros; apply sim_rename; exact I.
    + apply sim_bind_ret; [exact IHe |]. intros; apply rename_ret.
    + apply sim_bind; [exact IHe |]. intros; apply sim_rename; exact I.
Qed.
Lemma evals_sim' : forall l, existsb nm l = false -> forall c, sim (evals W prim ap l c) (evals W prim ap' (map strip l) c).
Proof. intros l H. apply evals_sim; auto. apply Forall_forall. intros. apply eval_sim; assumption. Qed.
Lemma decorate_sim : forall fs v, sim (decorate W ap fs v) (decorate W ap' fs v).
Proof. induction fs; intros v; cbn; [apply sim_ret |]. apply sim_bind; [apply IHfs |]. intros; apply Hap. Qed.
Lemma execs_sim : forall l, Forall (fun s => nms s = false -> forall c, sim (exec W prim ap s c) (exec W prim ap' (strips s) c)) l ->
  existsb nms l = false -> forall c, sim (execs W prim ap l c) (execs W prim ap' (map strips l) c).
Proof.
  intros l H. induction H; intros Hn c.
  - apply sim_ret.
  - apply existsb_cons_false in Hn as [Hn1 Hn2]. cbn. apply sim_bind; [apply H; exact Hn1 |]. intros [v |]; [apply sim_ret | apply IHForall; exact Hn2].
Qed.
Lemma exec_sim : forall s, nms s = false -> forall c, sim (exec W prim ap s c) (exec W prim ap' (strips s) c).
Proof.
  induction s using stm_induct; intros Hn c; unfold nms in Hn; cbn in Hn; cbn -[map].
  - apply sim_bind; [apply eval_sim; exact Hn |]. intros; apply sim_ret.
  - apply sim_bind; [apply eval_sim; exact Hn |]. intros. apply sim_bind; [apply sim_set |]. intros; apply sim_ret.
  - apply sim_bind; [apply eval_sim; exact Hn |]. intros; apply sim_ret.
  - orb Hn. apply sim_bind; [apply eval_sim; exact Hn |]. intros v. destruct (truthy v).
    + apply (execs_sim a H); assumption.
    + apply (execs_sim b H0); assumption.
  - orb Hn. apply sim_bind; [apply evals_sim'; exact Hn |]. intros. apply sim_bind; [apply evals_sim'; assumption |]. intros.
    apply sim_bind; [apply sim_new; repeat split; auto |]. intros. apply sim_bind; [apply decorate_sim |]. intros.
    apply sim_bind; [apply sim_set |]. intros; apply sim_ret.
Qed.
Lemma execs_sim' : forall l, existsb nms l = false -> forall c, sim (execs W prim ap l c) (execs W prim ap' (map strips l) c).
Proof. intros l H. apply execs_sim; auto. apply Forall_forall. intros. apply exec_sim; assumption. Qed.
Lemma enter_sim : forall f g args, objR f g -> sim (enter W prim ap f args) (enter W prim ap' g args).
Proof.
  intros f g args (H1 & H2 & H3 & H4 & H5). unfold enter. rewrite H4, <- H1, <- H3, locals_strip.
  apply sim_bind; [apply sim_alloc |]. intros i. destruct (fbody f); cbn in *.
  - apply eval_sim; exact H5.
  - apply sim_bind; [apply execs_sim'; exact H5 |]. intros; apply sim_ret.
Qed.
End Ap.
Lemma call_sim : forall fuel f args kws, sim (call W prim fuel f args kws) (call W prim fuel f args kws).
Proof.
  induction fuel; intros f args kws.
  - intros s t R. exact I.
  - cbn -[enter]. destruct f as [| r |]; try apply sim_raise. intros s t R. pose proof R as (Hf & Hw & Ho).
    pose proof (F2_nth _ _ _ _ _ r Ho) as H. destruct (nth_error (funs s) r) as [f |], (nth_error (funs t) r) as [g |]; try contradiction; auto.
    pose proof H as (H1 & H2 & _). rewrite <- H1, <- H2. destruct (arguments _ _ _ _); [| auto].
    exact (enter_sim _ _ IHfuel f g l H s t R).
Qed.
Lemma run_strip : forall fuel globals p w, existsb nms p = false -> run W prim fuel globals p w = run W prim fuel globals (map strips p) w.
Proof.
  intros fuel globals p w H. unfold run.
  set (s0 := mkS _ _ _). assert (SR s0 s0) as R by (repeat split; constructor).
  pose proof (execs_sim' _ _ (call_sim fuel) p H [] s0 s0 R) as HS.
  destruct (execs W prim (call W prim fuel) p [] s0) as [[r s'] |], (execs W prim (call W prim fuel) (map strips p) [] s0) as [[r' t'] |]; try contradiction; auto.
  destruct HS as (<- & _ & Hw & _). rewrite Hw. reflexivity.
Qed.
End Sim.

(** * The passes change names only *)
Lemma map_id_Forall : forall A (f : A -> A) l, Forall (fun x => f x = x) l -> map f l = l.
Proof. intros A f l H. induction H; cbn; congruence. Qed.
Fixpoint visit_last (l : list ex) : list ex := match l with [] => [] | [a] => [visit true a] | a :: l => a :: visit_last l end.
Definition dentry (kv : option ex * ex) : option ex * ex :=
  match kv with
  | (Some (Con k), v) => (Some (Con k), bound k v)
  | (Some k, v) => (Some (visit false k), visit false v)
  | (None, v) => (None, visit false v)
  end.
Definition kentry (kw : option string * ex) : option string * ex :=
  (fst kw, match fst kw with Some x => bound (CStr x) (snd kw) | None => visit false (snd kw) end).
Lemma bound_eq : forall n t, bound n t = if nameable t then NameCall n (visit true t) else visit false t.
Proof. reflexivity. Qed.
Lemma nameable_ends : forall t, nameable t = true -> ends_in_lambda t = true.
Proof.
  assert (forall t, decorated t = true -> ends_in_lambda t = true) as D.
  { induction t using ex_induct; cbn; intros; try discriminate.
    - destruct args as [| a [| b args]]; try discriminate. inversion H; subst. cbn. rewrite orb_false_r.
      destruct a; cbn in *; try discriminate; auto.
    - destruct t; cbn in *; try discriminate; auto. }
  intros t H. unfold nameable in H. apply orb_true_iff in H as [H | H]; [apply orb_true_iff in H as [H | H] |].
  - destruct t; try discriminate. reflexivity.
  - apply andb_true_iff in H as [H _]. auto.
  - unfold is_curry in H. destruct t; try discriminate. destruct t; try discriminate.
    assert (match rev args with Lam _ _ _ _ :: _ => true | _ => false end = true) as H'.
    { repeat match type of H with context [match ?x with _ => _ end] =>
        match x with rev args => fail 1 | _ => destruct x; try discriminate end end; exact H. }
    cbn. destruct (rev args) as [| a r] eqn:E; try discriminate. apply existsb_exists. exists a. split.
    + apply in_rev. rewrite E. left; reflexivity.
    + destruct a; try discriminate. reflexivity.
Qed.
Definition bd := some_in bad_dict.
Definition bds := some_ins bad_dict.
Lemma strip_bound : forall x e, bd e = false -> (bd e = false -> forall b, strip (visit b e) = strip e) -> strip (bound (CStr x) e) = strip e.
Proof. intros x e Hb IH. unfold bound. destruct (nameable e); cbn; apply IH; exact Hb. Qed.
Lemma strip_bound' : forall n e, bd e = false -> (bd e = false -> forall b, strip (visit b e) = strip e) ->
  match n with CStr _ => true | _ => negb (ends_in_lambda e) end = true -> strip (bound n e) = strip e.
Proof.
  intros n e Hb IH Hn. destruct n; try (apply strip_bound; assumption); unfold bound;
  (destruct (nameable e) eqn:E; [apply nameable_ends in E; rewrite E in Hn; discriminate | apply IH; exact Hb]).
Qed.
Ltac orb H := repeat (apply orb_false_iff in H as [H ?]).
Lemma existsb_false_Forall : forall A (f : A -> bool) l, existsb f l = false -> Forall (fun x => f x = false) l.
Proof. intros A f l. induction l; cbn; intros H; constructor; apply orb_false_iff in H as [? ?]; auto. Qed.
Lemma Forall_and2 : forall A (P Q : A -> Prop) l, Forall P l -> Forall Q l -> Forall (fun x => P x /\ Q x) l.
Proof. intros A P Q l H. induction H; intros H'; inversion H'; subst; constructor; auto. Qed.
Lemma strip_maps : forall l, Forall (fun e => bd e = false -> forall b, strip (visit b e) = strip e) l -> existsb bd l = false ->
  map strip (map (visit false) l) = map strip l.
Proof.
  intros l H Hb. apply existsb_false_Forall in Hb. rewrite map_map. apply map_ext_Forall.
  fa (Forall_and2 _ _ _ _ H Hb). destruct H0 as [H0 H1]. apply H0; exact H1.
Qed.
Lemma strip_visit : forall e, bd e = false -> forall b, strip (visit b e) = strip e.
Proof.
  unfold bd. induction e using ex_induct; intros Hb [|]; cbn in Hb; try reflexivity.
  - cbn -[map]. f_equal. apply strip_maps; assumption.
  - cbn. f_equal. apply IHe; exact Hb.
  - orb Hb. cbn. f_equal; [apply IHe1 | apply IHe2]; assumption.
  - orb Hb. cbn. f_equal. apply IHe; assumption.
  - orb Hb. cbn -[map]. f_equal; [apply strip_maps | apply IHe]; assumption.
  - orb Hb. change (visit true (Call e args kws)) with (Call e (visit_last args) kws). cbn -[map]. f_equal.
    clear - H H2. induction H as [| a l Ha Hl IH]; [reflexivity |]. apply existsb_cons_false in H2 as [H2 H3].
    destruct l as [| b l]; [cbn; f_equal; apply Ha; exact H2 |].
    change (visit_last (a :: b :: l)) with (a :: visit_last (b :: l)). cbn [map]. f_equal. apply IH; exact H3.
  - orb Hb. destruct kws as [| kw kws].
    + cbn -[map]. f_equal; [apply IHe; exact Hb | apply strip_maps; assumption].
    + change (visit false (Call e args (kw :: kws))) with (Call e (map (visit false) args)
        (map kentry (kw :: kws))).
      cbn [strip]. f_equal; [apply strip_maps; assumption |]. rewrite map_map. apply map_ext_Forall.
      apply existsb_false_Forall in H1. fa (Forall_and2 _ _ _ _ H0 H1). destruct H3 as [H3 H4], a as [[x |] v]; cbn in *; f_equal.
      * apply strip_bound; assumption.
      * apply H3; assumption.
  - change (visit false (Shl x e)) with (Shl x (bound (CStr x) e)). cbn [strip]. f_equal. apply strip_bound; assumption.
  - change (visit false (Wal x e)) with (Wal x (bound (CStr x) e)). cbn [strip]. f_equal. apply strip_bound; assumption.
  - orb Hb. change (visit false (Let bs e)) with (Let (map (fun xe => (fst xe, bound (CStr (fst xe)) (snd xe))) bs) (visit false e)).
    cbn [strip]. f_equal; [| apply IHe; assumption]. rewrite map_map. apply map_ext_Forall.
    apply existsb_false_Forall in Hb. fa (Forall_and2 _ _ _ _ H Hb). destruct H1 as [H3 H4], a as [x v]; cbn in *; f_equal.
    apply strip_bound; assumption.
  - orb Hb. change (visit false (Dict l)) with (Dict (map dentry l)).
    cbn [strip]. f_equal. rewrite map_map. apply map_ext_Forall.
    apply existsb_false_Forall in Hb, H0. fa (Forall_and2 _ _ _ _ H (Forall_and2 _ _ _ _ Hb H0)).
    destruct H1 as ([Hk Hv] & Hbad & H3). destruct a as [[k |] v]; cbn [fst snd okey] in *.
    2:{ cbn. f_equal. apply Hv. exact H3. }
    apply orb_false_iff in H3 as [H3 H4].
    assert (strip (visit false k) = strip k) as Ek by (apply Hk; exact H3).
    destruct k as [n | | | | | | | | | | |]; cbn [option_map fst snd dentry] in *; try (rewrite Ek, (Hv H4 false); reflexivity).
    cbn. f_equal. apply strip_bound'; auto. cbn in Hbad. destruct n; auto; rewrite Hbad; reflexivity.
  - cbn. destruct n; cbn; [f_equal | | f_equal]; apply IHe; exact Hb.
  - cbn. destruct n; cbn; [f_equal | | f_equal]; apply IHe; exact Hb.
Qed.

Lemma ends_visit : forall e, ends_in_lambda (visit false e) = ends_in_lambda e.
Proof.
  induction e using ex_induct; cbn; auto.
  assert (existsb ends_in_lambda (map (visit false) args) = existsb ends_in_lambda args) as E.
  { rewrite existsb_map. apply existsb_ext_Forall. assumption. }
  destruct kws; cbn; exact E.
Qed.
Lemma bd_bound : forall n e, (forall b, bd (visit b e) = false) -> bd (bound n e) = false.
Proof. intros n e H. unfold bound. destruct (nameable e); [| apply H]. unfold bd in *; cbn. apply H. Qed.
Lemma Forall_existsb_false : forall A (f : A -> bool) l, Forall (fun x => f x = false) l -> existsb f l = false.
Proof. intros A f l H. induction H; cbn; auto. rewrite H, IHForall. reflexivity. Qed.
Lemma bd_maps : forall l, Forall (fun e => bd e = false -> forall b, bd (visit b e) = false) l -> existsb bd l = false ->
  existsb bd (map (visit false) l) = false.
Proof.
  intros l H Hb. apply existsb_false_Forall in Hb. rewrite existsb_map. apply Forall_existsb_false.
  fa (Forall_and2 _ _ _ _ H Hb). destruct H0 as [H0 H1]. apply H0; exact H1.
Qed.
Lemma bd_visit : forall e, bd e = false -> forall b, bd (visit b e) = false.
Proof.
  unfold bd. induction e using ex_induct; intros Hb [|]; pose proof Hb as Hb0; cbn in Hb; try reflexivity; try exact Hb0.
  - cbn. apply bd_maps; assumption.
  - cbn. apply IHe; exact Hb.
  - orb Hb. cbn. rewrite IHe1, IHe2; auto.
  - orb Hb. cbn. rewrite Hb, IHe; auto.
  - orb Hb. cbn. rewrite IHe; auto. rewrite orb_false_r. apply bd_maps; assumption.
  - orb Hb. change (visit true (Call e args kws)) with (Call e (visit_last args) kws). cbn. rewrite Hb, H1, orb_false_r. cbn.
    clear - H H2. induction H as [| a l Ha Hl IH]; [reflexivity |]. apply existsb_cons_false in H2 as [H2 H3].
    destruct l as [| b l]; [cbn; rewrite Ha by exact H2; reflexivity |].
    change (visit_last (a :: b :: l)) with (a :: visit_last (b :: l)). cbn [existsb]. rewrite H2. apply IH; exact H3.
  - orb Hb. destruct kws as [| kw kws].
    + cbn. rewrite (IHe Hb). rewrite orb_false_r. apply bd_maps; assumption.
    + change (visit false (Call e args (kw :: kws))) with (Call e (map (visit false) args) (map kentry (kw :: kws))).
      cbn [some_in bad_dict]. rewrite Hb. pose proof (bd_maps _ H H2) as E. unfold bd in E. rewrite E. cbn [orb]. rewrite existsb_map.
      apply Forall_existsb_false. apply existsb_false_Forall in H1. fa (Forall_and2 _ _ _ _ H0 H1).
      destruct H3 as [H3 H4], a as [[x |] v]; cbn [fst snd kentry] in *.
      * apply bd_bound. apply H3; exact H4.
      * apply H3; assumption.
  - change (visit false (Shl x e)) with (Shl x (bound (CStr x) e)). cbn [some_in bad_dict orb]. apply bd_bound. apply IHe; exact Hb.
  - change (visit false (Wal x e)) with (Wal x (bound (CStr x) e)). cbn [some_in bad_dict orb]. apply bd_bound. apply IHe; exact Hb.
  - orb Hb. change (visit false (Let bs e)) with (Let (map (fun xe => (fst xe, bound (CStr (fst xe)) (snd xe))) bs) (visit false e)).
    cbn [some_in bad_dict orb]. rewrite (IHe H0). rewrite orb_false_r, existsb_map. apply Forall_existsb_false. apply existsb_false_Forall in Hb.
    fa (Forall_and2 _ _ _ _ H Hb). destruct H1 as [H3 H4], a as [x v]; cbn [fst snd] in *. apply bd_bound. apply H3; exact H4.
  - orb Hb. change (visit false (Dict l)) with (Dict (map dentry l)). cbn [some_in bad_dict].
    apply existsb_false_Forall in Hb, H0. rewrite !existsb_map. apply orb_false_iff. split; apply Forall_existsb_false;
    fa (Forall_and2 _ _ _ _ H (Forall_and2 _ _ _ _ Hb H0)); destruct H1 as ([Hk Hv] & Hbad & H3); destruct a as [[k |] v]; cbn [fst snd okey] in *.
    + destruct k as [n | | | | | | | | | | |]; try reflexivity; cbn in Hbad |- *.
      * destruct n; auto; unfold bound; (destruct (nameable v) eqn:E; [apply nameable_ends in E; congruence | rewrite ends_visit; exact Hbad]).
      * destruct kws; reflexivity.
    + reflexivity.
    + apply orb_false_iff in H3 as [H3 H4]. destruct k as [n | | | | | | | | | | |]; cbn [fst snd dentry];
        try (apply orb_false_iff; split; [apply Hk; exact H3 | apply Hv; exact H4]).
      cbn [some_in bad_dict orb]. apply bd_bound. apply Hv; exact H4.
    + cbn. apply Hv; exact H3.
  - cbn. apply IHe; exact Hb.
  - cbn. apply IHe; exact Hb.
Qed.
Lemma bds_visits : forall s, bds s = false -> bds (visits s) = false /\ strips (visits s) = strips s.
Proof.
  assert (forall l, existsb bd l = false -> existsb bd (map (visit false) l) = false /\ map strip (map (visit false) l) = map strip l) as M.
  { intros l H. split; [apply bd_maps | apply strip_maps]; try exact H; apply Forall_forall; intros; [apply bd_visit | apply strip_visit]; assumption. }
  assert (forall l, Forall (fun s => bds s = false -> bds (visits s) = false /\ strips (visits s) = strips s) l -> existsb bds l = false ->
    existsb bds (map visits l) = false /\ map strips (map visits l) = map strips l) as N.
  { intros l H Hb. apply existsb_false_Forall in Hb. rewrite existsb_map, map_map.
    split; [apply Forall_existsb_false | apply map_ext_Forall]; fa (Forall_and2 _ _ _ _ H Hb); destruct H0 as [H0 H1]; apply H0; exact H1. }
  unfold bds in *. induction s using stm_induct; cbn [some_ins visits strips]; intros Hb.
  - split; [apply bd_visit | f_equal; apply strip_visit]; exact Hb.
  - split; [apply bd_bound; apply bd_visit | f_equal; apply strip_bound; [exact Hb | apply strip_visit]]; exact Hb.
  - split; [apply bd_visit | f_equal; apply strip_visit]; exact Hb.
  - orb Hb. destruct (N a H H2) as [N1 N2], (N b H0 H1) as [N3 N4]. split.
    + rewrite N1, N3, (bd_visit e Hb). reflexivity.
    + f_equal; auto. apply strip_visit; exact Hb.
  - orb Hb. destruct (M decos Hb) as [M1 M2], (M ds H1) as [M3 M4], (N b H H0) as [N1 N2]. split.
    + rewrite N1. unfold bd in M1, M3. rewrite M1, M3. reflexivity.
    + f_equal; auto.
Qed.
Lemma strip_final : forall loc e b, strip (final loc b e) = strip e.
Proof.
  intros loc. induction e using ex_induct; intros b; cbn -[map decorated has_name];
    match goal with |- context [if ?c then _ else _] => destruct c end; cbn -[map]; try reflexivity; rewrite ?map_map; try (f_equal; auto; fail).
  - f_equal. apply map_ext_Forall. fa H. apply H0.
  - f_equal. destruct H; cbn; [reflexivity |]. rewrite H. reflexivity.
  - f_equal; auto; apply map_ext_Forall; [fa H; apply H1 | fa H0; f_equal; apply H1].
  - f_equal; auto. apply map_ext_Forall. fa H. f_equal; apply H0.
  - f_equal. apply map_ext_Forall. fa H. destruct H0 as [H0 H1]. destruct a as [[k |] v]; cbn in *; f_equal; auto. f_equal. apply H0.
  - destruct n; cbn; [f_equal | | f_equal]; apply IHe.
  - destruct n; cbn; [f_equal | | f_equal]; apply IHe.
Qed.
Lemma strips_finals : forall loc s, strips (finals loc s) = strips s.
Proof.
  intros loc. induction s using stm_induct; cbn -[map]; rewrite ?strip_final, ?map_map; auto.
  - f_equal; apply map_ext_Forall; assumption.
  - f_equal; try (apply map_ext; intros; apply strip_final). apply map_ext_Forall; assumption.
Qed.
Lemma strip_namedlambda : forall loc p, existsb bds p = false -> map strips (namedlambda loc p) = map strips p.
Proof.
  intros loc p H. unfold namedlambda. rewrite !map_map. apply map_ext_Forall. apply existsb_false_Forall in H. fa H.
  rewrite strips_finals. destruct (bds_visits _ H0) as [H1 H2], (bds_visits _ H1) as [_ H3]. congruence.
Qed.
Theorem namedlambda_meaning : forall loc W prim fuel globals p w, looks p = false -> bad_key p = false ->
  run W prim fuel globals (namedlambda loc p) w = run W prim fuel globals p w.
Proof.
  intros loc W prim fuel globals p w Hl Hb. pose proof (strip_namedlambda loc p Hb) as E.
  rewrite (run_strip W prim fuel globals p w Hl), <- E. apply run_strip.
  assert (forall q, existsb nms (map strips q) = existsb nms q) as N.
  { intros q. rewrite existsb_map. apply existsb_ext_Forall. apply Forall_forall. intros; apply nms_strip. }
  rewrite <- N, E, N. exact Hl.
Qed.

(** * The names *)
Definition un := some_in unusual.
Definition fhead (f : ex) : bool :=
  match f with Var g => String.eqb g "namelambda" | Call (Var g) _ _ => String.eqb g "namelambda" | _ => false end.
Lemma has_name_call : forall f a kws, has_name (Call f [a] kws) = fhead f || has_name a.
Proof. intros f a kws. cbn. destruct f; try reflexivity. destruct f; reflexivity. Qed.
Lemma fhead_visit : forall f, fhead (visit false f) = fhead f.
Proof. intros f. destruct f; try reflexivity. destruct kws; [| reflexivity]. destruct f; try reflexivity. cbn. destruct kws; reflexivity. Qed.
Lemma has_name_visit : forall e, has_name (visit false e) = has_name e.
Proof.
  induction e using ex_induct; try reflexivity.
  destruct args as [| a [| b args]].
  - destruct kws; cbn; [destruct (visit false e) as [| | | | | | f0 | | | | |], e as [| | | | | | g0 | | | | |]; try destruct f0; try destruct g0; reflexivity |
      destruct e as [| | | | | | g0 | | | | |]; try destruct g0; reflexivity].
  - inversion H; subst. destruct kws as [| kw kws].
    + change (visit false (Call e [a] [])) with (Call (visit false e) [visit false a] []). rewrite !has_name_call, fhead_visit, H3. reflexivity.
    + change (visit false (Call e [a] (kw :: kws))) with (Call e [visit false a] (map kentry (kw :: kws))). rewrite !has_name_call, H3. reflexivity.
  - destruct kws; cbn; [destruct (visit false e) as [| | | | | | f0 | | | | |], e as [| | | | | | g0 | | | | |]; try destruct f0; try destruct g0; reflexivity |
      destruct e as [| | | | | | g0 | | | | |]; try destruct g0; reflexivity].
Qed.
Lemma un_has_name : forall e, un e = false -> has_name e = false.
Proof.
  induction e using ex_induct; intros Hu; try reflexivity; try discriminate.
  destruct args as [| a [| b args]].
  - cbn. destruct e as [| | | | | | g0 | | | | |]; try destruct g0; reflexivity.
  - inversion H; subst. rewrite has_name_call. unfold un in Hu. cbn [some_in] in Hu.
    apply orb_false_iff in Hu as [_ Hu]. apply orb_false_iff in Hu as [Hu _]. apply orb_false_iff in Hu as [Hu Ha].
    cbn [existsb] in Ha. rewrite orb_false_r in Ha.
    rewrite (H3 Ha), orb_false_r. clear - Hu. destruct e; try reflexivity; cbn in Hu.
    + rewrite orb_false_r in Hu. exact Hu.
    + destruct e; try reflexivity. cbn in Hu. cbn. apply orb_false_iff in Hu as [_ Hu].
      apply orb_false_iff in Hu as [Hu _]. apply orb_false_iff in Hu as [Hu _]. rewrite orb_false_r in Hu. exact Hu.
  - cbn. destruct e as [| | | | | | g0 | | | | |]; try destruct g0; reflexivity.
Qed.
Lemma ends_has : forall e, has_lambda e = false -> ends_in_lambda e = false.
Proof.
  unfold has_lambda. induction e using ex_induct; cbn; intros Hl; auto.
  orb Hl. apply Forall_existsb_false. apply existsb_false_Forall in H2. fa (Forall_and2 _ _ _ _ H H2). destruct H3; auto.
Qed.
Lemma not_nameable : forall e, ends_in_lambda e = false -> nameable e = false.
Proof. intros e H. destruct (nameable e) eqn:E; auto. apply nameable_ends in E. congruence. Qed.
Lemma bound_plain : forall n e, ends_in_lambda e = false -> bound n e = visit false e.
Proof. intros n e H. unfold bound. rewrite not_nameable by exact H. reflexivity. Qed.
Lemma has_list : forall A (f : A -> ex) l, existsb (fun a => some_in is_lam (f a)) l = false -> Forall (fun a => has_lambda (f a) = false) l.
Proof. intros. apply existsb_false_Forall. exact H. Qed.
(** without lambdas nothing happens *)
Lemma visit_nolam : forall e, has_lambda e = false -> visit false e = e.
Proof.
  assert (forall e, has_lambda e = false -> (has_lambda e = false -> visit false e = e) -> forall n, bound n e = e) as B.
  { intros e H IH n. rewrite bound_plain by (apply ends_has; exact H). apply IH; exact H. }
  assert (forall l, Forall (fun e => has_lambda e = false -> visit false e = e) l -> existsb (some_in is_lam) l = false -> map (visit false) l = l) as L.
  { intros l H Hl. apply existsb_false_Forall in Hl. apply map_id_Forall. fa (Forall_and2 _ _ _ _ H Hl). destruct H0; auto. }
  induction e using ex_induct; intros Hl; unfold has_lambda in Hl; cbn [some_in is_lam orb] in Hl; try reflexivity; try discriminate.
  - cbn. f_equal; auto.
  - cbn. f_equal; auto.
  - orb Hl. cbn. f_equal; auto.
  - orb Hl. destruct kws as [| kw kws].
    + cbn -[map]. f_equal; auto.
    + change (visit false (Call e args (kw :: kws))) with (Call e (map (visit false) args) (map kentry (kw :: kws))). f_equal; auto.
      apply existsb_false_Forall in H1. apply map_id_Forall. fa (Forall_and2 _ _ _ _ H0 H1). destruct H3 as [H3 H4], a as [[x |] v]; unfold kentry; cbn [fst snd] in *; f_equal; auto.
  - change (visit false (Shl x e)) with (Shl x (bound (CStr x) e)). f_equal; auto.
  - change (visit false (Wal x e)) with (Wal x (bound (CStr x) e)). f_equal; auto.
  - orb Hl. change (visit false (Let bs e)) with (Let (map (fun xe => (fst xe, bound (CStr (fst xe)) (snd xe))) bs) (visit false e)). f_equal; auto.
    apply existsb_false_Forall in Hl. apply map_id_Forall. fa (Forall_and2 _ _ _ _ H Hl). destruct H1 as [H3 H4], a as [x v]; cbn [fst snd] in *; f_equal; auto.
  - change (visit false (Dict l)) with (Dict (map dentry l)). f_equal. apply existsb_false_Forall in Hl. apply map_id_Forall.
    fa (Forall_and2 _ _ _ _ H Hl). destruct H0 as ([H1 H2] & H3), a as [[k |] v]; cbn [fst snd okey] in *.
    + orb H3. assert (visit false k = k) as Ek by auto. destruct k; cbn [dentry]; try (rewrite Ek, (H2 H0); reflexivity). rewrite B; auto.
    + cbn. f_equal; auto.
  - cbn. f_equal; auto.
Qed.
Section Names.
Variable loc : nat -> string.
Notation fin := (final loc false).
Notation idl := (ideal loc).
Lemma decorated_ends : forall t, decorated t = true -> ends_in_lambda t = true.
Proof.
  induction t using ex_induct; cbn; intros; try discriminate.
  - destruct args as [| a [| b args]]; try discriminate. inversion H; subst. cbn. rewrite orb_false_r.
    destruct a; cbn in *; try discriminate; auto.
  - destruct t; cbn in *; try discriminate; auto.
Qed.
Lemma final_call : forall f args kws, has_name (Call f args kws) = false ->
  fin (Call f args kws) = Call (fin f) (map fin args) (map (fun kw => (fst kw, fin (snd kw))) kws).
Proof. intros. cbn [final orb]. rewrite H, andb_false_r. reflexivity. Qed.
Lemma final_call' : forall f args kws, ends_in_lambda (Call f args kws) = false ->
  fin (Call f args kws) = Call (fin f) (map fin args) (map (fun kw => (fst kw, fin (snd kw))) kws).
Proof.
  intros. cbn [final orb]. destruct (decorated (Call f args kws)) eqn:E; [apply decorated_ends in E; congruence |]. reflexivity.
Qed.
Lemma nolam_list : forall A (f : A -> ex) l (P : A -> Prop), Forall (fun a => has_lambda (f a) = false -> P a) l -> existsb (fun a => some_in is_lam (f a)) l = false -> Forall P l.
Proof. intros A f l P H Hl. apply existsb_false_Forall in Hl. fa (Forall_and2 _ _ _ _ H Hl). destruct H0; auto. Qed.
Lemma final_nolam : forall e, has_lambda e = false -> fin e = e.
Proof.
  induction e using ex_induct; intros Hl; pose proof (ends_has _ Hl) as He; unfold has_lambda in Hl; cbn [some_in is_lam orb] in Hl; try reflexivity; try discriminate.
  - cbn. f_equal. apply map_id_Forall. apply (nolam_list _ (fun e => e)); assumption.
  - cbn. f_equal; auto.
  - orb Hl. cbn. f_equal; auto.
  - rewrite final_call' by exact He. orb Hl. f_equal; auto; apply map_id_Forall.
    + apply (nolam_list _ (fun e => e)); assumption.
    + apply (nolam_list _ snd); try assumption. fa H0. destruct a; cbn in *; f_equal; auto.
  - cbn. f_equal; auto.
  - cbn. f_equal; auto.
  - orb Hl. cbn. f_equal; auto. apply map_id_Forall. apply (nolam_list _ snd); try assumption. fa H. destruct a; cbn in *; f_equal; auto.
  - cbn. f_equal. apply map_id_Forall. apply existsb_false_Forall in Hl. fa (Forall_and2 _ _ _ _ H Hl).
    destruct H0 as ([H1 H2] & H3), a as [[k |] v]; cbn [fst snd okey option_map] in *; [orb H3; f_equal; auto; f_equal; auto | f_equal; auto].
  - cbn [final orb]. destruct (decorated (NameCall n e)) eqn:E; [apply decorated_ends in E; congruence |]. cbn. f_equal; auto.
Qed.
Lemma named_other : forall x e, is_lam e = false -> named loc x e = idl e.
Proof. intros x e H. destruct e; try reflexivity. discriminate. Qed.
Lemma is_lam_nolam : forall e, has_lambda e = false -> is_lam e = false.
Proof. intros [] H; try reflexivity. discriminate. Qed.
Lemma ideal_nolam : forall e, has_lambda e = false -> idl e = e.
Proof.
  assert (forall e, has_lambda e = false -> (has_lambda e = false -> idl e = e) -> forall n, named loc n e = e) as B.
  { intros e H IH n. rewrite named_other by (apply is_lam_nolam; exact H). apply IH; exact H. }
  induction e using ex_induct; intros Hl; unfold has_lambda in Hl; cbn [some_in is_lam orb] in Hl; try reflexivity; try discriminate.
  - cbn. f_equal. apply map_id_Forall. apply (nolam_list _ (fun e => e)); assumption.
  - cbn. f_equal; auto.
  - orb Hl. cbn. f_equal; auto.
  - orb Hl. cbn [ideal]. f_equal; auto; apply map_id_Forall.
    + apply (nolam_list _ (fun e => e)); assumption.
    + apply existsb_false_Forall in H1. fa (Forall_and2 _ _ _ _ H0 H1). destruct H3 as [H3 H4], a as [[x |] v]; cbn [fst snd] in *; f_equal; auto. apply B; auto.
  - change (idl (Shl x e)) with (Shl x (named loc x e)). f_equal; auto.
  - change (idl (Wal x e)) with (Wal x (named loc x e)). f_equal; auto.
  - orb Hl. cbn [ideal]. f_equal; auto. apply map_id_Forall. apply existsb_false_Forall in Hl. fa (Forall_and2 _ _ _ _ H Hl).
    destruct H1 as [H3 H4], a as [x v]; cbn [fst snd] in *; f_equal; auto. apply B; auto.
  - cbn [ideal]. f_equal. apply map_id_Forall. apply existsb_false_Forall in Hl. fa (Forall_and2 _ _ _ _ H Hl).
    destruct H0 as ([H1 H2] & H3), a as [[k |] v]; cbn [fst snd okey option_map] in *; [| f_equal; auto].
    orb H3. assert (idl k = k) as Ek by auto. destruct k as [n | | | | | | | | | | |]; try (rewrite Ek, (H2 H0); reflexivity).
    destruct n as [z | x |]; try (rewrite Ek, (H2 H0); reflexivity). f_equal. apply B; auto.
  - cbn. f_equal; auto.
Qed.
Lemma bound_names : forall x e, un e = false -> decorated_value e = false -> fin (visit false (visit false e)) = idl e ->
  (forall ps ds l b, e = Lam ps ds l b -> fin (visit false (visit false b)) = idl b) ->
  fin (bound (CStr x) (bound (CStr x) e)) = named loc x e.
Proof.
  intros x e Hu Hd H Hb. unfold decorated_value in Hd. destruct (is_lam e) eqn:El.
  - destruct e; try discriminate. unfold un in Hu. cbn [some_in unusual] in Hu. orb Hu.
    assert (map (visit false) ds = ds /\ map idl ds = ds) as [E1 E2].
    { apply existsb_false_Forall in Hu. split; apply map_id_Forall; fa Hu; [apply visit_nolam | apply ideal_nolam]; assumption. }
    change (bound (CStr x) (Lam ps ds line e)) with (NameCall (CStr x) (Lam ps ds line (visit false e))).
    change (bound (CStr x) (NameCall (CStr x) (Lam ps ds line (visit false e))))
      with (NameCall (CStr x) (Lam ps (map (visit false) ds) line (visit false (visit false e)))).
    cbn [named]. rewrite E1, E2. cbn. f_equal. f_equal. eapply Hb. reflexivity.
  - cbn in Hd. rewrite named_other by exact El. rewrite (bound_plain _ e) by exact Hd. rewrite bound_plain by (rewrite ends_visit; exact Hd). exact H.
Qed.
Definition good (e : ex) : Prop := un e = false -> fin (visit false (visit false e)) = idl e.
Definition good' (e : ex) : Prop := good e /\ (forall ps ds l b, e = Lam ps ds l b -> good b).
Lemma bound_good : forall x e, un e = false -> decorated_value e = false -> good' e -> fin (bound (CStr x) (bound (CStr x) e)) = named loc x e.
Proof.
  intros x e Hu Hd [H Hb]. apply bound_names; auto. intros. eapply Hb; [eassumption |]. subst e. unfold un in Hu. cbn [some_in] in Hu.
  apply orb_false_iff in Hu as [_ Hu]. apply orb_false_iff in Hu as [_ Hu]. exact Hu.
Qed.
Lemma bound_good' : forall n e, un e = false -> ends_in_lambda e = false -> good' e -> fin (bound n (bound n e)) = idl e.
Proof.
  intros n e Hu He [H _]. rewrite (bound_plain _ e) by exact He. rewrite bound_plain by (rewrite ends_visit; exact He). apply H; exact Hu.
Qed.
Lemma good_list : forall l, Forall good' l -> existsb un l = false -> map (fun e => fin (visit false (visit false e))) l = map idl l.
Proof. intros l H Hu. apply existsb_false_Forall in Hu. apply map_ext_Forall. fa (Forall_and2 _ _ _ _ H Hu). destruct H0 as [[H0 _] H1]. apply H0; exact H1. Qed.
Lemma visit_good : forall e, good' e.
Proof.
  induction e using ex_induct; (split; [unfold good; intros Hu; pose proof (un_has_name _ Hu) as Hn; unfold un in Hu; cbn [some_in] in Hu; apply orb_false_iff in Hu as [Hx Hu] | try (intros; discriminate)]).
  - reflexivity.
  - reflexivity.
  - cbn. f_equal. rewrite !map_map. apply good_list; assumption.
  - cbn. f_equal. apply IHe; exact Hu.
  - orb Hu. cbn. f_equal; [apply IHe1 | apply IHe2]; assumption.
  - orb Hu. cbn [unusual] in Hx.
    assert (map (visit false) ds = ds /\ map idl ds = ds) as [E1 E2].
    { apply existsb_false_Forall in Hx. split; apply map_id_Forall; fa Hx; [apply visit_nolam | apply ideal_nolam]; assumption. }
    cbn. rewrite !E1, E2. f_equal. f_equal. apply IHe. assumption.
  - intros ps0 ds0 l0 b0 E. injection E as <- <- <- <-. apply IHe.
  - orb Hu. cbn [unusual] in Hx. apply orb_false_iff in Hx as [Hx1 Hx2].
    assert (has_name (visit false (visit false (Call e args kws))) = false) as Hn' by (rewrite !has_name_visit; exact Hn).
    destruct kws as [| kw kws].
    + change (visit false (visit false (Call e args []))) with (Call (visit false (visit false e)) (map (visit false) (map (visit false) args)) []) in *.
      rewrite final_call by exact Hn'. cbn [ideal map]. f_equal; [apply IHe; exact Hu |]. rewrite !map_map. apply good_list; assumption.
    + change (visit false (visit false (Call e args (kw :: kws))))
        with (Call e (map (visit false) (map (visit false) args)) (map kentry (map kentry (kw :: kws)))) in *.
      rewrite final_call by exact Hn'. cbn [ideal]. f_equal.
      * rewrite final_nolam, ideal_nolam by exact Hx1. reflexivity.
      * rewrite !map_map. apply good_list; assumption.
      * rewrite !map_map. apply map_ext_Forall. apply existsb_false_Forall in Hx2, H1.
        fa (Forall_and2 _ _ _ _ H0 (Forall_and2 _ _ _ _ Hx2 H1)). destruct H3 as (G & D & U), a as [[x |] v]; unfold kentry; cbn [fst snd] in *; f_equal.
        -- exact (bound_good x v U D G).
        -- apply G; exact U.
  - change (fin (visit false (visit false (Shl x e)))) with (Shl x (fin (bound (CStr x) (bound (CStr x) e)))).
    change (idl (Shl x e)) with (Shl x (named loc x e)). f_equal. apply bound_good; assumption.
  - change (fin (visit false (visit false (Wal x e)))) with (Wal x (fin (bound (CStr x) (bound (CStr x) e)))).
    change (idl (Wal x e)) with (Wal x (named loc x e)). f_equal. apply bound_good; assumption.
  - orb Hu. cbn [unusual] in Hx.
    change (visit false (visit false (Let bs e)))
      with (Let (map (fun xe => (fst xe, bound (CStr (fst xe)) (snd xe))) (map (fun xe => (fst xe, bound (CStr (fst xe)) (snd xe))) bs)) (visit false (visit false e))).
    cbn [final orb decorated andb ideal]. f_equal; [| apply IHe; assumption]. rewrite !map_map. apply map_ext_Forall.
    apply existsb_false_Forall in Hx, Hu. fa (Forall_and2 _ _ _ _ H (Forall_and2 _ _ _ _ Hx Hu)). destruct H1 as (G & D & U), a as [x v]; cbn [fst snd] in *; f_equal.
    exact (bound_good x v U D G).
  - cbn [unusual] in Hx. change (visit false (visit false (Dict l))) with (Dict (map dentry (map dentry l))).
    cbn [final orb decorated andb ideal]. f_equal. rewrite !map_map. apply map_ext_Forall.
    apply existsb_false_Forall in Hx, Hu. fa (Forall_and2 _ _ _ _ H (Forall_and2 _ _ _ _ Hx Hu)). destruct H0 as ([Gk Gv] & D & U), a as [[k |] v]; cbn [fst snd okey] in *.
    + orb U. assert (fin (visit false (visit false k)) = idl k) as Ek by (apply Gk; exact U).
      assert ((exists n, k = Con n) \/ dentry (dentry (Some k, v)) = (Some (visit false (visit false k)), visit false (visit false v))) as [[n ->] | E].
      { destruct k as [n | | | | | | k0 args0 kws0 | | | | |]; try (right; reflexivity); [left; eexists; reflexivity | right; destruct kws0; reflexivity]. }
      * cbn [dentry fst snd option_map]. destruct n as [z | x |].
        -- f_equal. apply bound_good'; assumption.
        -- f_equal. exact (bound_good x v H0 D Gv).
        -- f_equal. apply bound_good'; assumption.
      * rewrite E. cbn [fst snd option_map]. rewrite Ek. assert (fin (visit false (visit false v)) = idl v) as Ev by (apply Gv; assumption). rewrite Ev.
        destruct k as [n | | | | | | | | | | |]; try reflexivity. destruct n as [z | x |]; try reflexivity.
        cbn [dentry] in E. injection E as E. change (Some (idl (Con (CStr x))), idl v) with (Some (Con (CStr x)), idl v). f_equal.
        change (idl v = named loc x v). rewrite <- Ev, <- E. exact (bound_good x v H0 D Gv).
    + cbn. f_equal. apply Gv; exact U.
  - discriminate.
Qed.
Lemma names_stm : forall s, some_ins unusual s = false -> unusual_value s = false -> finals loc (visits (visits s)) = ideals loc s.
Proof.
  assert (forall e, un e = false -> fin (visit false (visit false e)) = idl e) as G by (intros; apply visit_good; assumption).
  assert (forall l, existsb un l = false -> map fin (map (visit false) (map (visit false) l)) = map idl l) as L.
  { intros l H. rewrite !map_map. apply good_list; auto. apply Forall_forall. intros; apply visit_good. }
  assert (forall l, Forall (fun s => some_ins unusual s = false -> unusual_value s = false -> finals loc (visits (visits s)) = ideals loc s) l ->
    existsb (some_ins unusual) l = false -> existsb unusual_value l = false -> map (finals loc) (map visits (map visits l)) = map (ideals loc) l) as S.
  { intros l H H1 H2. rewrite !map_map. apply map_ext_Forall. apply existsb_false_Forall in H1, H2.
    fa (Forall_and2 _ _ _ _ H (Forall_and2 _ _ _ _ H1 H2)). destruct H0 as (H0 & H3 & H4); auto. }
  induction s using stm_induct; cbn [some_ins unusual_value visits finals ideals]; intros Hu Hv.
  - f_equal; apply G; exact Hu.
  - f_equal. apply bound_good; auto. apply visit_good.
  - f_equal; apply G; exact Hu.
  - orb Hu. orb Hv. f_equal; auto.
  - orb Hu. f_equal; auto.
Qed.
Theorem namedlambda_names : forall p, usual p = true -> namedlambda loc p = map (ideals loc) p.
Proof.
  intros p H. unfold usual in H. apply negb_true_iff in H. apply existsb_false_Forall in H. unfold namedlambda. rewrite !map_map.
  apply map_ext_Forall. fa H. apply orb_false_iff in H0 as [H0 H1]. apply names_stm; assumption.
Qed.
End Names.
Lemma assigned : forall loc W prim fuel globals f ps l b w,
  run W prim fuel globals (namedlambda loc [Assign f (Lam ps [] l b); Return (NameOf (Var f))]) w = Some (Ok (Some (VCon (CStr f))), w).
Proof.
  intros. unfold run. cbn -[call dict_get dict_set]. 
  unfold mbind, set_var, get_var. cbn -[call dict_get dict_set].
  assert (forall (l : list (string * value)) k v, dict_get String.eqb (dict_set String.eqb l k v) k = Some v) as E.
  { induction l0 as [| [a c] l0 IH]; intros k v; cbn; [rewrite String.eqb_refl; reflexivity |].
    destruct (String.eqb a k) eqn:Ek; cbn; rewrite Ek; [reflexivity | apply IH]. }
  rewrite E. reflexivity.
Qed.
