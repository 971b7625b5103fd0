From Coq Require Import String List ZArith Bool Arith Lia.
From Verif Require Import Base CollModel EnvModel DbgModel DbgSpec.
Import ListNotations.
Open Scope string_scope.
Open Scope list_scope.
Open Scope nat_scope.

Section Ind.
Variable P : ex -> Prop.
Definition PP {A} (l : list (A * ex)) : Prop := Forall (fun a => P (snd a)) l.
Hypothesis HCon : forall k, P (Con k).
Hypothesis HVar : forall x, P (Var x).
Hypothesis HPrim : forall o l, Forall P l -> P (Prim o l).
Hypothesis HIfE : forall e a b, P e -> P a -> P b -> P (IfE e a b).
Hypothesis HLam : forall ps b, P b -> P (Lam ps b).
Hypothesis HCall : forall ln f args kws, P f -> PP args -> PP kws -> P (Call ln f args kws).
Hypothesis HTup : forall l, PP l -> P (Tup l).
Hypothesis HDbg : forall ln e, P e -> P (Dbg ln e).
Hypothesis HTexts : forall l, P (Texts l).
Hypothesis HDbgE : forall ln t e, P e -> P (DbgE ln t e).
Hypothesis HDbgP : forall ln ks vs kws, P ks -> P vs -> PP kws -> P (DbgP ln ks vs kws).
Hypothesis HMk : forall p, P (MkPrinter p).
Hypothesis HNN : forall e, P e -> P (NotNone e).
Fixpoint ex_induct (e : ex) : P e :=
  let go := fix go (l : list ex) : Forall P l :=
    match l return Forall P l with [] => Forall_nil _ | e :: l => Forall_cons _ (ex_induct e) (go l) end in
  let gb := fix gk (l : list (bool * ex)) : PP l :=
    match l return PP l with [] => Forall_nil _ | (k, e) :: l => Forall_cons (k, e) (ex_induct e) (gk l) end in
  let gs := fix gk (l : list (string * ex)) : PP l :=
    match l return PP l with [] => Forall_nil _ | (k, e) :: l => Forall_cons (k, e) (ex_induct e) (gk l) end in
  match e return P e with
  | Con k => HCon k
  | Var x => HVar x
  | Prim o l => HPrim o l (go l)
  | IfE e a b => HIfE e a b (ex_induct e) (ex_induct a) (ex_induct b)
  | Lam ps b => HLam ps b (ex_induct b)
  | Call ln f args kws => HCall ln f args kws (ex_induct f) (gb args) (gs kws)
  | Tup l => HTup l (gb l)
  | Dbg ln e => HDbg ln e (ex_induct e)
  | Texts l => HTexts l
  | DbgE ln t e => HDbgE ln t e (ex_induct e)
  | DbgP ln ks vs kws => HDbgP ln ks vs kws (ex_induct ks) (ex_induct vs) (gs kws)
  | MkPrinter p => HMk p
  | NotNone e => HNN e (ex_induct e)
  end.
End Ind.
Section IndS.
Variable P : stm -> Prop.
Hypothesis HExpr : forall e, P (Expr e).
Hypothesis HAssign : forall x e, P (Assign x e).
Hypothesis HReturn : forall e, P (Return e).
Hypothesis HIf : forall e a b, Forall P a -> Forall P b -> P (If e a b).
Hypothesis HDef : forall f ps b, Forall P b -> P (Def f ps b).
Hypothesis HWithDbg : forall m b, Forall P b -> P (WithDbg m b).
Hypothesis HWithNb : forall m b, Forall P b -> P (WithNb m b).
Fixpoint stm_induct (s : stm) : P s :=
  let go := fix go (l : list stm) : Forall P l :=
    match l return Forall P l with [] => Forall_nil _ | e :: l => Forall_cons _ (stm_induct e) (go l) end in
  match s return P s with
  | Expr e => HExpr e
  | Assign x e => HAssign x e
  | Return e => HReturn e
  | If e a b => HIf e a b (go a) (go b)
  | Def f ps b => HDef f ps b (go b)
  | WithDbg m b => HWithDbg m b (go b)
  | WithNb m b => HWithNb m b (go b)
  end.
End IndS.

Lemma map_ext_Forall : forall A B (f g : A -> B) l, Forall (fun x => f x = g x) l -> map f l = map g l.
Proof. intros A B f g l H. induction H; cbn; congruence. Qed.
Lemma Forall_forallb : forall A (P : A -> Prop) (p : A -> bool) l,
  Forall (fun x => p x = true -> P x) l -> forallb p l = true -> Forall P l.
Proof.
  intros A P p l H. induction H; cbn; intros E; [constructor|]. apply andb_true_iff in E as [E1 E2].
  constructor; auto.
Qed.
Ltac ands := repeat match goal with H : andb _ _ = true |- _ => apply andb_true_iff in H; destruct H end.
Lemma dict_get_set : forall A (d : list (string * A)) n a, dict_get String.eqb (dict_set String.eqb d n a) n = Some a.
Proof.
  intros A d n a. induction d as [|[k v] d IH]; cbn; [rewrite String.eqb_refl; reflexivity|].
  destruct (String.eqb k n) eqn:E; cbn; rewrite E; [reflexivity | exact IH].
Qed.
Lemma dict_get_set_ne : forall A (d : list (string * A)) n m a, m <> n -> dict_get String.eqb (dict_set String.eqb d n a) m = dict_get String.eqb d m.
Proof.
  intros A d n m a NE. induction d as [|[k v] d IH]; cbn.
  - destruct (String.eqb n m) eqn:E; [apply String.eqb_eq in E; congruence | reflexivity].
  - destruct (String.eqb k n) eqn:E; cbn; destruct (String.eqb k m) eqn:E2; try reflexivity; try exact IH.
    apply String.eqb_eq in E, E2. congruence.
Qed.
Lemma dict_get_set2 : forall A (d d' : list (string * A)) n m a, (m <> n -> dict_get String.eqb d' m = dict_get String.eqb d m) ->
  dict_get String.eqb (dict_set String.eqb d' n a) m = dict_get String.eqb (dict_set String.eqb d n a) m.
Proof.
  intros. destruct (String.eqb m n) eqn:E.
  - apply String.eqb_eq in E as ->. rewrite !dict_get_set. reflexivity.
  - apply String.eqb_neq in E. rewrite !dict_get_set_ne by exact E. auto.
Qed.

Lemma Forall2_len : forall A B (P : A -> B -> Prop) l l', Forall2 P l l' -> length l = length l'.
Proof. intros A B P l l' H. induction H; cbn; congruence. Qed.
Lemma Forall2_nth : forall A B (P : A -> B -> Prop) l l', Forall2 P l l' -> forall n,
  match nth_error l n, nth_error l' n with Some a, Some b => P a b | None, None => True | _, _ => False end.
Proof. intros A B P l l' H. induction H; intros [|n]; cbn; auto. apply IHForall2. Qed.

(** * Simulations *)
Section Sim.
Variable W : Type.
Variable prim : nat -> list con -> W -> outcome con * W.
Variable RF : fobj -> fobj -> Prop.            (* functions *)
Variable hid : string -> bool.                 (* variables that may differ *)
Variable fo : list event -> list event.        (* the output of the other *)
Variable Inv : list (string * value) -> Prop.  (* of the global variables *)
Definition agree (a b : list (string * value)) : Prop := forall x, hid x = false -> dict_get String.eqb b x = dict_get String.eqb a x.
Definition rel (s s' : st W) : Prop :=
  agree (globals s) (globals s') /\ Forall2 RF (funs s) (funs s') /\ out s' = fo (out s) /\ world s = world s' /\ Inv (globals s).
Definition Sim {A} (m m' : M W A) : Prop := forall s s', rel s s' ->
  match m s, m' s' with
  | Some (r, t), Some (r', t') => r = r' /\ rel t t' /\ globals t = globals s /\ globals t' = globals s'
  | None, None => True
  | _, _ => False
  end.
Lemma sim_ret : forall A (a : A), Sim (ret a) (ret a).
Proof. intros A a s s' H. cbn. auto. Qed.
Lemma sim_raise : forall A x, Sim (A := A) (raise x) (raise x).
Proof. intros A a s s' H. cbn. auto. Qed.
Lemma sim_bind : forall A B (m m' : M W A) (f f' : A -> M W B), Sim m m' -> (forall a, Sim (f a) (f' a)) -> Sim (mbind m f) (mbind m' f').
Proof.
  intros A B m m' f f' H1 H2 s s' R. specialize (H1 s s' R). unfold mbind.
  destruct (m s) as [[[a|x] t]|], (m' s') as [[[a'|x'] t']|]; try contradiction; try exact I;
    destruct H1 as (E & R' & G & G'); try discriminate E.
  - injection E as ->. specialize (H2 a' t t' R'). destruct (f a' t) as [[r u]|], (f' a' t') as [[r' u']|]; try contradiction; auto.
    destruct H2 as (E2 & R2 & G2 & G2'). rewrite G2, G, G2', G'. auto.
  - split; [congruence | auto].
Qed.
Lemma sim_new_fun : forall f f', RF f f' -> Sim (new_fun W f) (new_fun W f').
Proof.
  intros f f' H s s' (G & F & O & E & I). unfold new_fun. rewrite (Forall2_len _ _ _ _ _ F).
  split; [reflexivity|]. split; [|split; reflexivity]. repeat split; cbn; try assumption. apply Forall2_app; auto.
Qed.

Lemma sim_emit : forall v v', (forall l, fo (l ++ [v]) = fo l ++ [v']) -> Sim (emit W v) (emit W v').
Proof.
  intros v v' H s s' (G & F & O & E & I). cbn. split; [reflexivity|]. split; [|auto]. repeat split; cbn; try assumption.
  rewrite O, H. reflexivity.
Qed.
Lemma sim_prim : forall o l, Sim (do_prim W prim o l) (do_prim W prim o l).
Proof.
  intros o l. unfold do_prim. destruct (cons_of l) as [k|]; [|apply sim_raise]. intros s s' (G & F & O & E & I). rewrite <- E.
  destruct (prim o k (world s)) as [[v|x] w]; cbn; (split; [reflexivity|]; split; [|auto]; repeat split; cbn; auto).
Qed.
Lemma sim_evals : forall ev ev' l l', Forall2 (fun e e' => Sim (ev e) (ev' e')) l l' -> Sim (evals_ W ev l) (evals_ W ev' l').
Proof. intros ev ev' l l' H. induction H; cbn; [apply sim_ret|]. apply sim_bind; [assumption|]. intros v. apply sim_bind; [assumption|]. intros r. apply sim_ret. Qed.
Lemma sim_kws : forall ev ev' l l', Forall2 (fun e e' => fst e = fst e' /\ Sim (ev (snd e)) (ev' (snd e'))) l l' -> Sim (kws_ W ev l) (kws_ W ev' l').
Proof.
  intros ev ev' l l' H. induction H as [|[k e] [k' e'] l l' [E H]]; cbn; [apply sim_ret|]. cbn in E. subst k'. apply sim_bind; [assumption|].
  intros v. apply sim_bind; [assumption|]. intros r. apply sim_ret.
Qed.
Lemma sim_args : forall ev ev' l l', Forall2 (fun e e' => fst e = fst e' /\ Sim (ev (snd e)) (ev' (snd e'))) l l' -> Sim (args_ W ev l) (args_ W ev' l').
Proof.
  intros ev ev' l l' H. induction H as [|[k e] [k' e'] l l' [E H]]; cbn; [apply sim_ret|]. cbn in E. subst k'. apply sim_bind; [assumption|].
  intros v. apply sim_bind. { destruct k; [destruct v; (apply sim_ret || apply sim_raise) | apply sim_ret]. }
  intros vs. apply sim_bind; [assumption|]. intros r. apply sim_ret.
Qed.

(** scopes *)
Definition CR (c d : scope) : Prop :=
  match c, d with
  | None, None => True
  | Some (n, v), Some (n', v') => agree v v' /\ forall x, hid x = false -> mem x n' = mem x n
  | _, _ => False
  end.
Definition names_of (c : scope) : option (list string) := option_map fst c.
Lemma sim_get : forall c d x, CR c d -> hid x = false -> Sim (get_var W c x) (get_var W d x).
Proof.
  intros c d x C H s s' R. pose proof R as (G & _). unfold get_var.
  destruct c as [[n v]|], d as [[n' v']|]; try contradiction.
  - destruct C as [A N]. rewrite (N x H), (A x H), (G x H).
    destruct (mem x n); [destruct (dict_get String.eqb v x) | destruct (dict_get String.eqb (globals s) x)]; auto.
  - rewrite (G x H). destruct (dict_get String.eqb (globals s) x); auto.
Qed.
Definition lookup (x : string) (d : scope) (t : st W) : option value :=
  match d with Some (_, v) => dict_get String.eqb v x | None => dict_get String.eqb (globals t) x end.
Notation tp := (lookup "theprint").
(** [K]: None; Some None: theprint is not changed; Some (Some v): in addition, it has value v at the beginning *)
Definition pre (K : option (option value)) (d : scope) (t : st W) : Prop := match K with Some (Some v) => tp d t = Some v | _ => True end.
(** in a function, global variables do not change *)
Definition gl (c : scope) (s t : st W) : Prop := c = None \/ globals t = globals s.
Definition concl (K : option (option value)) (c d : scope) (s s' : st W) (r r' : option (outcome (option value * scope) * st W)) : Prop :=
  match r, r' with
  | Some (Ok (v, c1), t), Some (Ok (w, d1), t') =>
      v = w /\ rel t t' /\ CR c1 d1 /\ names_of c1 = names_of c /\ names_of d1 = names_of d /\ (K <> None -> tp d1 t' = tp d s') /\ gl c s t /\ gl d s' t'
  | Some (Raise x, t), Some (Raise y, t') => x = y /\ rel t t' /\ gl c s t /\ gl d s' t'
  | None, None => True
  | _, _ => False
  end.
Definition SimX K (c d : scope) (m m' : M W (option value * scope)) : Prop := forall s s', rel s s' -> pre K d s' -> concl K c d s s' (m s) (m' s').
Lemma pre_same : forall K d d' s s', (K <> None -> tp d' s' = tp d s) -> pre K d s -> pre K d' s'.
Proof. intros [[v|]|] d d' s s' H; cbn; auto. intros E. rewrite H by discriminate. exact E. Qed.
Lemma gl_shift : forall c c1 s s1 t, names_of c1 = names_of c -> gl c s s1 -> gl c1 s1 t -> gl c s t.
Proof.
  intros c c1 s s1 t N [H|H] [H1|H1]; try (left; assumption).
  - left. subst c1. destruct c as [[n v]|]; [discriminate N | reflexivity].
  - right. congruence.
Qed.
Lemma gl_refl : forall c s, gl c s s.
Proof. right. reflexivity. Qed.
Lemma concl_shift : forall K c d c1 d1 s s' s1 s1' r r', names_of c1 = names_of c -> names_of d1 = names_of d -> (K <> None -> tp d1 s1' = tp d s') ->
  gl c s s1 -> gl d s' s1' -> concl K c1 d1 s1 s1' r r' -> concl K c d s s' r r'.
Proof.
  intros K c d c1 d1 s s' s1 s1' r r' N N' T G G' H. unfold concl in *.
  destruct r as [[[[v1 c2]|x1] u]|], r' as [[[[v2 d2]|x2] u']|]; try contradiction; auto.
  - destruct H as (Q1 & Q2 & Q3 & Q4 & Q5 & Q6 & Q7 & Q8). repeat (split; [first [assumption | congruence]|]).
    split. { intros E. rewrite (Q6 E). auto. } split; eapply gl_shift; eassumption.
  - destruct H as (Q1 & Q2 & Q3 & Q4). repeat (split; [assumption|]). split; eapply gl_shift; eassumption.
Qed.
Lemma simx_ret : forall K c d v, CR c d -> SimX K c d (ret (v, c)) (ret (v, d)).
Proof. intros K c d v C s s' R P. cbn. auto 12 using gl_refl. Qed.
Lemma simx_bind : forall A K c d (m m' : M W A) f f', Sim m m' -> (forall a, SimX K c d (f a) (f' a)) -> SimX K c d (mbind m f) (mbind m' f').
Proof.
  intros A K c d m m' f f' H1 H2 s s' R P. specialize (H1 s s' R). unfold mbind.
  destruct (m s) as [[[a|x] t]|], (m' s') as [[[a'|x'] t']|]; try contradiction; try exact I;
    destruct H1 as (E & R' & G & G'); try discriminate E.
  - injection E as ->.
    assert (T : K <> None -> tp d t' = tp d s'). { intros _. unfold lookup. rewrite G'. reflexivity. }
    refine (concl_shift _ _ _ c d _ _ t t' _ _ eq_refl eq_refl T (or_intror G) (or_intror G') _). apply H2; [exact R'|]. exact (pre_same _ _ _ _ _ T P).
  - split; [congruence|]. split; [exact R'|]. split; right; assumption.
Qed.
Variable okset : string -> Prop.
Hypothesis HInv : forall g x v, okset x -> Inv g -> Inv (dict_set String.eqb g x v).
Lemma agree_set : forall a b x v, agree a b -> agree (dict_set String.eqb a x v) (dict_set String.eqb b x v).
Proof. intros a b x v H y Hy. apply dict_get_set2. intros _. apply H. exact Hy. Qed.
Lemma simx_set_at : forall K c d x v f f', CR c d -> okset x -> (K <> None -> x <> "theprint") ->
  (forall c1 d1 s s', CR c1 d1 -> names_of c1 = names_of c -> names_of d1 = names_of d -> rel s s' -> pre K d1 s' ->
     lookup x d1 s' = Some v -> concl K c1 d1 s s' (f c1 s) (f' d1 s')) ->
  SimX K c d (mbind (set_var W c x v) f) (mbind (set_var W d x v) f').
Proof.
  intros K c d x v f f' C OK N H s s' R P. unfold mbind, set_var. destruct c as [[n l]|], d as [[n' l']|]; try contradiction.
  - destruct C as [A Nm].
    assert (T : K <> None -> tp (Some (n', dict_set String.eqb l' x v)) s' = tp (Some (n', l')) s').
    { intros Q. cbn. apply dict_get_set_ne. intros E. apply (N Q). congruence. }
    refine (concl_shift K (Some (n, l)) (Some (n', l')) (Some (n, dict_set String.eqb l x v)) (Some (n', dict_set String.eqb l' x v)) _ _ s s' _ _ eq_refl eq_refl T (gl_refl _ _) (gl_refl _ _) _).
    apply H; [exact (conj (agree_set _ _ _ _ A) Nm) | reflexivity | reflexivity | exact R | exact (pre_same _ _ _ _ _ T P) |].
    cbn. apply dict_get_set.
  - set (t := mkS (dict_set String.eqb (globals s) x v) (funs s) (out s) (world s)).
    set (t' := mkS (dict_set String.eqb (globals s') x v) (funs s') (out s') (world s')).
    assert (R' : rel t t').
    { destruct R as (R1 & R2 & R3 & R4 & R5). repeat split; cbn; auto. apply agree_set. exact R1. }
    assert (T : K <> None -> tp None t' = tp None s').
    { intros Q. cbn. apply dict_get_set_ne. intros E. apply (N Q). congruence. }
    refine (concl_shift K None None None None _ _ t t' _ _ eq_refl eq_refl T (or_introl eq_refl) (or_introl eq_refl) _).
    apply H; [exact I | reflexivity | reflexivity | exact R' | exact (pre_same _ _ _ _ _ T P) |].
    cbn. apply dict_get_set.
Qed.
Lemma simx_set : forall K c d x v f f', CR c d -> okset x -> (K <> None -> x <> "theprint") ->
  (forall c1 d1, CR c1 d1 -> names_of c1 = names_of c -> names_of d1 = names_of d -> SimX K c1 d1 (f c1) (f' d1)) ->
  SimX K c d (mbind (set_var W c x v) f) (mbind (set_var W d x v) f').
Proof. intros K c d x v f f' C OK N H. apply simx_set_at; auto. intros c1 d1 s s' C1 N1 N2 R P _. apply H; assumption. Qed.
Definition andthen (m : M W (option value * scope)) (k : scope -> M W (option value * scope)) : M W (option value * scope) :=
  mbind m (fun r => match fst r with Some v => ret r | None => k (snd r) end).
Lemma simx_then : forall K c d m m' k k', SimX K c d m m' ->
  (forall c1 d1, CR c1 d1 -> names_of c1 = names_of c -> names_of d1 = names_of d -> SimX K c1 d1 (k c1) (k' d1)) ->
  SimX K c d (andthen m k) (andthen m' k').
Proof.
  intros K c d m m' k k' H1 H2 s s' R P. specialize (H1 s s' R P). unfold concl in H1. unfold andthen, mbind.
  destruct (m s) as [[[[v c1]|x] t]|], (m' s') as [[[[v' d1]|x'] t']|]; try contradiction; try exact I; [|exact H1].
  destruct H1 as (<- & R' & C & N & N' & T & G & G'). cbn [fst snd]. destruct v as [v|]; [cbn; auto 12|].
  refine (concl_shift _ _ _ c1 d1 _ _ t t' _ _ N N' T G G' _). apply H2; try assumption. exact (pre_same _ _ _ _ _ T P).
Qed.
Lemma execs_cons : forall ex s l c, execs_ W ex (s :: l) c = andthen (ex s c) (fun c => execs_ W ex l c).
Proof. reflexivity. Qed.
Lemma execs_app : forall ex l1 l2 c s, execs_ W ex (l1 ++ l2) c s = andthen (execs_ W ex l1 c) (fun c => execs_ W ex l2 c) s.
Proof.
  intros ex l1. induction l1 as [|a l1 IH]; intros l2 c s.
  - unfold andthen, mbind. cbn. reflexivity.
  - cbn [List.app]. rewrite !execs_cons. unfold andthen, mbind. destruct (ex a c s) as [[[[v c1]|x] t]|]; cbn [fst snd]; try reflexivity.
    destruct v as [v|]; [reflexivity|]. rewrite IH. unfold andthen, mbind. reflexivity.
Qed.
Lemma execs_one : forall ex a c s, execs_ W ex [a] c s = ex a c s.
Proof.
  intros. rewrite execs_cons. unfold andthen, mbind. destruct (ex a c s) as [[[[v c1]|x] t]|]; cbn [fst snd]; try reflexivity.
  destruct v; reflexivity.
Qed.
Lemma simx_ext : forall K c d m m' n n', (forall s, m s = n s) -> (forall s, m' s = n' s) -> SimX K c d n n' -> SimX K c d m m'.
Proof. intros K c d m m' n n' E E' H s s' R P. rewrite E, E'. apply H; assumption. Qed.
Lemma simx_list : forall ex ex' X K (Q Q' : option (list string) -> Prop) l,
  Forall (fun s => forall c d, CR c d -> Q (names_of c) -> Q' (names_of d) -> SimX K c d (ex s c) (execs_ W ex' (X s) d)) l ->
  forall c d, CR c d -> Q (names_of c) -> Q' (names_of d) -> SimX K c d (execs_ W ex l c) (execs_ W ex' (flat_map X l) d).
Proof.
  intros ex ex' X K Q Q' l H. induction H as [|a l H Hs IH]; intros c d C N N'.
  - cbn. apply simx_ret. exact C.
  - cbn [flat_map]. refine (simx_ext _ _ _ _ _ _ _ (fun s => eq_refl) (execs_app ex' (X a) (flat_map X l) d) _).
    rewrite execs_cons. apply simx_then; [apply H; assumption|]. intros c1 d1 C1 E1 E2. apply IH; [assumption | rewrite E1; assumption | rewrite E2; assumption].
Qed.
Lemma simx_weak : forall K c d m m', SimX (Some None) c d m m' -> SimX K c d m m'.
Proof.
  intros K c d m m' H s s' R P. specialize (H s s' R I). unfold concl in *.
  destruct (m s) as [[[[v1 c2]|x1] u]|], (m' s') as [[[[v2 d2]|x2] u']|]; try contradiction; try exact I; try exact H.
  destruct H as (Q1 & Q2 & Q3 & Q4 & Q5 & Q6 & Q7). repeat (split; [assumption|]). split; [|exact Q7]. intros _. apply Q6. discriminate.
Qed.

(** calls, given how functions are related *)
Section Apply.
Variables ap ap' : value -> list value -> list (string * value) -> M W value.
Hypothesis HA : forall f args kws, Sim (ap f args kws) (ap' f args kws).
Hypothesis hid_only : forall x, x <> "theprint" -> hid x = false.
Lemma sim_printer : forall c d p, CR c d -> (match p with Some x => hid x = false | None => True end) -> Sim (printer W c p) (printer W d p).
Proof. intros c d [x|] C H; cbn; [apply sim_get; assumption | apply sim_ret]. Qed.
Lemma sim_app : forall c d f args kws, CR c d -> Sim (app W ap c f args kws) (app W ap' d f args kws).
Proof.
  intros c d f args kws C. destruct f; cbn [app]; try apply HA.
  destruct args as [|v [|]], kws; try apply sim_raise. apply sim_bind.
  - destruct p as [x|]; [|apply sim_ret]. destruct (String.eqb x "value"); [apply sim_ret|].
    destruct (String.eqb x "theprint") eqn:E; [apply sim_raise|]. apply sim_printer; [exact C|]. apply hid_only. apply String.eqb_neq. exact E.
  - intros g. apply sim_bind; [apply HA|]. intros _. apply sim_ret.
Qed.
End Apply.
End Sim.

(** * The expanded program *)
Definition X (m : option (option string)) (e : ex) : ex := match m with None => expand e | Some p => transform p (expand e) end.
Definition Xs (m : option (option string)) (s : stm) : list stm := match m with None => expands s | Some p => map (transforms p) (expands s) end.
Definition modeok (m : option (option string)) : Prop := match m with Some p => pname p <> "theprint" | None => True end.
Definition Xa {A} (m : option (option string)) (a : A * ex) : A * ex := (fst a, X m (snd a)).
Fixpoint hasnb (s : stm) : bool :=
  match s with
  | If _ a b => existsb hasnb a || existsb hasnb b
  | WithDbg _ b => existsb hasnb b
  | WithNb _ _ => true
  | _ => false
  end.
Definition nbs (m : option (option string)) (s : stm) : list stm :=
  match s with Expr e => [Assign "_" (X m e); the_print] | _ => Xs m s end.

Lemma expand_nodbg : forall e, nodbg e = true -> expand e = e.
Proof.
  assert (L : forall A (l : list (A * ex)), Forall (fun a => nodbg (snd a) = true -> expand (snd a) = snd a) l ->
            forallb (fun a => nodbg (snd a)) l = true -> map (fun a => (fst a, expand (snd a))) l = l).
  { intros A l H. induction H as [|[a e] l H Hs IH]; cbn; intros E; [reflexivity|]. ands. cbn in *. rewrite H, IH by assumption. reflexivity. }
  induction e using ex_induct; cbn; intros E; ands; try reflexivity; try discriminate; try (rewrite ?IHe, ?IHe1, ?IHe2, ?IHe3 by assumption; reflexivity).
  - f_equal. induction H; cbn in *; [reflexivity|]. ands. rewrite H, IHForall by assumption. reflexivity.
  - rewrite IHe by assumption. rewrite !L by assumption. reflexivity.
  - rewrite L by assumption. reflexivity.
  - rewrite IHe1, IHe2 by assumption. rewrite L by assumption. reflexivity.
Qed.
Lemma is_name_expand : forall x f, is_name x (expand f) = is_name x f.
Proof. intros x f. destruct f; reflexivity. Qed.
Lemma X_map : forall m l, map (X m) l = match m with None => map expand l | Some p => map (transform p) (map expand l) end.
Proof. intros [p|] l; cbn; [rewrite map_map|]; reflexivity. Qed.
Lemma Xa_map : forall A m (l : list (A * ex)), map (Xa m) l =
  match m with
  | None => map (fun a => (fst a, expand (snd a))) l
  | Some p => map (fun a => (fst a, transform p (snd a))) (map (fun a => (fst a, expand (snd a))) l)
  end.
Proof. intros A [p|] l; cbn; [rewrite map_map|]; reflexivity. Qed.
Lemma X_call : forall m ln f args kws, X m (Call ln f args kws) =
  match m with
  | None => Call ln (X m f) (map (Xa m) args) (map (Xa m) kws)
  | Some p =>
      if is_name (pname p) f then
        match p with
        | None => DbgP ln (Texts (map (fun a => expand (snd a)) args)) (Tup (map (Xa m) args)) (map (Xa m) kws)
        | Some x => Call ln (Var x) [(false, Texts (map (fun a => expand (snd a)) args)); (false, Tup (map (Xa m) args))] (map (Xa m) kws ++ site ln)
        end
      else Call ln (X m f) (map (Xa m) args) (map (Xa m) kws)
  end.
Proof.
  intros [p|] ln f args kws; [|reflexivity]. unfold X. cbn [expand transform]. rewrite is_name_expand, !Xa_map.
  replace (map snd (map (fun a : bool * ex => (fst a, expand (snd a))) args)) with (map (fun a : bool * ex => expand (snd a)) args)
    by (rewrite map_map; reflexivity).
  destruct (is_name (pname p) f); reflexivity.
Qed.
Lemma texts_of_texts : forall l, texts_of (map VText l) = Some l.
Proof. induction l as [|e l IH]; cbn; [reflexivity|]. rewrite IH. reflexivity. Qed.

Lemma pp_args : forall A (S : ex -> ex -> Prop) (p : ex -> bool) (f : ex -> ex) (l : list (A * ex)),
  PP (fun e => p e = true -> S e (f e)) l -> forallb (fun a => p (snd a)) l = true ->
  Forall2 (fun a b => fst a = fst b /\ S (snd a) (snd b)) l (map (fun a => (fst a, f (snd a))) l).
Proof. intros A S p f l H. induction H as [|[a e] l H Hs IH]; cbn; intros E; constructor; ands; cbn in *; auto. Qed.
Lemma pp_weak : forall A (P Q : ex -> Prop) (l : list (A * ex)), PP P l -> (forall e, P e -> Q e) -> PP Q l.
Proof. intros A P Q l H HQ. unfold PP in *. eapply Forall_impl; [|exact H]. intros a. apply HQ. Qed.

Lemma mem_app : forall x a b, mem x (a ++ b) = mem x a || mem x b.
Proof. intros. apply existsb_app. Qed.
Lemma mem_flat : forall A x (f : A -> list string) l, mem x (flat_map f l) = existsb (fun a => mem x (f a)) l.
Proof. intros A x f l. induction l as [|a l IH]; cbn [flat_map existsb]; [reflexivity|]. rewrite mem_app, IH. reflexivity. Qed.
Lemma existsb_ext_Forall : forall A (f g : A -> bool) l, Forall (fun x => f x = g x) l -> existsb f l = existsb g l.
Proof. intros A f g l H. induction H; cbn; congruence. Qed.
Lemma flat_map_flat_map : forall A B C (f : B -> list C) (g : A -> list B) l, flat_map f (flat_map g l) = flat_map (fun x => flat_map f (g x)) l.
Proof. intros. induction l as [|a l IH]; cbn; [reflexivity|]. rewrite flat_map_app, IH. reflexivity. Qed.
Lemma stored_transforms : forall p s, stored (transforms p s) = stored s.
Proof.
  assert (L : forall p l, Forall (fun s => stored (transforms p s) = stored s) l -> flat_map stored (map (transforms p) l) = flat_map stored l).
  { intros p l H. induction H as [|a l H Hs IH]; cbn; [reflexivity|]. rewrite H, IH. reflexivity. }
  intros p. induction s using stm_induct; cbn; try reflexivity; rewrite ?L by assumption; reflexivity.
Qed.
Lemma stored_map : forall p l, flat_map stored (map (transforms p) l) = flat_map stored l.
Proof. intros p l. induction l as [|a l IH]; cbn; [reflexivity|]. rewrite stored_transforms, IH. reflexivity. Qed.
Lemma stored_Xs1 : forall m s, flat_map stored (Xs m s) = flat_map stored (expands s).
Proof. intros [p|] s; cbn; [apply stored_map | reflexivity]. Qed.
Lemma stored_nb : forall x b, x <> "theprint" -> Forall (fun s => mem x (flat_map stored (expands s)) = mem x (stored s)) b ->
  mem x (flat_map stored (expands (WithNb None b))) = mem x ("_" :: flat_map stored b).
Proof.
  intros x b N H. cbn [expands flat_map stored]. cbn [mem existsb List.app]. apply String.eqb_neq in N.
  change (String.eqb x "_" || (String.eqb x "theprint" || mem x (flat_map stored (flat_map
    (fun s => match s with Expr e => [Assign "_" (expand e); the_print] | _ => expands s end) b))) = String.eqb x "_" || mem x (flat_map stored b)).
  rewrite N. cbn [orb]. destruct (String.eqb x "_") eqn:E; [reflexivity|]. cbn [orb].
  rewrite flat_map_flat_map, !mem_flat. apply existsb_ext_Forall. eapply Forall_impl; [|exact H].
  intros s Hs. destruct s; try exact Hs. cbn. rewrite E. reflexivity.
Qed.
Lemma stored_expands : forall x s, x <> "theprint" -> mem x (flat_map stored (expands s)) = mem x (stored s).
Proof.
  intros x s N. 
  assert (L : forall l, Forall (fun s => mem x (flat_map stored (expands s)) = mem x (stored s)) l -> mem x (flat_map stored (flat_map expands l)) = mem x (flat_map stored l)).
  { intros l H. rewrite flat_map_flat_map, !mem_flat. apply existsb_ext_Forall. exact H. }
  induction s using stm_induct; cbn [expands flat_map stored]; rewrite ?app_nil_r; try reflexivity.
  - rewrite !mem_app, !L by assumption. reflexivity.
  - rewrite stored_map. apply L. assumption.
  - exact (stored_nb x b N H).
Qed.
Lemma stored_Xs : forall x m b, x <> "theprint" -> mem x (flat_map stored (flat_map (Xs m) b)) = mem x (flat_map stored b).
Proof.
  intros x m b N. rewrite flat_map_flat_map, !mem_flat. apply existsb_ext_Forall. apply Forall_forall. intros s _.
  rewrite stored_Xs1. apply stored_expands. exact N.
Qed.
Lemma stored_hasnb : forall s, hasnb s = true -> mem "theprint" (flat_map stored (expands s)) = true /\ mem "_" (flat_map stored (expands s)) = true.
Proof.
  assert (L : forall x l, Forall (fun s => hasnb s = true -> mem x (flat_map stored (expands s)) = true) l -> existsb hasnb l = true ->
            mem x (flat_map stored (flat_map expands l)) = true).
  { intros x l H E. rewrite flat_map_flat_map, mem_flat. apply existsb_exists in E as (s & Hs & E). apply existsb_exists. exists s. split; [exact Hs|].
    rewrite Forall_forall in H. exact (H s Hs E). }
  assert (G : forall x s, x = "theprint" \/ x = "_" -> hasnb s = true -> mem x (flat_map stored (expands s)) = true).
  { intros x s Hx. induction s using stm_induct; cbn [expands flat_map stored hasnb]; rewrite ?app_nil_r; try discriminate; intros E.
    - rewrite mem_app. apply orb_true_iff in E as [E|E]; apply orb_true_iff; [left | right]; apply L; assumption.
    - rewrite stored_map. apply L; assumption.
    - destruct Hx as [-> | ->]; reflexivity. }
  intros s E. split; apply G; auto.
Qed.

Section Run1.
Variable W : Type.
Variable prim : nat -> list con -> W -> outcome con * W.
Lemma shown_args : forall B ev (args : list (bool * ex)) (K : list ex -> list value -> M W B) s, forallb (fun a => negb (fst a)) args = true ->
  mbind (shown_ W ev args) (fun l => K (map fst l) (map snd l)) s = mbind (args_ W ev args) (fun vs => K (map snd args) vs) s.
Proof.
  intros B ev args. induction args as [|[b e] args IH]; intros K s E; [reflexivity|]. cbn in E. ands. destruct b; [discriminate|].
  cbn. unfold mbind. destruct (ev e s) as [[[v|x] t]|]; try reflexivity. cbn.
  specialize (IH (fun es vs => K (e :: es) (v :: vs)) t H0). unfold mbind in *. 
  destruct (shown_ W ev args t) as [[[l|x] t1]|], (args_ W ev args t) as [[[vs|x'] t1']|]; cbn in *; try exact IH.
Qed.
Lemma mbind_ext : forall A B (m : M W A) (f g : A -> M W B) s, (forall a t, f a t = g a t) -> mbind m f s = mbind m g s.
Proof. intros A B m f g s H. unfold mbind. destruct (m s) as [[[a|x] t]|]; auto. Qed.

Lemma kws_app : forall ev a b s, kws_ W ev (a ++ b) s = mbind (kws_ W ev a) (fun x => mbind (kws_ W ev b) (fun y => ret (x ++ y))) s.
Proof.
  intros ev a b. induction a as [|[k e] a IH]; intros s; cbn.
  - unfold mbind, ret. destruct (kws_ W ev b s) as [[[y|x] t]|]; reflexivity.
  - unfold mbind. destruct (ev e s) as [[[v|x] t]|]; try reflexivity. rewrite IH. unfold mbind, ret.
    destruct (kws_ W ev a t) as [[[y|x] t1]|]; try reflexivity. destruct (kws_ W ev b t1) as [[[z|x] t2]|]; reflexivity.
Qed.
Lemma combine_fst_snd : forall A B (l : list (A * B)), combine (map fst l) (map snd l) = l.
Proof. intros A B l. induction l as [|[a b] l IH]; cbn; congruence. Qed.

Definition objR (f g : fobj) : Prop :=
  fps g = fps f /\ fmode g = None /\ modeok (fmode f) /\ mem "theprint" (fps f) = false /\
  match fbody f with
  | BE b => fbody g = BE (X (fmode f) b) /\ fine (fmode f) b = true
  | BS b => fbody g = BS (flat_map (Xs (fmode f)) b) /\ forallb (fines (fmode f) false) b = true
  end.
Definition hid (x : string) : bool := String.eqb x "theprint".
Notation Sim := (Sim W objR hid (fun l => l) (fun _ => True)).
Notation SimX := (SimX W objR hid (fun l => l) (fun _ => True)).
Notation CR := (CR hid).
Lemma hid_only : forall x, x <> "theprint" -> hid x = false.
Proof. intros x H. apply String.eqb_neq. exact H. Qed.
Lemma sim_ext : forall A (m m' n n' : M W A), (forall s, m s = n s) -> (forall s, m' s = n' s) -> Sim n n' -> Sim m m'.
Proof. intros A m m' n n' E E' H s s' R. rewrite E, E'. apply H. exact R. Qed.
Section Ap.
Variables ap ap' : value -> list value -> list (string * value) -> M W value.
Hypothesis HA : forall f args kws, Sim (ap f args kws) (ap' f args kws).
Lemma sim_eval : forall e m c d, fine m e = true -> modeok m -> CR c d -> Sim (eval W prim ap m e c) (eval W prim ap' None (X m e) d).
Proof.
  induction e using ex_induct; intros mm c d F M C.
  - destruct mm; apply sim_ret.
  - cbn in F. destruct mm; (apply sim_get; [exact C|]); cbn in F; apply negb_true_iff in F; exact F.
  - replace (X mm (Prim o l)) with (Prim o (map (X mm) l)) by (rewrite X_map; destruct mm; reflexivity).
    cbn [eval]. cbn [fine] in F. apply sim_bind; [|intros vs; apply sim_prim]. apply sim_evals.
    induction H; cbn in *; constructor; ands; auto.
  - replace (X mm (IfE e1 e2 e3)) with (IfE (X mm e1) (X mm e2) (X mm e3)) by (destruct mm; reflexivity).
    cbn [eval]. cbn [fine] in F. ands. apply sim_bind; [auto|]. intros v. destruct (truthy v); auto.
  - replace (X mm (Lam ps e)) with (Lam ps (X mm e)) by (destruct mm; reflexivity).
    cbn [eval]. cbn [fine] in F. ands. apply sim_new_fun. apply negb_true_iff in H. repeat split; cbn; auto.
  - rewrite X_call. cbn [fine] in F. ands.
    assert (HArgs : Sim (args_ W (fun e => eval W prim ap mm e c) args) (args_ W (fun e => eval W prim ap' None e d) (map (Xa mm) args))).
    { apply sim_args. refine (pp_args _ (fun e e' => Sim (eval W prim ap mm e c) (eval W prim ap' None e' d)) (fine mm) (X mm) args _ H4).
      eapply pp_weak; [exact H|]. auto. }
    assert (HKws : Sim (kws_ W (fun e => eval W prim ap mm e c) kws) (kws_ W (fun e => eval W prim ap' None e d) (map (Xa mm) kws))).
    { apply sim_kws. refine (pp_args _ (fun e e' => Sim (eval W prim ap mm e c) (eval W prim ap' None e' d)) (fine mm) (X mm) kws _ H3).
      eapply pp_weak; [exact H0|]. auto. }
    assert (G : Sim (mbind (eval W prim ap mm e c) (fun g => mbind (args_ W (fun e => eval W prim ap mm e c) args) (fun vs =>
                  mbind (kws_ W (fun e => eval W prim ap mm e c) kws) (fun ks => app W ap c g vs ks))))
                (eval W prim ap' None (Call ln (X mm e) (map (Xa mm) args) (map (Xa mm) kws)) d)).
    { cbn [eval]. apply sim_bind; [auto|]. intros g. apply sim_bind; [auto|]. intros vs. apply sim_bind; [auto|]. intros ks.
      apply sim_app; [exact HA | exact hid_only | exact C]. }
    destruct mm as [p|]; [|exact G].
    destruct (is_name (pname p) e) eqn:N.
    2:{ destruct p as [x|]; cbn [eval]; cbn [pname] in N; rewrite N; exact G. }
    assert (ST : forallb (fun a : bool * ex => negb (fst a)) args = true).
    { clear -H2. induction args as [|a l IH]; cbn in *; [reflexivity|]. ands. rewrite H. auto. }
    assert (TX : map (fun a : bool * ex => expand (snd a)) args = map snd args).
    { clear -H2. induction args as [|a l IH]; cbn in *; [reflexivity|]. ands. rewrite IH by assumption. rewrite expand_nodbg by assumption. reflexivity. }
    rewrite TX. destruct p as [x|]; cbn [pname] in N; cbn [eval]; rewrite N.
    + destruct e; try discriminate N. cbn in N. apply String.eqb_eq in N as ->. cbn [eval]. apply sim_bind.
      { apply sim_get; [exact C|]. apply hid_only. exact M. }
      intros g.
      eapply sim_ext; [intros s | intros s; reflexivity |].
      { etransitivity; [|refine (shown_args _ _ args (fun es vs => mbind (kws_ W (fun e => eval W prim ap (Some (Some x)) e c) kws) (fun ks =>
          app W ap c g [VTup (map VText es); VTup vs] (ks ++ [("filename", VCon (CStr "file")); ("lineno", VCon (CInt (Z.of_nat ln)))]))) s ST)].
        apply mbind_ext. intros l t. rewrite map_map. reflexivity. }
      cbn [args_]. eapply sim_ext; [intros s; reflexivity | intros s |].
      { instantiate (1 := mbind (args_ W (fun e => eval W prim ap' None e d) (map (Xa (Some (Some x))) args)) (fun vs =>
          mbind (kws_ W (fun e => eval W prim ap' None e d) (map (Xa (Some (Some x))) kws)) (fun ks =>
          app W ap' d g [VTup (map VText (map snd args)); VTup vs] (ks ++ [("filename", VCon (CStr "file")); ("lineno", VCon (CInt (Z.of_nat ln)))])))).
        cbn [eval]. unfold mbind, ret. destruct (args_ W _ (map (Xa (Some (Some x))) args) s) as [[[vs|y] t]|]; try reflexivity.
        cbn [List.app]. rewrite kws_app. unfold mbind, ret. destruct (kws_ W _ (map (Xa (Some (Some x))) kws) t) as [[[ks|y] t1]|]; reflexivity. }
      apply sim_bind; [exact HArgs|]. intros vs. apply sim_bind; [exact HKws|]. intros ks. apply sim_app; [exact HA | exact hid_only | exact C].
    + eapply sim_ext; [intros s | intros s; reflexivity |].
      { etransitivity; [|refine (shown_args _ _ args (fun es vs => mbind (kws_ W (fun e => eval W prim ap (Some None) e c) kws) (fun ks =>
          mbind (emit W (DbgOut ln (combine es vs) ks)) (fun _ => ret None_))) s ST)].
        apply mbind_ext. intros l t. rewrite combine_fst_snd. reflexivity. }
      unfold mbind at 4. cbn [ret]. 
      eapply sim_ext; [intros s; reflexivity | intros s |].
      { instantiate (1 := mbind (args_ W (fun e => eval W prim ap' None e d) (map (Xa (Some None)) args)) (fun vs =>
          mbind (kws_ W (fun e => eval W prim ap' None e d) (map (Xa (Some None)) kws)) (fun ks =>
          mbind (emit W (DbgOut ln (combine (map snd args) vs) ks)) (fun _ => ret None_)))).
        cbn [eval]. unfold mbind, ret. destruct (args_ W _ (map (Xa (Some None)) args) s) as [[[vs|y] t]|]; try reflexivity.
        destruct (kws_ W _ (map (Xa (Some None)) kws) t) as [[[ks|y] t1]|]; try reflexivity. rewrite texts_of_texts. reflexivity. }
      apply sim_bind; [exact HArgs|]. intros vs. apply sim_bind; [exact HKws|]. intros ks. apply sim_bind; [apply sim_emit; reflexivity|].
      intros _. apply sim_ret.
  - replace (X mm (Tup l)) with (Tup (map (Xa mm) l)) by (rewrite Xa_map; destruct mm; reflexivity).
    cbn [eval]. cbn [fine] in F. apply sim_bind; [|intros vs; apply sim_ret]. apply sim_args.
    refine (pp_args _ (fun e e' => Sim (eval W prim ap mm e c) (eval W prim ap' None e' d)) (fine mm) (X mm) l _ F).
    eapply pp_weak; [exact H|]. auto.
  - cbn [fine] in F. ands. replace (X mm (Dbg ln e)) with (DbgE ln e (X mm e)) by (destruct mm; cbn; rewrite (expand_nodbg e) by assumption; reflexivity).
    cbn [eval]. apply sim_bind; [auto|]. intros v. apply sim_bind; [apply sim_emit; reflexivity|]. intros _. apply sim_ret.
  - discriminate F.
  - discriminate F.
  - discriminate F.
  - discriminate F.
  - discriminate F.
Qed.

Definition owns (n : option (list string)) : Prop := match n with Some n => mem "theprint" n = true /\ mem "_" n = true | None => True end.
Lemma existsb_false : forall A (f : A -> bool) l, Forall (fun x => f x = false) l -> existsb f l = false.
Proof. intros A f l H. induction H; cbn; [reflexivity|]. rewrite H, IHForall. reflexivity. Qed.
Lemma fines_true : forall s m, fines m true s = true -> hasnb s = false.
Proof.
  induction s using stm_induct; intros mm F; try reflexivity; cbn [fines hasnb] in *; ands; try discriminate.
  - apply orb_false_iff. split; apply existsb_false; rewrite Forall_forall in *; intros s Hs; rewrite forallb_forall in *; eauto.
  - destruct mm; [discriminate|]. ands. apply existsb_false. rewrite Forall_forall in *. intros s Hs. rewrite forallb_forall in *. eauto.
Qed.
Lemma owns_get : forall d t x v, owns (names_of d) -> x = "theprint" \/ x = "_" -> lookup W x d t = Some v -> get_var W d x t = Some (Ok v, t).
Proof.
  intros d t x v O Hx L. unfold get_var. destruct d as [[n l]|]; cbn in *; [|rewrite L; reflexivity].
  destruct O as [O1 O2]. replace (mem x n) with true by (destruct Hx; subst; symmetry; assumption). rewrite L. reflexivity.
Qed.
Lemma nb_expr : forall p m e c d, fine m e = true -> modeok m -> CR c d -> owns (names_of d) ->
  match p with Some x => x <> "theprint" /\ x <> "value" | None => True end ->
  SimX (Some (Some (VPrinter p))) c d
    (mbind (eval W prim ap m e c) (fun v => mbind (set_var W c "_" v) (fun c =>
       if is_none v then ret (None, c) else mbind (printer W c p) (fun g => mbind (ap g [v] []) (fun _ => ret (None, c))))))
    (execs_ W (exec W prim ap' None) [Assign "_" (X m e); the_print] d).
Proof.
  intros p m e c d F MO C O Hp.
  eapply simx_ext; [intros s; reflexivity | intros s |].
  { instantiate (1 := mbind (eval W prim ap' None (X m e) d) (fun v => mbind (set_var W d "_" v) (fun d => execs_ W (exec W prim ap' None) [the_print] d))).
    rewrite execs_cons. unfold andthen. cbn [exec]. unfold mbind. destruct (eval W prim ap' None (X m e) d s) as [[[v|x] t]|]; try reflexivity.
    destruct d as [[n l]|]; reflexivity. }
  apply simx_bind; [apply sim_eval; assumption|]. intros v.
  apply (simx_set_at W objR hid (fun l => l) (fun _ => True) (fun _ => True) (fun _ _ _ _ H => H)); [exact C | exact I | intros _ E; discriminate E |].
  intros c1 d1 s s' C1 N1 N2 R P L. rewrite execs_one. cbn [exec the_print]. rewrite <- N2 in O.
  assert (E1 : eval W prim ap' None (NotNone (Var "_")) d1 s' = Some (Ok (VCon (CBool (negb (is_none v)))), s')).
  { cbn [eval]. unfold mbind. rewrite (owns_get _ _ _ _ O (or_intror eq_refl) L). reflexivity. }
  unfold mbind at 3. rewrite E1. cbn [truthy]. destruct (is_none v); cbn [negb].
  { exact (simx_ret W objR hid (fun l => l) (fun _ => True) _ c1 d1 None C1 s s' R P). }
  rewrite execs_one. cbn [exec eval args_ kws_].
  assert (E2 : forall K : value -> M W (option value * scope),
    mbind (mbind (get_var W d1 "theprint") (fun g => mbind (mbind (get_var W d1 "_") (fun v0 => mbind (ret [v0]) (fun vs => mbind (ret []) (fun r => ret (vs ++ r)))))
       (fun vs => mbind (ret []) (fun ks => app W ap' d1 g vs ks)))) K s' =
    mbind (mbind (printer W d1 p) (fun g => mbind (ap' g [v] []) (fun _ => ret v))) K s').
  { intros K. unfold mbind, ret. rewrite (owns_get _ _ _ _ O (or_introl eq_refl) P). rewrite (owns_get _ _ _ _ O (or_intror eq_refl) L). cbn.
    unfold mbind, ret. destruct p as [x|]; [|reflexivity]. destruct Hp as [Hp1 Hp2]. apply String.eqb_neq in Hp1, Hp2. rewrite Hp1, Hp2. reflexivity. }
  rewrite E2. clear E1 E2.
  assert (SP : Sim (printer W c1 p) (printer W d1 p)). { apply sim_printer; [exact C1|]. destruct p; [apply hid_only; tauto | exact I]. }
  assert (S3 : SimX (Some (Some (VPrinter p))) c1 d1 (mbind (printer W c1 p) (fun g => mbind (ap g [v] []) (fun _ => ret (None, c1))))
                 (mbind (printer W d1 p) (fun g => mbind (ap' g [v] []) (fun _ => ret (None, d1))))).
  { apply simx_bind; [exact SP|]. intros g. apply simx_bind; [apply HA|]. intros _. apply simx_ret. exact C1. }
  specialize (S3 s s' R P).
  match goal with |- concl _ _ _ _ _ _ _ _ _ _ _ ?b => match type of S3 with concl _ _ _ _ _ _ _ _ _ _ _ ?b2 => replace b with b2; [exact S3|] end end.
  unfold mbind, ret. destruct (printer W d1 p s') as [[[g|x] t]|]; try reflexivity. destruct (ap' g [v] [] t) as [[[w|x] t1]|]; reflexivity.
Qed.
Notation concl := (concl W objR hid (fun l => l) (fun _ => True)).
Lemma concl_none : forall K c d d' s s' s1' r r', names_of d' = names_of d -> gl W d s' s1' ->
  concl K c d' s s1' r r' -> concl None c d s s' r r'.
Proof.
  intros K c d d' s s' s1' r r' N G H. refine (concl_shift W objR hid (fun l => l) (fun _ => True) None c d c d' s s' s s1' r r' eq_refl N _ (gl_refl _ _ _) G _).
  { intros E. exfalso. apply E. reflexivity. }
  unfold DbgProofs.concl in *. destruct r as [[[[v1 c2]|x1] u]|], r' as [[[[v2 d2]|x2] u']|]; try contradiction; try exact I; try exact H.
  destruct H as (Q1 & Q2 & Q3 & Q4 & Q5 & Q6 & Q7). do 5 (split; [assumption|]). split; [|exact Q7]. intros E. exfalso. apply E. reflexivity.
Qed.
Definition exec_ok (s : stm) : Prop := forall m inb K c d, fines m inb s = true -> modeok m -> (hasnb s = true -> K = None) -> CR c d ->
  (hasnb s = true -> owns (names_of d)) -> SimX K c d (exec W prim ap m s c) (execs_ W (exec W prim ap' None) (Xs m s) d).
Lemma list_ok : forall l, Forall exec_ok l -> forall m inb K c d, forallb (fines m inb) l = true -> modeok m -> (existsb hasnb l = true -> K = None) -> CR c d ->
  (existsb hasnb l = true -> owns (names_of d)) -> SimX K c d (execs_ W (exec W prim ap m) l c) (execs_ W (exec W prim ap' None) (flat_map (Xs m) l) d).
Proof.
  intros l H m inb K c d F MO HK C HO.
  refine (simx_list W objR hid (fun l => l) (fun _ => True) _ _ (Xs m) K (fun _ => True) (fun n => existsb hasnb l = true -> owns n) l _ c d C I HO).
  rewrite Forall_forall in *. rewrite forallb_forall in F. intros s Hs c1 d1 C1 _ O1.
  assert (E : hasnb s = true -> existsb hasnb l = true). { intros E. apply existsb_exists. exists s. auto. }
  apply (H s Hs m inb); auto.
Qed.
Lemma map_flat_map : forall A B C (f : B -> C) (g : A -> list B) l, map f (flat_map g l) = flat_map (fun x => map f (g x)) l.
Proof. intros. induction l as [|a l IH]; cbn; [reflexivity|]. rewrite map_app, IH. reflexivity. Qed.
Lemma Xs_flat : forall m l, flat_map (Xs m) l = match m with None => flat_map expands l | Some p => map (transforms p) (flat_map expands l) end.
Proof. intros [p|] l; [rewrite map_flat_map|]; reflexivity. Qed.
Lemma Xs_nb : forall m p b, modeok m -> Xs m (WithNb p b) = Assign "_" (Con CNone) :: Assign "theprint" (MkPrinter p) :: flat_map (nbs m) b.
Proof.
  intros [q|] p b MO.
  - unfold Xs. cbn [expands map transforms transform]. rewrite map_flat_map. do 2 f_equal. apply flat_map_ext. intros s. destruct s; try reflexivity.
    unfold nbs, the_print. cbn [modeok] in MO. apply String.eqb_neq in MO.
    cbn [map transforms transform is_name]. rewrite (String.eqb_sym "theprint"), MO. reflexivity.
  - unfold Xs. cbn [expands]. do 2 f_equal.
Qed.
Lemma sim_exec : forall s, exec_ok s.
Proof.
  induction s using stm_induct; intros mm inb K c d F MO HK C HO.
  - replace (Xs mm (Expr e)) with [Expr (X mm e)] by (destruct mm; reflexivity).
    eapply simx_ext; [intros s; reflexivity | intros s; apply execs_one |]. cbn [exec]. apply simx_bind; [apply sim_eval; assumption|].
    intros v. apply simx_ret. exact C.
  - replace (Xs mm (Assign x e)) with [Assign x (X mm e)] by (destruct mm; reflexivity). cbn [fines] in F. ands. apply negb_true_iff, String.eqb_neq in H.
    eapply simx_ext; [intros s; reflexivity | intros s; apply execs_one |]. cbn [exec]. apply simx_bind; [apply sim_eval; assumption|].
    intros v. apply (simx_set W objR hid (fun l => l) (fun _ => True) (fun _ => True) (fun _ _ _ _ H => H)); auto. intros. apply simx_ret. assumption.
  - replace (Xs mm (Return e)) with [Return (option_map (X mm) e)] by (destruct mm, e; reflexivity).
    eapply simx_ext; [intros s; reflexivity | intros s; apply execs_one |]. cbn [exec]. apply simx_bind.
    { destruct e as [e|]; cbn; [apply sim_eval; assumption | apply sim_ret]. }
    intros v. apply simx_ret. exact C.
  - replace (Xs mm (If e a b)) with [If (X mm e) (flat_map (Xs mm) a) (flat_map (Xs mm) b)] by (rewrite !Xs_flat; destruct mm; reflexivity).
    eapply simx_ext; [intros s; reflexivity | intros s; apply execs_one |]. cbn [exec]. cbn [fines] in F. ands.
    cbn [hasnb] in HK, HO. apply simx_bind; [apply sim_eval; assumption|].
    intros v. destruct (truthy v); (eapply list_ok; [eassumption | eassumption | assumption | intros E; apply HK | assumption | intros E; apply HO]; rewrite E, ?orb_true_r; reflexivity).
  - replace (Xs mm (Def f ps b)) with [Def f ps (flat_map (Xs mm) b)] by (rewrite !Xs_flat; destruct mm; reflexivity).
    eapply simx_ext; [intros s; reflexivity | intros s; apply execs_one |]. cbn [exec]. cbn [fines] in F. ands. apply negb_true_iff in H0, H2. apply String.eqb_neq in H0.
    apply simx_bind. { apply sim_new_fun. repeat split; cbn; assumption. }
    intros v. apply (simx_set W objR hid (fun l => l) (fun _ => True) (fun _ => True) (fun _ _ _ _ H => H)); auto. intros. apply simx_ret. assumption.
  - destruct mm; [discriminate|]. cbn [fines] in F. ands. apply negb_true_iff, String.eqb_neq in H0.
    replace (Xs None (WithDbg m b)) with (flat_map (Xs (Some m)) b) by (rewrite Xs_flat; reflexivity).
    cbn [exec]. eapply list_ok; eauto.
  - specialize (HK eq_refl). specialize (HO eq_refl). subst K. rewrite Xs_nb by exact MO. cbn [fines] in F. ands. apply negb_true_iff in H0, H2.
    eapply simx_ext; [intros s; reflexivity | intros s |].
    { instantiate (1 := mbind (set_var W d "_" None_) (fun d1 => mbind (set_var W d1 "theprint" (VPrinter m)) (fun d2 => execs_ W (exec W prim ap' None) (flat_map (nbs mm) b) d2))).
      rewrite execs_cons. unfold andthen. cbn [exec eval]. unfold mbind, ret. destruct d as [[n l]|]; cbn [set_var fst snd]; rewrite execs_cons; reflexivity. }
    cbn [exec]. apply (simx_set_at W objR hid (fun l => l) (fun _ => True) (fun _ => True) (fun _ _ _ _ H => H)); [exact C | exact I | intros E; exfalso; apply E; reflexivity |].
    intros c1 d1 s s' C1 N1 N2 R _ _. rewrite <- N2 in HO.
    assert (L : forall c2 d2, CR c2 d2 -> owns (names_of d2) -> SimX (Some (Some (VPrinter m))) c2 d2
        (execs_ W (fun s c => match s with
          | Expr e => mbind (eval W prim ap mm e c) (fun v => mbind (set_var W c "_" v) (fun c =>
              if is_none v then ret (None, c) else mbind (printer W c m) (fun g => mbind (ap g [v] []) (fun _ => ret (None, c)))))
          | _ => exec W prim ap mm s c end) b c2)
        (execs_ W (exec W prim ap' None) (flat_map (nbs mm) b) d2)).
    { intros c2 d2 C2 O2. refine (simx_list W objR hid (fun l => l) (fun _ => True) _ _ (nbs mm) _ (fun _ => True) owns b _ c2 d2 C2 I O2).
      rewrite Forall_forall in *. rewrite forallb_forall in H1. intros a Ha c3 d3 C3 _ O3. specialize (H1 a Ha). pose proof (fines_true _ _ H1) as NB.
      assert (OK : SimX (Some (Some (VPrinter m))) c3 d3 (exec W prim ap mm a c3) (execs_ W (exec W prim ap' None) (Xs mm a) d3)).
      { apply (H a Ha mm true); auto; intros E; congruence. }
      destruct a; try exact OK. apply nb_expr; try assumption.
      destruct m as [x|]; [|exact I]. apply orb_false_iff in H2 as [E1 E2]. apply String.eqb_neq in E1, E2. auto. }
    destruct d1 as [[n' l']|]; destruct c1 as [[n l]|]; try contradiction; unfold mbind at 4; cbn [set_var].
    + apply (concl_none (Some (Some (VPrinter m))) _ _ (Some (n', dict_set String.eqb l' "theprint" (VPrinter m))) _ _ s'); [reflexivity | apply gl_refl |].
      apply L; [| exact HO | exact R | cbn; apply dict_get_set].
      destruct C1 as [A Nm]. split; [|exact Nm]. intros y Hy. rewrite dict_get_set_ne; [apply A; exact Hy|]. apply String.eqb_neq in Hy. exact Hy.
    + set (t := mkS (dict_set String.eqb (globals s') "theprint" (VPrinter m)) (funs s') (out s') (world s')).
      apply (concl_none (Some (Some (VPrinter m))) _ _ None _ _ t); [reflexivity | left; reflexivity |].
      apply L; [exact I | exact I | | cbn; apply dict_get_set].
      destruct R as (R1 & R2 & R3 & R4 & R5). repeat split; cbn; auto. intros y Hy. rewrite dict_get_set_ne; [apply R1; exact Hy|].
      apply String.eqb_neq in Hy. exact Hy.
Qed.
Lemma hasnb_expands : forall l m, existsb hasnb l = true -> mem "theprint" (flat_map stored (flat_map (Xs m) l)) = true /\ mem "_" (flat_map stored (flat_map (Xs m) l)) = true.
Proof.
  intros l m E. rewrite flat_map_flat_map, !mem_flat. apply existsb_exists in E as (s & Hs & E). apply stored_hasnb in E as [E1 E2].
  split; apply existsb_exists; exists s; (split; [exact Hs|]); rewrite stored_Xs1; assumption.
Qed.
Lemma sim_enter : forall f g l, objR f g -> Sim (enter W prim ap f l) (enter W prim ap' g l).
Proof.
  intros f g l (P & MG & MF & T & B). unfold enter. rewrite P, MG. destruct (fbody f) as [b|b]; destruct B as [B F]; rewrite B.
  - apply sim_eval; [exact F | exact MF|]. split; [intros x Hx; reflexivity | intros x Hx; reflexivity].
  - set (c := Some (locals_of (fps f) (BS b), l)). set (d := Some (locals_of (fps f) (BS (flat_map (Xs (fmode f)) b)), l)).
    assert (H : SimX None c d (execs W prim ap (fmode f) b c) (execs W prim ap' None (flat_map (Xs (fmode f)) b) d)).
    { unfold execs. eapply list_ok; [apply Forall_forall; intros s _; apply sim_exec | exact F | exact MF | reflexivity | |].
      - split; [intros x Hx; reflexivity|]. intros x Hx. unfold locals_of. rewrite !mem_app. f_equal. apply stored_Xs.
        apply String.eqb_neq. exact Hx.
      - intros E. apply (hasnb_expands b (fmode f)) in E as [E1 E2]. unfold d. cbn [names_of option_map fst owns]. unfold locals_of. rewrite !mem_app, E1, E2, !orb_true_r. auto. }
    intros s s' R. specialize (H s s' R I). unfold DbgProofs.concl in H. unfold mbind, ret.
    destruct (execs W prim ap (fmode f) b c s) as [[[[v1 c1]|x1] t]|], (execs W prim ap' None _ d s') as [[[[v2 d1]|x2] t']|]; try contradiction; try exact I.
    + destruct H as (<- & R' & _ & _ & _ & _ & [G|G] & [G'|G']); try discriminate. cbn [fst]. auto.
    + destruct H as (<- & R' & [G|G] & [G'|G']); try discriminate. auto.
Qed.
End Ap.
Lemma sim_call : forall n f args kws, Sim (call W prim n f args kws) (call W prim n f args kws).
Proof.
  induction n as [|n IH]; intros f args kws; destruct f; cbn [call]; try apply sim_raise;
    try (apply sim_bind; [apply sim_emit; reflexivity | intros _; apply sim_ret]).
  - intros s s' R. exact I.
  - intros s s' R. pose proof R as (_ & F & _). pose proof (Forall2_nth _ _ _ _ _ F r) as H.
    destruct (nth_error (funs s) r) as [f|], (nth_error (funs s') r) as [g|]; try contradiction; [|cbn; auto].
    pose proof H as (P & _). rewrite P. destruct (bind_args (fps f) args kws) as [l|]; [|cbn; auto].
    apply sim_enter; [exact IH | exact H | exact R].
Qed.
Lemma run_expand : forall n g p w, forallb (fines None false) p = true -> same_run (run W prim n g p w) (run W prim n g (expand_program p) w).
Proof.
  intros n g p w F.
  assert (H : SimX None None None (execs W prim (call W prim n) None p None) (execs W prim (call W prim n) None (expand_program p) None)).
  { unfold execs. change (expand_program p) with (flat_map (Xs None) p). apply (list_ok _ _ p) with (inb := false); try exact I; try (intros; exact I); [|exact F | reflexivity].
    apply Forall_forall. intros s _. apply sim_exec. apply sim_call. }
  unfold run. set (s := mkS g [] [] w).
  assert (R : rel W objR hid (fun l => l) (fun _ => True) s s). { repeat split; cbn; auto. }
  specialize (H s s R I). unfold DbgProofs.concl in H.
  destruct (execs W prim (call W prim n) None p None s) as [[[[v1 c1]|x1] t]|], (execs W prim (call W prim n) None (expand_program p) None s) as [[[[v2 d1]|x2] t']|];
    try contradiction; try exact I.
  - destruct H as (<- & (R1 & _ & R3 & R4 & _) & _). cbn. repeat split; auto. intros x Hx. apply R1. apply hid_only. exact Hx.
  - destruct H as (<- & (R1 & _ & R3 & R4 & _) & _). cbn. repeat split; auto. intros x Hx. apply R1. apply hid_only. exact Hx.
Qed.
End Run1.

(** * The program without dbg *)
Section Run2.
Variable W : Type.
Variable prim : nat -> list con -> W -> outcome con * W.
Definition mok (m : option (option string)) : Prop := m = None \/ m = Some None.
Definition objU (f g : fobj) : Prop :=
  fps g = fps f /\ fmode g = None /\ mok (fmode f) /\ mem "print" (fps f) = false /\
  match fbody f with
  | BE b => fbody g = BE (undbg b) /\ fine (fmode f) b = true /\ noprint b = true
  | BS b => fbody g = BS (map undbgs b) /\ forallb (fines (fmode f) false) b = true /\ forallb noprints b = true
  end.
Definition nohid (x : string) : bool := false.
Definition hasprint (g : list (string * value)) : Prop := dict_get String.eqb g "print" = Some VPrint.
Notation Sim := (Sim W objU nohid (flat_map plain) hasprint).
Notation SimX := (SimX W objU nohid (flat_map plain) hasprint).
Notation CR := (CR nohid).
Definition clear_ (n : option (list string)) : Prop := match n with Some n => mem "print" n = false | None => True end.
Lemma sim_ext2 : forall A (m m' n n' : M W A), (forall s, m s = n s) -> (forall s, m' s = n' s) -> Sim n n' -> Sim m m'.
Proof. intros A m m' n n' E E' H s s' R. rewrite E, E'. apply H. exact R. Qed.
Lemma sim_post : forall A B (Q : A -> Prop) (m m' : M W A) (f f' : A -> M W B), Sim m m' -> (forall s a t, m s = Some (Ok a, t) -> Q a) ->
  (forall a, Q a -> Sim (f a) (f' a)) -> Sim (mbind m f) (mbind m' f').
Proof.
  intros A B Q m m' f f' H1 HQ H2 s s' R. specialize (H1 s s' R). specialize (HQ s). unfold mbind.
  destruct (m s) as [[[a|x] t]|], (m' s') as [[[a'|x'] t']|]; try contradiction; try exact I;
    destruct H1 as (E & R' & G & G'); try discriminate E.
  - injection E as ->. specialize (H2 a' (HQ _ _ eq_refl) t t' R'). destruct (f a' t) as [[r u]|], (f' a' t') as [[r' u']|]; try contradiction; auto.
    destruct H2 as (E2 & R2 & G2 & G2'). rewrite G2, G, G2', G'. auto.
  - split; [congruence | auto].
Qed.
Lemma args_len : forall ev (args : list (bool * ex)) s vs t, forallb (fun a => negb (fst a)) args = true -> args_ W ev args s = Some (Ok vs, t) -> length vs = length args.
Proof.
  intros ev args. induction args as [|[b e] args IH]; cbn; intros s vs t E H.
  - injection H as <- <-. reflexivity.
  - ands. destruct b; [discriminate|]. unfold mbind, ret in H. destruct (ev e s) as [[[v|x] t1]|]; try discriminate.
    destruct (args_ W ev args t1) as [[[r|x] t2]|] eqn:A; try discriminate. injection H as <- <-. cbn. f_equal. eapply IH; eauto.
Qed.
Lemma sim_silent : forall v (a : value), (forall l, flat_map plain (l ++ [v]) = flat_map plain l) -> Sim (mbind (emit W v) (fun _ => ret a)) (ret a).
Proof.
  intros v a H s s' (R1 & R2 & R3 & R4 & R5). cbn. split; [reflexivity|]. split; [|auto]. repeat split; cbn; auto. rewrite H. exact R3.
Qed.
Lemma pp_both : forall A (P : ex -> Prop) (p q : ex -> bool) (l : list (A * ex)), PP (fun e => p e = true -> q e = true -> P e) l ->
  forallb (fun a => q (snd a)) l = true -> PP (fun e => p e = true -> P e) l.
Proof. intros A P p q l H E. unfold PP in *. rewrite Forall_forall in *. rewrite forallb_forall in E. auto. Qed.
Section Ap.
Variables ap ap' : value -> list value -> list (string * value) -> M W value.
Hypothesis HA : forall f args kws, Sim (ap f args kws) (ap' f args kws).
Hypothesis HP : forall args kws s, ap' VPrint args kws s = mbind (emit W (Printed args kws)) (fun _ => ret None_) s.
Lemma sim_undbg : forall e m c d, mok m -> fine m e = true -> noprint e = true -> CR c d -> clear_ (names_of c) ->
  Sim (eval W prim ap m e c) (eval W prim ap' None (undbg e) d).
Proof.
  induction e using ex_induct; intros mm c d MO F NP C N; cbn [undbg].
  - apply sim_ret.
  - apply sim_get; [exact C | reflexivity].
  - cbn [eval]. cbn [fine noprint] in F, NP. apply sim_bind; [|intros vs; apply sim_prim]. apply sim_evals.
    induction H; cbn in *; constructor; ands; auto.
  - cbn [eval]. cbn [fine noprint] in F, NP. ands. apply sim_bind; [auto|]. intros v. destruct (truthy v); auto.
  - cbn [eval]. cbn [fine noprint] in F, NP. ands. apply sim_new_fun. apply negb_true_iff in H. repeat split; cbn; auto.
  - cbn [fine noprint] in F, NP. ands.
    assert (HArgs : Sim (args_ W (fun e => eval W prim ap mm e c) args) (args_ W (fun e => eval W prim ap' None e d) (map (fun a => (fst a, undbg (snd a))) args))).
    { apply sim_args. refine (pp_args _ (fun e e' => Sim (eval W prim ap mm e c) (eval W prim ap' None e' d)) (fine mm) undbg args _ H7).
      apply pp_both with (q := noprint); [|assumption]. eapply pp_weak; [exact H|]. auto. }
    assert (HKws : Sim (kws_ W (fun e => eval W prim ap mm e c) kws) (kws_ W (fun e => eval W prim ap' None e d) (map (fun a => (fst a, undbg (snd a))) kws))).
    { apply sim_kws. refine (pp_args _ (fun e e' => Sim (eval W prim ap mm e c) (eval W prim ap' None e' d)) (fine mm) undbg kws _ H6).
      apply pp_both with (q := noprint); [|assumption]. eapply pp_weak; [exact H0|]. auto. }
    assert (G : Sim (mbind (eval W prim ap mm e c) (fun g => mbind (args_ W (fun e => eval W prim ap mm e c) args) (fun vs =>
                  mbind (kws_ W (fun e => eval W prim ap mm e c) kws) (fun ks => app W ap c g vs ks))))
                (eval W prim ap' None (Call ln (undbg e) (map (fun a => (fst a, undbg (snd a))) args) (map (fun a => (fst a, undbg (snd a))) kws)) d)).
    { cbn [eval]. apply sim_bind; [auto|]. intros g. apply sim_bind; [auto|]. intros vs. apply sim_bind; [auto|]. intros ks.
      apply sim_app; [exact HA | reflexivity | exact C]. }
    destruct MO as [-> | ->]; [exact G|]. destruct (is_name "print" e) eqn:Nm.
    2:{ cbn [eval]. rewrite Nm. exact G. }
    clear G. cbn [eval]. rewrite Nm. destruct e; try discriminate Nm. cbn in Nm. apply String.eqb_eq in Nm as ->.
    change (forallb (fun a : bool * ex => negb (fst a) && nodbg (snd a)) args = true) in H5.
    assert (ST : forallb (fun a : bool * ex => negb (fst a)) args = true).
    { clear -H5. induction args as [|a l IH]; cbn in *; [reflexivity|]. ands. rewrite H. auto. }
    eapply sim_ext2; [intros s | intros s; reflexivity |].
    { etransitivity; [|refine (shown_args W _ _ args (fun es vs => mbind (kws_ W (fun e => eval W prim ap (Some None) e c) kws) (fun ks =>
          mbind (emit W (DbgOut ln (combine es vs) ks)) (fun _ => ret None_))) s ST)].
      apply mbind_ext. intros l t. rewrite combine_fst_snd. reflexivity. }
    assert (S2 : Sim (mbind (args_ W (fun e => eval W prim ap (Some None) e c) args) (fun vs => mbind (kws_ W (fun e => eval W prim ap (Some None) e c) kws) (fun ks =>
          mbind (emit W (DbgOut ln (combine (map snd args) vs) ks)) (fun _ => ret None_))))
        (mbind (args_ W (fun e => eval W prim ap' None e d) (map (fun a => (fst a, undbg (snd a))) args)) (fun vs =>
          mbind (kws_ W (fun e => eval W prim ap' None e d) (map (fun a => (fst a, undbg (snd a))) kws)) (fun ks => ap' VPrint vs ks)))).
    { apply sim_post with (Q := fun vs => length vs = length args); [exact HArgs | intros s a t; apply args_len; exact ST |].
      intros vs L. apply sim_bind; [exact HKws|]. intros ks. eapply sim_ext2; [intros s; reflexivity | intros s; apply HP |].
      apply sim_bind; [|intros _; apply sim_ret]. apply sim_emit. intros l. rewrite flat_map_app. cbn. do 4 f_equal.
      clear -L. assert (L2 : length (map snd args) = length vs) by (rewrite map_length; auto). clear L. revert vs L2.
      induction (map snd args) as [|a l IH]; intros [|v vs] E; cbn in *; try discriminate; [reflexivity|]. f_equal. apply IH. congruence. }
    intros s s' R. pose proof R as (G & _ & _ & _ & IV). specialize (S2 s s' R).
    cbn [undbg eval].
    assert (GV : get_var W d "print" s' = Some (Ok VPrint, s')).
    { unfold get_var. specialize (G "print" eq_refl). rewrite IV in G. rewrite G.
      destruct c as [[n v]|], d as [[n' v']|]; try contradiction; [|reflexivity]. destruct C as [A Nn]. rewrite (Nn "print" eq_refl). change (mem "print" n = false) in N. rewrite N. reflexivity. }
    assert (GB : forall B (k : value -> M W B), mbind (get_var W d "print") k s' = k VPrint s') by (intros B k; unfold mbind; rewrite GV; reflexivity).
    rewrite GB. exact S2.
  - cbn [eval]. cbn [fine noprint] in F, NP. apply sim_bind; [|intros vs; apply sim_ret]. apply sim_args.
    refine (pp_args _ (fun e e' => Sim (eval W prim ap mm e c) (eval W prim ap' None e' d)) (fine mm) undbg l _ F).
    apply pp_both with (q := noprint); [|assumption]. eapply pp_weak; [exact H|]. auto.
  - cbn [eval]. cbn [fine noprint] in F, NP. ands. eapply sim_ext2; [intros s; reflexivity | intros s |].
    { instantiate (1 := mbind (eval W prim ap' None (undbg e) d) ret). unfold mbind, ret. destruct (eval W prim ap' None (undbg e) d s) as [[[v|x] t]|]; reflexivity. }
    apply sim_bind; [auto|]. intros v. apply sim_silent. intros l. rewrite flat_map_app. cbn. apply app_nil_r.
  - discriminate F.
  - discriminate F.
  - discriminate F.
  - discriminate F.
  - discriminate F.
Qed.
Notation concl := (concl W objU nohid (flat_map plain) hasprint).
Lemma okprint : forall g x v, x <> "print" -> hasprint g -> hasprint (dict_set String.eqb g x v).
Proof. intros g x v N H. unfold hasprint. rewrite dict_get_set_ne; [exact H | congruence]. Qed.
Definition exec_u (s : stm) : Prop := forall m inb c d, mok m -> fines m inb s = true -> noprints s = true -> CR c d -> clear_ (names_of c) ->
  SimX None c d (exec W prim ap m s c) (exec W prim ap' None (undbgs s) d).
Lemma flat_one : forall A B (f : A -> B) l, flat_map (fun s => [f s]) l = map f l.
Proof. intros. induction l as [|a l IH]; cbn; congruence. Qed.
Lemma list_u : forall ex ex' l, Forall (fun s => forall c d, CR c d -> clear_ (names_of c) -> SimX None c d (ex s c) (ex' (undbgs s) d)) l ->
  forall c d, CR c d -> clear_ (names_of c) -> SimX None c d (execs_ W ex l c) (execs_ W ex' (map undbgs l) d).
Proof.
  intros ex ex' l H c d C N. rewrite <- flat_one.
  refine (simx_list W objU nohid (flat_map plain) hasprint _ _ (fun s => [undbgs s]) None clear_ (fun _ => True) l _ c d C N I).
  eapply Forall_impl; [|exact H]. intros s Hs c1 d1 C1 N1 _. eapply simx_ext; [intros t; reflexivity | intros t; apply execs_one |]. apply Hs; assumption.
Qed.
Lemma list_u2 : forall l, Forall exec_u l -> forall m inb c d, mok m -> forallb (fines m inb) l = true -> forallb noprints l = true -> CR c d -> clear_ (names_of c) ->
  SimX None c d (execs_ W (exec W prim ap m) l c) (execs_ W (exec W prim ap' None) (map undbgs l) d).
Proof.
  intros l H m inb c d MO F NP C N. apply list_u; try assumption. rewrite Forall_forall in *. rewrite forallb_forall in *. intros s Hs c1 d1 C1 N1. apply (H s Hs m inb); auto.
Qed.
Ltac setv := match goal with |- context [set_var] =>
  apply (simx_set W objU nohid (flat_map plain) hasprint (fun x => x <> "print") okprint); [assumption | | intros EE; exfalso; apply EE; reflexivity | intros c1 d1 C1 N1 _] end.
Lemma sim_undbgs : forall s, exec_u s.
Proof.
  induction s using stm_induct; intros mm inb c d MO F NP C N; cbn [undbgs]; cbn [fines noprints] in F, NP.
  - cbn [exec]. apply simx_bind; [apply sim_undbg; assumption|]. intros v. apply simx_ret. exact C.
  - cbn [exec]. ands. apply negb_true_iff, String.eqb_neq in H. apply simx_bind; [apply sim_undbg; assumption|].
    intros v. setv; [assumption|]. apply simx_ret. assumption.
  - cbn [exec]. apply simx_bind; [|intros v; apply simx_ret; exact C]. destruct e as [e|]; cbn; [apply sim_undbg; assumption | apply sim_ret].
  - cbn [exec]. ands. apply simx_bind; [apply sim_undbg; assumption|]. intros v. destruct (truthy v); eapply list_u2; eassumption.
  - cbn [exec]. ands.
    match goal with Q1 : negb (String.eqb f "print") = true, Q2 : negb (mem "print" ps) = true |- _ => apply negb_true_iff in Q1, Q2; apply String.eqb_neq in Q1 end.
    apply simx_bind. { apply sim_new_fun. repeat split; cbn; assumption. } intros v. setv; [assumption|]. apply simx_ret. assumption.
  - destruct m; [discriminate|]. destruct mm; [discriminate|]. ands. cbn [exec eval].
    eapply simx_ext; [intros s; reflexivity | intros s; reflexivity|]. unfold mbind. cbn [ret truthy].
    eapply list_u2; try eassumption. right. reflexivity.
  - cbn [exec]. ands. setv; [discriminate|]. rewrite <- N1 in N. apply list_u; try assumption.
    rewrite Forall_forall in *. rewrite forallb_forall in *. intros a Ha c2 d2 C2 N2.
    pose proof (H a Ha mm true c2 d2 MO (H1 a Ha) (NP a Ha) C2 N2) as OK. destruct a; try exact OK.
    cbn [undbgs]. specialize (H1 _ Ha). specialize (NP _ Ha). cbn [fines noprints] in H1, NP.
    apply simx_bind; [apply sim_undbg; assumption|]. intros v.
    apply (simx_set W objU nohid (flat_map plain) hasprint (fun x => x <> "print") okprint); [assumption | discriminate | intros EE; exfalso; apply EE; reflexivity |].
    intros c3 d3 C3 N3 _. destruct (is_none v); [apply simx_ret; exact C3|].
    apply simx_bind. { apply sim_printer; [exact C3|]. destruct m; reflexivity || exact I. }
    intros g. apply simx_bind; [apply HA|]. intros _. apply simx_ret. exact C3.
Qed.
Lemma stored_undbgs : forall s, stored (undbgs s) = stored s.
Proof.
  assert (L : forall l, Forall (fun s => stored (undbgs s) = stored s) l -> flat_map stored (map undbgs l) = flat_map stored l).
  { intros l H. induction H as [|a l H Hs IH]; cbn; [reflexivity|]. rewrite H, IH. reflexivity. }
  induction s using stm_induct; cbn; try reflexivity; rewrite ?L by assumption; rewrite ?app_nil_r; reflexivity.
Qed.
Lemma stored_undbg_list : forall l, flat_map stored (map undbgs l) = flat_map stored l.
Proof. induction l as [|a l IH]; cbn; [reflexivity|]. rewrite stored_undbgs, IH. reflexivity. Qed.
Lemma noprint_stored : forall l, forallb noprints l = true -> mem "print" (flat_map stored l) = false.
Proof.
  assert (G : forall s, noprints s = true -> mem "print" (stored s) = false).
  { assert (L : forall l, Forall (fun s => noprints s = true -> mem "print" (stored s) = false) l -> forallb noprints l = true -> mem "print" (flat_map stored l) = false).
    { intros l H E. rewrite mem_flat. induction H as [|a l H Hs IH]; cbn [existsb forallb] in *; [reflexivity|]. ands. rewrite H, IH by assumption. reflexivity. }
    induction s using stm_induct; cbn [noprints stored]; intros E; ands; try reflexivity.
    - apply negb_true_iff in H. unfold mem. cbn [existsb]. rewrite String.eqb_sym, H. reflexivity.
    - rewrite mem_app, !L by assumption. reflexivity.
    - apply negb_true_iff in H0. unfold mem. cbn [existsb]. rewrite String.eqb_sym, H0. reflexivity.
    - destruct m; [discriminate|]. apply L; assumption.
    - change (mem "print" (["_"] ++ flat_map stored b) = false). rewrite mem_app, L by assumption. reflexivity. }
  intros l E. rewrite mem_flat. induction l as [|a l IH]; cbn [existsb forallb] in *; [reflexivity|]. ands. rewrite G, IH by assumption. reflexivity.
Qed.
Lemma sim_enter_u : forall f g l, objU f g -> Sim (enter W prim ap f l) (enter W prim ap' g l).
Proof.
  intros f g l (P & MG & MF & T & B). unfold enter. rewrite P, MG. destruct (fbody f) as [b|b]; destruct B as (B & F & NP); rewrite B.
  - apply sim_undbg; try assumption. { split; intros x Hx; reflexivity. } cbn [names_of option_map fst clear_]. unfold locals_of. rewrite app_nil_r. exact T.
  - unfold locals_of. rewrite stored_undbg_list. set (c := Some (fps f ++ flat_map stored b, l)).
    assert (H : SimX None c c (execs W prim ap (fmode f) b c) (execs W prim ap' None (map undbgs b) c)).
    { unfold execs. eapply list_u2; [apply Forall_forall; intros s _; apply sim_undbgs | exact MF | exact F | exact NP | |].
      - split; intros x Hx; reflexivity.
      - unfold c. cbn [names_of option_map fst clear_]. rewrite mem_app, T, noprint_stored by exact NP. reflexivity. }
    intros s s' R. specialize (H s s' R I). unfold DbgProofs.concl in H. unfold mbind, ret.
    destruct (execs W prim ap (fmode f) b c s) as [[[[v1 c1]|x1] t]|], (execs W prim ap' None _ c s') as [[[[v2 d1]|x2] t']|]; try contradiction; try exact I.
    + destruct H as (<- & R' & _ & _ & _ & _ & [G|G] & [G'|G']); try discriminate. cbn [fst]. auto.
    + destruct H as (<- & R' & [G|G] & [G'|G']); try discriminate. auto.
Qed.
End Ap.
Lemma call_print : forall n args kws s, call W prim n VPrint args kws s = mbind (emit W (Printed args kws)) (fun _ => ret None_) s.
Proof. intros [|n]; reflexivity. Qed.
Lemma sim_call_u : forall n f args kws, Sim (call W prim n f args kws) (call W prim n f args kws).
Proof.
  induction n as [|n IH]; intros f args kws; destruct f; cbn [call]; try apply sim_raise;
    try (apply sim_bind; [apply sim_emit; intros l; rewrite flat_map_app; reflexivity | intros _; apply sim_ret]).
  - intros s s' R. exact I.
  - intros s s' R. pose proof R as (_ & F & _). pose proof (Forall2_nth _ _ _ _ _ F r) as H.
    destruct (nth_error (funs s) r) as [f|], (nth_error (funs s') r) as [g|]; try contradiction; [|cbn; auto].
    pose proof H as (P & _). rewrite P. destruct (bind_args (fps f) args kws) as [l|]; [|cbn; auto].
    apply sim_enter_u; [exact IH | apply call_print | exact H | exact R].
Qed.
Lemma run_undbg : forall n g p w r g1 o w1, forallb (fines None false) p = true -> forallb noprints p = true ->
  dict_get String.eqb g "print" = Some VPrint -> run W prim n g p w = Some (r, g1, o, w1) ->
  exists g2, run W prim n g (map undbgs p) w = Some (r, g2, flat_map plain o, w1) /\ forall x, dict_get String.eqb g2 x = dict_get String.eqb g1 x.
Proof.
  intros n g p w r g1 o w1 F NP HG.
  assert (H : SimX None None None (execs W prim (call W prim n) None p None) (execs W prim (call W prim n) None (map undbgs p) None)).
  { unfold execs. apply (list_u2 _ _ p) with (inb := false); try exact I; try assumption.
    - apply Forall_forall. intros s _. apply sim_undbgs; [apply sim_call_u | apply call_print].
    - left. reflexivity. }
  unfold run. set (s := mkS g [] [] w).
  assert (R : rel W objU nohid (flat_map plain) hasprint s s). { repeat split; cbn; auto. }
  specialize (H s s R I). unfold DbgProofs.concl in H.
  destruct (execs W prim (call W prim n) None p None s) as [[[[v1 c1]|x1] t]|], (execs W prim (call W prim n) None (map undbgs p) None s) as [[[[v2 d1]|x2] t']|];
    try contradiction; intros E; try discriminate E.
  - destruct H as (<- & (R1 & _ & R3 & R4 & _) & _). cbn in E |- *. injection E as <- <- <- <-. exists (globals t'). split; [|intros x; apply R1; reflexivity].
    rewrite R3, R4. reflexivity.
  - destruct H as (<- & (R1 & _ & R3 & R4 & _) & _). cbn in E |- *. injection E as <- <- <- <-. exists (globals t'). split; [|intros x; apply R1; reflexivity].
    rewrite R3, R4. reflexivity.
Qed.
End Run2.

(** * Where the documented meaning fails *)
Definition gl0 : list (string * value) := [("print", VPrint); ("xs", VTup [VCon (CInt 1); VCon (CInt 2)]); ("theprint", VCon (CInt 5)); ("value", VPrint)].
Definition p_star : list stm := [WithDbg None [Expr (Call 1 (Var "print") [(true, Var "xs")] [])]].
Definition p_text : list stm := [WithDbg None [Expr (Call 1 (Var "print") [(false, Dbg 1 (Con (CInt 3)))] [])]].
Definition p_twice : list stm := [WithDbg (Some "print") [WithDbg (Some "print") [Expr (Call 1 (Var "print") [(false, Con (CInt 3))] [])]]].
Definition p_once : list stm := [WithDbg (Some "print") [Expr (Call 1 (Var "print") [(false, Con (CInt 3))] [])]].
Definition p_nested : list stm := [WithNb (Some "other") [WithNb None [Expr (Con (CInt 3))]; Expr (Con (CInt 4))]].
Definition gl_other : list (string * value) := [("other", VCon (CInt 0))].
Definition p_value : list stm := [WithNb (Some "value") [Expr (Con (CInt 3))]].
Definition p_clobber : list stm := [WithNb None []; Return (Some (Var "theprint"))].
Section Ref.
Variable W : Type.
Variable prim : nat -> list con -> W -> outcome con * W.
Lemma star_refuted : forall n w, exists g1 o g2,
  run W prim n gl0 (expand_program p_star) w = Some (Ok None, g1, o, w) /\ flat_map plain o = [Printed [VCon (CInt 1)] []] /\
  run W prim n gl0 (map undbgs p_star) w = Some (Ok None, g2, [Printed [VCon (CInt 1); VCon (CInt 2)] []], w).
Proof. intros n w. destruct n; (do 3 eexists; repeat split; reflexivity). Qed.
Lemma text_refuted : forall n w, exists g1 g2 t,
  run W prim n gl0 p_text w = Some (Ok None, g1, [DbgVal 1 (Con (CInt 3)) (VCon (CInt 3)); DbgOut 1 [(Dbg 1 (Con (CInt 3)), VCon (CInt 3))] []], w) /\
  run W prim n gl0 (expand_program p_text) w = Some (Ok None, g2, [DbgVal 1 (Con (CInt 3)) (VCon (CInt 3)); DbgOut 1 [(t, VCon (CInt 3))] []], w) /\
  t <> Dbg 1 (Con (CInt 3)).
Proof. intros n w. do 3 eexists. split; [reflexivity|]. split; [reflexivity|]. discriminate. Qed.
Lemma twice_refuted : forall n w, ~ same_run (run W prim n gl0 p_twice w) (run W prim n gl0 (expand_program p_twice) w).
Proof. intros n w H. destruct n; cbn in H; destruct H as (_ & H & _); discriminate H. Qed.
Lemma nested_refuted : forall n w, exists g1 g2,
  run W prim n gl_other p_nested w = Some (Raise TypeError, g1, [Printed [VCon (CInt 3)] []], w) /\
  run W prim n gl_other (expand_program p_nested) w = Some (Ok None, g2, [Printed [VCon (CInt 3)] []; Printed [VCon (CInt 4)] []], w).
Proof. intros n w. destruct n; (do 2 eexists; split; reflexivity). Qed.
Lemma value_refuted : forall n w, exists g1 g2,
  run W prim n gl0 p_value w = Some (Ok None, g1, [Printed [VCon (CInt 3)] []], w) /\
  run W prim n gl0 (expand_program p_value) w = Some (Raise TypeError, g2, [], w).
Proof. intros n w. destruct n; (do 2 eexists; split; reflexivity). Qed.
Lemma clobber_refuted : forall n w, exists g1 g2,
  run W prim n gl0 p_clobber w = Some (Ok (Some (VCon (CInt 5))), g1, [], w) /\
  run W prim n gl0 (expand_program p_clobber) w = Some (Ok (Some (VPrinter None)), g2, [], w).
Proof. intros n w. do 2 eexists; split; reflexivity. Qed.
Lemma run_both : forall n g p w r g1 o w1, forallb (fines None false) p = true -> forallb noprints p = true ->
  dict_get String.eqb g "print" = Some VPrint -> run W prim n g (expand_program p) w = Some (r, g1, o, w1) ->
  exists g2, run W prim n g (map undbgs p) w = Some (r, g2, flat_map plain o, w1) /\
    forall x, x <> "theprint" -> dict_get String.eqb g2 x = dict_get String.eqb g1 x.
Proof.
  intros n g p w r g1 o w1 F NP HG H. pose proof (run_expand W prim n g p w F) as E. rewrite H in E.
  destruct (run W prim n g p w) as [[[[r0 g0] o0] w0]|] eqn:R; [|contradiction]. destruct E as (-> & -> & -> & E).
  destruct (run_undbg W prim n g p w _ _ _ _ F NP HG R) as (g2 & H2 & G). exists g2. split; [exact H2|]. intros x Hx. rewrite G, E by exact Hx. reflexivity.
Qed.
End Ref.
Lemma printer_value : forall W ap c p (v r : value) (s t : st W), app W ap c (VPrinter p) [v] [] s = Some (Ok r, t) -> r = v.
Proof.
  intros W ap c p v r s t H. cbn in H. unfold mbind, ret in H.
  repeat match goal with H : context [match ?x with _ => _ end] |- _ => destruct x; try discriminate end; congruence.
Qed.
