(** Proofs about autoref: the expanded program does what the specification says. *)
From Coq Require Import String List Bool Arith Lia.
From Verif Require Import Base ArefModel ArefSpec.
Import ListNotations.
Open Scope string_scope.
Open Scope list_scope.
Open Scope nat_scope.

(** ** All the blocks around a piece of code *)
(** The transformers of the blocks [bs] around an expression, the innermost first; [acc] are
    the markers between it and the block. *)
Fixpoint Te (acc bs : list var) (t : term) : term :=
  match bs with
  | [] => t
  | o :: bs' => Te (o :: acc) bs' (tre ((always_skip ++ [o]) ++ acc) o t)
  end.
Fixpoint Ts (acc bs : list var) (s : stmt) : stmt :=
  match bs with
  | [] => s
  | o :: bs' => Ts (o :: acc) bs' (trs ((always_skip ++ [o]) ++ acc) o s)
  end.

Lemma Te_num bs : forall acc k, Te acc bs (ENum k) = ENum k.
Proof. induction bs; intros; cbn; [reflexivity|apply IHbs]. Qed.
Lemma Te_attr bs : forall acc e a, Te acc bs (EAttr e a) = EAttr (Te acc bs e) a.
Proof. induction bs as [|o bs IH]; intros; [reflexivity|]. cbn [Te tre]. apply IH. Qed.
Lemma Te_print bs : forall acc e, Te acc bs (EPrint e) = EPrint (Te acc bs e).
Proof. induction bs as [|o bs IH]; intros; [reflexivity|]. cbn [Te tre]. apply IH. Qed.
Lemma Te_lam bs : forall acc ps e, Te acc bs (ELam ps e) = ELam ps (Te acc bs e).
Proof. induction bs as [|o bs IH]; intros; [reflexivity|]. cbn [Te tre]. apply IH. Qed.
Lemma Te_call bs : forall acc f args,
  Te acc bs (ECall f args) = ECall (Te acc bs f) (map (Te acc bs) args).
Proof.
  induction bs as [|o bs IH]; intros; [cbn; now rewrite map_id|].
  cbn [Te tre]. rewrite IH, map_map. reflexivity.
Qed.
Lemma Te_obj bs : forall acc l,
  Te acc bs (EObj l) = EObj (map (fun p => (fst p, Te acc bs (snd p))) l).
Proof.
  induction bs as [|o bs IH]; intros.
  - cbn. f_equal. induction l as [|[a t] l IHl]; cbn; congruence.
  - cbn [Te tre]. rewrite IH, map_map. reflexivity.
Qed.

Lemma mem_app x l m : mem x (l ++ m) = mem x l || mem x m.
Proof. apply existsb_app. Qed.
Lemma mem_one x o : mem x [o] = var_eqb (U x) o.
Proof. unfold mem; cbn. apply orb_false_r. Qed.
Lemma mem_cons x o l : mem x (o :: l) = var_eqb (U x) o || mem x l.
Proof. reflexivity. Qed.

Lemma Te_name_in bs : forall acc x, mem x always_skip || mem x acc = true ->
  Te acc bs (EName x) = EName x.
Proof.
  induction bs as [|o bs IH]; intros acc x Hm; [reflexivity|].
  cbn [Te tre]. rewrite !mem_app, mem_one.
  replace (mem x always_skip || var_eqb (U x) o || mem x acc) with true.
  - apply IH. rewrite mem_cons.
    destruct (mem x always_skip), (var_eqb (U x) o), (mem x acc); try reflexivity; exact Hm.
  - destruct (mem x always_skip), (var_eqb (U x) o), (mem x acc); try reflexivity; discriminate.
Qed.
Lemma Te_ref bs : forall acc l x, mem x always_skip || mem x acc = false ->
  Te acc bs (ERef l x) = if mem x bs then EName x else ERef (l ++ bs) x.
Proof.
  induction bs as [|o bs IH]; intros acc l x Hm; [cbn; now rewrite app_nil_r|].
  apply orb_false_iff in Hm as [H1 H2].
  cbn [Te tre]. rewrite !mem_app, mem_one, H1, H2, mem_cons. cbn [orb].
  rewrite orb_false_r. destruct (var_eqb (U x) o) eqn:E; cbn [orb].
  - apply Te_name_in. rewrite mem_cons, E. apply orb_true_r.
  - rewrite IH; [now rewrite <- app_assoc|]. rewrite mem_cons, E, H1, H2. reflexivity.
Qed.
Lemma Te_name bs acc x : mem x always_skip || mem x acc = false ->
  Te acc bs (EName x) =
  match bs with [] => EName x | _ => if mem x bs then EName x else ERef bs x end.
Proof.
  intros Hm. destruct bs as [|o bs]; [reflexivity|].
  pose proof Hm as Hm'. apply orb_false_iff in Hm as [H1 H2].
  cbn [Te tre]. rewrite !mem_app, mem_one, H1, H2, mem_cons. cbn [orb].
  rewrite orb_false_r. destruct (var_eqb (U x) o) eqn:E; cbn [orb].
  - apply Te_name_in. rewrite mem_cons, E. apply orb_true_r.
  - rewrite Te_ref; [reflexivity|]. rewrite mem_cons, E, H1, H2. reflexivity.
Qed.

(** Statements *)
Lemma Ts_expr bs : forall acc e, Ts acc bs (SExpr e) = SExpr (Te acc bs e).
Proof. induction bs as [|o bs IH]; intros; [reflexivity|]. cbn [Te Ts trs]. apply IH. Qed.
Lemma Ts_assign bs : forall acc x e, Ts acc bs (SAssign x e) = SAssign x (Te acc bs e).
Proof. induction bs as [|o bs IH]; intros; [reflexivity|]. cbn [Te Ts trs]. apply IH. Qed.
Lemma Ts_return bs : forall acc e, Ts acc bs (SReturn e) = SReturn (Te acc bs e).
Proof. induction bs as [|o bs IH]; intros; [reflexivity|]. cbn [Te Ts trs]. apply IH. Qed.
Lemma Ts_setattr bs : forall acc t a v,
  Ts acc bs (SSetAttr t a v) = SSetAttr t a (Te acc bs v).
Proof. induction bs as [|o bs IH]; intros; [reflexivity|]. cbn [Te Ts trs]. apply IH. Qed.
Lemma Ts_if bs : forall acc c a b,
  Ts acc bs (SIf c a b) = SIf (Te acc bs c) (map (Ts acc bs) a) (map (Ts acc bs) b).
Proof.
  induction bs as [|o bs IH]; intros; [cbn; now rewrite !map_id|].
  cbn [Te Ts trs]. rewrite IH, !map_map. reflexivity.
Qed.
Lemma Ts_while bs : forall acc c b,
  Ts acc bs (SWhile c b) = SWhile (Te acc bs c) (map (Ts acc bs) b).
Proof.
  induction bs as [|o bs IH]; intros; [cbn; now rewrite !map_id|].
  cbn [Te Ts trs]. rewrite IH, !map_map. reflexivity.
Qed.
Lemma Ts_def bs : forall acc f ps b,
  Ts acc bs (SDef f ps b) = SDef f ps (map (Ts acc bs) b).
Proof.
  induction bs as [|o bs IH]; intros; [cbn; now rewrite !map_id|].
  cbn [Te Ts trs]. rewrite IH, !map_map. reflexivity.
Qed.
Lemma Ts_mark bs : forall acc v e b,
  Ts acc bs (SMark v e b) = SMark v (Te (acc ++ [v]) bs e) (map (Ts (acc ++ [v]) bs) b).
Proof.
  induction bs as [|o bs IH]; intros; [cbn; now rewrite !map_id|].
  cbn [Te Ts trs]. rewrite IH, !map_map, <- !app_assoc. reflexivity.
Qed.

(** A name that an expression does not mention need not be exempt there. *)
Section TermInd.
  Variable P : term -> Prop.
  Hypothesis Hnum : forall k, P (ENum k).
  Hypothesis Hname : forall x, P (EName x).
  Hypothesis Hattr : forall e a, P e -> P (EAttr e a).
  Hypothesis Hcall : forall f args, P f -> Forall P args -> P (ECall f args).
  Hypothesis Hlam : forall ps b, P b -> P (ELam ps b).
  Hypothesis Hobj : forall l, Forall (fun p => P (snd p)) l -> P (EObj l).
  Hypothesis Hprint : forall e, P e -> P (EPrint e).
  Hypothesis Href : forall l x, P (ERef l x).
  Fixpoint term_ind' (t : term) : P t :=
    match t with
    | ENum k => Hnum k
    | EName x => Hname x
    | EAttr e a => Hattr e a (term_ind' e)
    | ECall f args =>
        Hcall f args (term_ind' f)
          ((fix go (l : list term) : Forall P l :=
              match l with
              | [] => Forall_nil _
              | t :: l' => Forall_cons _ (term_ind' t) (go l')
              end) args)
    | ELam ps b => Hlam ps b (term_ind' b)
    | EObj l =>
        Hobj l
          ((fix go (l : list (string * term)) : Forall (fun p => P (snd p)) l :=
              match l with
              | [] => Forall_nil _
              | p :: l' => Forall_cons p (term_ind' (snd p)) (go l')
              end) l)
    | EPrint e => Hprint e (term_ind' e)
    | ERef l x => Href l x
    end.
End TermInd.

Lemma var_eqb_eq a b : var_eqb a b = true <-> a = b.
Proof.
  destruct a, b; cbn; try (split; congruence).
  - rewrite String.eqb_eq. split; congruence.
  - rewrite Nat.eqb_eq. split; congruence.
Qed.
Lemma mem_In x l : mem x l = true <-> In (U x) l.
Proof.
  unfold mem. rewrite existsb_exists. split.
  - intros (y & Hy & E). apply var_eqb_eq in E. now subst.
  - intros Hy. exists (U x). split; [exact Hy|]. now apply var_eqb_eq.
Qed.

Lemma Te_unused bs v t :
  source_term t -> (forall x, v = U x -> ~ In x (names t)) -> Te [v] bs t = Te [] bs t.
Proof.
  induction t using term_ind'; intros Hs Hv.
  - now rewrite !Te_num.
  - destruct (mem x always_skip) eqn:E1.
    + rewrite !Te_name_in; [reflexivity|now rewrite E1|now rewrite E1].
    + assert (E2 : mem x [v] = false).
      { destruct (mem x [v]) eqn:E; [|reflexivity]. apply mem_In in E as [E|[]].
        exfalso. apply (Hv x); [now symmetry|now left]. }
      rewrite !Te_name; [reflexivity|now rewrite E1|now rewrite E1, E2].
  - rewrite !Te_attr. f_equal. now apply IHt.
  - rewrite !Te_call. destruct Hs as [Hf Ha]. f_equal.
    + apply IHt; [exact Hf|]. intros x E I. apply (Hv x E). cbn. apply in_or_app. now left.
    + assert (Hv' : forall x, v = U x -> ~ In x (flat_map names args)).
      { intros x E I. apply (Hv x E). cbn. apply in_or_app. now right. }
      clear Hv Hf IHt. induction args as [|a args IHa]; [reflexivity|].
      cbn in *. destruct Ha as [H1 H2]. f_equal.
      * apply (Forall_inv H); [exact H1|]. intros x E I. apply (Hv' x E), in_or_app. now left.
      * apply IHa; [exact (Forall_inv_tail H)|exact H2|].
        intros x E I. apply (Hv' x E), in_or_app. now right.
  - rewrite !Te_lam. f_equal. now apply IHt.
  - rewrite !Te_obj. f_equal. cbn in Hs, Hv.
    induction l as [|[a e] l IHl]; [reflexivity|].
    cbn in *. destruct Hs as [H1 H2]. f_equal.
    + f_equal. apply (Forall_inv H); [exact H1|].
      intros x E I. apply (Hv x E), in_or_app. now left.
    + apply IHl; [exact (Forall_inv_tail H)|exact H2|].
      intros x E I. apply (Hv x E), in_or_app. now right.
  - rewrite !Te_print. f_equal. now apply IHt.
  - destruct Hs.
Qed.

(** ** The simulation *)
Definition inside (bs : list var) : bool := match bs with [] => false | _ => true end.
Definition good (bs : list var) (b : list stmt) : Prop :=
  fold_right (fun s P => source (inside bs) s /\ P) True b.
Definition compile (bs : list var) (b : list stmt) : list stmt := map (Ts [] bs) (map expand b).

Definition clo_rel (c : clo) (s : sclo) : Prop :=
  let bs := s_blocks s in
  c_scopes c = c_scopes (s_clo s) /\ c_params c = c_params (s_clo s) /\
  match c_body (s_clo s) with
  | inl e => source_term e /\ c_body c = inl (Te [] bs e)
  | inr b => good bs b /\ c_body c = inr (compile bs b)
  end.
Definition wrel (w : world clo) (w' : world sclo) : Prop :=
  objs w = objs w' /\ scopes w = scopes w' /\ out w = out w' /\
  Forall2 clo_rel (funs w) (funs w').
Definition rrel {A} (r : res clo A) (r' : res sclo A) : Prop :=
  match r, r' with
  | None, None => True
  | Some (o, w), Some (o', w') => o = o' /\ wrel w w'
  | _, _ => False
  end.

Lemma rrel_bind {A B} (r : res clo A) r' (k : A -> world clo -> res clo B) k' :
  rrel r r' -> (forall v w w', wrel w w' -> rrel (k v w) (k' v w')) ->
  rrel (bind r k) (bind r' k').
Proof.
  intros Hr Hk. destruct r as [[[v|e] w]|], r' as [[[v'|e'] w']|]; cbn in Hr |- *;
    try contradiction; try exact I.
  - destruct Hr as [E W]. injection E as <-. now apply Hk.
  - destruct Hr; discriminate.
  - destruct Hr; discriminate.
  - destruct Hr as [E W]. injection E as <-. split; [reflexivity|exact W].
Qed.
Lemma rrel_ret {A} (v : A) w w' : wrel w w' -> rrel (ret v w) (ret v w').
Proof. intros W. split; [reflexivity|exact W]. Qed.
Lemma rrel_raise {A} e w w' : wrel w w' -> rrel (@raise clo A e w) (raise e w').
Proof. intros W. split; [reflexivity|exact W]. Qed.

Lemma lookup_rel w w' : wrel w w' -> forall ch x, lookup w ch x = lookup w' ch x.
Proof.
  intros (_ & Hs & _) ch x. induction ch as [|i ch IH]; [reflexivity|].
  cbn. rewrite Hs, IH. reflexivity.
Qed.
Lemma attr_rel w w' v a : wrel w w' -> attr w v a = attr w' v a.
Proof. intros (Ho & _). unfold attr. now rewrite Ho. Qed.
Lemma read_rel w w' ch x : wrel w w' -> rrel (read w ch x) (read w' ch x).
Proof.
  intros W. unfold read. rewrite (lookup_rel _ _ W).
  destruct (lookup w' ch x); [now apply rrel_ret|now apply rrel_raise].
Qed.
Lemma reads_rel ch l : forall w w', wrel w w' -> rrel (reads w ch l) (reads w' ch l).
Proof.
  induction l as [|x l IH]; intros w w' W; cbn [reads]; [now apply rrel_ret|].
  apply rrel_bind; [now apply read_rel|]. intros v u u' W1.
  apply rrel_bind; [now apply IH|]. intros vs t t' W2. now apply rrel_ret.
Qed.
Lemma assign_rel w w' ch x v : wrel w w' -> wrel (assign w ch x v) (assign w' ch x v).
Proof.
  intros W. destruct ch as [|i ch]; [exact W|]. destruct W as (Ho & Hs & Hp & Hf).
  unfold assign, wrel; cbn. rewrite Hs. auto.
Qed.
Lemma set_attr_rel w w' o a v : wrel w w' ->
  match set_attr w o a v, set_attr w' o a v with
  | Some u, Some u' => wrel u u'
  | None, None => True
  | _, _ => False
  end.
Proof.
  intros (Ho & Hs & Hp & Hf). destruct o; cbn; try exact I. unfold wrel; cbn.
  rewrite Ho. auto.
Qed.
Lemma new_fun_rel w w' c s : wrel w w' -> clo_rel c s ->
  fst (new_fun w c) = fst (new_fun w' s) /\ wrel (snd (new_fun w c)) (snd (new_fun w' s)).
Proof.
  intros (Ho & Hs & Hp & Hf) Hc. unfold new_fun, wrel; cbn. split.
  - f_equal. clear -Hf. induction Hf; cbn; congruence.
  - repeat split; try assumption. apply Forall2_app; [exact Hf|]. constructor; auto.
Qed.
Lemma new_obj_rel w w' l : wrel w w' ->
  fst (new_obj w l) = fst (new_obj w' l) /\ wrel (snd (new_obj w l)) (snd (new_obj w' l)).
Proof.
  intros (Ho & Hs & Hp & Hf). unfold new_obj, wrel; cbn. rewrite Ho. auto.
Qed.
Lemma new_scope_rel w w' l : wrel w w' ->
  fst (new_scope w l) = fst (new_scope w' l) /\ wrel (snd (new_scope w l)) (snd (new_scope w' l)).
Proof.
  intros (Ho & Hs & Hp & Hf). unfold new_scope, wrel; cbn. rewrite Hs. auto.
Qed.
Lemma print_rel w w' v : wrel w w' -> wrel (print w v) (print w' v).
Proof. intros (Ho & Hs & Hp & Hf). unfold print, wrel; cbn. rewrite Hp. auto. Qed.
Lemma nth_rel w w' i : wrel w w' ->
  match nth_error (funs w) i, nth_error (funs w') i with
  | Some c, Some s => clo_rel c s
  | None, None => True
  | _, _ => False
  end.
Proof.
  intros (_ & _ & _ & Hf). revert i. induction Hf; intros [|i]; cbn; auto.
  apply IHHf.
Qed.

(** A name *)
Lemma skip_reserved x : mem x always_skip = existsb (String.eqb x) reserved.
Proof. reflexivity. Qed.
Lemma exempt_mem bs x : exemptb bs x = mem x always_skip || mem x bs.
Proof. reflexivity. Qed.
Lemma resolve_find {C} (w : world C) os x :
  resolve w os x =
  match find (fun o => match attr w o x with Some _ => true | None => false end) os with
  | Some o => attr w o x
  | None => None
  end.
Proof.
  induction os as [|o os IH]; [reflexivity|]. cbn.
  destruct (attr w o x) eqn:E; [now rewrite E|exact IH].
Qed.
Lemma resolve_rel w w' os x : wrel w w' -> resolve w os x = resolve w' os x.
Proof.
  intros W. induction os as [|o os IH]; [reflexivity|]. cbn.
  rewrite (attr_rel _ _ _ _ W), IH. reflexivity.
Qed.
Lemma name_rel n bs ch w w' x : wrel w w' ->
  rrel (eval (S n) ch w (Te [] bs (EName x))) (name w' ch bs x).
Proof.
  intros W. unfold name. rewrite exempt_mem.
  destruct (mem x always_skip) eqn:E1; cbn [orb].
  - rewrite Te_name_in by (now rewrite E1). cbn [eval]. now apply read_rel.
  - rewrite Te_name by (now rewrite E1). destruct bs as [|o bs].
    + cbn. now apply read_rel.
    + destruct (mem x (o :: bs)) eqn:E2; [cbn [eval]; now apply read_rel|].
      cbn [eval]. apply rrel_bind; [now apply reads_rel|].
      intros os u u' W'. rewrite (resolve_rel _ _ _ _ W'), resolve_find.
      destruct (find _ os) as [o'|]; [|now apply read_rel].
      destruct (attr u' o' x); [now apply rrel_ret|now apply read_rel].
Qed.

Lemma source_terms l :
  fold_right (fun t P => source_term t /\ P) True l <-> Forall source_term l.
Proof.
  induction l as [|t l IH]; cbn; [split; auto|]. rewrite IH, Forall_cons_iff. reflexivity.
Qed.
Lemma source_pairs (l : list (string * term)) :
  fold_right (fun p P => source_term (snd p) /\ P) True l <-> Forall source_term (map snd l).
Proof.
  induction l as [|t l IH]; cbn; [split; auto|]. rewrite IH, Forall_cons_iff. reflexivity.
Qed.
Lemma Te_nil t : forall acc, Te acc [] t = t.
Proof. reflexivity. Qed.


Lemma good_cons bs s b : good bs (s :: b) <-> source (inside bs) s /\ good bs b.
Proof. reflexivity. Qed.
Lemma compile_cons bs s b : compile bs (s :: b) = Ts [] bs (expand s) :: compile bs b.
Proof. reflexivity. Qed.

Lemma simulation n :
  (forall bs ch w w' t, wrel w w' -> source_term t ->
     rrel (eval n ch w (Te [] bs t)) (seval false n bs ch w' t)) /\
  (forall bs ch w w' l, wrel w w' -> Forall source_term l ->
     rrel (evals n ch w (map (Te [] bs) l)) (sevals false n bs ch w' l)) /\
  (forall w w' f args, wrel w w' -> rrel (call n w f args) (scall false n w' f args)) /\
  (forall bs ch w w' b, wrel w w' -> good bs b ->
     rrel (exec n ch w (compile bs b)) (sexec false n bs ch w' b)).
Proof.
  induction n as [|n (IHe & IHl & IHc & IHx)]; [repeat split; intros; exact I|].
  split; [|split; [|split]].
  - intros bs ch w w' t W Hs. destruct t.
    + rewrite Te_num. cbn. now apply rrel_ret.
    + cbn [seval]. now apply name_rel.
    + rewrite Te_attr. cbn [eval seval]. apply rrel_bind; [now apply IHe|].
      intros v u u' W'. rewrite (attr_rel _ _ _ _ W').
      destruct (attr u' v a); [now apply rrel_ret|now apply rrel_raise].
    + rewrite Te_call. cbn [eval seval]. destruct Hs as [Hf Ha]. apply source_terms in Ha.
      apply rrel_bind; [now apply IHe|]. intros v u u' W1.
      apply rrel_bind; [now apply IHl|]. intros vs x x' W2. now apply IHc.
    + rewrite Te_lam. cbn [eval seval].
      destruct (new_fun_rel w w' (mkclo ch ps (inl (Te [] bs t)))
                  (mksclo bs (mkclo ch ps (inl t))) W) as [E W'].
      { repeat split. exact Hs. }
      destruct (new_fun w _), (new_fun w' _). cbn in E, W'. subst. now apply rrel_ret.
    + rewrite Te_obj. cbn [eval seval]. apply source_pairs in Hs.
      rewrite !map_map. cbn [fst snd].
      replace (map (fun x => Te [] bs (snd x)) l) with (map (Te [] bs) (map snd l))
        by apply map_map.
      apply rrel_bind; [now apply IHl|]. intros vs u u' W1.
      destruct (new_obj_rel u u' (combine (map fst l) vs) W1) as [E W'].
      change (map (fun x => fst x) l) with (map fst l).
      destruct (new_obj u _), (new_obj u' _). cbn in E, W'. subst. now apply rrel_ret.
    + rewrite Te_print. cbn [eval seval]. apply rrel_bind; [now apply IHe|].
      intros v u u' W'. now apply rrel_ret, print_rel.
    + destruct Hs.
  - intros bs ch w w' l W Hs. destruct l as [|t l]; cbn; [now apply rrel_ret|].
    apply rrel_bind; [apply IHe; [exact W|exact (Forall_inv Hs)]|]. intros v u u' W1.
    apply rrel_bind; [apply IHl; [exact W1|exact (Forall_inv_tail Hs)]|].
    intros vs x x' W2. now apply rrel_ret.
  - intros w w' f args W. cbn [call scall].
    destruct f; try now apply rrel_raise.
    pose proof (nth_rel w w' i W) as Hn.
    destruct (nth_error (funs w) i) as [c|], (nth_error (funs w') i) as [[bs c']|];
      try contradiction; [|now apply rrel_raise].
    destruct Hn as (E1 & E2 & E3). cbn [s_clo s_blocks] in *. rewrite E1, E2.
    destruct (negb _); [now apply rrel_raise|].
    destruct (new_scope_rel w w' (combine (map U (c_params c')) args) W) as [E W'].
    destruct (new_scope w _) as [j u], (new_scope w' _) as [j' u']. cbn in E, W'. subst j'.
    destruct (c_body c') as [e|b]; destruct E3 as [Hs ->].
    + now apply IHe.
    + apply rrel_bind; [now apply IHx|]. intros r x x' W2. now apply rrel_ret.
  - intros bs ch w w' b W Hg. destruct b as [|s b]; [cbn; now apply rrel_ret|].
    rewrite compile_cons. apply good_cons in Hg as [Hs Hg].
    assert (Hrest : forall (r : ending) u u', wrel u u' ->
      rrel match r with Ret v => ret (Ret v) u | Next => exec n ch u (compile bs b) end
           match r with Ret v => ret (Ret v) u' | Next => sexec false n bs ch u' b end).
    { intros [|v] u u' W'; [now apply IHx|now apply rrel_ret]. }
    destruct s; cbn [expand].
    + rewrite Ts_expr. cbn [exec sexec]. apply rrel_bind; [|exact Hrest].
      apply rrel_bind; [now apply IHe|]. intros. now apply rrel_ret.
    + rewrite Ts_assign. cbn [exec sexec]. apply rrel_bind; [|exact Hrest].
      apply rrel_bind; [now apply IHe|]. intros. now apply rrel_ret, assign_rel.
    + rewrite Ts_setattr. cbn [exec sexec]. apply rrel_bind; [|exact Hrest].
      destruct Hs as [H1 H2].
      apply rrel_bind; [now apply IHe|]. intros x u u' W1.
      apply rrel_bind; [now apply (IHe [])|]. intros o y y' W2.
      pose proof (set_attr_rel y y' o a x W2) as Ha.
      destruct (set_attr y o a x), (set_attr y' o a x); try contradiction;
        [now apply rrel_ret|now apply rrel_raise].
    + rewrite Ts_if. cbn [exec sexec]. apply rrel_bind; [|exact Hrest].
      destruct Hs as (H1 & H2 & H3).
      apply rrel_bind; [now apply IHe|]. intros x u u' W1.
      destruct (truthy x); now apply IHx.
    + rewrite Ts_while. cbn [exec sexec]. apply rrel_bind; [|exact Hrest].
      pose proof Hs as [H1 H2].
      apply rrel_bind; [now apply IHe|]. intros x u u' W1.
      destruct (truthy x); [|now apply rrel_ret].
      apply rrel_bind; [now apply IHx|]. intros [|v] y y' W2; [|now apply rrel_ret].
      pose proof (IHx bs ch y y' [SWhile c b0] W2 (conj Hs I)) as Hw.
      unfold compile in Hw. cbn [map expand] in Hw. rewrite Ts_while in Hw. exact Hw.
    + rewrite Ts_def. cbn [exec sexec]. apply rrel_bind; [|exact Hrest].
      destruct (new_fun_rel w w' (mkclo ch ps (inr (compile bs b0)))
                  (mksclo bs (mkclo ch ps (inr b0))) W) as [E W'].
      { repeat split. exact Hs. }
      unfold compile in *. destruct (new_fun w _), (new_fun w' _). cbn in E, W'. subst.
      now apply rrel_ret, assign_rel.
    + rewrite Ts_return. cbn [exec sexec]. apply rrel_bind; [|exact Hrest].
      apply rrel_bind; [now apply IHe|]. intros. now apply rrel_ret.
    + rewrite Ts_mark. cbn [exec sexec app]. apply rrel_bind; [|exact Hrest].
      destruct Hs as (H1 & H2 & H3).
      change (match o with Some x => U x | None => H k end) with (blockvar k o).
      apply rrel_bind.
      * destruct bs as [|o' bs]; [now apply (IHe [])|].
        rewrite Te_unused; [now apply IHe|exact H1|].
        intros x E. destruct o as [y|]; [|discriminate E].
        injection E as ->. now apply H2.
      * intros v u u' W1.
        replace (map (Ts [blockvar k o] bs)
                   (map (trs (always_skip ++ [blockvar k o]) (blockvar k o)) (map expand b0)))
          with (compile (blockvar k o :: bs) b0).
        -- apply IHx; [now apply assign_rel|exact H3].
        -- unfold compile. rewrite !map_map. apply map_ext. intros s. cbn [Ts].
           now rewrite app_nil_r.
    + destruct Hs.
Qed.

Lemma start_rel : wrel start start.
Proof. repeat split. constructor. Qed.
Lemma good_program p : program p -> good [] p.
Proof.
  unfold program. induction p as [|s p IH]; intros Hp; [exact I|]. split.
  - apply Hp. now left.
  - apply IH. intros t Ht. apply Hp. now right.
Qed.
Lemma expand_correct n p : program p -> seen (run n (expand_all p)) = seen (srun false n p).
Proof.
  intros Hp. destruct (simulation n) as (_ & _ & _ & Hx).
  specialize (Hx [] [0] start start p start_rel (good_program p Hp)).
  unfold compile in Hx. cbn [Ts] in Hx. rewrite map_id in Hx.
  unfold run, srun, expand_all.
  destruct (exec n [0] start (map expand p)) as [[o w]|],
           (sexec false n [] [0] start p) as [[o' w']|]; cbn in Hx |- *;
    try contradiction; [|reflexivity].
  destruct Hx as (-> & Ho & Hs & Hp' & _). now rewrite Ho, Hs, Hp'.
Qed.

(** What a name means, in words. *)
Lemma exempt_iff bs x : exemptb bs x = true <-> exempt bs x.
Proof.
  unfold exemptb, exempt. rewrite orb_true_iff, !existsb_exists. split.
  - intros [(y & Hy & E)|(y & Hy & E)].
    + apply String.eqb_eq in E. subst. now left.
    + apply var_eqb_eq in E. subst. now right.
  - intros [Hy|Hy]; [left; exists x|right; exists (U x)]; split; auto.
    + apply String.eqb_refl.
    + now apply var_eqb_eq.
Qed.
Lemma name_first (w : world sclo) ch bs x before o after v :
  ~ exempt bs x -> reads w ch bs = ret (before ++ o :: after) w ->
  (forall o', In o' before -> attr w o' x = None) -> attr w o x = Some v ->
  name w ch bs x = ret v w.
Proof.
  intros He Hr Hb Ho. unfold name. destruct (exemptb bs x) eqn:E.
  { exfalso. now apply He, exempt_iff. }
  rewrite Hr. cbn [bind ret]. clear Hr.
  induction before as [|o' before IH]; cbn [app find].
  - now rewrite Ho, Ho.
  - rewrite (Hb o'); [|now left]. apply IH. intros y Hy. apply Hb. now right.
Qed.
Lemma name_variable (w : world sclo) ch bs x os :
  exempt bs x \/ (reads w ch bs = ret os w /\ forall o, In o os -> attr w o x = None) ->
  name w ch bs x = read w ch (U x).
Proof.
  unfold name. intros [He|[Hr Hn]].
  - apply exempt_iff in He. now rewrite He.
  - destruct (exemptb bs x); [reflexivity|]. rewrite Hr. cbn [bind ret]. clear Hr.
    induction os as [|o os IH]; [reflexivity|]. cbn [find]. rewrite (Hn o); [|now left].
    apply IH. intros y Hy. apply Hn. now right.
Qed.



Ltac prog := intros s Hs; cbn in Hs;
  repeat destruct Hs as [<-|Hs]; try (cbn; intuition congruence); try contradiction.
Lemma target_refuted : exists p n,
  program p /\
  printed (run n (expand_all p)) = Some (Raise NameError, []) /\
  printed (srun true n p) = Some (Ok Next, []).
Proof.
  exists [SAssign "o" (EObj [("x", EObj [])]);
          SWith 0 None (EName "o") [SSetAttr (EName "x") "y" (ENum 1)]], 20.
  split; [prog|]. split; reflexivity.
Qed.
Lemma as_name_refuted : exists p n,
  printed (run n (expand_all p)) = Some (Raise NameError, []) /\
  printed (srun false n p) = Some (Ok Next, [VNum 1]).
Proof.
  exists [SWith 0 None (EObj [("b", EObj [("y", ENum 1)])])
            [SWith 1 (Some "b") (EName "b") [SExpr (EPrint (EName "y"))]]], 20.
  split; reflexivity.
Qed.
Lemma reserved_refuted x :
  printed (run 9 (expand_all
    [SAssign x (ENum 1); SWith 0 None (EObj [(x, ENum 2)]) [SExpr (EPrint (EName x))]])) =
  Some (Ok Next, [VNum (if existsb (String.eqb x) reserved then 1 else 2)]).
Proof.
  unfold expand_all. cbn [map expand trs tre blockvar].
  replace (mem x (always_skip ++ [H 0])) with (existsb (String.eqb x) reserved).
  2:{ rewrite mem_app. unfold mem at 2. cbn [existsb var_eqb orb]. now rewrite orb_false_r. }
  destruct (existsb (String.eqb x) reserved); cbn; unfold read, attr; cbn;
    rewrite ?String.eqb_refl; cbn; rewrite ?String.eqb_refl; reflexivity.
Qed.
Lemma shadow_refuted : exists p n,
  program p /\ printed (run n (expand_all p)) = Some (Ok Next, [VNum 2]) /\
  p = [SWith 0 (Some "b") (EObj [("y", ENum 1)])
         [SExpr (EPrint (ECall (ELam ["b"] (EName "y")) [EObj [("y", ENum 2)]]))]].
Proof. eexists _, 20. split; [|split; [|reflexivity]]; [prog|reflexivity]. Qed.
Lemma loop_refuted : exists p n,
  program p /\ printed (run n (expand_all p)) = Some (Ok Next, [VNum 2]) /\
  p = [SAssign "keep" (EObj []);
       SAssign "l" (EObj [("v", ENum 1); ("next", EObj [("v", ENum 2); ("next", ENum 0)])]);
       SAssign "first" (ENum 1);
       SWhile (EName "l")
         [SWith 0 None (EObj [("x", EAttr (EName "l") "v")])
            [SIf (EName "first") [SSetAttr (EName "keep") "f" (ELam [] (EName "x"))] []];
          SAssign "first" (ENum 0);
          SAssign "l" (EAttr (EName "l") "next")];
       SExpr (EPrint (ECall (EAttr (EName "keep") "f") []))].
Proof. eexists _, 40. split; [|split; [|reflexivity]]; [prog|reflexivity]. Qed.
