From Coq Require Import String List Bool Arith Lia.
From Verif Require Import Base UtlModel UtlSpec.
Import ListNotations.
Open Scope string_scope.
Open Scope list_scope.
Open Scope nat_scope.

Lemma tree_ch (P : tree -> Prop) : (forall t, (forall c, In c (children t) -> P c) -> P t) -> forall t, P t.
Proof.
  intros H.
  assert (L : forall l : list tree, (fix all l := match l with [] => True | x :: l => P x /\ all l end) l -> forall c, In c l -> P c)
    by (induction l as [|x l IHl]; cbn; [contradiction|]; intros [A B] c [<-|I]; auto).
  fix IH 1. intros t. apply H.
  destruct t; cbn [children]; intros c I.
  - contradiction.
  - contradiction.
  - destruct I as [<-|[]]. apply IH.
  - destruct I as [<-|[]]. apply IH.
  - destruct I as [<-|I]; [apply IH|]. apply in_app_or in I. destruct I as [I|I]; revert c I; apply L.
    + induction args; [exact Logic.I|]. split; [apply IH | assumption].
    + induction kws; [exact Logic.I|]. split; [apply IH | assumption].
  - apply in_app_or in I. destruct I as [I|[<-|[]]]; [|apply IH]. revert c I; apply L. induction defaults; [exact Logic.I|]. split; [apply IH | assumption].
  - apply in_app_or in I. destruct I as [I|I]; [|apply in_app_or in I; destruct I as [I|I]]; revert c I; apply L.
    + induction defaults; [exact Logic.I|]. split; [apply IH | assumption].
    + induction body; [exact Logic.I|]. split; [apply IH | assumption].
    + induction decos; [exact Logic.I|]. split; [apply IH | assumption].
  - revert c I; apply L. induction items; [exact Logic.I|]. split; [apply IH | assumption].
  - revert c I; apply L. induction fields as [|l fields IHf]; cbn; [exact Logic.I|].
    induction l as [|x l IHl]; cbn; [assumption|]. split; [apply IH | assumption].
Qed.

Lemma isx_refers t x : isx t x = true <-> refers x t.
Proof.
  unfold isx. induction t using tree_ch. rename H into IH. destruct t; cbn in *; try (split; [discriminate | intros R; inversion R]).
  - split; [intros E; apply String.eqb_eq in E; subst; constructor | intros R; inversion R; apply String.eqb_refl].
  - split; [intros E; apply String.eqb_eq in E; subst; constructor | intros R; inversion R; apply String.eqb_refl].
  - split; [intros E; apply String.eqb_eq in E; subst; constructor | intros R; inversion R; apply String.eqb_refl].
  - rewrite (IH t (or_introl eq_refl)). split; [constructor; auto | intros R; inversion R; auto].
Qed.
Lemma existsb_refers l x : existsb (fun d => isx d x) l = true <-> exists d, In d l /\ refers x d.
Proof.
  rewrite existsb_exists. split; intros (d & I & R); exists d; split; auto; apply isx_refers; auto.
Qed.
Lemma collect_app {A} (a b : list (outcome (list A))) : collect (a ++ b) = do x <- collect a ; do y <- collect b ; Ok (x ++ y).
Proof.
  induction a as [|r a IH]; cbn; [destruct (collect b); reflexivity|]. destruct r as [r|]; cbn; auto. rewrite IH.
  destruct (collect a); cbn; auto. destruct (collect b); cbn; auto. rewrite app_assoc. reflexivity.
Qed.
Lemma collect_concat {A} (f : tree -> outcome (list A)) (ls : list (list tree)) :
  collect (map (fun l => collect (map f l)) ls) = collect (map f (concat ls)).
Proof.
  induction ls as [|l ls IH]; cbn; auto. rewrite map_app, collect_app, IH. reflexivity.
Qed.
Lemma collect_children {A} (f : tree -> outcome (list A)) t :
  match t with
  | Name _ | Cap _ => Ok []
  | Attr t _ | Done t => f t
  | Call g args kws => collect [f g; collect (map f args); collect (map f kws)]
  | Lam _ _ ds b => collect [collect (map f ds); f b]
  | Fun _ _ ds body decos => collect [collect (map f ds); collect (map f body); collect (map f decos)]
  | Do items => collect (map f items)
  | Node _ _ fields => collect (map (fun l => collect (map f l)) fields)
  end = collect (map f (children t)).
Proof.
  destruct t; cbn [children map]; rewrite ?map_app, ?collect_concat; cbn; rewrite ?collect_app; auto; cbn;
  repeat match goal with |- context [f ?x] => destruct (f x); cbn; auto | |- context [collect ?x] => destruct (collect x); cbn; auto end;
  rewrite ?app_nil_r; auto.
Qed.
Lemma visit_children t : visit_callec t = do a <- examine_callec t ; do b <- collect (map visit_callec (children t)) ; Ok (a ++ b).
Proof.
  rewrite <- collect_children. destruct t; reflexivity.
Qed.
Lemma collect_ok {A B} (f : B -> outcome (list A)) l r : collect (map f l) = Ok r ->
  forall x, In x r <-> exists b rb, In b l /\ f b = Ok rb /\ In x rb.
Proof.
  revert r. induction l as [|b l IH]; cbn; intros r.
  - intros [= <-] x. split; [contradiction | intros (b & rb & [] & _)].
  - destruct (f b) as [rb|] eqn:E; cbn; [|discriminate]. destruct (collect (map f l)) as [rl|]; cbn; [|discriminate]. intros [= <-] x.
    rewrite in_app_iff, (IH rl eq_refl). split.
    + intros [I|(c & rc & I & F & J)]; [exists b, rb; auto | exists c, rc; auto].
    + intros (c & rc & [<-|I] & F & J); [left; congruence | right; eauto].
Qed.
Lemma collect_each_ok {A B} (f : B -> outcome (list A)) l r : collect (map f l) = Ok r -> forall b, In b l -> exists rb, f b = Ok rb.
Proof.
  revert r. induction l as [|b l IH]; cbn; intros r; [intros _ b []|].
  destruct (f b) as [rb|] eqn:E; cbn; [|discriminate]. destruct (collect (map f l)) as [rl|] eqn:F; cbn; [|discriminate]. intros _ c [<-|I]; eauto.
Qed.
Lemma collect_raise {A B} (f : B -> outcome (list A)) l x : collect (map f l) = Raise x -> exists b, In b l /\ f b = Raise x.
Proof.
  induction l as [|b l IH]; cbn; [discriminate|]. destruct (f b) as [rb|y] eqn:E; cbn; [|intros [= <-]; eauto].
  destruct (collect (map f l)) as [rl|y]; cbn; [discriminate|]. intros [= <-]. destruct (IH eq_refl) as (c & I & F). eauto.
Qed.

Lemma decorated_is t : is_decorated_lambda t = true <-> exists fs ps, decorated t fs ps.
Proof.
  induction t using tree_ch. rename H into IH. destruct t; cbn [is_decorated_lambda]; try (split; [discriminate | intros (fs & qs & D); inversion D]).
  destruct args as [|a [|? ?]]; try (split; [discriminate | intros (fs & qs & D); inversion D]).
  assert (IHa := IH a). cbn in IHa. specialize (IHa (or_intror (or_introl eq_refl))).
  destruct a; try (rewrite IHa; split; [intros (fs & qs & D); do 2 eexists; apply dec_more; exact D | intros (fs & qs & D); inversion D; subst; do 2 eexists; eassumption]).
  split; auto. intros _. do 2 eexists. constructor.
Qed.
Lemma decorated_destructure t fs ps : decorated t fs ps -> destructure t = Ok (fs, ps).
Proof. induction 1; cbn; auto. rewrite IHdecorated. reflexivity. Qed.
Lemma decorated_fun t fs ps fs' ps' : decorated t fs ps -> decorated t fs' ps' -> fs = fs' /\ ps = ps'.
Proof. intros A B. apply decorated_destructure in A, B. rewrite A in B. injection B as -> ->. auto. Qed.
Lemma examine_spec t : (examine_callec t = Ok [] /\ forall ps, ~ escapes t ps) \/ (exists ps, (forall qs, escapes t qs <-> qs = ps) /\ examine_callec t = first ps).
Proof.
  assert (G : (match t with Fun _ _ _ _ _ => False | _ => True end) ->
    (examine_callec t = Ok [] /\ forall ps, ~ escapes t ps) \/ (exists ps, (forall qs, escapes t qs <-> qs = ps) /\ examine_callec t = first ps)).
  { intros NF. assert (E : examine_callec t = if is_decorated_lambda t then do r <- destructure t ; if existsb (fun f => isx f "call_ec") (fst r) then first (snd r) else Ok [] else Ok [])
      by (destruct t; auto; contradiction). rewrite E. clear E.
    destruct (is_decorated_lambda t) eqn:D.
    - apply decorated_is in D. destruct D as (fs & ps & D). rewrite (decorated_destructure _ _ _ D). cbn.
      destruct (existsb _ fs) eqn:X.
      + right. exists ps. split; auto. apply existsb_refers in X. destruct X as (f & I & R). intros qs. split.
        * intros E. inversion E; subst; [contradiction|]. apply (decorated_fun _ _ _ _ _ H D).
        * intros ->. eapply esc_lam; eauto.
      + left. split; auto. intros qs E. inversion E; subst; [contradiction|]. destruct (decorated_fun _ _ _ _ _ H D) as [-> ->].
        assert (existsb (fun d => isx d "call_ec") fs = true) by (apply existsb_refers; eauto). congruence.
    - left. split; auto. intros qs E. inversion E; subst; [contradiction|]. assert (is_decorated_lambda t = true) by (apply decorated_is; eauto). congruence. }
  destruct t; try (apply G; exact I). clear G. cbn. destruct (existsb _ decos) eqn:X.
  - right. exists ps. split; auto. apply existsb_refers in X. destruct X as (d & I & R). intros qs. split.
    + intros E. inversion E; subst; auto. inversion H.
    + intros ->. econstructor; eauto.
  - left. split; auto. intros qs E. inversion E; subst; [|inversion H].
    assert (existsb (fun d => isx d "call_ec") decos = true) by (apply existsb_refers; eauto). congruence.
Qed.
Lemma part_inv s t : part s t -> s = t \/ exists c, In c (children t) /\ part s c.
Proof. destruct 1; eauto. Qed.
Lemma callec_names t : forall l, visit_callec t = Ok l -> forall x, In x l <-> exists s ps, part s t /\ escapes s (x :: ps).
Proof.
  induction t using tree_ch. rename H into IH. intros l. rewrite visit_children.
  destruct (examine_callec t) as [a|] eqn:Ea; cbn; [|discriminate]. destruct (collect _) as [b|] eqn:Eb; cbn; [|discriminate]. intros [= <-] x.
  rewrite in_app_iff, (collect_ok _ _ _ Eb).
  assert (Hs : In x a <-> exists ps, escapes t (x :: ps)).
  { destruct (examine_spec t) as [[E N]|(ps & Q & E)]; rewrite E in Ea.
    - injection Ea as <-. split; [contradiction | intros (ps & K); exact (N _ K)].
    - destruct ps as [|p ps]; cbn in Ea; [discriminate|]. injection Ea as <-. split.
      + intros [<-|[]]. exists ps. apply Q. reflexivity.
      + intros (qs & K). apply Q in K. injection K as <- <-. cbn. auto. }
  rewrite Hs. split.
  - intros [(ps & K)|(c & rc & I & F & J)]; [exists t, ps; split; auto; constructor|].
    apply (IH c I rc F) in J. destruct J as (s & ps & J & K). exists s, ps. split; auto. econstructor; eauto.
  - intros (s & ps & J & K). apply part_inv in J. destruct J as [->|(c & I & J)]; [left; eauto|right].
    destruct (collect_each_ok _ _ _ Eb c I) as [rc F]. exists c, rc. split; auto. split; auto. apply (IH c I rc F). eauto.
Qed.
Lemma callec_raises t : (exists s, part s t /\ escapes s []) <-> exists y, visit_callec t = Raise y.
Proof.
  induction t using tree_ch. rename H into IH. rewrite visit_children. split.
  - intros (s & J & K). apply part_inv in J. destruct J as [->|(c & I & J)].
    + destruct (examine_spec t) as [[E N]|(ps & Q & E)]; [destruct (N _ K)|]. apply Q in K. subst. rewrite E. cbn. eauto.
    + destruct (examine_callec t); cbn; [|eauto]. destruct (collect _) as [b|] eqn:Eb; cbn; [|eauto].
      destruct (collect_each_ok _ _ _ Eb c I) as [rc F]. destruct (proj1 (IH c I)) as [y Y]; [eauto|]. congruence.
  - intros [y E]. destruct (examine_spec t) as [[Ex N]|(ps & Q & Ex)]; rewrite Ex in E; cbn in E.
    + destruct (collect _) as [b|z] eqn:Eb; cbn in E; [discriminate|]. destruct (collect_raise _ _ _ Eb) as (c & I & F).
      destruct (proj2 (IH c I)) as (s & J & K); [eauto|]. exists s. split; auto. econstructor; eauto.
    + destruct ps as [|p ps]; [exists t; split; [constructor | apply Q; reflexivity]|]. cbn in E.
      destruct (collect _) as [b|z] eqn:Eb; cbn in E; [discriminate|]. destruct (collect_raise _ _ _ Eb) as (c & I & F).
      destruct (proj2 (IH c I)) as (s & J & K); [eauto|]. exists s. split; auto. econstructor; eauto.
Qed.
Lemma callec_raises_which t : forall y, visit_callec t = Raise y -> y = IndexError.
Proof.
  induction t using tree_ch. rename H into IH. intros y. rewrite visit_children. 
  destruct (examine_spec t) as [[Ex N]|([|p ps] & Q & Ex)]; rewrite Ex; cbn; try congruence;
    (destruct (collect _) as [b|z] eqn:Eb; cbn; [discriminate|]; intros [= <-]; destruct (collect_raise _ _ _ Eb) as (c & I & F); eauto).
Qed.
Lemma detect_callec_spec t l : detect_callec t = Ok l ->
  forall x, In x l <-> In x ["ec"; "brk"; "throw"] \/ exists s ps, part s t /\ escapes s (x :: ps).
Proof.
  unfold detect_callec. destruct (visit_callec t) as [r|] eqn:E; cbn; [|discriminate]. intros [= <-] x. rewrite <- (callec_names t r E x). cbn. tauto.
Qed.
Lemma detect_callec_fails t y : detect_callec t = Raise y <-> y = IndexError /\ exists s, part s t /\ escapes s [].
Proof.
  unfold detect_callec. split.
  - destruct (visit_callec t) as [r|z] eqn:E; cbn; [discriminate|]. intros [= <-]. split; [eapply callec_raises_which; eauto | apply callec_raises; eauto].
  - intros [-> H]. apply callec_raises in H. destruct H as [z E]. rewrite E. cbn. f_equal. eapply callec_raises_which; eauto.
Qed.

(** Lambdas *)
Lemma lambdas_children t : lambdas t = match t with Lam i _ _ _ => [i] | _ => [] end ++ flat_map lambdas (children t).
Proof.
  destruct t; cbn; rewrite ?flat_map_app, ?app_nil_r; auto.
  - cbn. rewrite app_nil_r. reflexivity.
  - induction fields as [|l fields IH]; cbn; auto. rewrite flat_map_app, IH. reflexivity.
Qed.
Lemma lambdas_in t i : In i (lambdas t) <-> exists ps ds b, part (Lam i ps ds b) t.
Proof.
  induction t using tree_ch. rename H into IH. rewrite lambdas_children, in_app_iff, in_flat_map. split.
  - intros [I|(c & I & J)].
    + destruct t; cbn in I; try contradiction. destruct I as [->|[]]. do 3 eexists. constructor.
    + apply (IH c I) in J. destruct J as (ps & ds & b & J). do 3 eexists. econstructor; eauto.
  - intros (ps & ds & b & J). apply part_inv in J. destruct J as [<-|(c & I & J)]; [left; cbn; auto|].
    right. exists c. split; auto. apply (IH c I). eauto.
Qed.
Scheme expanded_m := Minimality for expanded Sort Prop
  with all_expanded_m := Minimality for all_expanded Sort Prop
  with fields_expanded_m := Minimality for fields_expanded Sort Prop
  with lines_expanded_m := Minimality for lines_expanded Sort Prop.
Combined Scheme expanded_all from expanded_m, all_expanded_m, fields_expanded_m, lines_expanded_m.
Lemma expanded_getname t : forall t', expanded t t' -> getname true t' = getname true t.
Proof.
  induction t using tree_ch. rename H into IH. intros t' H. destruct H; cbn; auto; [apply IH; cbn; auto | destruct c; reflexivity].
Qed.
Lemma plain_child t c : plain t -> In c (children t) -> plain c.
Proof. intros H I f args kws P. apply (H f args kws). econstructor; eauto. Qed.
Definition lines_ok (c : bool) (items lines : list tree) : Prop :=
  (exists ls, each (item_lambda c) lines = Ok ls /\ match ls with Lam _ [] _ _ :: _ => False | _ => True end) /\
  collect (map (fun item =>
    if c then match item with
              | Call _ (_ :: Call _ (l :: _) _ :: _) _ => match l with Lam _ _ _ b | Done b => detect_lambda b | _ => Raise AttributeError end
              | _ => Raise AttributeError
              end
    else match item with
         | Call _ (l :: _) _ => match l with Lam _ _ _ b | Done b => detect_lambda b | _ => Raise AttributeError end
         | _ => Raise AttributeError
         end) lines) = Ok (flat_map lambdas items).
Lemma detect_generic t : (match t with Call _ _ _ => False | Lam _ _ _ _ => False | _ => True end) -> detect_lambda t = collect (map detect_lambda (children t)).
Proof. rewrite <- collect_children. destruct t; cbn; auto; contradiction. Qed.
Lemma expanded_detect :
  (forall t t', expanded t t' -> plain t -> detect_lambda t' = Ok (lambdas t)) /\
  (forall l l', all_expanded l l' -> Forall plain l -> collect (map detect_lambda l') = Ok (flat_map lambdas l)) /\
  (forall ls ls', fields_expanded ls ls' -> Forall (Forall plain) ls -> collect (map (fun l => collect (map detect_lambda l)) ls') = Ok (flat_map (flat_map lambdas) ls)) /\
  (forall c items lines, lines_expanded c items lines -> Forall plain items -> lines_ok c items lines).
Proof.
  assert (PC : forall t l, plain t -> (forall c, In c l -> In c (children t)) -> Forall plain l)
    by (intros t l H K; apply Forall_forall; intros c I; eapply plain_child; eauto).
  apply expanded_all.
  - reflexivity.
  - reflexivity.
  - intros t t' x _ IH P. cbn. apply IH. apply (plain_child _ _ P). cbn. auto.
  - intros t t' _ IH P. cbn. apply IH. apply (plain_child _ _ P). cbn. auto.
  - intros f f' args args' kws kws' Xf IHf _ IHa _ IHk P.
    assert (D : isdo f' args' = Ok None).
    { destruct (P f args kws (part_self _)) as [N1 N2]. unfold isdo, isx. rewrite (expanded_getname f f' Xf).
      assert (isx f "dof" = false) as D1 by (destruct (isx f "dof") eqn:E; auto; apply isx_refers in E; contradiction).
      assert (isx f "currycall" = false) as D2 by (destruct (isx f "currycall") eqn:E; auto; apply isx_refers in E; contradiction).
      unfold isx in D1, D2. rewrite D1, D2. reflexivity. }
    cbn. rewrite D. cbn. rewrite IHf, IHa, IHk; cbn; rewrite ?app_nil_r; auto.
    + apply (PC _ _ P). intros c I. cbn. rewrite in_app_iff. auto.
    + apply (PC _ _ P). intros c I. cbn. rewrite in_app_iff. auto.
    + apply (plain_child _ _ P). cbn. auto.
  - intros i ps ds ds' b b' _ IHd _ IHb P. cbn. rewrite IHd, IHb; cbn; rewrite ?app_nil_r; auto.
    + apply (plain_child _ _ P). cbn. rewrite in_app_iff. cbn. auto.
    + apply (PC _ _ P). intros c I. cbn. rewrite in_app_iff. auto.
  - intros n ps ds ds' body body' decos decos' _ IHd _ IHb _ IHe P. cbn. rewrite IHd, IHb, IHe; cbn; rewrite ?app_nil_r; auto;
      apply (PC _ _ P); intros c I; cbn; rewrite !in_app_iff; auto.
  - intros s n fields fields' _ IH P. cbn. apply IH. apply Forall_forall. intros l I. apply (PC _ _ P). intros c J. cbn. apply in_concat. eauto.
  - intros items items' _ IH P. cbn. apply IH. apply (PC _ _ P). auto.
  - intros c items lines _ IH P. destruct IH as [(ls & E & N) C]; [apply (PC _ _ P); auto|].
    assert (V : do_view c lines = Ok ls) by (unfold do_view; rewrite E; cbn; destruct ls as [|[] ls]; auto; destruct ps; auto; contradiction).
    destruct c; cbn; rewrite V; cbn; exact C.
  - reflexivity.
  - intros t t' l l' _ IH _ IHl F. inversion F; subst. cbn. rewrite IH, IHl; auto.
  - reflexivity.
  - intros l l' ls ls' _ IH _ IHl F. inversion F; subst. cbn. rewrite IH, IHl; auto.
  - intros c _. split; [exists []; cbn; auto | reflexivity].
  - intros c t t' label i e l l' _ IH _ IHl F. inversion F; subst. destruct IHl as [(ls & E & _) C]; auto. split.
    + exists (Lam i [e] [] t' :: ls). split; auto. cbn. rewrite E. destruct c; reflexivity.
    + cbn [map]. cbn [flat_map]. cbn [collect]. rewrite C. destruct c; cbn; rewrite IH; auto.
Qed.
Lemma lambdas_found t t' : plain t -> expanded t t' -> detect_lambda t' = Ok (lambdas t).
Proof. intros P X. apply expanded_detect; auto. Qed.

(** Statements *)
Section Tr.
Context {W : Type}.
Variable f : tree -> W -> list tree * W.
Lemma not_stmt_single t w : is_stmt t = false -> exists x, fst (transform f t w) = [x] /\ is_stmt x = false.
Proof.
  destruct t; cbn; intros E; try discriminate; try subst s;
    repeat match goal with |- context [let (_, _) := ?x in _] => destruct x end; cbn; eexists; split; try reflexivity.
Qed.
(** noting *)
Definition N := noting f.
Definition same_log (t : tree) : Prop := forall w log,
  transform N t (w, log) = (fst (transform f t w), (snd (transform f t w), log ++ postorder t)).
Lemma splice_log l : (forall t, In t l -> same_log t) -> forall w log,
  splice (transform N) l (w, log) = (fst (splice (transform f) l w), (snd (splice (transform f) l w), log ++ flat_map postorder l)).
Proof.
  induction l as [|t l IH]; cbn; intros H w log; [rewrite app_nil_r; reflexivity|].
  rewrite (H t (or_introl eq_refl)). destruct (transform f t w) as [a w1]. cbn. rewrite IH by auto.
  destruct (splice (transform f) l w1) as [b w2]. cbn. rewrite app_assoc. reflexivity.
Qed.
Lemma splices_log ls : (forall l t, In l ls -> In t l -> same_log t) -> forall w log,
  splices (transform N) ls (w, log) = (fst (splices (transform f) ls w), (snd (splices (transform f) ls w), log ++ flat_map (flat_map postorder) ls)).
Proof.
  induction ls as [|l ls IH]; cbn; intros H w log; [rewrite app_nil_r; reflexivity|].
  rewrite splice_log by (intros; apply (H l); auto). destruct (splice (transform f) l w) as [a w1]. cbn. rewrite IH by (intros; eapply H; eauto).
  destruct (splices (transform f) ls w1) as [b w2]. cbn. rewrite app_assoc. reflexivity.
Qed.
Lemma single_log t : same_log t -> forall w log,
  single (transform N) t (w, log) = (fst (single (transform f) t w), (snd (single (transform f) t w), log ++ postorder t)).
Proof. intros H w log. unfold single. rewrite (H w log). destruct (transform f t w) as [a w1]. reflexivity. Qed.
Lemma transform_log t : same_log t.
Proof.
  induction t using tree_ch. rename H into IH. intros w log.
  destruct t as [x|x|t x|t|g args kws|i ps ds b|n ps ds body decos|items|s n fields]; cbn [transform postorder]; cbn [children] in IH.
  - rewrite app_nil_r. reflexivity.
  - rewrite app_nil_r. reflexivity.
  - rewrite single_log by (apply IH; cbn; auto). destruct (single (transform f) t w). reflexivity.
  - rewrite single_log by (apply IH; cbn; auto). destruct (single (transform f) t w). reflexivity.
  - rewrite single_log by (apply IH; cbn; auto). destruct (single (transform f) g w) as [g' w1]. cbn [fst snd].
    rewrite splice_log by (intros; apply IH; cbn; rewrite in_app_iff; auto). destruct (splice (transform f) args w1) as [a' w2]. cbn [fst snd].
    rewrite splice_log by (intros; apply IH; cbn; rewrite in_app_iff; auto). destruct (splice (transform f) kws w2) as [k' w3]. cbn.
    rewrite <- !app_assoc. reflexivity.
  - rewrite splice_log by (intros; apply IH; rewrite in_app_iff; auto). destruct (splice (transform f) ds w) as [ds' w1]. cbn [fst snd].
    rewrite single_log by (apply IH; rewrite in_app_iff; cbn; auto). destruct (single (transform f) b w1) as [b' w2]. cbn. rewrite <- !app_assoc. reflexivity.
  - rewrite splice_log by (intros; apply IH; rewrite !in_app_iff; auto). destruct (splice (transform f) ds w) as [ds' w1]. cbn [fst snd].
    rewrite splice_log by (intros; apply IH; rewrite !in_app_iff; auto). destruct (splice (transform f) body w1) as [body' w2]. cbn [fst snd].
    rewrite splice_log by (intros; apply IH; rewrite !in_app_iff; auto). destruct (splice (transform f) decos w2) as [decos' w3]. cbn [fst snd].
    unfold N, noting. cbn [fst snd number]. destruct (f _ w3) as [r w4]. cbn. rewrite <- !app_assoc. reflexivity.
  - rewrite splice_log by (intros; apply IH; auto). destruct (splice (transform f) items w) as [l' w1]. reflexivity.
  - rewrite splices_log by (intros l t I J; apply IH; apply in_concat; eauto). destruct (splices (transform f) fields w) as [l' w1]. cbn [fst snd].
    destruct s; [|rewrite app_nil_r; reflexivity]. unfold N, noting. cbn [fst snd number]. destruct (f _ w1) as [r w2]. cbn. rewrite <- !app_assoc. reflexivity.
Qed.
Lemma statements_log (body : list tree) w log :
  transform_statements (noting f) body (w, log) =
    (fst (transform_statements f body w), (snd (transform_statements f body w), log ++ flat_map postorder body)).
Proof. apply splice_log. intros. apply transform_log. Qed.

(** Good statements *)
Variable good : tree -> Prop.
Definition all_good (t : tree) : Prop := forall s, part s t -> is_stmt s = true -> good s.
Hypothesis Hf : forall t w, is_stmt t = true -> (forall c, In c (children t) -> all_good c) -> Forall all_good (fst (f t w)).
Lemma splice_good l : Forall wf l -> (forall t, In t l -> wf t -> forall w, Forall all_good (fst (transform f t w))) ->
  forall w, Forall all_good (fst (splice (transform f) l w)).
Proof.
  induction l as [|t l IH]; cbn; intros H G w; auto. inversion H; subst. specialize (G t) as Gt. assert (A := Gt (or_introl eq_refl) H2 w).
  destruct (transform f t w) as [a w1]. assert (B := IH H3 (fun t I => G t (or_intror I)) w1). destruct (splice (transform f) l w1) as [b w2]. cbn in *. apply Forall_app. auto.
Qed.
Lemma splices_good ls : Forall (Forall wf) ls -> (forall t, In t (concat ls) -> wf t -> forall w, Forall all_good (fst (transform f t w))) ->
  forall w, Forall (Forall all_good) (fst (splices (transform f) ls w)).
Proof.
  induction ls as [|l ls IH]; cbn; intros H G w; auto. inversion H; subst.
  assert (A := splice_good l H2 (fun t I => G t (in_or_app _ _ _ (or_introl I))) w). destruct (splice (transform f) l w) as [a w1].
  assert (B := IH H3 (fun t I => G t (in_or_app _ _ _ (or_intror I))) w1). destruct (splices (transform f) ls w1) as [b w2]. cbn in *. auto.
Qed.
Lemma single_good t w : is_stmt t = false -> Forall all_good (fst (transform f t w)) -> all_good (fst (single (transform f) t w)).
Proof.
  intros E G. destruct (not_stmt_single t w E) as (x & X & _). unfold single. destruct (transform f t w) as [a w1]. cbn in *. subst a. inversion G; auto.
Qed.
Lemma expr_good t : is_stmt t = false -> (forall c, In c (children t) -> all_good c) -> Forall all_good [t].
Proof.
  intros E G. constructor; auto. intros s P S1. apply part_inv in P. destruct P as [->|(c & I & P)]; [congruence|]. apply (G c I s P S1).
Qed.
Lemma transform_good t : wf t -> forall w, Forall all_good (fst (transform f t w)).
Proof.
  induction t using tree_ch. rename H into IH. intros Hw w.
  destruct t as [x|x|t x|t|g args kws|i ps ds b|n ps ds body decos|items|s n fields]; cbn [transform]; cbn [children] in IH; inversion Hw; subst.
  - apply expr_good; [reflexivity | intros c []].
  - apply expr_good; [reflexivity | intros c []].
  - assert (A := single_good t w ltac:(assumption) (IH t (or_introl eq_refl) ltac:(assumption) w)). destruct (single (transform f) t w). apply expr_good; [reflexivity | intros c [<-|[]]; auto].
  - assert (A := single_good t w ltac:(assumption) (IH t (or_introl eq_refl) ltac:(assumption) w)). destruct (single (transform f) t w). apply expr_good; [reflexivity | intros c [<-|[]]; auto].
  - assert (A := single_good g w ltac:(assumption) (IH g (or_introl eq_refl) ltac:(assumption) w)). destruct (single (transform f) g w) as [g' w1].
    assert (B := splice_good args ltac:(assumption) (fun t I => IH t (or_intror (in_or_app _ _ _ (or_introl I)))) w1). destruct (splice (transform f) args w1) as [a' w2].
    assert (C := splice_good kws ltac:(assumption) (fun t I => IH t (or_intror (in_or_app _ _ _ (or_intror I)))) w2). destruct (splice (transform f) kws w2) as [k' w3].
    cbn in *. rewrite Forall_forall in B, C. apply expr_good; [reflexivity|]. intros c [<-|I]; auto. apply in_app_or in I. destruct I; auto.
  - assert (B := splice_good ds ltac:(assumption) (fun t I => IH t (in_or_app _ _ _ (or_introl I))) w). destruct (splice (transform f) ds w) as [ds' w1].
    assert (A := single_good b w1 ltac:(assumption) (IH b (in_or_app ds [b] b (or_intror (or_introl eq_refl))) ltac:(assumption) w1)). destruct (single (transform f) b w1) as [b' w2].
    cbn in *. rewrite Forall_forall in B. apply expr_good; [reflexivity|]. intros c I. apply in_app_or in I. destruct I as [I|[<-|[]]]; auto.
  - assert (A := splice_good ds ltac:(assumption) (fun t I => IH t (in_or_app _ _ _ (or_introl I))) w). destruct (splice (transform f) ds w) as [ds' w1].
    assert (B := splice_good body ltac:(assumption) (fun t I => IH t (in_or_app _ _ _ (or_intror (in_or_app _ _ _ (or_introl I))))) w1). destruct (splice (transform f) body w1) as [body' w2].
    assert (C := splice_good decos ltac:(assumption) (fun t I => IH t (in_or_app _ _ _ (or_intror (in_or_app _ _ _ (or_intror I))))) w2). destruct (splice (transform f) decos w2) as [decos' w3].
    cbn in A, B, C. rewrite Forall_forall in A, B, C. apply Hf; [reflexivity|]. cbn. intros c I. rewrite !in_app_iff in I. destruct I as [I|[I|I]]; auto.
  - assert (A := splice_good items ltac:(assumption) IH w). destruct (splice (transform f) items w) as [l' w1]. cbn in *. rewrite Forall_forall in A. apply expr_good; auto.
  - assert (A := splices_good fields ltac:(assumption) IH w). destruct (splices (transform f) fields w) as [l' w1]. cbn in A.
    assert (B : forall c, In c (concat l') -> all_good c).
    { intros c I. apply in_concat in I. destruct I as (l & I & J). rewrite Forall_forall in A. apply A in I. rewrite Forall_forall in I. auto. }
    destruct s; [apply Hf; auto | apply expr_good; auto].
Qed.
Lemma statements_good (body : list tree) w : Forall wf body -> Forall all_good (fst (transform_statements f body w)).
Proof. intros H. apply splice_good; auto. intros. apply transform_good; auto. Qed.
End Tr.

(** Where nothing is changed *)
Lemma splice_same {W} (f : tree -> W -> list tree * W) l w : (forall t, In t l -> forall w, transform f t w = ([t], w)) -> splice (transform f) l w = (l, w).
Proof.
  induction l as [|t l IH]; cbn; intros H; auto. rewrite H by auto. rewrite IH by auto. reflexivity.
Qed.
Lemma splices_same {W} (f : tree -> W -> list tree * W) ls w : (forall t, In t (concat ls) -> forall w, transform f t w = ([t], w)) -> splices (transform f) ls w = (ls, w).
Proof.
  induction ls as [|l ls IH]; cbn; intros H; auto. rewrite splice_same by (intros; apply H; apply in_or_app; auto). rewrite IH by (intros; apply H; apply in_or_app; auto). reflexivity.
Qed.
Lemma transform_same {W} (f : tree -> W -> list tree * W) t :
  (forall s, part s t -> is_stmt s = true -> forall w, f s w = ([s], w)) -> forall w, transform f t w = ([t], w).
Proof.
  induction t using tree_ch. rename H into IH. intros Hf w.
  assert (G : forall c, In c (children t) -> forall w, transform f c w = ([c], w)) by (intros c I; apply IH; auto; intros s P; apply Hf; econstructor; eauto).
  assert (F := Hf t (part_self _)). clear IH Hf.
  destruct t as [x|x|t x|t|g args kws|i ps ds b|n ps ds body decos|items|s n fields]; cbn [transform]; cbn [children] in G; auto.
  - unfold single. rewrite G by (cbn; auto). reflexivity.
  - unfold single. rewrite G by (cbn; auto). reflexivity.
  - unfold single. rewrite G by (cbn; auto). rewrite !splice_same by (intros; apply G; cbn; rewrite in_app_iff; auto). reflexivity.
  - rewrite splice_same by (intros; apply G; rewrite in_app_iff; auto). unfold single. rewrite G by (rewrite in_app_iff; cbn; auto). reflexivity.
  - rewrite !splice_same by (intros; apply G; rewrite !in_app_iff; auto). apply F. reflexivity.
  - rewrite splice_same by auto. reflexivity.
  - rewrite splices_same by auto. destruct s; auto.
Qed.
Lemma statements_same {W} (f : tree -> W -> list tree * W) (body : list tree) w :
  (forall t s, In t body -> part s t -> is_stmt s = true -> forall w, f s w = ([s], w)) -> transform_statements f body w = (body, w).
Proof. intros H. apply splice_same. intros t I. apply transform_same. intros s P. apply (H t); auto. Qed.
Lemma getname_bare t x : getname false t = Some x <-> bare x t.
Proof.
  induction t using tree_ch. rename H into IH. destruct t; cbn in *; try (split; [discriminate | intros R; inversion R]).
  - split; [intros [= ->]; constructor | intros R; inversion R; reflexivity].
  - split; [intros [= ->]; constructor | intros R; inversion R; reflexivity].
  - rewrite (IH t (or_introl eq_refl)). split; [constructor; auto | intros R; inversion R; auto].
Qed.
Lemma isec_spec t known : isec t known = true <-> exists f args kws x, t = Call f args kws /\ bare x f /\ In x known.
Proof.
  split.
  - destruct t; cbn; try discriminate. destruct (getname false t) as [x|] eqn:E; [|discriminate]. intros H. apply existsb_exists in H.
    destruct H as (y & I & Y). apply String.eqb_eq in Y. subst y. apply getname_bare in E. eauto 8.
  - intros (f & args & kws & x & -> & B & I). cbn. apply getname_bare in B. rewrite B. apply existsb_exists. exists x. split; auto. apply String.eqb_refl.
Qed.
Lemma plain_intro t : match t with Call f _ _ => isx f "dof" = false /\ isx f "currycall" = false | _ => True end -> Forall plain (children t) -> plain t.
Proof.
  intros H F f args kws P. apply part_inv in P. destruct P as [<-|(c & I & P)].
  - destruct H as [A B]. split; intros R; apply isx_refers in R; congruence.
  - rewrite Forall_forall in F. apply (F c I f args kws P).
Qed.
