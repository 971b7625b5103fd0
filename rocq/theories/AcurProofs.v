From Coq Require Import String List Bool Arith Lia Permutation.
From Verif Require Import Base AcurModel AcurSpec.
Import ListNotations.
Open Scope list_scope.
Open Scope nat_scope.

Definition orel {A B} (R : A -> B -> Prop) (o : outcome A) (o' : outcome B) : Prop :=
  match o, o' with
  | Ok v, Ok v' => R v v'
  | Raise e, Raise e' => e = e'
  | _, _ => False
  end.
Definition sim {A B} (R : A -> B -> Prop) (r : res A) (r' : res B) : Prop :=
  forall l o, r = Some (l, o) -> o <> Raise TypeError ->
  exists o', r' = Some (l, o') /\ orel R o o'.

Lemma sim_none {A B} (R : A -> B -> Prop) r' : sim R None r'.
Proof. intros l o E. discriminate. Qed.
Lemma sim_ret {A B} (R : A -> B -> Prop) v v' : R v v' -> sim R (ret v) (ret v').
Proof. intros H l o E Ho. injection E as <- <-. exists (Ok v'). auto. Qed.
Lemma sim_raise {A B} (R : A -> B -> Prop) e : sim R (raise e) (raise e).
Proof. intros l o E Ho. injection E as <- <-. exists (Raise e). split; [reflexivity | reflexivity]. Qed.
Lemma sim_type {A B} (R : A -> B -> Prop) r' : sim R (raise TypeError) r'.
Proof. intros l o E Ho. injection E as <- <-. congruence. Qed.
Lemma sim_bind {A B C D} (R : A -> B -> Prop) (S : C -> D -> Prop) r r' k k' :
  sim R r r' -> (forall v v', R v v' -> sim S (k v) (k' v')) -> sim S (bind r k) (bind r' k').
Proof.
  intros H K l o E Ho. destruct r as [[l1 [v|e]]|]; cbn in E; try discriminate.
  - destruct (k v) as [[l2 o2]|] eqn:Ek; [|discriminate]. injection E as <- <-.
    destruct (H l1 (Ok v) eq_refl ltac:(discriminate)) as (o' & E' & Ro).
    destruct o' as [v'|e']; [|contradiction].
    destruct (K v v' Ro l2 o2 Ek Ho) as (o'' & E'' & Ro').
    rewrite E'. cbn. rewrite E''. eauto.
  - injection E as <- <-.
    destruct (H l1 (Raise e) eq_refl) as (o' & E' & Ro).
    { intros X. apply Ho. congruence. }
    rewrite E'. destruct o' as [v'|e']; cbn in Ro; [contradiction|subst e'].
    exists (Raise e). split; reflexivity.
Qed.

(** ** Curried evaluation *)
Inductive vrel : hval -> val -> Prop :=
| vr_data k : vrel (HData k) (VData k)
| vr_fn f f' : frel f f' -> vrel (HFn false f) (VFn f')
| vr_cur f f' : frel f f' -> vrel (HFn true f) (VCur f')
with frel : hfn -> fn -> Prop :=
| fr_in ps b rho rho' :
    src b -> plain_curry b -> erel rho rho' ->
    frel (HClo true ps b rho) (Clo ps (tr false b) rho')
| fr_out ps b rho rho' : src b -> erel rho rho' -> frel (HClo false ps b rho) (Clo ps b rho')
| fr_part f f' a a' : frel f f' -> lrel a a' -> frel (HPart f a) (Part f' a')
with lrel : list hval -> list val -> Prop :=
| lr_nil : lrel [] []
| lr_cons v v' l l' : vrel v v' -> lrel l l' -> lrel (v :: l) (v' :: l')
with erel : henv -> env -> Prop :=
| er_nil : erel [] []
| er_cons x v v' l l' : vrel v v' -> erel l l' -> erel ((x, v) :: l) ((x, v') :: l').

Lemma lrel_length a a' : lrel a a' -> length a = length a'.
Proof. induction 1; cbn; congruence. Qed.
Lemma lrel_app a a' b b' : lrel a a' -> lrel b b' -> lrel (a ++ b) (a' ++ b').
Proof. intros H K. induction H; cbn; [assumption|]. constructor; assumption. Qed.
Lemma lrel_firstn a a' : lrel a a' -> forall n, lrel (firstn n a) (firstn n a').
Proof. induction 1; intros [|n]; cbn; constructor; auto. Qed.
Lemma lrel_skipn a a' : lrel a a' -> forall n, lrel (skipn n a) (skipn n a').
Proof. induction 1; intros [|n]; cbn; try constructor; auto. Qed.
Lemma erel_app a a' b b' : erel a a' -> erel b b' -> erel (a ++ b) (a' ++ b').
Proof. intros H K. induction H; cbn; [assumption|]. constructor; assumption. Qed.
Lemma erel_combine ps a a' : lrel a a' -> erel (combine ps a) (combine ps a').
Proof. intros H. revert ps. induction H; intros [|p ps]; cbn; constructor; auto. Qed.
Lemma erel_get rho rho' x : erel rho rho' ->
  match get rho x, get rho' x with
  | Some v, Some v' => vrel v v' | None, None => True | _, _ => False end.
Proof. induction 1 as [|y v v' l l' Hv Hl IH]; cbn; [exact I|]. destruct (String.eqb y x); auto. Qed.
Lemma frel_arity : forall f f', frel f f' -> harity f = arity f'.
Proof.
  fix IH 3. intros f f' H. destruct H as [| |f f' a a' Hf Ha]; [reflexivity|reflexivity|].
  cbn. rewrite (IH _ _ Hf), (lrel_length _ _ Ha). reflexivity.
Qed.

(** without lambdas, the state of the transformer does not matter *)
Lemma term_rect2 (P : term -> Prop) :
  (forall k, P (ENum k)) -> (forall x, P (EVar x)) ->
  (forall a b, P a -> P b -> P (EAdd a b)) ->
  (forall c a b, P c -> P a -> P b -> P (EIf c a b)) ->
  (forall k, P (ETick k)) -> (forall ps b, P b -> P (ELam ps b)) ->
  (forall f args, P f -> Forall P args -> P (ECall f args)) ->
  (forall f args, P f -> Forall P args -> P (EUCurry f args)) ->
  (forall e, P e -> P (ECurryF e)) ->
  (forall f args, P f -> Forall P args -> P (ECurryCall f args)) ->
  forall t, P t.
Proof.
  intros H1 H2 H3 H4 H5 H6 H7 H8 H9 H10. fix IH 1. intros [k|x|a b|c a b|k|ps b|f l|f l|e|f l].
  - apply H1. - apply H2. - apply H3; apply IH. - apply H4; apply IH. - apply H5.
  - apply H6, IH.
  - apply H7; [apply IH|]. induction l; constructor; [apply IH|assumption].
  - apply H8; [apply IH|]. induction l; constructor; [apply IH|assumption].
  - apply H9, IH.
  - apply H10; [apply IH|]. induction l; constructor; [apply IH|assumption].
Qed.
Lemma map_ext_F {A B} (f g : A -> B) (p : A -> bool) l :
  Forall (fun a => p a = true -> f a = g a) l -> forallb p l = true -> map f l = map g l.
Proof.
  induction 1 as [|a l Ha Hl IH]; cbn; [reflexivity|]. intros H. apply andb_true_iff in H.
  destruct H as [H1 H2]. rewrite (Ha H1), (IH H2). reflexivity.
Qed.
Lemma tr_nolam : forall t h h', nolam t = true -> tr h t = tr h' t.
Proof.
  induction t as [k|x|a b IHa IHb|c a b IHc IHa IHb|k|ps b IHb|f l IHf IHl|f l IHf IHl|e IHe|f l IHf IHl]
    using term_rect2; intros h h' H; cbn [nolam] in H; try reflexivity; try discriminate;
    repeat match goal with H : _ && _ = true |- _ => apply andb_true_iff in H; destruct H end.
  - cbn. rewrite (IHa h h'), (IHb h h') by assumption. reflexivity.
  - cbn. rewrite (IHa h h'), (IHb h h'), (IHc h h') by assumption. reflexivity.
  - cbn [tr]. set (c := has_curry _). rewrite (IHf (h || c) (h' || c)) by assumption. f_equal.
    eapply map_ext_F; [|eassumption]. eapply Forall_impl; [|exact IHl]. cbn. auto.
  - cbn [tr]. set (c := has_curry _). rewrite (IHf (h || c) (h' || c)) by assumption. f_equal.
    eapply map_ext_F; [|eassumption]. eapply Forall_impl; [|exact IHl]. cbn. auto.
  - cbn. rewrite (IHe h h') by assumption. reflexivity.
  - cbn [tr]. rewrite (IHf h h') by assumption. f_equal.
    eapply map_ext_F; [|eassumption]. eapply Forall_impl; [|exact IHl]. cbn. auto.
Qed.

Definition trm (inside : bool) (t : term) : term := if inside then tr false t else t.
Definition okm (inside : bool) (t : term) : Prop :=
  src t /\ (inside = true -> plain_curry t).
Definition okl (inside : bool) (ts : list term) : Prop := Forall (okm inside) ts.
Lemma okl_fold inside ts :
  fold_right (fun t P => src t /\ P) True ts ->
  (inside = true -> fold_right (fun t P => plain_curry t /\ P) True ts) -> okl inside ts.
Proof.
  induction ts as [|t ts IH]; cbn; intros H K; constructor.
  - split; [tauto|]. intros E. apply K, E.
  - apply IH; [tauto|]. intros E. apply K, E.
Qed.
Lemma map_trm inside ts : map (trm inside) ts = if inside then map (tr false) ts else ts.
Proof. destruct inside; cbn; [reflexivity|]. unfold trm. induction ts; cbn; congruence. Qed.

Lemma htruthy_rel v v' : vrel v v' -> htruthy v = truthy v'.
Proof. intros []; reflexivity. Qed.

Definition S_eval n := forall inside g rho g' rho' t k ctx,
  erel g g' -> erel rho rho' -> okm inside t -> 2 * n <= k ->
  sim vrel (heval true n inside g rho t) (eval k ctx g' rho' (trm inside t)).
Definition S_evals n := forall inside g rho g' rho' ts k ctx,
  erel g g' -> erel rho rho' -> okl inside ts -> 2 * n <= k ->
  sim lrel (hevals true n inside g rho ts) (evals k ctx g' rho' (map (trm inside) ts)).
Definition S_apply n := forall g g' f f' a a' k ctx,
  erel g g' -> frel f f' -> lrel a a' -> 2 * n <= k ->
  sim vrel (happly true n g f a) (apply k ctx g' f' a').
Definition S_ccall n := forall g g' f f' a a' k ctx,
  erel g g' -> frel f f' -> lrel a a' -> 2 * n <= k ->
  sim vrel (hcurried true n g f a) (ccall k ctx g' f' a').

Lemma sim_all n : S_eval n /\ S_evals n /\ S_apply n /\ S_ccall n.
Proof.
  induction n as [|n (IHe & IHs & IHa & IHc)].
  { repeat split; red; intros; apply sim_none. }
  split; [|split; [|split]].
  - intros inside g rho g' rho' t k ctx Hg Hr [Hs Hp] Hk.
    destruct k as [|k]; [lia|].
    destruct t as [j|x|a b|c a b|j|ps b|f l|f l|e|f l]; cbn [heval].
    + replace (trm inside (ENum j)) with (ENum j) by (destruct inside; reflexivity).
      apply sim_ret. constructor.
    + replace (trm inside (EVar x)) with (EVar x) by (destruct inside; reflexivity). cbn [eval].
      pose proof (erel_get _ _ x Hr) as G1. pose proof (erel_get _ _ x Hg) as G2.
      destruct (get rho x), (get rho' x); try contradiction; [apply sim_ret; exact G1|].
      destruct (get g x), (get g' x); try contradiction; [apply sim_ret; exact G2|apply sim_raise].
    + replace (trm inside (EAdd a b)) with (EAdd (trm inside a) (trm inside b))
        by (destruct inside; reflexivity). cbn [eval].
      cbn in Hs, Hp. destruct Hs as [Ha Hb].
      eapply sim_bind; [apply IHe; [assumption|assumption|split; [assumption|intros E; apply (Hp E)]|lia]|].
      intros v v' Hv.
      eapply sim_bind; [apply IHe; [assumption|assumption|split; [assumption|intros E; apply (Hp E)]|lia]|].
      intros w w' Hw. destruct Hv; [|apply sim_type|apply sim_type].
      destruct Hw; [|apply sim_type|apply sim_type]. apply sim_ret. constructor.
    + replace (trm inside (EIf c a b)) with (EIf (trm inside c) (trm inside a) (trm inside b))
        by (destruct inside; reflexivity). cbn [eval].
      cbn in Hs, Hp. destruct Hs as (Hc & Ha & Hb).
      eapply sim_bind; [apply IHe; [assumption|assumption|split; [assumption|intros E; apply (Hp E)]|lia]|].
      intros v v' Hv. rewrite (htruthy_rel _ _ Hv).
      destruct (truthy v'); (apply IHe; [assumption|assumption|split; [assumption|intros E; apply (Hp E)]|lia]).
    + replace (trm inside (ETick j)) with (ETick j) by (destruct inside; reflexivity).
      intros l o E _. injection E as <- <-. exists (Ok (VData 0)). split; [reflexivity|constructor].
    + cbn in Hs, Hp. destruct inside; cbn [trm tr].
      * destruct k as [|k]; [lia|]. cbn. apply sim_ret. constructor. constructor; auto.
      * cbn. apply sim_ret. constructor. constructor; auto.
    + assert (Et : trm inside (ECall f l) =
                   if inside then ECurryCall (trm inside f) (map (trm inside) l)
                   else ECall (trm inside f) (map (trm inside) l)).
      { destruct inside; cbn [trm].
        - cbn [tr]. destruct (Hp eq_refl) as [Hc _]. change has_curry with curried_lambda. rewrite Hc. reflexivity.
        - f_equal. change (trm false) with (fun t : term => t). rewrite map_id. reflexivity. }
      rewrite Et. clear Et.
      assert (Hf : okm inside f).
      { cbn in Hs. split; [apply Hs|]. intros E. apply (Hp E). }
      assert (Hl : okl inside l).
      { cbn in Hs. apply okl_fold; [apply Hs|]. intros E. apply (Hp E). }
      destruct inside; cbn [eval];
        (eapply sim_bind; [apply IHe; [assumption|assumption|assumption|lia]|]; intros v v' Hv);
        (eapply sim_bind; [apply IHs; [assumption|assumption|assumption|lia]|]; intros vs vs' Hvs);
        destruct Hv as [j|h h' Hh|h h' Hh]; cbn; try apply sim_type.
      * apply IHc; auto; lia.
      * apply IHc; auto; lia.
      * apply IHa; auto; lia.
      * apply IHc; auto; lia.
    + assert (Hf : okm inside f).
      { cbn in Hs. split; [apply Hs|]. intros E. apply (Hp E). }
      assert (Hl : okl inside l).
      { cbn in Hs. apply okl_fold; [apply Hs|]. intros E. apply (Hp E). }
      assert (D : (exists ps b, EUCurry f l = EUCurry (ELam ps b) [] /\ nolam b = true /\ inside = true)
                  \/ trm inside (EUCurry f l) = EUCurry (trm inside f) (map (trm inside) l)).
      { destruct inside; cbn [trm].
        - destruct (Hp eq_refl) as [[Hc|(ps & b & E & N)] _]; [right|left; eauto].
          cbn [tr]. change has_curry with curried_lambda. rewrite Hc. reflexivity.
        - right. f_equal. change (trm false) with (fun t : term => t). rewrite map_id. reflexivity. }
      destruct D as [(ps & b & E & N & ->)|Et].
      * injection E as -> ->. cbn [trm tr]. cbn [has_curry decorated_lambda curry_in_chain is_curry_deco].
        cbn [andb orb map eval]. destruct n as [|n]; [apply sim_none|].
        destruct k as [|k]; [lia|]. cbn. apply sim_ret. constructor.
        rewrite (tr_nolam b true false N). destruct Hf as [Hf1 Hf2]. cbn in Hf1. constructor; auto.
      * rewrite Et. cbn [eval].
        (eapply sim_bind; [apply IHe; [assumption|assumption|assumption|lia]|]; intros v v' Hv).
        (eapply sim_bind; [apply IHs; [assumption|assumption|assumption|lia]|]; intros vs vs' Hvs).
        destruct Hv as [j|h h' Hh|h h' Hh]; destruct Hvs as [|u u' us us' Hu Hus]; cbn;
          try apply sim_type; try (apply sim_ret; constructor; assumption);
          (apply IHc; [assumption|assumption|constructor; assumption|lia]).
    + destruct Hs.
    + destruct Hs.
  - intros inside g rho g' rho' ts k ctx Hg Hr Hok Hk. destruct k as [|k]; [lia|].
    destruct Hok as [|t ts Ht Hts]; cbn [hevals evals map].
    + apply sim_ret. constructor.
    + (eapply sim_bind; [apply IHe; [assumption|assumption|assumption|lia]|]; intros v v' Hv).
      (eapply sim_bind; [apply IHs; [assumption|assumption|assumption|lia]|]; intros vs vs' Hvs).
      apply sim_ret. constructor; assumption.
  - intros g g' f f' a a' k ctx Hg Hf Ha Hk. destruct k as [|k]; [lia|].
    destruct Hf as [ps b rho rho' Hs Hp Hr|ps b rho rho' Hs Hr|f f' c c' Hf Hc]; cbn [happly apply].
    + rewrite (lrel_length _ _ Ha). destruct (length a' =? length ps); [|apply sim_type].
      change (tr false b) with (trm true b). apply IHe; [assumption| |split; auto|lia].
      apply erel_app; [apply erel_combine|]; assumption.
    + rewrite (lrel_length _ _ Ha). destruct (length a' =? length ps); [|apply sim_type].
      change b with (trm false b) at 2. apply IHe; [assumption| |split; [auto|discriminate]|lia].
      apply erel_app; [apply erel_combine|]; assumption.
    + apply IHa; [assumption|assumption| |lia]. apply lrel_app; assumption.
  - intros g g' f f' a a' k ctx Hg Hf Ha Hk. destruct k as [|k]; [lia|].
    cbn [hcurried ccall]. rewrite (lrel_length _ _ Ha), (frel_arity _ _ Hf).
    destruct (length a' <? arity f').
    { assert (W : sim vrel (ret (HFn true (HPart f a))) (ret (VCur (Part f' a')))).
      { apply sim_ret. constructor. constructor; assumption. }
      destruct Hf as [| |f f' c c' Hf Hc]; [exact W|exact W|].
      destruct Hf; [exact W|exact W|apply sim_type]. }
    destruct (length a' =? arity f'); [apply IHa; auto; lia|].
    eapply sim_bind; [apply IHa; [assumption|assumption|apply lrel_firstn; assumption|lia]|].
    intros v v' Hv. destruct Hv as [j|h h' Hh|h h' Hh]; cbn; [apply sim_type| |];
      (apply IHc; [assumption|assumption|apply lrel_skipn; assumption|lia]).
Qed.

Lemma sim_exec n inside ss : Forall (fun s => okm inside (stmt_term s)) ss ->
  forall g g' k, erel g g' -> 2 * n <= k ->
  sim erel (hexec true n inside g ss) (exec k g' (if inside then autocurry ss else ss)).
Proof.
  induction 1 as [|s ss Hs Hss IH]; intros g g' k Hg Hk.
  { destruct inside; apply sim_ret; assumption. }
  assert (E0 : erel [] []) by constructor.
  destruct s as [x e|e|c x ps b]; cbn [hexec stmt_term] in *.
  - assert (Hx : exec k g' (if inside then autocurry (SAssign x e :: ss) else SAssign x e :: ss) =
                 bind (eval k false g' [] (trm inside e))
                   (fun v => exec k ((x, v) :: g') (if inside then autocurry ss else ss)))
      by (destruct inside; reflexivity).
    rewrite Hx. eapply sim_bind; [apply sim_all; assumption|]. intros v v' Hv.
    apply IH; [constructor; assumption|assumption].
  - assert (Hx : exec k g' (if inside then autocurry (SExpr e :: ss) else SExpr e :: ss) =
                 bind (eval k false g' [] (trm inside e))
                   (fun _ => exec k g' (if inside then autocurry ss else ss)))
      by (destruct inside; reflexivity).
    rewrite Hx. eapply sim_bind; [apply sim_all; assumption|]. intros v v' Hv.
    apply IH; assumption.
  - assert (Hx : exec k g' (if inside then autocurry (SDef c x ps b :: ss) else SDef c x ps b :: ss) =
                 exec k ((x, if inside || c then VCur (Clo ps (trm inside b) [])
                             else VFn (Clo ps (trm inside b) [])) :: g')
                   (if inside then autocurry ss else ss)) by (destruct inside; reflexivity).
    rewrite Hx. apply IH; [|assumption]. constructor; [|assumption].
    destruct Hs as [H1 H2].
    destruct inside; cbn; [constructor; constructor; auto|].
    destruct c; constructor; constructor; auto.
Qed.
Lemma exec_app k ss1 : forall g ss2,
  exec k g (ss1 ++ ss2) = bind (exec k g ss1) (fun g => exec k g ss2).
Proof.
  assert (B : forall (r : res val) (h1 : val -> res env) (h2 : env -> res env),
     bind r (fun v => bind (h1 v) h2) = bind (bind r h1) h2).
  { intros [[l [v|e]]|] h1 h2; cbn; try reflexivity.
    destruct (h1 v) as [[l1 [w|e]]|]; cbn; try reflexivity.
    destruct (h2 w) as [[l2 o]|]; [|reflexivity]. rewrite app_assoc. reflexivity. }
  induction ss1 as [|s ss1 IH]; intros g ss2.
  { cbn [exec app]. unfold ret, bind. destruct (exec k g ss2) as [[l o]|]; reflexivity. }
  destruct s as [x e|e|c x ps b]; cbn [exec app].
  - rewrite <- B. destruct (eval k false g [] e) as [[l [v|r]]|]; try reflexivity.
    unfold bind at 1 2. rewrite IH. reflexivity.
  - rewrite <- B. destruct (eval k false g [] e) as [[l [v|r]]|]; try reflexivity.
    unfold bind at 1 2. rewrite IH. reflexivity.
  - apply IH.
Qed.
Lemma see_rel v v' : vrel v v' -> hsee v = see v'.
Proof. intros []; reflexivity. Qed.
Lemma get_see g g' x : erel g g' ->
  option_map hsee (get g x) = option_map see (get g' x).
Proof.
  intros H. pose proof (erel_get _ _ x H) as G. destruct (get g x), (get g' x); try contradiction; cbn.
  - f_equal. apply see_rel. exact G.
  - reflexivity.
Qed.
Lemma sim_run n before block after k :
  source before -> block_ok block -> source after -> 2 * n <= k ->
  sim erel (hrun true n before block after) (run k before block after).
Proof.
  intros Hb Hk Ha Hn. unfold hrun, run. rewrite exec_app.
  assert (So : forall ss, source ss -> Forall (fun s => okm false (stmt_term s)) ss).
  { intros ss F. eapply Forall_impl; [|exact F]. intros s H. split; [exact H|discriminate]. }
  eapply sim_bind.
  { apply (sim_exec n false before (So _ Hb) [] []); [constructor|assumption]. }
  intros g g' Hg. rewrite exec_app. eapply sim_bind.
  { apply (sim_exec n true block); [|assumption|assumption].
    eapply Forall_impl; [|exact Hk]. intros s [H1 H2]. split; auto. }
  intros h h' Hh. apply (sim_exec n false after (So _ Ha)); assumption.
Qed.
Theorem curried_run n before block after l o :
  source before -> block_ok block -> source after ->
  hrun true n before block after = Some (l, o) -> o <> Raise TypeError ->
  forall k, 2 * n <= k ->
  match o with
  | Ok g => exists g', run k before block after = Some (l, Ok g') /\
      forall x, option_map see (get g' x) = option_map hsee (get g x)
  | Raise e => run k before block after = Some (l, Raise e)
  end.
Proof.
  intros Hb Hk Ha E Ho k Hn. destruct (sim_run n _ _ _ k Hb Hk Ha Hn l o E Ho) as (o' & E' & Ro).
  destruct o as [g|e], o' as [g'|e']; try contradiction; cbn in Ro.
  - exists g'. split; [exact E'|]. intros x. symmetry. apply get_see, Ro.
  - subst e'. exact E'.
Qed.
