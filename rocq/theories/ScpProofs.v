(** Proofs about the scope analysis. *)
From Coq Require Import String List Bool Arith.
From Verif Require Import ScpModel ScpSpec.
Import ListNotations.
Open Scope string_scope.
Open Scope list_scope.

(** ** Induction *)
Section ExInd.
  Variable P : ex -> Prop.
  Hypothesis Hname : forall x, P (Name x).
  Hypothesis Hop : forall l, Forall P l -> P (Op l).
  Hypothesis Hlam : forall ps ds b, Forall P ds -> P b -> P (Lam ps ds b).
  Hypothesis Hcomp : forall l ts it r, Forall P l -> P it -> Forall P r -> P (Comp l ts it r).
  Hypothesis Hwal : forall x v, P v -> P (Walrus x v).
  Hypothesis Hget : forall x, P (EnvGet x).
  Hypothesis Hset : forall x v, P v -> P (EnvSet x v).
  Fixpoint ex_ind' (e : ex) : P e :=
    let all := fix all (l : list ex) : Forall P l :=
      match l with [] => Forall_nil _ | e :: l' => Forall_cons _ (ex_ind' e) (all l') end in
    match e with
    | Name x => Hname x
    | Op l => Hop l (all l)
    | Lam ps ds b => Hlam ps ds b (all ds) (ex_ind' b)
    | Comp l ts it r => Hcomp l ts it r (all l) (ex_ind' it) (all r)
    | Walrus x v => Hwal x v (ex_ind' v)
    | EnvGet x => Hget x
    | EnvSet x v => Hset x v (ex_ind' v)
    end.
End ExInd.
Section StInd.
  Variable P : st -> Prop.
  Hypothesis Hsimple : forall ts l, P (Simple ts l).
  Hypothesis Hdel : forall ts, P (Delete ts).
  Hypothesis Hdecl : forall ts, P (Decl ts).
  Hypothesis Hblock : forall ts l b, Forall P b -> P (Block ts l b).
  Hypothesis Hdef : forall f decos ps ds b, Forall P b -> P (Def f decos ps ds b).
  Fixpoint st_ind' (s : st) : P s :=
    let all := fix all (l : list st) : Forall P l :=
      match l with [] => Forall_nil _ | s :: l' => Forall_cons _ (st_ind' s) (all l') end in
    match s with
    | Simple ts l => Hsimple ts l
    | Delete ts => Hdel ts
    | Decl ts => Hdecl ts
    | Block ts l b => Hblock ts l b (all b)
    | Def f decos ps ds b => Hdef f decos ps ds b (all b)
    end.
End StInd.

Lemma mem_In x l : mem x l = true <-> In x l.
Proof.
  unfold mem. rewrite existsb_exists. split.
  - intros (y & Hy & E). apply String.eqb_eq in E. now subst.
  - intros H. exists x. split; [exact H|apply String.eqb_refl].
Qed.
Lemma mem_eq x l m : (In x l <-> In x m) -> mem x l = mem x m.
Proof.
  intros H. destruct (mem x l) eqn:E, (mem x m) eqn:F; try reflexivity; exfalso.
  - apply mem_In, H, mem_In in E. congruence.
  - apply mem_In, H, mem_In in F. congruence.
Qed.
Lemma In_minus x l m : In x (minus l m) <-> In x l /\ ~ In x m.
Proof.
  unfold minus. rewrite filter_In. split; intros [H1 H2]; split; auto.
  - intros H. apply mem_In in H. rewrite H in H2. discriminate.
  - destruct (mem x m) eqn:E; [|reflexivity]. apply mem_In in E. contradiction.
Qed.
Lemma map_ext_F {A B} (f g : A -> B) l : Forall (fun x => f x = g x) l -> map f l = map g l.
Proof. induction 1; cbn; congruence. Qed.
Lemma flat_map_ext_F {A B} (f g : A -> list B) l :
  Forall (fun x => f x = g x) l -> flat_map f l = flat_map g l.
Proof. induction 1; cbn; congruence. Qed.
Lemma flat_map_map {A B C} (f : B -> list C) (g : A -> B) l :
  flat_map f (map g l) = flat_map (fun x => f (g x)) l.
Proof. induction l; cbn; congruence. Qed.

Section Proofs.
Variable L : list string.
Notation tr_e := (tr_e L).
Notation tr_s := (tr_s L).

(** ** The two passes in one *)
Fixpoint c_e (a l n : list string) (e : ex) : ex :=
  match e with
  | Name x => if ours L a l n x then EnvGet x else Name x
  | Op es => Op (map (c_e a l n) es)
  | Lam ps ds b => Lam ps (map (c_e (a ++ ps) l n) ds) (c_e (a ++ ps) l n b)
  | Comp es ts it r =>
      Comp (map (c_e (a ++ ts) l n) es) ts (c_e (a ++ ts) l n it) (map (c_e (a ++ ts) l n) r)
  | Walrus x v => if ours L a l n x then EnvSet x (c_e a l n v) else Walrus x (c_e a l n v)
  | EnvGet x => EnvGet x
  | EnvSet x v => EnvSet x (c_e a l n v)
  end.
Lemma passes_e e : forall a l n, tr_e Names a l n (tr_e Assign a l n e) = c_e a l n e.
Proof.
  induction e as [x|es IH|ps ds b IH IHb|es ts it r IH IHi IHr|x v IH|x|x v IH] using ex_ind';
    intros a l n; cbn; auto.
  - f_equal. rewrite map_map. apply map_ext_F. eapply Forall_impl; [|exact IH]. cbn. auto.
  - rewrite map_map, IHb. f_equal. apply map_ext_F. eapply Forall_impl; [|exact IH]. cbn. auto.
  - rewrite !map_map, IHi. f_equal; apply map_ext_F;
      (eapply Forall_impl; [|first [exact IH|exact IHr]]; cbn; auto).
  - destruct (ours L a l n x); cbn; now rewrite IH.
  - now rewrite IH.
Qed.
Lemma stored_names_e e : forall a l n, stored_e (tr_e Names a l n e) = stored_e e.
Proof.
  induction e as [x|es IH|ps ds b IH IHb|es ts it r IH IHi IHr|x v IH|x|x v IH] using ex_ind';
    intros a l n; cbn; auto.
  - destruct (ours L a l n x); reflexivity.
  - rewrite flat_map_map. apply flat_map_ext_F. eapply Forall_impl; [|exact IH]. cbn. auto.
  - now rewrite IH.
Qed.
Lemma stored_names s : forall a n l, stored (tr_s Names a n l s) = stored s.
Proof.
  induction s as [ts es|ts|ts|ts es b IH|f decos ps ds b IH] using st_ind'; intros a n l; cbn;
    try reflexivity.
  - f_equal. rewrite flat_map_map. apply flat_map_ext_F, Forall_forall. intros.
    apply stored_names_e.
  - f_equal. f_equal.
    + rewrite flat_map_map. apply flat_map_ext_F, Forall_forall. intros. apply stored_names_e.
    + rewrite flat_map_map. apply flat_map_ext_F. eapply Forall_impl; [|exact IH]. cbn. auto.
Qed.
Lemma deleted_tr p s : forall a n l, deleted (tr_s p a n l s) = deleted s.
Proof.
  induction s as [ts es|ts|ts|ts es b IH|f decos ps ds b IH] using st_ind'; intros a n l; cbn;
    try reflexivity.
  rewrite flat_map_map. apply flat_map_ext_F. eapply Forall_impl; [|exact IH]. cbn. auto.
Qed.
Lemma declared_tr p s : forall a n l, declared (tr_s p a n l s) = declared s.
Proof.
  induction s as [ts es|ts|ts|ts es b IH|f decos ps ds b IH] using st_ind'; intros a n l; cbn;
    try reflexivity.
  rewrite flat_map_map. apply flat_map_ext_F. eapply Forall_impl; [|exact IH]. cbn. auto.
Qed.
Lemma declared_body p a m n b : forall l,
  flat_map declared (body (tr_s p a m) n l b) = flat_map declared b.
Proof.
  induction b as [|s b IH]; intros l; [reflexivity|]. cbn. now rewrite declared_tr, IH.
Qed.

Fixpoint c_s (a n l : list string) (s : st) {struct s} : st :=
  match s with
  | Simple ts es => Simple ts (map (c_e a l n) es)
  | Delete ts => Delete ts
  | Decl ts => Decl ts
  | Block ts es b => Block ts (map (c_e a l n) es) (map (c_s a n l) b)
  | Def f decos ps ds b =>
      let a' := a ++ f :: ps in
      let n' := flat_map declared b in
      Def f (map (c_e a l n) decos) ps (map (c_e a' l n) ds) (body (c_s a' n') n' l b)
  end.
Lemma passes_es es a l n :
  map (tr_e Names a l n) (map (tr_e Assign a l n) es) = map (c_e a l n) es.
Proof. rewrite map_map. apply map_ext. intros. apply passes_e. Qed.
Lemma passes s : forall a n l, tr_s Names a n l (tr_s Assign a n l s) = c_s a n l s.
Proof.
  induction s as [ts es|ts|ts|ts es b IH|f decos ps ds b IH] using st_ind'; intros a n l;
    cbn [ScpModel.tr_s c_s]; try reflexivity.
  - now rewrite passes_es.
  - rewrite passes_es. f_equal. rewrite map_map. apply map_ext_F.
    eapply Forall_impl; [|exact IH]. cbn. auto.
  - rewrite !passes_es, declared_body. f_equal. generalize (flat_map declared b). intros n'.
    generalize (a ++ f :: ps). intros a'. revert l.
    induction IH as [|s b Hs _ IHb]; intros l; [reflexivity|]. cbn. rewrite Hs. f_equal.
    replace (after n' l (c_s a' n' l s)) with (after n' l (tr_s Assign a' n' l s)).
    + apply IHb.
    + rewrite <- Hs. unfold after. now rewrite stored_names, !deleted_tr.
Qed.

(** ** Against the specification *)
Definition agree (M a l n : list string) (sc : scope) : Prop :=
  forall x, In x L -> In x M -> (In x (a ++ l ++ n) <-> In x (shadow sc)).
Lemma agree_sub M M' a l n sc : incl M' M -> agree M a l n sc -> agree M' a l n sc.
Proof. intros H A x H1 H2. apply A; auto. Qed.
Lemma free_ours M a l n sc x : agree M a l n sc -> In x M -> ours L a l n x = free L sc x.
Proof.
  intros A Hx. unfold ours, free. change (existsb (String.eqb x) L) with (mem x L).
  destruct (mem x L) eqn:E; [|reflexivity]. cbn [andb]. apply mem_In in E. f_equal.
  apply mem_eq. now apply A.
Qed.
Lemma agree_params M a l n sc ps :
  agree M a l n sc -> agree M (a ++ ps) l n (params sc ps).
Proof.
  intros A x H1 H2. specialize (A x H1 H2). unfold shadow, params in *; cbn.
  rewrite !in_app_iff in *. intuition.
Qed.
Lemma agree_params_out M a l n sc ps :
  agree M a l n sc -> apart L ps M -> agree M (a ++ ps) l n sc.
Proof.
  intros A D x H1 H2. rewrite <- (A x H1 H2). rewrite !in_app_iff. intuition.
  exfalso. eapply D; eauto.
Qed.
Lemma incl_flat_map {A B} (f : A -> list B) x l : In x l -> incl (f x) (flat_map f l).
Proof. intros H y Hy. apply in_flat_map. eauto. Qed.
Lemma fold_Forall {A} (P : A -> Prop) l :
  fold_right (fun x Q => P x /\ Q) True l <-> Forall P l.
Proof. induction l; cbn; [split; auto|]. rewrite IHl, Forall_cons_iff. reflexivity. Qed.

Lemma ref_e_ok e : forall a l n sc, regular_e L e -> agree (mentions_e e) a l n sc ->
  c_e a l n e = ref_e L sc e.
Proof.
  induction e as [x|es IH|ps ds b IH IHb|es ts it r IH IHi IHr|x v IH|x|x v IH] using ex_ind';
    intros a l n sc R A; cbn [c_e ref_e].
  - rewrite (free_ours _ _ _ _ _ _ A); [reflexivity|now left].
  - f_equal. apply map_ext_F. cbn in R. apply fold_Forall in R. rewrite Forall_forall in *.
    intros e He. apply IH; auto. eapply agree_sub; [|exact A]. now apply incl_flat_map.
  - cbn in R. destruct R as (D & Rd & Rb). apply fold_Forall in Rd. f_equal.
    + apply map_ext_F. rewrite Forall_forall in *. intros e He. apply IH; auto.
      apply agree_params_out.
      * eapply agree_sub; [|exact A]. cbn. apply incl_appl. now apply incl_flat_map.
      * intros x H1 H2 H3. apply (D x H1 H2). revert H3. now apply incl_flat_map.
    + apply IHb; auto. apply agree_params. eapply agree_sub; [|exact A]. cbn. apply incl_appr, incl_refl.
  - cbn in R. destruct R as (D & Rl & Ri & Rr). apply fold_Forall in Rl, Rr. f_equal.
    + apply map_ext_F. rewrite Forall_forall in *. intros e He. apply IH; auto.
      apply agree_params. eapply agree_sub; [|exact A]. cbn. apply incl_appl. now apply incl_flat_map.
    + apply IHi; auto. apply agree_params_out; [|exact D].
      eapply agree_sub; [|exact A]. cbn. apply incl_appr, incl_appl, incl_refl.
    + apply map_ext_F. rewrite Forall_forall in *. intros e He. apply IHr; auto.
      apply agree_params. eapply agree_sub; [|exact A]. cbn. apply incl_appr, incl_appr. now apply incl_flat_map.
  - rewrite (free_ours _ _ _ _ _ _ A); [|now left].
    rewrite (IH a l n sc); auto. eapply agree_sub; [|exact A]. cbn. apply incl_tl, incl_refl.
  - destruct R.
  - destruct R.
Qed.
Lemma ref_es_ok es a l n sc : (forall e, In e es -> regular_e L e) ->
  agree (flat_map mentions_e es) a l n sc -> map (c_e a l n) es = map (ref_e L sc) es.
Proof.
  intros R A. apply map_ext_F, Forall_forall. intros e He. apply ref_e_ok; auto.
  eapply agree_sub; [|exact A]. now apply incl_flat_map.
Qed.

(** What a statement stores *)
Lemma ours_false a l n x : ours L a l n x = false -> In x L -> In x (a ++ l ++ n).
Proof.
  unfold ours. intros H HL. apply mem_In in HL. rewrite HL in H. cbn in H.
  apply negb_false_iff in H. now apply mem_In.
Qed.
Lemma stored_e_shadowed e : forall a l n x, In x L -> In x (stored_e (c_e a l n e)) ->
  regular_e L e -> In x (a ++ l ++ n).
Proof.
  induction e as [y|es IH|ps ds b IH IHb|es ts it r IH IHi IHr|y v IH|y|y v IH] using ex_ind';
    intros a l n x HL; cbn [c_e]; try (intros []; fail).
  - destruct (ours L a l n y); intros [].
  - cbn. intros H R. apply fold_Forall in R. rewrite flat_map_map in H.
    apply in_flat_map in H as (e & He & Hx).
    rewrite Forall_forall in *. apply (IH e He); auto.
  - destruct (ours L a l n y) eqn:E; cbn.
    + intros H R. apply IH; auto.
    + intros [->|H] R; [now apply ours_false|apply IH; auto].
  - intros _ [].
Qed.
Lemma stored_es_shadowed es a l n x : In x L -> (forall e, In e es -> regular_e L e) ->
  In x (flat_map stored_e (map (c_e a l n) es)) -> In x (a ++ l ++ n).
Proof.
  intros HL R H. rewrite flat_map_map in H. apply in_flat_map in H as (e & He & Hx).
  eapply stored_e_shadowed; eauto.
Qed.
Lemma stored_c s : forall up cur a n l x, In x L -> regular L up cur s ->
  In x (stored (c_s a n l s)) -> In x (creates s) \/ In x (a ++ l ++ n).
Proof.
  induction s as [ts es|ts|ts|ts es b IH|f decos ps ds b IH] using st_ind';
    intros up cur a n l x HL R; cbn.
  - rewrite in_app_iff. intros [H|H]; [now left|]. right. eapply stored_es_shadowed; eauto.
  - intros [].
  - intros [].
  - destruct R as (R1 & _ & _ & _ & R2). apply fold_Forall in R2.
    rewrite !in_app_iff. intros [H|[H|H]]; [now left; left|..].
    + right. rewrite <- !in_app_iff. eapply stored_es_shadowed; eauto.
    + rewrite flat_map_map in H. apply in_flat_map in H as (s & Hs & Hx).
      rewrite Forall_forall in *. destruct (IH s Hs up cur a n l x HL (R2 s Hs) Hx) as [H|H].
      * left. right. apply in_flat_map. eauto.
      * right. now rewrite !in_app_iff in H.
  - intros [->|[]]. left. now left.
Qed.

Lemma creates_stored s : forall a n l x, In x (creates s) -> In x (stored (c_s a n l s)).
Proof.
  induction s as [ts es|ts|ts|ts es b IH|f decos ps ds b IH] using st_ind';
    intros a n l x; cbn; auto.
  - intros H. apply in_app_iff. now left.
  - rewrite !in_app_iff. intros [H|H]; [now left|]. right. right.
    apply in_flat_map in H as (s & Hs & Hx). rewrite flat_map_map. apply in_flat_map.
    exists s. split; [exact Hs|]. rewrite Forall_forall in IH. now apply IH.
Qed.
Lemma deleted_c s : forall a n l, deleted (c_s a n l s) = deleted s.
Proof. intros. now rewrite <- passes, !deleted_tr. Qed.

(** The scope after a statement, by the specification *)
Definition step_ok (s : st) : Prop := forall sc x,
  let sc' := snd (ref_s L sc s) in
  fixed sc' = fixed sc /\ up sc' = up sc /\
  (~ In x (deleted s) -> (In x (own sc') <-> In x (own sc) \/ In x (creates s))) /\
  (~ In x (creates s) -> (In x (own sc') <-> In x (own sc) /\ ~ In x (deleted s))).
Lemma thread_step b : Forall step_ok b -> forall sc x,
  let sc' := snd (thread (ref_s L) sc b) in
  fixed sc' = fixed sc /\ up sc' = up sc /\
  (~ In x (flat_map deleted b) -> (In x (own sc') <-> In x (own sc) \/ In x (flat_map creates b))) /\
  (~ In x (flat_map creates b) -> (In x (own sc') <-> In x (own sc) /\ ~ In x (flat_map deleted b))).
Proof.
  induction 1 as [|s b Hs _ IH]; intros sc x; cbn [thread snd].
  - cbn. repeat split; try tauto.
  - specialize (Hs sc x). cbn in Hs. destruct (ref_s L sc s) as [s1 sc1]. cbn [snd] in Hs.
    specialize (IH sc1 x). cbn in IH. fold (thread (ref_s L)).
    destruct (thread (ref_s L) sc1 b) as [b1 sc2]. cbn [snd fst] in *.
    destruct Hs as (F1 & U1 & A1 & B1). destruct IH as (F2 & U2 & A2 & B2).
    split; [congruence|]. split; [congruence|]. cbn [flat_map]. split.
    + rewrite !in_app_iff. intros H.
      rewrite A2 by tauto. rewrite A1 by tauto. tauto.
    + rewrite !in_app_iff. intros H. rewrite B2 by tauto. rewrite B1 by tauto. tauto.
Qed.
Lemma In_filter_out x ts l :
  In x (filter (fun y => negb (existsb (String.eqb y) ts)) l) <-> In x l /\ ~ In x ts.
Proof. exact (In_minus x l ts). Qed.
Lemma step s : step_ok s.
Proof.
  induction s as [ts es|ts|ts|ts es b IH|f decos ps ds b IH] using st_ind'; intros sc x.
  - cbn. rewrite !in_app_iff. repeat split; tauto.
  - cbn. repeat split; rewrite ?In_filter_out in *; try tauto.
  - cbn. repeat split; tauto.
  - cbn [ref_s]. pose proof (thread_step b IH (create sc ts) x) as H. cbn in H.
    destruct (thread (ref_s L) (create sc ts) b) as [b1 sc1]. cbn [snd] in *.
    destruct H as (F & U & A & B). cbn in F, U, A, B.
    split; [exact F|]. split; [exact U|]. cbn [creates deleted]. split.
    + intros H. rewrite A by exact H. rewrite !in_app_iff. tauto.
    + rewrite in_app_iff. intros H. rewrite B by tauto. rewrite in_app_iff. tauto.
  - cbn. repeat split; try tauto.
Qed.
Lemma thread_steps b sc x :
  let sc' := snd (thread (ref_s L) sc b) in
  fixed sc' = fixed sc /\ up sc' = up sc /\
  (~ In x (flat_map deleted b) -> (In x (own sc') <-> In x (own sc) \/ In x (flat_map creates b))) /\
  (~ In x (flat_map creates b) -> (In x (own sc') <-> In x (own sc) /\ ~ In x (flat_map deleted b))).
Proof. apply thread_step, Forall_forall. intros s _. apply step. Qed.

(** The state of the analysis against the scope *)
Definition inv (M a l n : list string) (sc : scope) : Prop :=
  agree M a l n sc /\
  forall x, In x L -> In x M -> ~ In x (up sc) -> (In x a \/ In x n <-> In x (fixed sc)).

Lemma regular_deleted s : forall up cur x, regular L up cur s -> In x L -> In x (deleted s) ->
  ~ In x up /\ ~ In x (creates s).
Proof.
  induction s as [ts es|ts|ts|ts es b IH|f decos ps ds b IH] using st_ind';
    intros up cur x R HL; cbn; try (intros []; fail).
  - intros H. split; [|tauto]. intros H'. exact (R x HL H H').
  - intros H. cbn in R. destruct R as (_ & _ & _ & D & R). split.
    + apply in_flat_map in H as (s & Hs & Hx). apply fold_Forall in R.
      rewrite Forall_forall in *. now apply (IH s Hs up cur x (R s Hs)).
    + intros H'. exact (D x HL H' H).
Qed.

Lemma inv_step s up0 cur M a l n sc :
  regular L up0 cur s -> (forall x, In x L -> In x (up sc) -> In x up0) ->
  inv M a l n sc -> inv M a (after n l (c_s a n l s)) n (snd (ref_s L sc s)).
Proof.
  intros R Hup [A I]. pose proof (step s sc) as S. cbn in S.
  split.
  - intros x HL HM. destruct (S x) as (F & U & S1 & S2).
    specialize (A x HL HM). specialize (I x HL HM).
    pose proof (regular_deleted s up0 cur x R HL) as RD.
    pose proof (stored_c s up0 cur a n l x HL R) as SC.
    pose proof (creates_stored s a n l x) as CS.
    unfold shadow, after in *. rewrite F, U. rewrite deleted_c.
    rewrite !in_app_iff, !In_minus, in_app_iff, !In_minus in *.
    destruct (in_dec string_dec x n) as [Hn|Hn].
    + split; [intros _|intros _; right; right; exact Hn].
      destruct (in_dec string_dec x (up sc)) as [Hu|Hu]; [right; right; exact Hu|].
      left. apply (I Hu). now right.
    + destruct (in_dec string_dec x (deleted s)) as [Hd|Hd].
      * destruct (RD Hd) as [Hu Hc]. specialize (S2 Hc).
        assert (Hu' : ~ In x (up sc)) by (intros H; apply Hu; auto).
        specialize (I Hu'). rewrite S2. clear - I Hd Hn Hu'. tauto.
      * rewrite (S1 Hd). clear - A SC CS Hd Hn. tauto.
  - intros x HL HM Hu. destruct (S x) as (F & U & _). rewrite F. rewrite U in Hu.
    now apply I.
Qed.

Lemma inner_incl s : incl (inner_mentions s) (mentions s).
Proof.
  induction s as [ts es|ts|ts|ts es b IH|f decos ps ds b IH] using st_ind'; cbn;
    try (intros x []; fail).
  - intros x H. apply in_app_iff. right. apply in_flat_map in H as (s & Hs & Hx).
    apply in_flat_map. exists s. split; [exact Hs|]. rewrite Forall_forall in IH. now apply IH.
  - intros x H. rewrite !in_app_iff. tauto.
Qed.

Lemma ref_ok s : forall up0 cur a n l sc,
  regular L up0 cur s -> agree (mentions s) a l n sc ->
  apart L n (inner_mentions s) ->
  (forall x, In x L -> In x (up sc) -> In x up0) ->
  (forall x, In x L -> In x (shadow sc) -> In x cur) ->
  (forall x, In x L -> In x (creates s) -> In x cur) ->
  c_s a n l s = fst (ref_s L sc s).
Proof.
  induction s as [ts es|ts|ts|ts es b IH|f decos ps ds b IH] using st_ind';
    intros up0 cur a n l sc R A N Hup Hcur Hcr; cbn [c_s ref_s fst]; try reflexivity.
  - f_equal. now apply ref_es_ok.
  - cbn in R. destruct R as (R1 & D1 & D2 & D3 & R2).
    enough (E : map (c_s a n l) b = fst (thread (ref_s L) (create sc ts) b)).
    { destruct (thread (ref_s L) (create sc ts) b) as [b1 sc1]. cbn [fst] in *. rewrite E.
      f_equal. apply ref_es_ok; [exact R1|]. eapply agree_sub; [|exact A]. cbn.
      apply incl_appl, incl_refl. }
    apply fold_Forall in R2.
    (* the names mentioned in the block are not touched in it *)
    assert (G : forall b' sc1,
      incl b' b ->
      (forall x, In x L -> In x (flat_map mentions b) -> In x (shadow sc1) <-> In x (shadow sc)) ->
      (forall x, In x L -> In x (up sc1) -> In x up0) ->
      (forall x, In x L -> In x (shadow sc1) -> In x cur) ->
      map (c_s a n l) b' = fst (thread (ref_s L) sc1 b')).
    { induction b' as [|s b' IHb]; intros sc1 Hi Hs Hu Hc; [reflexivity|].
      assert (Hsb : In s b) by (apply Hi; now left).
      cbn [map thread]. fold (thread (ref_s L)).
      pose proof (step s sc1) as S. cbn in S.
      assert (E : c_s a n l s = fst (ref_s L sc1 s)).
      { rewrite Forall_forall in IH, R2. apply (IH s Hsb up0 cur); auto.
        - intros x HL HM. rewrite (A x HL).
          + symmetry. apply Hs; [exact HL|]. apply in_flat_map. eauto.
          + cbn. apply in_app_iff. right. apply in_flat_map. eauto.
        - intros x HL Hn Hx. apply (N x HL Hn). cbn. apply in_flat_map. eauto.
        - intros x HL Hx. apply Hcr; [exact HL|]. cbn. apply in_app_iff. right.
          apply in_flat_map. eauto. }
      rewrite E. destruct (ref_s L sc1 s) as [s1 sc2]. cbn [fst snd] in *.
      rewrite (IHb sc2).
      - destruct (thread (ref_s L) sc2 b'). reflexivity.
      - intros y Hy. apply Hi. now right.
      - intros x HL HM. rewrite <- (Hs x HL HM). destruct (S x) as (F & U & S1 & S2).
        unfold shadow. rewrite !in_app_iff, F, U.
        assert (Nc : ~ In x (creates s)).
        { intros H. apply (D1 x HL); [|exact HM]. apply in_app_iff. right.
          apply in_flat_map. eauto. }
        assert (Nd : ~ In x (deleted s)).
        { intros H. apply (D2 x HL); [|exact HM]. apply in_flat_map. eauto. }
        rewrite (S2 Nc). tauto.
      - intros x HL Hx. destruct (S x) as (_ & U & _). rewrite U in Hx. auto.
      - intros x HL Hx. destruct (S x) as (F & U & S1 & S2). unfold shadow in Hx.
        rewrite F, U, !in_app_iff in Hx. destruct Hx as [Hx|[Hx|Hx]].
        + apply Hc; [exact HL|]. unfold shadow. rewrite !in_app_iff. tauto.
        + destruct (in_dec string_dec x (creates s)) as [H|H].
          * apply Hcr; [exact HL|]. cbn. apply in_app_iff. right. apply in_flat_map. eauto.
          * apply S2 in Hx; [|exact H]. apply Hc; [exact HL|]. unfold shadow.
            rewrite !in_app_iff. tauto.
        + apply Hc; [exact HL|]. unfold shadow. rewrite !in_app_iff. tauto. }
    apply G.
    + apply incl_refl.
    + intros x HL HM. unfold shadow, create; cbn. rewrite !in_app_iff.
      assert (~ In x ts).
      { intros H. apply (D1 x HL); [|exact HM]. apply in_app_iff. now left. }
      tauto.
    + exact Hup.
    + intros x HL Hx. unfold shadow, create in Hx; cbn in Hx. rewrite !in_app_iff in Hx.
      destruct Hx as [Hx|[[Hx|Hx]|Hx]].
      * apply Hcur; [exact HL|]. unfold shadow. rewrite !in_app_iff. tauto.
      * apply Hcr; [exact HL|]. cbn. apply in_app_iff. now left.
      * apply Hcur; [exact HL|]. unfold shadow. rewrite !in_app_iff. tauto.
      * apply Hcur; [exact HL|]. unfold shadow. rewrite !in_app_iff. tauto.
  - cbn in R. destruct R as (R1 & R2 & D1 & D2 & R3).
    set (n' := flat_map declared b) in *. set (a' := a ++ f :: ps).
    f_equal.
    + apply ref_es_ok; [exact R1|]. eapply agree_sub; [|exact A]. cbn. apply incl_appl, incl_refl.
    + apply ref_es_ok; [exact R2|]. apply agree_params_out; [|exact D1].
      eapply agree_sub; [|exact A]. cbn. apply incl_appr, incl_appl, incl_refl.
    + apply fold_Forall in R3.
      assert (G : forall b' l1 sc1, incl b' b ->
        inv (flat_map mentions b) a' l1 n' sc1 ->
        (forall x, In x L -> In x (up sc1) -> In x cur) ->
        (forall x, In x L -> In x (shadow sc1) ->
           In x (cur ++ f :: ps ++ n' ++ flat_map creates b)) ->
        body (c_s a' n') n' l1 b' = fst (thread (ref_s L) sc1 b')).
      { induction b' as [|s b' IHb]; intros l1 sc1 Hi I Hu Hc; [reflexivity|].
        assert (Hsb : In s b) by (apply Hi; now left).
        cbn [body thread]. fold (thread (ref_s L)). fold (body (c_s a' n') n').
        rewrite Forall_forall in IH, R3.
        assert (E : c_s a' n' l1 s = fst (ref_s L sc1 s)).
        { eapply (IH s Hsb); [exact (R3 s Hsb)|..]; auto.
          - eapply agree_sub; [|exact (proj1 I)]. now apply incl_flat_map.
          - intros x HL Hn Hx. apply (D2 x HL Hn). apply in_flat_map. eauto.
          - intros x HL Hx. apply in_app_iff. right. right. rewrite !in_app_iff. right. right.
            apply in_flat_map. eauto. }
        pose proof (inv_step s cur _ _ a' l1 n' sc1 (R3 s Hsb) Hu I) as I'.
        pose proof (step s sc1) as S. cbn in S.
        rewrite E in I' |- *. destruct (ref_s L sc1 s) as [s1 sc2]. cbn [fst snd] in *.
        rewrite (IHb _ sc2).
        - destruct (thread (ref_s L) sc2 b'). reflexivity.
        - intros y Hy. apply Hi. now right.
        - exact I'.
        - intros x HL Hx. destruct (S x) as (_ & U & _). rewrite U in Hx. auto.
        - intros x HL Hx. destruct (S x) as (F & U & S1 & S2). unfold shadow in Hx.
          rewrite F, U, !in_app_iff in Hx. destruct Hx as [Hx|[Hx|Hx]].
          + apply Hc; [exact HL|]. unfold shadow. rewrite !in_app_iff. tauto.
          + destruct (in_dec string_dec x (creates s)) as [H|H].
            * apply in_app_iff. right. right. rewrite !in_app_iff. right. right.
              apply in_flat_map. eauto.
            * apply S2 in Hx; [|exact H]. apply Hc; [exact HL|]. unfold shadow.
              rewrite !in_app_iff. tauto.
          + apply Hc; [exact HL|]. unfold shadow. rewrite !in_app_iff. tauto. }
      apply G.
      * apply incl_refl.
      * assert (Hm : forall x, In x L -> In x (flat_map mentions b) ->
          (In x a \/ In x l <-> In x (shadow sc))).
        { intros x HL HM. rewrite <- (A x HL).
          - rewrite !in_app_iff. assert (~ In x n) by (intros H; exact (N x HL H HM)). tauto.
          - cbn. rewrite !in_app_iff. tauto. }
        split.
        -- intros x HL HM. specialize (Hm x HL HM). subst a'. unfold enter.
           unfold shadow at 1. cbn [fixed own up]. cbn [app]. cbn [In].
           rewrite !in_app_iff. cbn [In]. rewrite ?in_app_iff. tauto.
        -- intros x HL HM Hu. specialize (Hm x HL HM). subst a'. unfold enter in *.
           cbn [fixed up] in *. cbn [In]. rewrite !in_app_iff. cbn [In]. tauto.
      * intros x HL Hx. exact (Hcur x HL Hx).
      * intros x HL Hx. unfold enter in Hx. unfold shadow at 1 in Hx. cbn [fixed own up] in Hx.
        cbn [app] in Hx. cbn [In] in Hx. rewrite !in_app_iff in *. cbn [In].
        rewrite !in_app_iff.
        destruct Hx as [Hx|Hx]; [tauto|]. rewrite ?in_app_iff in Hx.
        destruct Hx as [[Hx|Hx]|Hx]; [tauto|tauto|]. left. auto.
Qed.

Lemma letlike_ok s : regular_def L s -> letlike L s = fst (ref_s L top s).
Proof.
  intros R. unfold letlike. rewrite passes. eapply ref_ok; [exact R|..].
  - intros x _ _. cbn. tauto.
  - intros x _ [].
  - intros x _ [].
  - intros x _ [].
  - auto.
Qed.
Lemma letlike_e_ok e : regular_e L e -> letlike_e L e = ref_e L top e.
Proof.
  intros R. unfold letlike_e. rewrite passes_e. apply ref_e_ok; [exact R|].
  intros x _ _. cbn. tauto.
Qed.
End Proofs.

(** What shadows *)
Lemma not_ours_e L e : forall a l n, (forall x, In x L -> ~ In x (mentions_e e)) ->
  c_e L a l n e = e.
Proof.
  induction e as [y|es IH|ps ds b IH IHb|es ts it r IH IHi IHr|y v IH|y|y v IH] using ex_ind';
    intros a l n H; cbn [c_e].
  - unfold ours. destruct (mem y L) eqn:E; [|reflexivity]. apply mem_In in E.
    exfalso. apply (H y E). now left.
  - f_equal. transitivity (map (fun e => e) es); [|apply map_id]. apply map_ext_F.
    rewrite Forall_forall in *. intros e He. apply IH; [exact He|].
    intros x Hx Hm. apply (H x Hx). cbn. apply in_flat_map. eauto.
  - f_equal.
    + transitivity (map (fun e => e) ds); [|apply map_id]. apply map_ext_F.
      rewrite Forall_forall in *. intros e He. apply IH; [exact He|].
      intros x Hx Hm. apply (H x Hx). cbn. apply in_app_iff. left. apply in_flat_map. eauto.
    + apply IHb. intros x Hx Hm. apply (H x Hx). cbn. apply in_app_iff. now right.
  - f_equal.
    + transitivity (map (fun e => e) es); [|apply map_id]. apply map_ext_F.
      rewrite Forall_forall in *. intros e He. apply IH; [exact He|].
      intros x Hx Hm. apply (H x Hx). cbn. apply in_app_iff. left. apply in_flat_map. eauto.
    + apply IHi. intros x Hx Hm. apply (H x Hx). cbn. rewrite !in_app_iff. tauto.
    + transitivity (map (fun e => e) r); [|apply map_id]. apply map_ext_F.
      rewrite Forall_forall in *. intros e He. apply IHr; [exact He|].
      intros x Hx Hm. apply (H x Hx). cbn. rewrite !in_app_iff. right. right.
      apply in_flat_map. eauto.
  - unfold ours. destruct (mem y L) eqn:E.
    + apply mem_In in E. exfalso. apply (H y E). now left.
    + cbn [andb]. f_equal. apply IH. intros x Hx Hm. apply (H x Hx). now right.
  - reflexivity.
  - f_equal. now apply IH.
Qed.
Lemma not_ours L s : forall a n l, (forall x, In x L -> ~ In x (mentions s)) ->
  c_s L a n l s = s.
Proof.
  assert (Es : forall es a l n, (forall x, In x L -> ~ In x (flat_map mentions_e es)) ->
    map (c_e L a l n) es = es).
  { intros es a l n H. transitivity (map (fun e => e) es); [|apply map_id].
    apply map_ext_F, Forall_forall. intros e He. apply not_ours_e.
    intros x Hx Hm. apply (H x Hx). apply in_flat_map. eauto. }
  induction s as [ts es|ts|ts|ts es b IH|f decos ps ds b IH] using st_ind';
    intros a n l H; cbn [c_s]; try reflexivity.
  - now rewrite Es.
  - rewrite Es.
    + f_equal. transitivity (map (fun s => s) b); [|apply map_id]. apply map_ext_F.
      rewrite Forall_forall in *. intros s Hs. apply IH; [exact Hs|].
      intros x Hx Hm. apply (H x Hx). cbn. apply in_app_iff. right. apply in_flat_map. eauto.
    + intros x Hx Hm. apply (H x Hx). cbn. apply in_app_iff. now left.
  - rewrite !Es.
    + f_equal. generalize (flat_map declared b) as n'. intros n'. generalize (a ++ f :: ps) as a'.
      intros a'. assert (H' : forall x, In x L -> ~ In x (flat_map mentions b)).
      { intros x Hx Hm. apply (H x Hx). cbn. rewrite !in_app_iff. tauto. }
      clear H. revert l. induction IH as [|s b Hs _ IHb]; intros l; [reflexivity|].
      cbn. rewrite Hs.
      * f_equal. apply IHb. intros x Hx Hm. apply (H' x Hx). cbn. apply in_app_iff. now right.
      * intros x Hx Hm. apply (H' x Hx). cbn. apply in_app_iff. now left.
    + intros x Hx Hm. apply (H x Hx). cbn. rewrite !in_app_iff. tauto.
    + intros x Hx Hm. apply (H x Hx). cbn. rewrite !in_app_iff. tauto.
Qed.
Lemma untouched L s : (forall x, In x L -> ~ In x (mentions s)) -> letlike L s = s.
Proof. intros H. unfold letlike. rewrite passes. now apply not_ours. Qed.

Definition use (x : string) : st := Simple [] [Name x].
Definition bindto (x : string) : st := Simple [x] [].
Definition fn (b : list st) : st := Def "f" [] [] [] b.
Lemma dletseq_param : 
  let g := Def "g" [] ["x"] [] [use "x"] in
  dletseq1 "tmp" "x" g = Def "g" [] ["x"] [] [Simple [] [EnvGet "x"]] /\
  fst (ref_s ["x"] top g) = g /\ dlet ["x"] g = g.
Proof. repeat split. Qed.
Ltac case_of := eexists; split; [reflexivity|split; reflexivity].
Lemma loop_case : exists s,
  s = fn [Block ["x"] [Name "xs"] [use "x"]] /\
  dlet ["x"] s = fn [Block ["x"] [Name "xs"] [Simple [] [EnvGet "x"]]] /\
  fst (ref_s ["x"] top s) = s.
Proof. case_of. Qed.
Lemma branch_case : exists s,
  s = fn [Block [] [Name "c"] [bindto "x"; use "x"]] /\
  dlet ["x"] s = fn [Block [] [Name "c"] [bindto "x"; Simple [] [EnvGet "x"]]] /\
  fst (ref_s ["x"] top s) = s.
Proof. case_of. Qed.
Lemma nonlocal_case : exists s,
  s = fn [Decl ["x"]; Def "g" [] [] [] [use "x"]] /\
  dlet ["x"] s = fn [Decl ["x"]; Def "g" [] [] [] [Simple [] [EnvGet "x"]]] /\
  fst (ref_s ["x"] top s) = s.
Proof. case_of. Qed.
Lemma delete_case : exists s,
  s = fn [bindto "x"; Def "g" [] [] [] [bindto "x"; Delete ["x"]; use "x"]] /\
  dlet ["x"] s =
    fn [bindto "x"; Def "g" [] [] [] [bindto "x"; Delete ["x"]; Simple [] [EnvGet "x"]]] /\
  fst (ref_s ["x"] top s) = s.
Proof. case_of. Qed.
Lemma default_case : exists s,
  s = fn [Def "g" [] ["x"] [Name "x"] []; Simple [] [Lam ["x"] [Name "x"] (Name "x")];
          Simple [] [Comp [Name "x"] ["x"] (Name "x") []]] /\
  dlet ["x"] s = s /\
  fst (ref_s ["x"] top s) =
    fn [Def "g" [] ["x"] [EnvGet "x"] []; Simple [] [Lam ["x"] [EnvGet "x"] (Name "x")];
        Simple [] [Comp [Name "x"] ["x"] (EnvGet "x") []]].
Proof. case_of. Qed.
Ltac regular_tac :=
  unfold regular_def; cbn;
  repeat match goal with
    | |- True => exact I
    | |- _ /\ _ => split
    | |- apart _ _ _ =>
        let x := fresh in let H := fresh in let H1 := fresh in
        intros x _ H H1; cbn in H, H1; intuition congruence
    | |- forall e, _ -> _ =>
        let x := fresh in let H := fresh in
        intros x H; cbn in H;
        repeat match type of H with
          | _ \/ _ => destruct H as [H|H]; [subst x; cbn|]
          | False => destruct H
          end
    end.
