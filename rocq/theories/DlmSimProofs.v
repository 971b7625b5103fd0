(** The expanded program runs as the source program (C113). *)
From Coq Require Import String List ZArith Bool Arith Lia.
From Verif Require Import Base CollModel EnvModel DlmModel DlmSpec DlmProofs.
Import ListNotations.
Open Scope string_scope.
Open Scope list_scope.
Open Scope nat_scope.

Local Arguments mem : simpl never.
(** ** The expansion in one pass *)
(** [ba], [bn]: the visible variables of lets, with their envs, for assignments and for reading *)
Definition vm := list (string * nat).
Definition get (b : vm) (x : string) : option nat := dict_get String.eqb b x.
Definition rm (ps : list string) (b : vm) : vm := filter (fun p => negb (mem (fst p) ps)) b.
Definition own (L : list string) (en : nat) : vm := map (fun x => (x, en)) L.
Fixpoint xle (ba bn : vm) (e : ex) : ex :=
  match e with
  | Num z => Num z
  | Var x => match get bn x with Some en => EGet en x | None => Var x end
  | Prim o l => Prim o (map (xle ba bn) l)
  | Call f l => Call (xle ba bn f) (map (xle ba bn) l)
  | Lam ps b => Lam ps (xle (rm ps ba) (rm ps bn) b)
  | Wal x v => match get ba x with Some en => ESet en x (xle ba bn v) | None => Wal x (xle ba bn v) end
  | EGet n x => EGet n x
  | ESet n x v => ESet n x (xle ba bn v)
  end.
Definition xbs (ba bn : vm) (bs : list (string * ex)) : list (string * ex) := map (fun b => (fst b, xle ba bn (snd b))) bs.
Definition is_rec (m : mode) : bool := match m with Letrec => true | _ => false end.
Fixpoint xls (ba bn : vm) (d : nat) (s : stm) : stm :=
  match s with
  | Expr e => Expr (xle ba bn e)
  | Assign x e => Assign x (xle ba bn e)
  | Return e => Return (xle ba bn e)
  | If e a b => If (xle ba bn e) (map (xls ba bn d) a) (map (xls ba bn d) b)
  | Def f decos k ps ds b => Def f (map (xle ba bn) decos) None ps (map (xle ba bn) ds) (map (xls (rm (locs ps b) ba) (rm (locs ps b) bn) d) b)
  | Dlet c m bs f decos ps ds b =>
      let N := own (map fst bs) d in
      let bs' := if is_rec m then xbs (N ++ ba) (N ++ bn) bs else xbs ba bn bs in
      Def f (map (xle ba bn) decos) (Some (mkL c (is_rec m) bs' d)) ps (map (xle ba bn) ds)
        (map (xls (rm (locs ps b) (N ++ ba)) (rm (locs ps b) (N ++ bn)) (S d)) b)
  end.
Lemma get_app a b x : get (a ++ b) x = match get a x with Some n => Some n | None => get b x end.
Proof. unfold get. induction a as [|[y n] a IH]; [reflexivity|]. cbn. destruct (String.eqb y x); [reflexivity|exact IH]. Qed.
Lemma get_rm ps b x : get (rm ps b) x = if mem x ps then None else get b x.
Proof.
  unfold get, rm. induction b as [|[y n] b IH]; [now destruct (mem x ps)|]. cbn [filter fst]. destruct (mem y ps) eqn:E; cbn [negb].
  - rewrite IH. cbn. destruct (String.eqb_spec y x) as [->|]; [now rewrite E|reflexivity].
  - cbn. destruct (String.eqb_spec y x) as [->|]; [now rewrite E|exact IH].
Qed.
Lemma get_own L en x : get (own L en) x = if mem x L then Some en else None.
Proof.
  unfold get, own. induction L as [|y L IH]; [reflexivity|]. cbn [map dict_get]. rewrite mem_cons, (String.eqb_sym x y). destruct (String.eqb y x); [reflexivity|exact IH].
Qed.
Lemma rm_app ps a b : rm ps (a ++ b) = rm ps a ++ rm ps b.
Proof. apply filter_app. Qed.
Lemma rm_rm ps qs b : rm ps (rm qs b) = rm (qs ++ ps) b.
Proof.
  unfold rm. induction b as [|[y n] b IH]; [reflexivity|]. cbn. rewrite mem_app. destruct (mem y qs) eqn:E; cbn; [exact IH|].
  destruct (mem y ps); cbn; [exact IH|]. now rewrite IH.
Qed.
Lemma rm_ext ps qs b : (forall x, get b x <> None -> mem x ps = mem x qs) -> rm ps b = rm qs b.
Proof.
  unfold rm. intros H. apply filter_ext_in. intros [y n] I. cbn. rewrite (H y); [reflexivity|].
  unfold get. clear H. induction b as [|[z m] b IH]; [contradiction|]. cbn. destruct (String.eqb_spec z y); [discriminate|]. destruct I as [I|I]; [congruence|]. auto.
Qed.
Lemma rm_nil b : rm [] b = b.
Proof. induction b as [|y b IH]; [reflexivity|]. unfold rm in *. cbn [filter]. change (mem (fst y) []) with false. cbn [negb]. now rewrite IH. Qed.
(** xle depends only on the names that e mentions *)
Lemma xle_ext e : forall ba bn ba' bn', (forall x, mentions x e = true -> get ba x = get ba' x /\ get bn x = get bn' x) -> xle ba bn e = xle ba' bn' e.
Proof.
  induction e using ex_induct; intros ba bn ba' bn' M; cbn in *; auto.
  - destruct (M x (String.eqb_refl x)) as [_ ->]. reflexivity.
  - f_equal. apply map_ext_Forall. rewrite Forall_forall in *. intros y I. apply H; auto. intros x Mx. apply M. apply existsb_exists. eauto.
  - f_equal; [apply IHe; intros x Mx; apply M; now rewrite Mx|]. apply map_ext_Forall. rewrite Forall_forall in *. intros y I. apply H; auto.
    intros x Mx. apply M. apply orb_true_iff. right. apply existsb_exists. eauto.
  - f_equal. apply IHe. intros x Mx. rewrite !get_rm. destruct (M x Mx) as [-> ->]. auto.
  - destruct (M x) as [-> _]; [now rewrite String.eqb_refl|]. rewrite (IHe ba bn ba' bn'); [reflexivity|]. intros y My. apply M. rewrite My. apply orb_true_r.
  - f_equal. auto.
Qed.
Lemma xle_id e : xle [] [] e = e.
Proof.
  induction e using ex_induct; cbn; auto; f_equal; auto; rewrite <- (map_id l) at 2; now apply map_ext_Forall.
Qed.

(** what is mentioned in expanded code *)
Lemma mentions_xle x e : forall ba bn, mentions x (xle ba bn e) = true -> mentions x e = true.
Proof.
  assert (FM : forall l ba bn, Forall (fun e => forall ba bn, mentions x (xle ba bn e) = true -> mentions x e = true) l -> existsb (mentions x) (map (xle ba bn) l) = true -> existsb (mentions x) l = true).
  { clear. induction 1 as [|e l He Hl IH]; intros M; [discriminate|]. cbn in *. apply orb_true_iff in M as [M|M]; apply orb_true_iff; eauto. }
  induction e using ex_induct; intros ba bn M; cbn in *; auto.
  - destruct (get bn x0); [discriminate|exact M].
  - eauto.
  - apply orb_true_iff in M as [M|M]; apply orb_true_iff; eauto.
  - eauto.
  - destruct (get ba x0); cbn in M; [apply orb_true_iff; eauto|]. apply orb_true_iff in M as [M|M]; apply orb_true_iff; eauto.
  - eauto.
Qed.
Lemma mentions_xles x l ba bn : existsb (mentions x) (map (xle ba bn) l) = true -> existsb (mentions x) l = true.
Proof. rewrite !existsb_exists. intros (e & I & M). apply in_map_iff in I as (e' & <- & I). exists e'. split; auto. eapply mentions_xle; eauto. Qed.
Lemma mentions_xls x s : forall ba bn d, mentions_s x (xls ba bn d s) = true -> mentions_s x s = true.
Proof.
  assert (FM : forall l ba bn d, Forall (fun s => forall ba bn d, mentions_s x (xls ba bn d s) = true -> mentions_s x s = true) l -> existsb (mentions_s x) (map (xls ba bn d) l) = true -> existsb (mentions_s x) l = true).
  { clear. induction 1 as [|e l He Hl IH]; intros M; [discriminate|]. cbn in *. apply orb_true_iff in M as [M|M]; apply orb_true_iff; eauto. }
  induction s using stm_induct; intros ba bn d M; cbn in *; try (eapply mentions_xle; eauto; fail).
  - apply orb_true_iff in M as [M|M]; [apply orb_true_iff in M as [M|M]|]; rewrite !orb_true_iff; eauto using mentions_xle.
  - rewrite orb_false_r in M. rewrite <- map_app in M. apply orb_true_iff in M as [M|M]; rewrite !orb_true_iff; eauto using mentions_xles.
  - rewrite <- map_app in M. apply orb_true_iff in M as [M|M]; [apply orb_true_iff in M as [M|M]|]; rewrite !orb_true_iff; eauto using mentions_xles. left. right.
    destruct (is_rec m); unfold xbs in M; rewrite map_map in M; cbn in M; rewrite <- (map_map snd) in M; eauto using mentions_xles.
Qed.
Lemma assigned_xls bs bs' x : forall d, assigned (xls bs bs' d x) = assigned x.
Proof.
  induction x using stm_induct; intros; cbn; auto. f_equal.
  - revert H. induction 1; cbn; [reflexivity|]. congruence.
  - revert H0. induction 1; cbn; [reflexivity|]. congruence.
Qed.
Lemma not_before_xls x b ba bn d : not_before x b = true -> not_before x (map (xls ba bn d) b) = true.
Proof.
  induction b as [|s b IH]; [reflexivity|]. cbn. rewrite assigned_xls. intros H. apply andb_true_iff in H as [H1 H2]. apply andb_true_iff. split.
  - apply negb_true_iff. apply negb_true_iff in H1. destruct (mentions_s x (xls ba bn d s)) eqn:M; [|reflexivity]. apply mentions_xls in M. congruence.
  - apply orb_true_iff in H2 as [H2|H2]; apply orb_true_iff; auto.
Qed.
(** One pass of the macro over what is already expanded *)
Section Pass.
Variable L : list string.
Variable en : nat.
Definition add (p q : pass) (b : vm) (a : list string) : vm :=
  match p, q with Assigns, Assigns | Names, Names => b ++ rm a (own L en) | _, _ => b end.
Lemma add_rm p q b a ps : rm ps (add p q b a) = add p q (rm ps b) (a ++ ps).
Proof. destruct p, q; cbn [add]; rewrite ?rm_app, ?rm_rm; reflexivity. Qed.
Lemma add_app p q N b a : add p q (N ++ b) a = N ++ add p q b a.
Proof. destruct p, q; cbn [add]; rewrite <- ?app_assoc; reflexivity. Qed.
Lemma ours_get a l x : (forall x, mem x L = true -> mem x l = true -> mem x a = true) -> ours L a l x = match get (rm a (own L en)) x with Some _ => true | None => false end.
Proof.
  intros H. unfold ours. rewrite get_rm, get_own, mem_app. destruct (mem x L) eqn:E; [|destruct (mem x a); reflexivity]. cbn.
  destruct (mem x a) eqn:A; [reflexivity|]. cbn. destruct (mem x l) eqn:B; [|reflexivity]. now rewrite (H x E B) in A.
Qed.
Lemma tr_xle p e : forall ba bn a l, (forall x, mem x L = true -> mem x l = true -> mem x a = true) ->
  tr_e L en p a l (xle ba bn e) = xle (add p Assigns ba a) (add p Names bn a) e.
Proof.
  induction e using ex_induct; intros ba bn a l' A; cbn [xle]; auto.
  - destruct p; cbn [add].
    + now destruct (get bn x).
    + rewrite get_app. destruct (get bn x); [reflexivity|]. cbn. rewrite (ours_get _ _ _ A). rewrite get_rm, get_own. now destruct (mem x a), (mem x L).
  - cbn. f_equal. rewrite map_map. apply map_ext_Forall. eapply Forall_impl; [|exact H]. cbn. auto.
  - cbn. f_equal; [auto|]. rewrite map_map. apply map_ext_Forall. eapply Forall_impl; [|exact H]. cbn. auto.
  - cbn. f_equal. rewrite !add_rm. apply IHe. intros x I1 I2. rewrite mem_app, (A x I1 I2). reflexivity.
  - destruct p; cbn [add].
    + rewrite get_app. destruct (get ba x); cbn; [now rewrite IHe|]. rewrite (ours_get _ _ _ A). rewrite get_rm, get_own. rewrite IHe by auto. cbn. now destruct (mem x a), (mem x L).
    + destruct (get ba x); cbn; now rewrite IHe.
  - cbn. f_equal. auto.
Qed.
(** only the names that are mentioned matter *)
Lemma tr_e_mentions p e : forall a a' l, (forall x, mem x L = true -> mentions x e = true -> mem x (a ++ l) = mem x (a' ++ l)) -> tr_e L en p a l e = tr_e L en p a' l e.
Proof.
  assert (FM : forall es a a' l, Forall (fun e => forall a a' l, (forall x, mem x L = true -> mentions x e = true -> mem x (a ++ l) = mem x (a' ++ l)) -> tr_e L en p a l e = tr_e L en p a' l e) es ->
     (forall x, mem x L = true -> existsb (mentions x) es = true -> mem x (a ++ l) = mem x (a' ++ l)) -> map (tr_e L en p a l) es = map (tr_e L en p a' l) es).
  { intros es a a' l F H. apply map_ext_Forall. rewrite Forall_forall in *. intros e' I. apply F; auto. intros x Lx Mx. apply H; auto. apply existsb_exists. eauto. }
  induction e using ex_induct; intros a a' l' A; cbn [tr_e]; auto.
  - destruct p; [reflexivity|]. unfold ours. destruct (mem x L) eqn:E; [|reflexivity]. pose proof (A x E (String.eqb_refl x)) as Q. unfold name in *. rewrite Q. reflexivity.
  - f_equal. apply FM; auto.
  - f_equal; [apply IHe|apply FM; auto]; intros x Lx Mx; apply A; auto; cbn; rewrite Mx; auto using orb_true_r.
  - f_equal. apply IHe. intros x Lx Mx. specialize (A x Lx Mx). rewrite !mem_app in *. destruct (mem x ps), (mem x l'), (mem x a), (mem x a'); cbn in *; congruence.
  - assert (IH' : tr_e L en p a l' e = tr_e L en p a' l' e) by (apply IHe; intros y Ly My; apply A; auto; cbn; rewrite My; auto using orb_true_r).
    destruct p; [|now rewrite IH']. unfold ours. destruct (mem x L) eqn:E; [|cbn; now rewrite IH']. assert (Q : mem x (a ++ l') = mem x (a' ++ l')) by (apply A; [exact E|cbn; now rewrite String.eqb_refl]). unfold name in *. rewrite Q, IH'. reflexivity.
  - f_equal. auto.
Qed.
Lemma tr_es_mentions p es a a' l : (forall x, mem x L = true -> existsb (mentions x) es = true -> mem x (a ++ l) = mem x (a' ++ l)) -> map (tr_e L en p a l) es = map (tr_e L en p a' l) es.
Proof. intros H. apply map_ext_in. intros e I. apply tr_e_mentions. intros x Lx Mx. apply H; auto. apply existsb_exists. eauto. Qed.
Lemma tr_s_mentions p s : forall a a' l, (forall x, mem x L = true -> mentions_s x s = true -> mem x (a ++ l) = mem x (a' ++ l)) -> tr_s L en p a l s = tr_s L en p a' l s.
Proof.
  assert (FM : forall b a a' l, Forall (fun s => forall a a' l, (forall x, mem x L = true -> mentions_s x s = true -> mem x (a ++ l) = mem x (a' ++ l)) -> tr_s L en p a l s = tr_s L en p a' l s) b ->
     (forall x, mem x L = true -> existsb (mentions_s x) b = true -> mem x (a ++ l) = mem x (a' ++ l)) -> map (tr_s L en p a l) b = map (tr_s L en p a' l) b).
  { intros es a a' l F H. apply map_ext_Forall. rewrite Forall_forall in *. intros e' I. apply F; auto. intros x Lx Mx. apply H; auto. apply existsb_exists. eauto. }
  induction s using stm_induct; intros a0 a' l' A; cbn [tr_s]; try (f_equal; now apply tr_e_mentions).
  - cbn in A. f_equal; [apply tr_e_mentions|apply FM; auto|apply FM; auto]; intros x Lx Mx; apply A; auto; rewrite Mx, ?orb_true_r; reflexivity.
  - cbn in A. assert (A' : forall x, mem x L = true -> existsb (mentions x) (decos ++ ds) = true \/ match k with Some k => existsb (mentions x) (map snd (binds k)) | None => false end = true \/ existsb (mentions_s x) b = true -> mem x (a0 ++ l') = mem x (a' ++ l')).
    { intros x Lx Mx. apply A; auto. destruct Mx as [->|[->| ->]]; rewrite ?orb_true_r; reflexivity. }
    assert (P : forall x l'' qs, mem x (a0 ++ l') = mem x (a' ++ l') -> mem x ((a0 ++ qs) ++ l' ++ l'') = mem x ((a' ++ qs) ++ l' ++ l'')).
    { intros x l'' qs Hx. rewrite !mem_app in *. destruct (mem x qs), (mem x l'), (mem x l''), (mem x a0), (mem x a'); cbn in *; congruence. }
    f_equal.
    + apply tr_es_mentions. intros x Lx Mx. apply A'; auto. left. rewrite existsb_app, Mx. reflexivity.
    + destruct k as [k|]; [|reflexivity]. cbn. f_equal. unfold tr_k. f_equal. apply map_ext_in. intros [y e] I. cbn. f_equal. apply tr_e_mentions. intros x Lx Mx. apply A'; auto. right. left.
      apply existsb_exists. exists e. split; auto. apply in_map_iff. exists (y, e). auto.
    + apply tr_es_mentions. intros x Lx Mx. rewrite <- (app_nil_r l'). apply P. apply A'; auto. left. rewrite existsb_app, Mx, orb_true_r. reflexivity.
    + assert (B : forall l'', body (tr_s L en p (a0 ++ f :: ps)) (l' ++ l'') b = body (tr_s L en p (a' ++ f :: ps)) (l' ++ l'') b); [|specialize (B []); rewrite app_nil_r in B; exact B].
      assert (A2 : forall x, mem x L = true -> existsb (mentions_s x) b = true -> mem x (a0 ++ l') = mem x (a' ++ l')) by auto.
      clear -H A2 P. induction H as [|s b Hs Hb IH]; intros l''; [reflexivity|]. cbn [body].
      assert (E1 : tr_s L en p (a0 ++ f :: ps) (l' ++ l'') s = tr_s L en p (a' ++ f :: ps) (l' ++ l'') s).
      { apply Hs. intros x Lx Mx. apply P. apply A2; auto. cbn. now rewrite Mx. }
      rewrite E1. f_equal. rewrite <- app_assoc. apply IH. intros x Lx Mx. apply A2; auto. cbn. rewrite Mx. apply orb_true_r.
Qed.
Lemma assigned_tr p s : forall a l, assigned (tr_s L en p a l s) = assigned s.
Proof.
  induction s using stm_induct; intros; cbn; auto. f_equal.
  - revert H. induction 1; cbn; [reflexivity|]. congruence.
  - revert H0. induction 1; cbn; [reflexivity|]. congruence.
Qed.
Lemma assigned_stored s x : mem x (assigned s) = true -> mem x (stored s) = true.
Proof.
  induction s using stm_induct; cbn; auto; intros M; try discriminate.
  - rewrite mem_cons in *. cbn in M. rewrite orb_false_r in M. now rewrite M.
  - assert (FM : forall l, Forall (fun s => mem x (assigned s) = true -> mem x (stored s) = true) l -> mem x (flat_map assigned l) = true -> mem x (flat_map stored l) = true).
    { clear. induction 1 as [|s l Hs Hl IH]; intros M; [discriminate|]. cbn in *. rewrite mem_app in *. apply orb_true_iff in M as [M|M]; apply orb_true_iff; auto. }
    rewrite !mem_app in *. rewrite !orb_true_iff. apply orb_true_iff in M as [M|M]; auto.
Qed.
(** local variables that are not mentioned before they are assigned to *)
Lemma body_late p A b : forall a l, (forall x, mem x L = true -> mem x A = true -> mem x (a ++ l) = true \/ not_before x b = true) ->
  body (tr_s L en p a) l b = body (tr_s L en p (a ++ A)) l b.
Proof.
  induction b as [|s b IH]; intros a l H; [reflexivity|]. cbn [body].
  assert (E1 : tr_s L en p a l s = tr_s L en p (a ++ A) l s).
  { apply tr_s_mentions. intros x Lx Mx. rewrite !mem_app in *. destruct (mem x A) eqn:EA; [|now rewrite orb_false_r]. destruct (H x Lx EA) as [Hx|Hx].
    - rewrite mem_app in Hx. destruct (mem x a), (mem x l); cbn in *; congruence.
    - cbn in Hx. rewrite Mx in Hx. discriminate. }
  rewrite E1. f_equal. apply IH. intros x Lx Ax. destruct (H x Lx Ax) as [Hx|Hx].
  - left. rewrite mem_app in *. rewrite mem_app. apply orb_true_iff in Hx as [->| ->]; [reflexivity|]. cbn. apply orb_true_r.
  - cbn in Hx. apply andb_true_iff in Hx as [_ Hx]. apply orb_true_iff in Hx as [Hx|Hx]; [|auto]. left. rewrite !mem_app. rewrite (assigned_stored _ x); [rewrite !orb_true_r; reflexivity|]. now rewrite assigned_tr.
Qed.
Lemma late_body p vis ps b a f l ba bn d : locals_fine vis ps b = true -> (forall x, mem x L = true -> mem x a = false -> mem x vis = true) ->
  body (tr_s L en p (a ++ f :: ps)) l (map (xls ba bn d) b) = body (tr_s L en p (a ++ f :: locs ps b)) l (map (xls ba bn d) b).
Proof.
  intros LF V. rewrite (body_late p (flat_map assigned b) _ (a ++ f :: ps) l).
  - unfold locs. now rewrite <- app_assoc.
  - intros x Lx Ax. unfold locals_fine in LF. rewrite forallb_forall in LF. specialize (LF x (proj1 (mem_in _ _) Ax)). rewrite !mem_app, mem_cons. destruct (mem x a) eqn:Ea; [now left|].
    rewrite (V x Lx Ea) in LF. cbn in LF. apply orb_true_iff in LF as [LF|LF]; [left; rewrite LF; rewrite orb_true_r; reflexivity|]. right. now apply not_before_xls.
Qed.
(** what a statement stores is no variable of a let *)
Lemma stored_xle e : forall ba bn x, mem x (stored_e (xle ba bn e)) = true -> get ba x = None.
Proof.
  assert (FM : forall (l : list ex) ba bn x, Forall (fun e => forall ba bn x, mem x (stored_e (xle ba bn e)) = true -> get ba x = None) l ->
     mem x (flat_map stored_e (map (xle ba bn) l)) = true -> get ba x = None).
  { clear e. induction l as [|e l IH]; intros ba bn x F H; [discriminate|]. inversion F; subst. cbn in H. rewrite mem_app in H. apply orb_true_iff in H as [H|H]; eauto. }
  induction e using ex_induct; intros ba bn y M; cbn in M; try discriminate.
  - destruct (get bn x); discriminate.
  - eauto.
  - rewrite mem_app in M. apply orb_true_iff in M as [M|M]; eauto.
  - destruct (get ba x) eqn:E; cbn in M; [eauto|]. rewrite mem_cons in M. apply orb_true_iff in M as [M|M]; [|eauto]. apply String.eqb_eq in M. now subst.
  - eauto.
Qed.
Lemma stored_xls s : forall ba bn d vis x, fine vis s = true -> (forall x, get ba x <> None -> mem x vis = true) -> mem x (stored (xls ba bn d s)) = true -> get ba x = None.
Proof.
  assert (FM : forall (l : list stm) ba bn d vis x, Forall (fun s => forall ba bn d vis x, fine vis s = true -> (forall x, get ba x <> None -> mem x vis = true) -> mem x (stored (xls ba bn d s)) = true -> get ba x = None) l ->
     forallb (fine vis) l = true -> (forall x, get ba x <> None -> mem x vis = true) -> mem x (flat_map stored (map (xls ba bn d) l)) = true -> get ba x = None).
  { induction l as [|e l IH]; intros ba bn d vis x F Fi V H; [discriminate|]. inversion F; subst. cbn in H, Fi. apply andb_true_iff in Fi as [Fi1 Fi2]. rewrite mem_app in H. apply orb_true_iff in H as [H|H]; eauto. }
  assert (NV : forall (ba : vm) vis f, (forall x, get ba x <> None -> mem x vis = true) -> mem f vis = false -> get ba f = None).
  { intros ba vis f V H. destruct (get ba f) eqn:E; auto. rewrite V in H; congruence. }
  induction s using stm_induct; intros ba bn d vis y Fi V M; cbn in M, Fi.
  - eapply stored_xle; eauto.
  - apply andb_true_iff in Fi as [F1 F2]. apply negb_true_iff in F1. rewrite mem_cons in M. apply orb_true_iff in M as [M|M]; [|eapply stored_xle; eauto]. apply String.eqb_eq in M. subst. eauto.
  - eapply stored_xle; eauto.
  - apply andb_true_iff in Fi as [Fi F3]. apply andb_true_iff in Fi as [F1 F2]. rewrite !mem_app in M. apply orb_true_iff in M as [M|M]; [eapply stored_xle; eauto|]. apply orb_true_iff in M as [M|M]; eauto.
  - destruct k; [discriminate|]. rewrite !andb_true_iff in Fi. destruct Fi as ((((F1 & _) & _) & _) & _). apply negb_true_iff in F1.
    rewrite mem_cons in M. cbn in M. rewrite orb_false_r in M. apply String.eqb_eq in M. subst. eauto.
  - rewrite mem_cons in M. cbn in M. rewrite orb_false_r in M. apply String.eqb_eq in M. subst. eapply NV; [eauto|]. rewrite !andb_true_iff in Fi. destruct Fi as ((((((((_ & _) & F) & _) & _) & _) & _) & _) & _).
    apply negb_true_iff in F. rewrite mem_app in F. now apply orb_false_iff in F.
Qed.
(** statements; [p] = Names only once the assignments have been done *)
Lemma tr_xls p s : forall ba bn d a l vis, fine vis s = true ->
  (forall x, mem x L = true -> mem x l = true -> mem x a = true) ->
  (forall x, mem x L = true -> mem x a = false -> mem x vis = true) ->
  (forall x, get ba x <> None -> mem x vis = true) ->
  (p = Names -> forall x, mem x L = true -> mem x a = false -> get ba x <> None) ->
  tr_s L en p a l (xls ba bn d s) = xls (add p Assigns ba a) (add p Names bn a) d s.
Proof.
  assert (TL : forall l0 ba bn a l, (forall x, mem x L = true -> mem x l = true -> mem x a = true) -> map (tr_e L en p a l) (map (xle ba bn) l0) = map (xle (add p Assigns ba a) (add p Names bn a)) l0).
  { intros. rewrite map_map. apply map_ext. intros. now apply tr_xle. }
  (** default values *)
  assert (TD : forall ds ba bn a l f ps vis, (forall x, mem x L = true -> mem x l = true -> mem x a = true) -> (forall x, mem x L = true -> mem x a = false -> mem x vis = true) ->
     mem f vis = false -> none_of (filter (fun p => mem p vis) ps) ds = true ->
     map (tr_e L en p (a ++ f :: ps) l) (map (xle ba bn) ds) = map (xle (add p Assigns ba a) (add p Names bn a)) ds).
  { intros ds ba bn a l f ps vis A V Fv No. rewrite TL by (intros x I1 I2; rewrite mem_app, (A x I1 I2); reflexivity). apply map_ext_in. intros e I. apply xle_ext. intros x Mx.
    assert (E : get (rm (a ++ f :: ps) (own L en)) x = get (rm a (own L en)) x).
    { rewrite !get_rm, get_own, mem_app, mem_cons. destruct (mem x a) eqn:Ea; [reflexivity|]. cbn. destruct (mem x L) eqn:El; [|destruct (_ || _); reflexivity].
      specialize (V x El Ea). destruct (String.eqb_spec x f); [congruence|]. cbn. destruct (mem x ps) eqn:Ep; [|reflexivity]. exfalso.
      unfold none_of in No. rewrite forallb_forall in No. assert (Ix : In x (filter (fun p => mem p vis) ps)) by (apply filter_In; split; [now apply mem_in|auto]).
      specialize (No x Ix). apply negb_true_iff in No. assert (existsb (mentions x) ds = true) by (apply existsb_exists; eauto). congruence. }
    destruct p; cbn [add]; split; try reflexivity; rewrite !get_app, E; reflexivity. }
  (** function bodies *)
  assert (TB : forall b ba bn d a l vis, Forall (fun s => forall ba bn d a l vis, fine vis s = true ->
       (forall x, mem x L = true -> mem x l = true -> mem x a = true) -> (forall x, mem x L = true -> mem x a = false -> mem x vis = true) ->
       (forall x, get ba x <> None -> mem x vis = true) -> (p = Names -> forall x, mem x L = true -> mem x a = false -> get ba x <> None) ->
       tr_s L en p a l (xls ba bn d s) = xls (add p Assigns ba a) (add p Names bn a) d s) b ->
     forallb (fine vis) b = true -> (forall x, mem x L = true -> mem x l = true -> mem x a = true) -> (forall x, mem x L = true -> mem x a = false -> mem x vis = true) ->
     (forall x, get ba x <> None -> mem x vis = true) -> (p = Names -> forall x, mem x L = true -> mem x a = false -> get ba x <> None) ->
     body (tr_s L en p a) l (map (xls ba bn d) b) = map (xls (add p Assigns ba a) (add p Names bn a) d) b).
  { clear s. induction b as [|s b IHb]; intros ba bn d a l vis F Fi A V G P; [reflexivity|]. inversion F as [|? ? F1 F2]; subst. cbn [forallb] in Fi. apply andb_true_iff in Fi as [Fi1 Fi2].
    cbn [map body]. rewrite (F1 ba bn d a l vis) by auto. f_equal. apply (IHb ba bn d a _ vis); auto. intros x I1 I2. rewrite mem_app in I2. apply orb_true_iff in I2 as [I2|I2]; [auto|].
    destruct (mem x a) eqn:Ea; [reflexivity|]. exfalso. destruct p.
    - assert (N : get (add Assigns Assigns ba a) x = None).
      { eapply stored_xls; [exact Fi1| |exact I2]. intros y Ny. cbn [add] in Ny. rewrite get_app in Ny. destruct (get ba y) eqn:Ey; [apply G; congruence|].
        rewrite get_rm, get_own in Ny. destruct (mem y a) eqn:Eya; [congruence|]. destruct (mem y L) eqn:Eyl; [auto|congruence]. }
      cbn [add] in N. rewrite get_app, get_rm, get_own, Ea, I1 in N. destruct (get ba x); discriminate.
    - apply (P eq_refl x I1 Ea). eapply stored_xls; [exact Fi1|exact G|exact I2]. }
  induction s using stm_induct; intros ba bn d a0 l vis Fi A V G P; cbn [xls tr_s].
  - f_equal. now apply tr_xle.
  - f_equal. now apply tr_xle.
  - f_equal. now apply tr_xle.
  - cbn in Fi. apply andb_true_iff in Fi as [Fi F3]. apply andb_true_iff in Fi as [F1 F2]. apply forallb_Forall in F2, F3.
    f_equal; [now apply tr_xle| |]; rewrite map_map; apply map_ext_Forall; [revert F2 H|revert F3 H0]; intros X Y; rewrite Forall_forall in *; intros s I; eapply Y; eauto.
  - cbn in Fi. destruct k; [discriminate|]. rewrite !andb_true_iff in Fi. destruct Fi as ((((F1 & F2) & F3) & Fl) & F4). apply negb_true_iff in F1. cbn [option_map]. f_equal.
    + now apply TL.
    + now apply (TD ds ba bn a0 l f ps vis).
    + rewrite (late_body p vis) by auto. remember (locs ps b) as qs eqn:Eq. eapply eq_trans; [apply (TB b (rm qs ba) (rm qs bn) d (a0 ++ f :: qs) l (minus vis qs)); auto|].
      * intros x I1 I2. rewrite mem_app, (A x I1 I2). reflexivity.
      * intros x I1 I2. rewrite mem_minus. rewrite mem_app, mem_cons in I2. apply orb_false_iff in I2 as [I2 I3]. apply orb_false_iff in I3 as [I3 I4]. now rewrite (V x I1 I2), I4.
      * intros x Nx. rewrite get_rm in Nx. destruct (mem x qs) eqn:Ep; [congruence|]. now rewrite mem_minus, (G x Nx), Ep.
      * intros Pn x I1 I2. rewrite mem_app, mem_cons in I2. apply orb_false_iff in I2 as [I2 I3]. apply orb_false_iff in I3 as [I3 I4]. rewrite get_rm, I4. now apply P.
      * assert (R : rm (a0 ++ f :: qs) (own L en) = rm (a0 ++ qs) (own L en)).
        { apply rm_ext. intros x Nx. rewrite get_own in Nx. destruct (mem x L) eqn:El; [|congruence]. rewrite !mem_app, mem_cons. destruct (mem x a0) eqn:Ea; [reflexivity|].
          specialize (V x El Ea). destruct (String.eqb_spec x f); [congruence|reflexivity]. }
        rewrite !add_rm. destruct p; cbn [add]; rewrite R; reflexivity.
  - cbn in Fi. rewrite !andb_true_iff in Fi. destruct Fi as ((((((((F0 & Fd) & F1) & F2) & F3) & F4) & F5) & Fl) & F6). apply negb_true_iff in F1. rewrite mem_app in F1. apply orb_false_iff in F1 as [F1o F1].
    cbn [option_map]. set (N := own (map fst bs) d). f_equal.
    + now apply TL.
    + f_equal. unfold tr_k. cbn [now isrec binds envname]. f_equal. destruct (is_rec m); unfold xbs; rewrite map_map; apply map_ext; intros [x e]; cbn [fst snd]; f_equal; rewrite tr_xle by auto; [|reflexivity].
      now rewrite !add_app.
    + now apply (TD ds ba bn a0 l f ps vis).
    + rewrite (late_body p (map fst bs ++ vis)) by (auto; intros x I1 I2; rewrite mem_app, (V x I1 I2); apply orb_true_r). remember (locs ps b) as qs eqn:Eq. eapply eq_trans; [apply (TB b (rm qs (N ++ ba)) (rm qs (N ++ bn)) (S d) (a0 ++ f :: qs) l (minus (map fst bs ++ vis) qs)); auto|].
      * intros x I1 I2. rewrite mem_app, (A x I1 I2). reflexivity.
      * intros x I1 I2. rewrite mem_minus. rewrite mem_app, mem_cons in I2. apply orb_false_iff in I2 as [I2 I3]. apply orb_false_iff in I3 as [I3 I4]. rewrite mem_app, (V x I1 I2), I4. now rewrite orb_true_r.
      * intros x Nx. rewrite get_rm in Nx. destruct (mem x qs) eqn:Ep; [congruence|]. rewrite mem_minus, Ep, mem_app. rewrite get_app in Nx. unfold N in Nx. rewrite get_own in Nx.
        destruct (mem x (map fst bs)); [reflexivity|]. now rewrite (G x Nx).
      * intros Pn x I1 I2. rewrite mem_app, mem_cons in I2. apply orb_false_iff in I2 as [I2 I3]. apply orb_false_iff in I3 as [I3 I4]. rewrite get_rm, I4, get_app. destruct (get N x); [discriminate|]. now apply P.
      * assert (R : rm (a0 ++ f :: qs) (own L en) = rm (a0 ++ qs) (own L en)).
        { apply rm_ext. intros x Nx. rewrite get_own in Nx. destruct (mem x L) eqn:El; [|congruence]. rewrite !mem_app, mem_cons. destruct (mem x a0) eqn:Ea; [reflexivity|].
          specialize (V x El Ea). destruct (String.eqb_spec x f); [congruence|reflexivity]. }
        rewrite <- !add_app, !add_rm. destruct p; cbn [add]; rewrite R; reflexivity.
Qed.
End Pass.
Lemma app_inj_len {A} (a : list A) : forall b c d, length a = length c -> a ++ b = c ++ d -> a = c /\ b = d.
Proof. induction a as [|x a IH]; intros b [|y c] d El Eq; try discriminate; [auto|]. cbn in *. injection Eq as <- Eq. injection El as El. destruct (IH _ _ _ El Eq). subst. auto. Qed.
Section Expand.
Variable inner : nat -> string.
Lemma expand_xls s : forall vis d, fine vis s = true -> expand inner d s = xls [] [] d s.
Proof.
  induction s using stm_induct; intros vis d Fi; cbn [expand xls].
  - now rewrite xle_id.
  - now rewrite xle_id.
  - now rewrite xle_id.
  - cbn in Fi. apply andb_true_iff in Fi as [Fi F3]. apply andb_true_iff in Fi as [F1 F2]. apply forallb_Forall in F2, F3. rewrite xle_id.
    f_equal; apply map_ext_Forall; [revert F2 H|revert F3 H0]; intros X Y; rewrite Forall_forall in *; intros s I; eapply Y; eauto.
  - cbn in Fi. destruct k; [discriminate|]. rewrite !andb_true_iff in Fi. destruct Fi as ((((F1 & F2) & F3) & Fl) & F4). apply forallb_Forall in F4.
    assert (I : forall l, map (xle [] []) l = l) by (intros l; rewrite <- (map_id l) at 2; apply map_ext; apply xle_id). rewrite !I. f_equal.
    change (rm (locs ps b) []) with (@nil (string * nat)). apply map_ext_Forall. rewrite Forall_forall in *. intros s I'. eapply H; eauto.
  - cbn in Fi. rewrite !andb_true_iff in Fi. destruct Fi as ((((((((F0 & Fd) & F1) & F2) & F3) & F4) & F5) & Fl) & F6). apply negb_true_iff in F1. rewrite mem_app in F1. apply orb_false_iff in F1 as [F1o F1].
    assert (Id : forall l, map (xle [] []) l = l) by (intros l; rewrite <- (map_id l) at 2; apply map_ext; apply xle_id). rewrite !Id.
    assert (B : map (expand inner (S d)) b = map (xls [] [] (S d)) b).
    { apply map_ext_Forall. apply forallb_Forall in F6. rewrite Forall_forall in *. intros s I. eapply H; eauto. }
    assert (D : forall p a l, map (tr_e (map fst bs) d p a l) (decos ++ ds) = decos ++ ds) by (intros p a l; now apply tr_l_none).
    assert (D1 : forall p a l, map (tr_e (map fst bs) d p a l) decos = decos /\ map (tr_e (map fst bs) d p a l) ds = ds).
    { intros p a l. specialize (D p a l). rewrite map_app in D. apply app_inj_len in D; [exact D|apply map_length]. }
    set (N := own (map fst bs) d). remember (locs ps b) as qs eqn:Eq.
    assert (C : forall r, let_decorator d c r bs (Def f decos None ps ds (map (xls [] [] (S d)) b)) =
      Def f decos (Some (mkL c r (if r then xbs N N bs else xbs [] [] bs) d)) ps ds (map (xls (rm qs N) (rm qs N) (S d)) b)).
    { intros r. rewrite let_decorator_def. rewrite !(proj1 (D1 _ _ _)), !(proj2 (D1 _ _ _)). f_equal.
      - do 2 f_equal. destruct r.
        + unfold xbs. apply map_ext. intros [x e]. cbn [fst snd]. f_equal. unfold letlike_e. rewrite <- (xle_id e) at 1. rewrite tr_xle by (intros; discriminate). rewrite tr_xle by (intros; discriminate).
          cbn [add app]. now rewrite !rm_nil.
        + unfold xbs. rewrite <- (map_id bs) at 1. apply map_ext. intros [x e]. cbn. now rewrite xle_id.
      - assert (R : rm (f :: qs) N = rm qs N).
        { apply rm_ext. intros x Nx. unfold N in Nx. rewrite get_own in Nx. rewrite mem_cons. destruct (String.eqb_spec x f); [subst; rewrite F1o in Nx; congruence|reflexivity]. }
        assert (TB : forall p ba bn, (forall x, get ba x <> None -> mem x (minus (map fst bs ++ vis) qs) = true) -> (p = Names -> forall x, mem x (map fst bs) = true -> mem x (f :: qs) = false -> get ba x <> None) ->
          forall b l, forallb (fine (minus (map fst bs ++ vis) qs)) b = true -> (forall x, mem x (map fst bs) = true -> mem x l = true -> mem x (f :: qs) = true) ->
          body (tr_s (map fst bs) d p (f :: qs)) l (map (xls ba bn (S d)) b) = map (xls (add (map fst bs) d p Assigns ba (f :: qs)) (add (map fst bs) d p Names bn (f :: qs)) (S d)) b).
        { intros p ba bn G P b0 l Fb A.
          pose (s0 := Def "" [] None [] [] b0).
          assert (V : forall x, mem x (map fst bs) = true -> mem x (f :: qs) = false -> mem x (minus (map fst bs ++ vis) qs) = true).
          { intros x I1 I2. rewrite mem_cons in I2. apply orb_false_iff in I2 as [_ I2]. rewrite mem_minus, mem_app, I1, I2. reflexivity. }
          clear s0. revert l Fb A. induction b0 as [|s b0 IHb]; intros l Fb A; [reflexivity|]. cbn [forallb] in Fb. apply andb_true_iff in Fb as [Fb1 Fb2]. cbn [map body].
          rewrite (tr_xls (map fst bs) d p s ba bn (S d) (f :: qs) l (minus (map fst bs ++ vis) qs)) by auto. f_equal. apply IHb; [exact Fb2|].
          intros x I1 I2. rewrite mem_app in I2. apply orb_true_iff in I2 as [I2|I2]; [auto|]. destruct (mem x (f :: qs)) eqn:Ea; [reflexivity|]. exfalso. destruct p.
          - assert (Nn : get (add (map fst bs) d Assigns Assigns ba (f :: qs)) x = None).
            { eapply stored_xls; [exact Fb1| |exact I2]. intros y Ny. cbn [add] in Ny. rewrite get_app in Ny. destruct (get ba y) eqn:Ey; [apply G; congruence|].
              rewrite get_rm, get_own in Ny. destruct (mem y (f :: qs)) eqn:Eya; [congruence|]. destruct (mem y (map fst bs)) eqn:Eyl; [auto|congruence]. }
            cbn [add] in Nn. rewrite get_app, get_rm, get_own, Ea, I1 in Nn. destruct (get ba x); discriminate.
          - apply (P eq_refl x I1 Ea). eapply stored_xls; [exact Fb1|exact G|exact I2]. }
        change (f :: ps) with ([] ++ f :: ps). rewrite (late_body _ _ Assigns (map fst bs ++ vis)) by (auto; intros x I1 _; rewrite mem_app, I1; reflexivity). rewrite <- Eq. cbn [app].
        rewrite (TB Assigns [] []); [|intros x Nx; now contradict Nx|discriminate|exact F6|intros; discriminate].
        change (f :: ps) with ([] ++ f :: ps). rewrite (late_body _ _ Names (map fst bs ++ vis)) by (auto; intros x I1 _; rewrite mem_app, I1; reflexivity). rewrite <- Eq. cbn [app].
        rewrite (TB Names); [| | |exact F6|intros; discriminate].
        + cbn [add app]. fold N. now rewrite R.
        + intros x Nx. cbn [add app] in Nx. rewrite get_rm, get_own in Nx. destruct (mem x (f :: qs)) eqn:E1; [congruence|]. rewrite mem_cons in E1. apply orb_false_iff in E1 as [_ E1].
          destruct (mem x (map fst bs)) eqn:E2; [|congruence]. rewrite mem_minus, mem_app, E2, E1. reflexivity.
        + intros _ x I1 I2. cbn [add app]. rewrite get_rm, get_own, I2, I1. discriminate. }
    destruct m; [|discriminate|]; rewrite B, C; cbn [is_rec]; rewrite !app_nil_r; reflexivity.
Qed.
End Expand.

(** ** Running *)
Section Sim.
Variable W : Type.
Variable prim : nat -> list value -> W -> outcome value * W.
Definition valid (fs : list frame) (es : list env) (l : link) : Prop :=
  match l with F i => nth_error fs i <> None | E j => nth_error es j <> None | K _ _ => True end.
Definition grows (fs : list frame) (es : list env) (fs' : list frame) (es' : list env) : Prop :=
  (forall i f, nth_error fs i = Some f -> exists f', nth_error fs' i = Some f' /\ locals f' = locals f) /\
  (forall j e, nth_error es j = Some e -> exists e', nth_error es' j = Some e' /\ names e' = names e).
Lemma grows_refl fs es : grows fs es fs es.
Proof. split; eauto. Qed.
Lemma grows_trans a b c d e f : grows a b c d -> grows c d e f -> grows a b e f.
Proof.
  intros [G1 G2] [G3 G4]. split.
  - intros i x H. destruct (G1 _ _ H) as (x' & H' & E1). destruct (G3 _ _ H') as (x'' & H'' & E2). exists x''. split; congruence.
  - intros i x H. destruct (G2 _ _ H) as (x' & H' & E1). destruct (G4 _ _ H') as (x'' & H'' & E2). exists x''. split; congruence.
Qed.
Lemma valid_grows a b c d l : grows a b c d -> valid a b l -> valid c d l.
Proof.
  intros [G1 G2]. destruct l as [i|j|]; cbn; auto.
  - destruct (nth_error a i) eqn:E; [|congruence]. destruct (G1 _ _ E) as (? & -> & _). discriminate.
  - destruct (nth_error b j) eqn:E; [|congruence]. destruct (G2 _ _ E) as (? & -> & _). discriminate.
Qed.
Lemma place_grows a b c d ch x : grows a b c d -> Forall (valid a b) ch -> place_of c d ch x = place_of a b ch x.
Proof.
  intros [G1 G2] H. induction H as [|[i|j|] ch V H IH]; cbn; [reflexivity| | |exact IH]; cbn in V.
  - destruct (nth_error a i) eqn:E; [|congruence]. destruct (G1 _ _ E) as (? & -> & ->). now rewrite IH.
  - destruct (nth_error b j) eqn:E; [|congruence]. destruct (G2 _ _ E) as (? & -> & ->). now rewrite IH.
Qed.
Definition crel (fs : list frame) (es : list env) (bs : vm) (d : nat) (c c' : list link) : Prop :=
  Forall (valid fs es) c /\ Forall (valid fs es) c' /\ (forall x en, get bs x = Some en -> en < d) /\
  forall x, match get bs x with
            | Some en => exists j, place_of fs es c x = InEnv j /\ env_of c' en = Some j
            | None => exists i, place_of fs es c x = InFrame i /\ place_of fs es c' x = InFrame i
            end.
Lemma crel_grows fs es fs' es' bs d c c' : grows fs es fs' es' -> crel fs es bs d c c' -> crel fs' es' bs d c c'.
Proof.
  intros G (V1 & V2 & B & P). repeat split; auto.
  - eapply Forall_impl; [|exact V1]. intros l. now apply valid_grows.
  - eapply Forall_impl; [|exact V2]. intros l. now apply valid_grows.
  - intros x. specialize (P x). rewrite !(place_grows _ _ _ _ _ _ G) by auto. exact P.
Qed.
Definition dom (bs : vm) (vis : list string) : Prop := forall x, mem x vis = true <-> get bs x <> None.
Lemma dom_rm bs vis ps : dom bs vis -> dom (rm ps bs) (minus vis ps).
Proof. intros D x. rewrite mem_minus, get_rm. destruct (mem x ps); cbn; [rewrite andb_false_r; split; congruence|]. rewrite andb_true_r. apply D. Qed.
Lemma dom_own bs vis L d : dom bs vis -> dom (own L d ++ bs) (L ++ vis).
Proof. intros D x. rewrite mem_app, get_app, get_own. destruct (mem x L); cbn; [split; congruence|]. apply D. Qed.
(** code *)
Definition codes (bs : vm) (d : nat) (vis : list string) (b b' : code) : Prop :=
  match b with
  | BE b => fine_e vis b = true /\ b' = BE (xle bs bs b)
  | BS b => forallb (fine vis) b = true /\ b' = BS (map (xls bs bs d) b)
  end.
Definition frel (fs : list frame) (es : list env) (f f' : func) : Prop :=
  fpars f' = fpars f /\ fdefs f' = fdefs f /\
  exists bs d vis, dom bs vis /\ crel fs es bs d (fchain f) (fchain f') /\ codes (rm (locals_of (fpars f) (fcode f)) bs) d (minus vis (locals_of (fpars f) (fcode f))) (fcode f) (fcode f').
Lemma frel_grows fs es fs' es' f f' : grows fs es fs' es' -> frel fs es f f' -> frel fs' es' f f'.
Proof. intros G (P & D & bs & d & vis & Do & C & B). repeat split; auto. exists bs, d, vis. split; [exact Do|]. split; [eapply crel_grows; eauto|exact B]. Qed.
Notation st := (st W).
Definition R (s t : st) : Prop :=
  frames t = frames s /\ envs t = envs s /\ world t = world s /\ Forall2 (frel (frames s) (envs s)) (funs s) (funs t).
Definition sim {A} (m m' : M W A) (s t : st) : Prop :=
  match m s, m' t with
  | None, None => True
  | Some (r, s'), Some (r', t') => r' = r /\ R s' t' /\ grows (frames s) (envs s) (frames s') (envs s')
  | _, _ => False
  end.
Lemma sim_bind {A B} (m m' : M W A) (k k' : A -> M W B) s t : sim m m' s t ->
  (forall a s' t', R s' t' -> grows (frames s) (envs s) (frames s') (envs s') -> sim (k a) (k' a) s' t') -> sim (mbind m k) (mbind m' k') s t.
Proof.
  unfold sim, mbind. intros H K. destruct (m s) as [[r s']|], (m' t) as [[r' t']|]; try contradiction; auto. destruct H as (-> & Rs & G). destruct r as [a|x]; [|auto].
  specialize (K a s' t' Rs G). destruct (k a s') as [[r2 s2]|], (k' a t') as [[r2' t2]|]; try contradiction; auto. destruct K as (-> & R2 & G2). split; [reflexivity|]. split; [exact R2|]. eapply grows_trans; eauto.
Qed.
Lemma sim_ret {A} (a : A) s t : R s t -> sim (ret a) (ret a) s t.
Proof. intros H. cbn. split; [reflexivity|]. split; [exact H|apply grows_refl]. Qed.
Lemma sim_raise {A} x s t : R s t -> sim (A := A) (raise x) (raise x) s t.
Proof. intros H. cbn. split; [reflexivity|]. split; [exact H|apply grows_refl]. Qed.
Lemma nth_upd {A} (l : list A) : forall i j v w, nth_error l i = Some w -> nth_error (upd l i v) j = if j =? i then Some v else nth_error l j.
Proof.
  induction l as [|x l IH]; intros [|i] j v w H; try discriminate; destruct j; cbn in *; auto. now apply IH with w.
Qed.
Lemma R_envs s t fs es : R s t -> grows (frames s) (envs s) fs es -> R (mkS fs es (funs s) (world s)) (mkS fs es (funs t) (world t)).
Proof.
  intros (Ef & Ee & Ew & Fu) G. repeat split; auto. cbn. clear -Fu G. induction Fu; constructor; auto. eapply frel_grows; eauto.
Qed.
Lemma sim_read j x s t : R s t -> sim (env_read W j x) (env_read W j x) s t.
Proof.
  intros H. pose proof H as (Ef & Ee & Ew & Fu). unfold sim, env_read. rewrite Ee. destruct (nth_error (envs s) j) as [e|]; [|now split; [|split; [|apply grows_refl]]].
  destruct (dict_get _ _ x); now split; [|split; [|apply grows_refl]].
Qed.
Lemma sim_init j x v s t : R s t -> sim (env_init W j x v) (env_init W j x v) s t.
Proof.
  intros H. pose proof H as (Ef & Ee & Ew & Fu). unfold sim, env_init. rewrite Ee, Ef, Ew. destruct (nth_error (envs s) j) as [e|] eqn:En; [|now split; [|split; [|apply grows_refl]]].
  assert (G : grows (frames s) (envs s) (frames s) (upd (envs s) j (mkE (names e) (dict_set String.eqb (vals e) x v)))).
  { split; [eauto|]. intros j' e' H'. rewrite (nth_upd _ _ _ _ _ En). destruct (Nat.eqb_spec j' j); [|eauto]. subst. eexists. split; [reflexivity|]. cbn. congruence. }
  split; [reflexivity|]. split; [|exact G]. rewrite <- Ew at 2. now apply R_envs.
Qed.
Lemma sim_set j x v s t : R s t -> sim (env_set W j x v) (env_set W j x v) s t.
Proof. intros H. unfold env_set. apply sim_bind; [now apply sim_read|]. intros. apply sim_bind; [now apply sim_init|]. intros. now apply sim_ret. Qed.
Lemma sim_get_var bs d c c' x s t : R s t -> crel (frames s) (envs s) bs d c c' -> get bs x = None -> sim (get_var W c x) (get_var W c' x) s t.
Proof.
  intros H C G. pose proof H as (Ef & Ee & Ew & Fu). destruct C as (_ & _ & _ & P). specialize (P x). rewrite G in P. destruct P as (i & P1 & P2).
  unfold sim, get_var. rewrite Ef, Ee, P1, P2. destruct (nth_error _ i); [|now split; [|split; [|apply grows_refl]]]. destruct (dict_get _ _ x); now split; [|split; [|apply grows_refl]].
Qed.
Lemma sim_set_var bs d c c' x v s t : R s t -> crel (frames s) (envs s) bs d c c' -> get bs x = None -> sim (set_var W c x v) (set_var W c' x v) s t.
Proof.
  intros H C G. pose proof H as (Ef & Ee & Ew & Fu). destruct C as (_ & _ & _ & P). specialize (P x). rewrite G in P. destruct P as (i & P1 & P2).
  unfold sim, set_var. rewrite Ef, Ee, P1, P2, Ew. destruct (nth_error _ i) as [f|] eqn:En; [|now split; [|split; [|apply grows_refl]]].
  assert (Gr : grows (frames s) (envs s) (upd (frames s) i (mkF (locals f) (dict_set String.eqb (vars f) x v))) (envs s)).
  { split; [|eauto]. intros j' e' H'. rewrite (nth_upd _ _ _ _ _ En). destruct (Nat.eqb_spec j' i); [|eauto]. subst. eexists. split; [reflexivity|]. cbn. congruence. }
  split; [reflexivity|]. split; [|exact Gr]. rewrite <- Ew at 2. now apply R_envs.
Qed.
Lemma get_var_env bs d c c' x en s t : R s t -> crel (frames s) (envs s) bs d c c' -> get bs x = Some en ->
  exists j, env_of c' en = Some j /\ (forall s', grows (frames s) (envs s) (frames s') (envs s') -> get_var W c x s' = env_read W j x s' /\ forall v, set_var W c x v s' = mbind (env_set W j x v) (fun _ => ret tt) s').
Proof.
  intros H C G. destruct C as (V1 & _ & _ & P). specialize (P x). rewrite G in P. destruct P as (j & P1 & P2). exists j. split; [exact P2|].
  intros s' Gr. unfold get_var, set_var. rewrite (place_grows _ _ _ _ _ _ Gr V1), P1. auto.
Qed.
Lemma grows_app fs es f e : grows fs es (fs ++ f) (es ++ e).
Proof. split; intros i x H; rewrite nth_error_app1; eauto; apply nth_error_Some; congruence. Qed.
Lemma sim_new_fun f f' s t : R s t -> frel (frames s) (envs s) f f' -> sim (new_fun W f) (new_fun W f') s t.
Proof.
  intros H Fr. pose proof H as (Ef & Ee & Ew & Fu). unfold sim, new_fun. assert (L : length (funs t) = length (funs s)) by (clear -Fu; induction Fu; cbn; congruence). rewrite L. split; [reflexivity|]. split; [|apply grows_refl].
  repeat split; auto. cbn. apply Forall2_app; auto.
Qed.
Lemma sim_new_env e s t : R s t -> sim (new_env W e) (new_env W e) s t.
Proof.
  intros H. pose proof H as (Ef & Ee & Ew & Fu). unfold sim, new_env. rewrite Ef, Ee, Ew. assert (G : grows (frames s) (envs s) (frames s) (envs s ++ [e])) by (rewrite <- (app_nil_r (frames s)) at 2; apply grows_app).
  split; [reflexivity|]. split; [|exact G]. rewrite <- Ew at 2. now apply R_envs.
Qed.
Lemma sim_new_frame f s t : R s t -> sim (new_frame W f) (new_frame W f) s t.
Proof.
  intros H. pose proof H as (Ef & Ee & Ew & Fu). unfold sim, new_frame. rewrite Ef, Ee, Ew. assert (G : grows (frames s) (envs s) (frames s ++ [f]) (envs s)) by (rewrite <- (app_nil_r (envs s)) at 2; apply grows_app).
  split; [reflexivity|]. split; [|exact G]. rewrite <- Ew at 2. now apply R_envs.
Qed.
Lemma sim_with_env {A} e (k k' : nat -> M W A) s t : R s t ->
  (forall j s' t', R s' t' -> grows (frames s) (envs s) (frames s') (envs s') -> nth_error (envs s') j = Some e -> sim (k j) (k' j) s' t') -> sim (mbind (new_env W e) k) (mbind (new_env W e) k') s t.
Proof.
  intros H Hk. pose proof (sim_new_env e s t H) as Q. unfold sim, mbind in *. unfold new_env in *. destruct Q as (El & Q & G). injection El as El. rewrite El in *.
  specialize (Hk (length (envs s)) _ _ Q G). cbn [envs frames] in Hk. rewrite nth_error_app2, Nat.sub_diag in Hk by lia. specialize (Hk eq_refl).
  destruct (k _ _) as [[r2 s2]|], (k' _ _) as [[r2' t2]|]; try contradiction; auto. destruct Hk as (-> & R2 & G2). split; [reflexivity|]. split; [exact R2|]. eapply grows_trans; eauto.
Qed.
Lemma sim_with_frame {A} e (k k' : nat -> M W A) s t : R s t ->
  (forall j s' t', R s' t' -> grows (frames s) (envs s) (frames s') (envs s') -> nth_error (frames s') j = Some e -> sim (k j) (k' j) s' t') -> sim (mbind (new_frame W e) k) (mbind (new_frame W e) k') s t.
Proof.
  intros H Hk. pose proof (sim_new_frame e s t H) as Q. unfold sim, mbind in *. unfold new_frame in *. destruct Q as (El & Q & G). injection El as El. rewrite El in *.
  specialize (Hk (length (frames s)) _ _ Q G). cbn [envs frames] in Hk. rewrite nth_error_app2, Nat.sub_diag in Hk by lia. specialize (Hk eq_refl).
  destruct (k _ _) as [[r2 s2]|], (k' _ _) as [[r2' t2]|]; try contradiction; auto. destruct Hk as (-> & R2 & G2). split; [reflexivity|]. split; [exact R2|]. eapply grows_trans; eauto.
Qed.
Lemma sim_prim o l s t : R s t -> sim (do_prim W prim o l) (do_prim W prim o l) s t.
Proof.
  intros H. pose proof H as (Ef & Ee & Ew & Fu). unfold sim, do_prim. rewrite Ew. destruct (prim o l (world s)) as [r w]. split; [reflexivity|]. split; [|apply grows_refl].
  unfold R. cbn. auto.
Qed.
Section Apply.
Variable ap : value -> list value -> M W value.
Hypothesis HA : forall v vs s t, R s t -> sim (ap v vs) (ap v vs) s t.
Notation eval := (eval W prim ap).
Notation evals := (evals W prim ap).
Notation exec := (exec W prim ap).
Notation execs := (execs W prim ap).
Definition sim_e (e : ex) : Prop := forall bs d vis c c' s t, R s t -> crel (frames s) (envs s) bs d c c' -> dom bs vis -> fine_e vis e = true -> sim (eval e c) (eval (xle bs bs e) c') s t.
Lemma sim_evals l : Forall sim_e l -> forall bs d vis c c' s t, R s t -> crel (frames s) (envs s) bs d c c' -> dom bs vis -> forallb (fine_e vis) l = true -> sim (evals c l) (evals c' (map (xle bs bs) l)) s t.
Proof.
  induction 1 as [|e l He Hl IH]; intros bs d vis c c' s t Rs C D Fi; cbn [map]; [now apply sim_ret|]. cbn [forallb] in Fi. apply andb_true_iff in Fi as [F1 F2].
  change (sim (mbind (eval e c) (fun v => mbind (evals c l) (fun r => ret (v :: r)))) (mbind (eval (xle bs bs e) c') (fun v => mbind (evals c' (map (xle bs bs) l)) (fun r => ret (v :: r)))) s t).
  apply sim_bind; [eapply He; eauto|]. intros v s1 t1 R1 G1. apply sim_bind; [eapply IH; eauto; eapply crel_grows; eauto|]. intros. now apply sim_ret.
Qed.
Lemma sim_eval e : sim_e e.
Proof.
  induction e using ex_induct; unfold sim_e; intros bs d vis c c' s t Rs C D Fi; cbn [xle]; cbn [fine_e] in Fi.
  - now apply sim_ret.
  - destruct (get bs x) as [en|] eqn:G.
    + destruct (get_var_env _ _ _ _ _ _ _ _ Rs C G) as (j & Ej & P). cbn [DlmModel.eval]. destruct (P s (grows_refl _ _)) as [P1 _].
      unfold sim. rewrite P1. unfold get_env, mbind. rewrite Ej. cbn. pose proof (sim_read j x s t Rs) as Q. unfold sim in Q. destruct (env_read W j x t); exact Q.
    + cbn [DlmModel.eval]. eapply sim_get_var; eauto.
  - change (sim (mbind (evals c l) (fun vs => do_prim W prim o vs)) (mbind (evals c' (map (xle bs bs) l)) (fun vs => do_prim W prim o vs)) s t).
    apply sim_bind; [eapply sim_evals; eauto|]. intros. now apply sim_prim.
  - apply andb_true_iff in Fi as [F1 F2].
    change (sim (mbind (eval e c) (fun v => mbind (evals c l) (fun vs => ap v vs))) (mbind (eval (xle bs bs e) c') (fun v => mbind (evals c' (map (xle bs bs) l)) (fun vs => ap v vs))) s t).
    apply sim_bind; [eapply IHe; eauto|]. intros v s1 t1 R1 G1. apply sim_bind; [eapply sim_evals; eauto; eapply crel_grows; eauto|]. intros. now apply HA.
  - cbn [DlmModel.eval]. apply sim_new_fun; [auto|]. split; [reflexivity|]. split; [reflexivity|]. exists bs, d, vis. cbn. auto.
  - apply andb_true_iff in Fi as [F1 F2]. apply D in F1. destruct (get bs x) as [en|] eqn:G; [|congruence]. destruct (get_var_env _ _ _ _ _ _ _ _ Rs C G) as (j & Ej & P). cbn [DlmModel.eval].
    assert (Eq : mbind (get_env W c' en) (fun j0 => mbind (eval (xle bs bs e) c') (fun v => env_set W j0 x v)) t = mbind (eval (xle bs bs e) c') (fun v => env_set W j x v) t) by (unfold get_env; now rewrite Ej).
    unfold sim. rewrite Eq. change (sim (mbind (eval e c) (fun v => mbind (set_var W c x v) (fun _ => ret v))) (mbind (eval (xle bs bs e) c') (fun v => env_set W j x v)) s t).
    apply sim_bind; [eapply IHe; eauto|]. intros v s1 t1 R1 G1. destruct (P s1 G1) as [_ P2].
    assert (Eq2 : mbind (set_var W c x v) (fun _ => ret v) s1 = env_set W j x v s1).
    { unfold mbind at 1. rewrite P2. unfold env_set. unfold mbind, ret. destruct (env_read W j x s1) as [[[?|?] s2]|]; auto. destruct (env_init W j x v s2) as [[[?|?] s3]|]; auto. }
    unfold sim. rewrite Eq2. now apply sim_set.
  - discriminate.
  - discriminate.
Qed.
Lemma sim_es l bs d vis c c' s t : R s t -> crel (frames s) (envs s) bs d c c' -> dom bs vis -> forallb (fine_e vis) l = true -> sim (evals c l) (evals c' (map (xle bs bs) l)) s t.
Proof. apply sim_evals. apply Forall_forall. intros. apply sim_eval. Qed.
Lemma sim_decorate fs : forall v s t, R s t -> sim (decorate W ap fs v) (decorate W ap fs v) s t.
Proof. induction fs as [|f fs IH]; intros v s t H; cbn; [now apply sim_ret|]. apply sim_bind; [now apply IH|]. intros. now apply HA. Qed.
Lemma sim_fill j xs vs s t : R s t -> sim (fill W j xs vs) (fill W j xs vs) s t.
Proof. unfold fill. generalize (combine xs vs). intros l. revert s t. induction l as [|[x v] l IH]; intros s t H; [now apply sim_ret|]. apply sim_bind; [now apply sim_init|]. auto. Qed.
Lemma sim_fill_rec l : forall j bs d vis c c' s t, R s t -> crel (frames s) (envs s) bs d c c' -> dom bs vis -> forallb (fine_e vis) (map snd l) = true ->
  sim (fill_rec W prim ap j c l) (fill_rec W prim ap j c' (xbs bs bs l)) s t.
Proof.
  induction l as [|[x e] l IH]; intros j bs d vis c c' s t Rs C D Fi; cbn; [now apply sim_ret|]. cbn in Fi. apply andb_true_iff in Fi as [F1 F2].
  apply sim_bind; [eapply sim_eval; eauto|]. intros v s1 t1 R1 G1. apply sim_bind; [now apply sim_init|]. intros _ s2 t2 R2 G2. apply (IH j bs d vis); auto. eapply crel_grows; [exact G2|]. eapply crel_grows; [exact G1|exact C].
Qed.
Lemma fst_xbs a b l : map fst (xbs a b l) = map fst l.
Proof. unfold xbs. rewrite map_map. reflexivity. Qed.
Lemma snd_xbs a b l : map snd (xbs a b l) = map (xle a b) (map snd l).
Proof. unfold xbs. now rewrite !map_map. Qed.
(** an env around code *)
Lemma crel_let fs es bs d c c' j e : crel fs es bs d c c' -> nth_error es j = Some e -> crel fs es (own (names e) d ++ bs) (S d) (E j :: c) (K d j :: c').
Proof.
  intros (V1 & V2 & B & P) En. repeat split.
  - constructor; auto. cbn. congruence.
  - constructor; auto. exact I.
  - intros x en. rewrite get_app, get_own. destruct (mem x (names e)); [intros [= <-]; lia|]. intros H. specialize (B _ _ H). lia.
  - intros x. rewrite get_app, get_own. cbn. rewrite En. destruct (mem x (names e)).
    + exists j. rewrite Nat.eqb_refl. auto.
    + specialize (P x). destruct (get bs x) as [en|] eqn:G; auto. specialize (B _ _ G). destruct (Nat.eqb_spec d en); [lia|]. exact P.
Qed.
Lemma crel_call fs es bs d c c' i f ps : crel fs es bs d c c' -> nth_error fs i = Some f -> (forall x, mem x ps = true -> mem x (locals f) = true) ->
  (forall x, mem x (locals f) = true -> mem x ps = false -> get bs x = None) -> crel fs es (rm ps bs) d (F i :: c) (F i :: c').
Proof.
  intros (V1 & V2 & B & P) En H1 H2. repeat split.
  - constructor; auto. cbn. congruence.
  - constructor; auto. cbn. congruence.
  - intros x en. rewrite get_rm. destruct (mem x ps); [discriminate|]. apply B.
  - intros x. rewrite get_rm. cbn. rewrite En. specialize (H1 x). specialize (H2 x). specialize (P x). destruct (mem x ps).
    + rewrite H1 by auto. eauto.
    + destruct (mem x (locals f)); [rewrite H2 by auto; eauto|exact P].
Qed.
Lemma sim_let_over call (rec : bool) (l : list (string * ex)) f decos ps ds b b' bs d vis c c' s t : R s t -> crel (frames s) (envs s) bs d c c' -> dom bs vis ->
  forallb (fine_e vis) (decos ++ ds) = true -> forallb (fine_e (if rec then map fst l ++ vis else vis)) (map snd l) = true -> mem f vis = false ->
  forallb (fine (minus (map fst l ++ vis) (locs ps b))) b = true -> b' = map (xls (rm (locs ps b) (own (map fst l) d ++ bs)) (rm (locs ps b) (own (map fst l) d ++ bs)) (S d)) b ->
  sim (let_over W prim ap call rec E l f decos ps ds b c)
      (let_over W prim ap call rec (K d) (if rec then xbs (own (map fst l) d ++ bs) (own (map fst l) d ++ bs) l else xbs bs bs l) f (map (xle bs bs) decos) ps (map (xle bs bs) ds) b' c') s t.
Proof.
  intros Rs C D Fd Fl Ff Fb ->. rewrite forallb_app in Fd. apply andb_true_iff in Fd as [Fd1 Fd2]. unfold let_over.
  assert (N : map fst (if rec then xbs (own (map fst l) d ++ bs) (own (map fst l) d ++ bs) l else xbs bs bs l) = map fst l) by (destruct rec; apply fst_xbs). rewrite N.
  apply sim_bind; [eapply sim_es; eauto|]. intros fs s1 t1 R1 G1. assert (C1 : crel (frames s1) (envs s1) bs d c c') by (eapply crel_grows; eauto).
  apply sim_bind. { destruct rec; [now apply sim_ret|]. rewrite snd_xbs. eapply sim_es; eauto. }
  intros vs s2 t2 R2 G2. assert (C2 : crel (frames s2) (envs s2) bs d c c') by (eapply crel_grows; eauto).
  apply sim_bind; [eapply sim_es; eauto|]. intros dvs s3 t3 R3 G3. assert (C3 : crel (frames s3) (envs s3) bs d c c') by (eapply crel_grows; eauto).
  apply sim_with_env; [exact R3|]. intros j s4 t4 R4 G4 En. assert (C4 : crel (frames s4) (envs s4) bs d c c') by (eapply crel_grows; eauto).
  pose proof (crel_let _ _ _ _ _ _ _ _ C4 En) as L4. cbn [names] in L4.
  apply sim_bind. { destruct rec; [|now apply sim_fill]. eapply sim_fill_rec; eauto. apply dom_own. exact D. }
  intros _ s5 t5 R5 G5. assert (C5 : crel (frames s5) (envs s5) bs d c c') by (eapply crel_grows; eauto). assert (L5 := crel_grows _ _ _ _ _ _ _ _ G5 L4).
  apply sim_bind.
  { apply sim_new_fun; [exact R5|]. split; [reflexivity|]. split; [reflexivity|]. exists (own (map fst l) d ++ bs), (S d), (map fst l ++ vis). cbn. split; [now apply dom_own|]. split; [exact L5|]. auto. }
  intros v s6 t6 R6 G6. assert (C6 : crel (frames s6) (envs s6) bs d c c') by (eapply crel_grows; eauto).
  apply sim_bind. { destruct call; [now apply HA|now apply sim_ret]. }
  intros v' s7 t7 R7 G7. assert (C7 : crel (frames s7) (envs s7) bs d c c') by (eapply crel_grows; eauto).
  apply sim_bind; [now apply sim_decorate|]. intros v2 s8 t8 R8 G8. assert (C8 : crel (frames s8) (envs s8) bs d c c') by (eapply crel_grows; eauto).
  eapply sim_set_var; eauto. destruct (get bs f) eqn:G; [|reflexivity]. assert (get bs f <> None) by congruence. apply D in H. congruence.
Qed.
Definition sim_s (x : stm) : Prop := forall bs d vis c c' s t, R s t -> crel (frames s) (envs s) bs d c c' -> dom bs vis -> fine vis x = true -> sim (exec x c) (exec (xls bs bs d x) c') s t.
Lemma sim_execs l : Forall sim_s l -> forall bs d vis c c' s t, R s t -> crel (frames s) (envs s) bs d c c' -> dom bs vis -> forallb (fine vis) l = true -> sim (execs c l) (execs c' (map (xls bs bs d) l)) s t.
Proof.
  induction 1 as [|x l He Hl IH]; intros bs d vis c c' s t Rs C D Fi; cbn [map]; [now apply sim_ret|]. cbn [forallb] in Fi. apply andb_true_iff in Fi as [F1 F2].
  change (sim (mbind (exec x c) (fun r => match r with Some v => ret (Some v) | None => execs c l end))
              (mbind (exec (xls bs bs d x) c') (fun r => match r with Some v => ret (Some v) | None => execs c' (map (xls bs bs d) l) end)) s t).
  apply sim_bind; [eapply He; eauto|]. intros [v|] s1 t1 R1 G1; [now apply sim_ret|]. eapply IH; eauto. eapply crel_grows; eauto.
Qed.
Lemma dom_none bs vis f : dom bs vis -> mem f vis = false -> get bs f = None.
Proof. intros D F. destruct (get bs f) eqn:G; [|reflexivity]. assert (H : get bs f <> None) by congruence. apply D in H. congruence. Qed.
Lemma sim_exec x : sim_s x.
Proof.
  induction x using stm_induct; unfold sim_s; intros bs0 d vis c' c'' s t Rs C D Fi; cbn [xls]; cbn [fine] in Fi.
  - cbn [DlmModel.exec]. apply sim_bind; [eapply sim_eval; eauto|]. intros. now apply sim_ret.
  - apply andb_true_iff in Fi as [F1 F2]. apply negb_true_iff in F1. cbn [DlmModel.exec]. apply sim_bind; [eapply sim_eval; eauto|]. intros v s1 t1 R1 G1.
    apply sim_bind; [|intros; now apply sim_ret]. eapply sim_set_var; eauto; [eapply crel_grows; eauto|]. eapply dom_none; eauto.
  - cbn [DlmModel.exec]. apply sim_bind; [eapply sim_eval; eauto|]. intros. now apply sim_ret.
  - apply andb_true_iff in Fi as [Fi F3]. apply andb_true_iff in Fi as [F1 F2].
    change (sim (mbind (eval e c') (fun v => if truthy v then execs c' a else execs c' b))
                (mbind (eval (xle bs0 bs0 e) c'') (fun v => if truthy v then execs c'' (map (xls bs0 bs0 d) a) else execs c'' (map (xls bs0 bs0 d) b))) s t).
    apply sim_bind; [eapply sim_eval; eauto|]. intros v s1 t1 R1 G1. assert (C1 : crel (frames s1) (envs s1) bs0 d c' c'') by (eapply crel_grows; eauto).
    destruct (truthy v); eapply sim_execs; eauto.
  - destruct k; [discriminate|]. rewrite !andb_true_iff in Fi. destruct Fi as ((((F1 & F2) & F3) & Fl) & F4). apply negb_true_iff in F1. rewrite forallb_app in F2. apply andb_true_iff in F2 as [F2 F2'].
    cbn [DlmModel.exec]. apply sim_bind; [eapply sim_es; eauto|]. intros fs s1 t1 R1 G1. assert (C1 : crel (frames s1) (envs s1) bs0 d c' c'') by (eapply crel_grows; eauto).
    apply sim_bind; [eapply sim_es; eauto|]. intros dvs s2 t2 R2 G2. assert (C2 : crel (frames s2) (envs s2) bs0 d c' c'') by (eapply crel_grows; eauto).
    apply sim_bind. { apply sim_new_fun; [exact R2|]. split; [reflexivity|]. split; [reflexivity|]. exists bs0, d, vis. cbn. auto. }
    intros v s3 t3 R3 G3. assert (C3 : crel (frames s3) (envs s3) bs0 d c' c'') by (eapply crel_grows; eauto).
    apply sim_bind; [now apply sim_decorate|]. intros v2 s4 t4 R4 G4. assert (C4 : crel (frames s4) (envs s4) bs0 d c' c'') by (eapply crel_grows; eauto).
    apply sim_bind; [|intros; now apply sim_ret]. eapply sim_set_var; eauto. eapply dom_none; eauto.
  - rewrite !andb_true_iff in Fi. destruct Fi as ((((((((F0 & Fd) & F1) & F2) & F3) & F4) & F5) & Fl) & F6). apply negb_true_iff in F1. rewrite mem_app in F1. apply orb_false_iff in F1 as [F1o F1].
    destruct m; [|discriminate|]; cbn [DlmModel.exec is_rec now isrec binds envname]; (apply sim_bind; [|intros; now apply sim_ret]).
    + refine (sim_let_over c false bs f decos ps ds b _ bs0 d vis c' c'' s t Rs C D F2 F5 F1 F6 eq_refl).
    + refine (sim_let_over c true bs f decos ps ds b _ bs0 d vis c' c'' s t Rs C D F2 F5 F1 F6 eq_refl).
Qed.
Lemma sim_enter f f' args s t : R s t -> frel (frames s) (envs s) f f' -> sim (enter W prim ap f args) (enter W prim ap f' args) s t.
Proof.
  intros Rs (Ep & Ed & bs & d & vis & D & C & Co). unfold enter. rewrite Ep.
  assert (El : locals_of (fpars f) (fcode f') = locals_of (fpars f) (fcode f)).
  { destruct (fcode f) as [b|b]; destruct Co as [_ ->]; cbn; [reflexivity|]. f_equal. assert (AM : forall bs d b, flat_map assigned (map (xls bs bs d) b) = flat_map assigned b) by (clear; induction b as [|x b IH]; cbn; [reflexivity|]; now rewrite assigned_xls, IH). apply AM. }
  rewrite El. apply sim_with_frame; [exact Rs|]. intros i s1 t1 R1 G1 En. assert (C1 : crel (frames s1) (envs s1) bs d (fchain f) (fchain f')) by (eapply crel_grows; eauto).
  assert (Cc : crel (frames s1) (envs s1) (rm (locals_of (fpars f) (fcode f)) bs) d (F i :: fchain f) (F i :: fchain f')).
  { eapply crel_call; eauto. intros x Hx Hp. cbn [locals] in Hx. congruence. }
  destruct (fcode f) as [b|b]; destruct Co as [Fb ->].
  - eapply sim_eval; eauto. now apply dom_rm.
  - apply sim_bind; [|intros; now apply sim_ret]. eapply sim_execs; eauto; [|now apply dom_rm]. apply Forall_forall. intros. apply sim_exec.
Qed.
End Apply.
Lemma Forall2_nth {A B} (P : A -> B -> Prop) l l' : Forall2 P l l' -> forall i, match nth_error l i, nth_error l' i with Some a, Some b => P a b | None, None => True | _, _ => False end.
Proof. induction 1 as [|a b l l' Hab Hl IH]; intros [|i]; cbn; auto. apply IH. Qed.
Lemma sim_call fuel : forall v vs s t, R s t -> sim (call W prim fuel v vs) (call W prim fuel v vs) s t.
Proof.
  induction fuel as [|fuel IH]; intros v vs s t Rs; [exact I|]. cbn [call]. destruct v as [| |i]; [now apply sim_raise|now apply sim_raise|].
  pose proof Rs as (Ef & Ee & Ew & Fu). pose proof (Forall2_nth _ _ _ Fu i) as N. unfold sim. destruct (nth_error (funs s) i) as [f|], (nth_error (funs t) i) as [f'|]; try contradiction; [|apply (sim_raise RuntimeError); auto].
  pose proof N as (Ep & Ed & _). rewrite Ep, Ed. destruct (arguments (fpars f) (fdefs f) vs); [|apply (sim_raise TypeError); auto].
  exact (sim_enter (call W prim fuel) IH f f' _ s t Rs N).
Qed.
Lemma run_fine inner fuel globals p w : forallb (fine []) p = true -> run W prim fuel globals (expand_program inner p) w = run W prim fuel globals p w.
Proof.
  intros Fi. unfold run, expand_program.
  assert (E1 : map (expand inner 0) p = map (xls [] [] 0) p).
  { apply map_ext_Forall. apply forallb_Forall in Fi. eapply Forall_impl; [|exact Fi]. intros x Hx. exact (expand_xls inner x [] 0 Hx). }
  rewrite E1. set (s0 := mkS [mkF [] globals] [] [] w).
  assert (R0 : R s0 s0) by (repeat split; constructor).
  assert (C0 : crel (frames s0) (envs s0) [] 0 [] []) by (repeat split; try constructor; [intros; discriminate|intros x; cbn; eauto]).
  assert (D0 : dom [] []) by (intros x; cbn; split; [discriminate|congruence]).
  pose proof (sim_execs (call W prim fuel) p (proj2 (Forall_forall _ _) (fun x _ => sim_exec _ (sim_call fuel) x)) [] 0 [] [] [] s0 s0 R0 C0 D0 Fi) as Q.
  unfold sim in Q. destruct (execs W prim (call W prim fuel) [] p s0) as [[r s1]|], (execs W prim (call W prim fuel) [] (map (xls [] [] 0) p) s0) as [[r' t1]|]; try contradiction; [|reflexivity].
  destruct Q as (-> & (_ & _ & -> & _) & _). reflexivity.
Qed.
End Sim.

(** ** Programs *)
Lemma program_nested inner p : forallb seq_ok p = true -> (forall x n, In x (flat_map let_names p) -> x <> inner n) ->
  expand_program inner p = expand_program inner (map (unnest inner 0) p).
Proof.
  unfold expand_program. rewrite map_map. intros S N. apply map_ext_in. intros s I. apply seq_nested.
  - rewrite forallb_forall in S. auto.
  - intros x n Ix. apply N. apply in_flat_map. eauto.
Qed.
Lemma run_seq : forall W prim inner fuel globals p (w : W),
  forallb seq_ok p = true -> (forall x n, In x (flat_map let_names p) -> x <> inner n) -> forallb (fine []) (map (unnest inner 0) p) = true ->
  run W prim fuel globals (expand_program inner p) w = run W prim fuel globals (map (unnest inner 0) p) w.
Proof. intros W prim inner fuel globals p w S N F. rewrite (program_nested inner p S N). now apply run_fine. Qed.
Lemma no_let_tr L en p s : forall a l, no_let (tr_s L en p a l s) = no_let s.
Proof.
  assert (FM : forall b, Forall (fun s => forall a l, no_let (tr_s L en p a l s) = no_let s) b -> forall a l, forallb no_let (body (tr_s L en p a) l b) = forallb no_let b).
  { clear. induction 1 as [|s b Hs Hb IH]; intros a l; [reflexivity|]. cbn [body forallb]. now rewrite Hs, IH. }
  induction s using stm_induct; intros a0 l; cbn [tr_s no_let]; auto.
  f_equal; [revert H|revert H0]; clear; induction 1 as [|s b Hs Hb IH]; cbn; congruence.
Qed.
Lemma no_let_decorator d c r bs f decos ps ds b : forallb no_let b = true -> exists decos' k ds' b', let_decorator d c r bs (Def f decos None ps ds b) = Def f decos' k ps ds' b' /\ forallb no_let b' = true.
Proof.
  intros N. rewrite let_decorator_def. do 4 eexists. split; [reflexivity|].
  assert (B : forall p a l b, forallb no_let (body (tr_s (map fst bs) d p a) l b) = forallb no_let b).
  { clear. intros p a l b. revert l. induction b as [|s b IH]; intros l; [reflexivity|]. cbn [body forallb]. now rewrite no_let_tr, IH. }
  now rewrite !B.
Qed.
Lemma no_let_impl inner bs : forall d c decos b, forallb no_let b = true -> exists decos' k b', dletseq_impl inner d c bs decos b = Def (inner d) decos' k [] [] b' /\ forallb no_let b' = true.
Proof.
  induction bs as [|bnd rest IH]; intros d c decos b N; [cbn; eauto 6|]. cbn [dletseq_impl]. destruct rest as [|r rest].
  - destruct (no_let_decorator d c false [bnd] (inner d) decos [] [] b N) as (d1 & k & ds' & b' & E & N').
    pose proof (let_decorator_def d c false [bnd] (inner d) decos [] [] b) as E2. rewrite E in E2. injection E2 as -> -> -> ->. rewrite E. eauto 6.
  - destruct (IH (S d) c decos b N) as (d1 & k & b' & E & N'). rewrite E.
    assert (N2 : forallb no_let [Def (inner (S d)) d1 k [] [] b'; Return (if c then Var (inner (S d)) else Call (Var (inner (S d))) [])] = true) by (cbn; now rewrite N').
    destruct (no_let_decorator d c false [bnd] (inner d) [] [] [] _ N2) as (d2 & k2 & ds2 & b2 & E2 & N3).
    pose proof (let_decorator_def d c false [bnd] (inner d) [] [] [] [Def (inner (S d)) d1 k [] [] b'; Return (if c then Var (inner (S d)) else Call (Var (inner (S d))) [])]) as E3.
    rewrite E2 in E3. injection E3 as -> -> -> ->. rewrite E2. eauto 6.
Qed.
Lemma expand_no_let inner s : forall d, no_let (expand inner d s) = true.
Proof.
  assert (FM : forall b, Forall (fun s => forall d, no_let (expand inner d s) = true) b -> forall d, forallb no_let (map (expand inner d) b) = true).
  { clear. induction 1 as [|s b Hs Hb IH]; intros d; [reflexivity|]. cbn. now rewrite Hs, IH. }
  induction s using stm_induct; intros d; cbn [expand]; auto.
  - cbn. now rewrite !FM.
  - cbn. now apply FM.
  - destruct m.
    + destruct (no_let_decorator d c false bs f decos ps ds _ (FM b H (S d))) as (? & ? & ? & ? & -> & N). exact N.
    + destruct (no_let_impl inner bs d c decos _ (FM b H (d + length bs))) as (? & ? & ? & -> & N). exact N.
    + destruct (no_let_decorator d c true bs f decos ps ds _ (FM b H (S d))) as (? & ? & ? & ? & -> & N). exact N.
Qed.
Lemma expanded_no_let inner p : forallb no_let (expand_program inner p) = true.
Proof. unfold expand_program. induction p as [|s p IH]; [reflexivity|]. cbn. now rewrite expand_no_let, IH. Qed.
Lemma expand_same inner s : no_let s = true -> forall d, expand inner d s = s.
Proof.
  assert (FM : forall b, Forall (fun s => no_let s = true -> forall d, expand inner d s = s) b -> forallb no_let b = true -> forall d, map (expand inner d) b = b).
  { clear. induction 1 as [|s b Hs Hb IH]; intros N d; [reflexivity|]. cbn in *. apply andb_true_iff in N as [N1 N2]. now rewrite Hs, IH. }
  induction s using stm_induct; intros N d; cbn [expand]; auto; cbn in N; try discriminate.
  - apply andb_true_iff in N as [N1 N2]. now rewrite !FM.
  - now rewrite FM.
Qed.
Lemma no_let_same inner p : forallb no_let p = true -> expand_program inner p = p.
Proof. unfold expand_program. induction p as [|s p IH]; [reflexivity|]. cbn. intros N. apply andb_true_iff in N as [N1 N2]. now rewrite expand_same, IH. Qed.
