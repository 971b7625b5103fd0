From Coq Require Import List Bool Arith Lia.
From Verif Require Import Base AsyModel AsySpec.
Import ListNotations.
Open Scope nat_scope.

Lemma nth_upd {A} (l : list A) : forall i j v w, nth_error l i = Some w ->
  nth_error (upd l i v) j = if j =? i then Some v else nth_error l j.
Proof.
  induction l as [|a l IH]; intros [|i] [|j] v w E; cbn in *; try discriminate; auto.
  exact (IH i j v w E).
Qed.
Lemma len_upd {A} (l : list A) : forall i v, length (upd l i v) = length l.
Proof. induction l; intros [|i] v; cbn; auto. Qed.
Lemma sum_upd {A} (f : A -> nat) (l : list A) : forall i v w, nth_error l i = Some w ->
  list_sum (map f (upd l i v)) + f w = list_sum (map f l) + f v.
Proof.
  unfold list_sum. induction l as [|a l IH]; intros [|i] v w E; cbn in *; try discriminate.
  - inversion E. lia.
  - specialize (IH i v w E). lia.
Qed.
Lemma sum_app {A} (f : A -> nat) (l : list A) a : list_sum (map f (l ++ [a])) = list_sum (map f l) + f a.
Proof. rewrite map_app, list_sum_app. cbn. lia. Qed.
Lemma filter_sum {A} (p : A -> bool) (l : list A) : length (filter p l) = list_sum (map (fun a => if p a then 1 else 0) l).
Proof. unfold list_sum. induction l as [|a l IH]; cbn; auto. destruct (p a); cbn; lia. Qed.
Lemma nth_snoc {A} (l : list A) a i b : nth_error (l ++ [a]) i = Some b -> (i = length l /\ b = a) \/ nth_error l i = Some b.
Proof.
  intro E. destruct (Nat.lt_ge_cases i (length l)) as [L|L].
  - rewrite nth_error_app1 in E by exact L. auto.
  - rewrite nth_error_app2 in E by exact L. destruct (i - length l) as [|k] eqn:D; cbn in E.
    + inversion E. left. split; [lia|auto].
    + destruct k; discriminate.
Qed.
Lemma nth_keep {A} (l : list A) a i b : nth_error l i = Some b -> nth_error (l ++ [a]) i = Some b.
Proof. intro E. rewrite nth_error_app1; auto. apply nth_error_Some. congruence. Qed.
Lemma opt_eqb_eq a b : opt_eqb a b = true <-> a = b.
Proof.
  destruct a, b; cbn; split; intro H; try discriminate; auto.
  - apply Nat.eqb_eq in H. congruence.
  - inversion H. apply Nat.eqb_refl.
Qed.

(** PyThreadState_SetAsyncExc *)
Lemma set_spec ts id e :
  (exists i t, nth_error ts i = Some t /\ tstate_id (stat t) = Some id /\
     set_async_exc ts id e = (upd ts i (mkthread (stat t) e (received t)), 1)) \/
  ((forall i t, nth_error ts i = Some t -> tstate_id (stat t) <> Some id) /\ set_async_exc ts id e = (ts, 0)).
Proof.
  induction ts as [|t ts IH]; cbn.
  - right. split; auto. intros [|i] t; discriminate.
  - destruct (opt_eqb (tstate_id (stat t)) (Some id)) eqn:E.
    + left. exists 0, t. apply opt_eqb_eq in E. auto.
    + destruct IH as [(i & t' & N & T & S')|(N & S')]; rewrite S'.
      * left. exists (S i), t'. auto.
      * right. split; auto. intros [|i] t' H; cbn in H.
        -- inversion H; subst. intro F. apply opt_eqb_eq in F. congruence.
        -- exact (N i t' H).
Qed.
Lemma inject_spec ts tid e :
  (exists i t id, tid = Some id /\ nth_error ts i = Some t /\ tstate_id (stat t) = Some id /\
     inject ts tid e = (upd ts i (mkthread (stat t) (Some e) (received t)), Ok tt)) \/
  ((forall id i t, tid = Some id -> nth_error ts i = Some t -> tstate_id (stat t) <> Some id) /\
     inject ts tid e = (ts, Raise (match tid with None => TypeError | Some _ => ValueError end))).
Proof.
  destruct tid as [id|]; cbn.
  - destruct (set_spec ts id (Some e)) as [(i & t & N & T & E)|(N & E)]; rewrite E; cbn.
    + left. exists i, t, id. auto.
    + right. split; auto. intros id' i t H. inversion H; subst. apply N.
  - right. split; auto. discriminate.
Qed.

Section Platform.
Variable supported : bool.
Notation step := (step supported).
Notation run := (run supported).

(** What an event can do *)
Inductive stepR (w : world) : event -> world -> Prop :=
| RSame ev : stepR w ev w
| RNew : stepR w New (mkworld (threads w ++ [mkthread Fresh None []]) (calls w))
| RStart i p r : nth_error (threads w) i = Some (mkthread Fresh p r) -> stepR w (Start i) (set_thread w i (mkthread Limbo p r))
| RBoot i id p r : nth_error (threads w) i = Some (mkthread Limbo p r) ->
    (forall j t, nth_error (threads w) j = Some t -> tstate_id (stat t) <> Some id) ->
    stepR w (Boot i id) (set_thread w i (mkthread (Running id) None r))
| RLeave i id p r : nth_error (threads w) i = Some (mkthread (Running id) p r) ->
    stepR w (Leave i) (set_thread w i (mkthread (Ending id) p r))
| RExit i id p r : nth_error (threads w) i = Some (mkthread (Ending id) p r) ->
    stepR w (Exit i) (set_thread w i (mkthread (Gone id) None r))
| RLook i s e r id : nth_error (threads w) i = Some (mkthread s (Some e) r) -> tstate_id s = Some id ->
    stepR w (Look i) (set_thread w i (mkthread s None (r ++ [e])))
| RCall a e : stepR w (Call a e) (mkworld (threads w) (calls w ++ [mkcall a e Called]))
| RCheck c a e : nth_error (calls w) c = Some (mkcall a e Called) ->
    stepR w (Check c) (mkworld (threads w) (upd (calls w) c (mkcall a e (check supported (threads w) a))))
| RInject c a e i t id : nth_error (calls w) c = Some (mkcall a e (Found (Some id))) ->
    nth_error (threads w) i = Some t -> tstate_id (stat t) = Some id ->
    stepR w (Inject c) (mkworld (upd (threads w) i (mkthread (stat t) (Some e) (received t))) (upd (calls w) c (mkcall a e (Returned (Ok tt)))))
| RFail c a e tid x : nth_error (calls w) c = Some (mkcall a e (Found tid)) ->
    (forall id i t, tid = Some id -> nth_error (threads w) i = Some t -> tstate_id (stat t) <> Some id) ->
    x = match tid with None => TypeError | Some _ => ValueError end ->
    stepR w (Inject c) (mkworld (threads w) (upd (calls w) c (mkcall a e (Returned (Raise x))))).

Lemma step_R w ev : stepR w ev (step w ev).
Proof.
  destruct ev as [|i|i id|i|i|i|a e|c|c]; cbn [AsyModel.step].
  - constructor.
  - destruct (nth_error (threads w) i) as [[[| | | |] p r]|] eqn:E; constructor; auto.
  - destruct (nth_error (threads w) i) as [[[| | | |] p r]|] eqn:E; try constructor; auto.
    destruct (existsb _ (threads w)) eqn:X; [constructor|]. eapply RBoot; [exact E|].
    intros j t N T. assert (existsb (fun t => opt_eqb (tstate_id (stat t)) (Some id)) (threads w) = true); [|congruence].
    apply existsb_exists. exists t. split; [exact (nth_error_In _ _ N)|]. apply opt_eqb_eq. exact T.
  - destruct (nth_error (threads w) i) as [[[| | | |] p r]|] eqn:E; constructor; auto.
  - destruct (nth_error (threads w) i) as [[[| | | |] p r]|] eqn:E; econstructor; eauto.
  - destruct (nth_error (threads w) i) as [[s [e|] r]|] eqn:E; try constructor.
    destruct (tstate_id s) as [id|] eqn:T; [|constructor]. eapply RLook; eauto.
  - constructor.
  - destruct (nth_error (calls w) c) as [[a e [| |]]|] eqn:E; constructor; auto.
  - destruct (nth_error (calls w) c) as [[a e [|tid|]]|] eqn:E; try constructor.
    destruct (inject_spec (threads w) tid e) as [(i & t & id & -> & N & T & ->)|(N & ->)].
    + eapply RInject; eauto.
    + eapply RFail; eauto.
Qed.
Lemma run_snoc h ev : run (h ++ [ev]) = step (run h) ev.
Proof. unfold AsyModel.run. rewrite fold_left_app. reflexivity. Qed.
Lemma run_app h h' : run (h ++ h') = fold_left step h' (run h).
Proof. unfold AsyModel.run. rewrite fold_left_app. reflexivity. Qed.

(** Threads that exist at the same time have different idents *)
Definition unique (w : world) : Prop := forall i j t t' id,
  nth_error (threads w) i = Some t -> nth_error (threads w) j = Some t' ->
  tstate_id (stat t) = Some id -> tstate_id (stat t') = Some id -> i = j.
Lemma unique_upd w i t t' : unique w -> nth_error (threads w) i = Some t ->
  (tstate_id (stat t') = None \/ tstate_id (stat t') = tstate_id (stat t) \/
   forall j u, nth_error (threads w) j = Some u -> tstate_id (stat u) <> tstate_id (stat t')) ->
  forall cs, unique (mkworld (upd (threads w) i t') cs).
Proof.
  intros U N C cs a b u v id Na Nb Ta Tb. cbn in *. rewrite (nth_upd _ _ _ _ _ N) in Na. rewrite (nth_upd _ _ _ _ _ N) in Nb.
  destruct (Nat.eqb_spec a i) as [->|Da]; destruct (Nat.eqb_spec b i) as [->|Db]; auto.
  - inversion Na; subst u. destruct C as [C|[C|C]].
    + congruence.
    + exfalso. apply Db. apply (U b i v t id); auto. congruence.
    + exfalso. apply (C b v Nb). congruence.
  - inversion Nb; subst v. destruct C as [C|[C|C]].
    + congruence.
    + exfalso. apply Da. apply (U a i u t id); auto. congruence.
    + exfalso. apply (C a u Na). congruence.
  - exact (U a b u v id Na Nb Ta Tb).
Qed.
Lemma unique_step w ev w' : stepR w ev w' -> unique w -> unique w'.
Proof.
  intros R U. destruct R; try exact U.
  - intros a b u v id Na Nb Ta Tb. cbn in *. apply nth_snoc in Na, Nb.
    destruct Na as [[-> ->]|Na]; [discriminate|]. destruct Nb as [[-> ->]|Nb]; [discriminate|]. exact (U a b u v id Na Nb Ta Tb).
  - eapply unique_upd; eauto.
  - eapply unique_upd; eauto.
  - eapply unique_upd; eauto.
  - eapply unique_upd; eauto.
  - eapply unique_upd; eauto.
  - eapply unique_upd; eauto.
Qed.
Lemma unique_run h : unique (run h).
Proof.
  induction h as [|ev h IH] using rev_ind.
  - intros [|i] [|j] t t' id; cbn; auto; try (destruct i; discriminate); try (destruct j; discriminate).
  - rewrite run_snoc. exact (unique_step _ _ _ (step_R _ _) IH).
Qed.

(** An ident stays *)
Lemma ident_step w ev w' : stepR w ev w' -> forall i t id, nth_error (threads w) i = Some t -> ident (stat t) = Some id ->
  exists t', nth_error (threads w') i = Some t' /\ ident (stat t') = Some id.
Proof.
  intros R i0 t0 id0 N0 I0.
  assert (K : forall i t t' cs, nth_error (threads w) i = Some t -> (forall id, ident (stat t) = Some id -> ident (stat t') = Some id) ->
     exists u, nth_error (threads (mkworld (upd (threads w) i t') cs)) i0 = Some u /\ ident (stat u) = Some id0).
  { intros i t t' cs N C. cbn. rewrite (nth_upd _ _ _ _ _ N). destruct (Nat.eqb_spec i0 i) as [->|D]; [|eauto].
    eexists. split; [reflexivity|]. apply C. congruence. }
  destruct R; try (exists t0; split; [exact N0|exact I0]); try (eapply K; [eassumption|]; cbn; intros; (assumption || discriminate)).
  - exists t0. split; [|exact I0]. exact (nth_keep _ _ _ _ N0).
Qed.

(** Where exceptions come from *)
Record traced (w : world) : Prop := {
  tr_found : forall c a e id, nth_error (calls w) c = Some (mkcall a e (Found (Some id))) ->
    exists j t, a = Thread j /\ nth_error (threads w) j = Some t /\ ident (stat t) = Some id;
  tr_gets : forall i t e, nth_error (threads w) i = Some t -> gets t e ->
    exists c j u id, nth_error (calls w) c = Some (mkcall (Thread j) e (Returned (Ok tt))) /\
      nth_error (threads w) j = Some u /\ ident (stat u) = Some id /\ ident (stat t) = Some id }.
Lemma check_found ts a id : check supported ts a = Found (Some id) ->
  exists j t, a = Thread j /\ nth_error ts j = Some t /\ ident (stat t) = Some id.
Proof.
  unfold check. destruct supported; cbn [negb]; [|discriminate]. destruct a as [|j]; [discriminate|].
  destruct (nth_error ts j) as [t|] eqn:E; [|discriminate]. destruct (existsb _ _); [|discriminate].
  intro H. inversion H. eauto.
Qed.
(** The calls that have returned, and those that found an ident, stay until the next event *)
Lemma returned_step w ev w' : stepR w ev w' -> forall c a e r, nth_error (calls w) c = Some (mkcall a e (Returned r)) ->
  nth_error (calls w') c = Some (mkcall a e (Returned r)).
Proof.
  intros R c0 a0 e0 r0 N. destruct R; auto.
  - exact (nth_keep _ _ _ _ N).
  - cbn. rewrite (nth_upd _ _ _ _ _ H). destruct (Nat.eqb_spec c0 c) as [->|]; congruence.
  - cbn. rewrite (nth_upd _ _ _ _ _ H). destruct (Nat.eqb_spec c0 c) as [->|]; congruence.
  - cbn. rewrite (nth_upd _ _ _ _ _ H). destruct (Nat.eqb_spec c0 c) as [->|]; congruence.
Qed.
Lemma gets_step w ev w' : stepR w ev w' -> forall i t' e, nth_error (threads w') i = Some t' -> gets t' e ->
  (exists t, nth_error (threads w) i = Some t /\ gets t e) \/
  (exists c a t id, ev = Inject c /\ nth_error (calls w) c = Some (mkcall a e (Found (Some id))) /\
     nth_error (calls w') c = Some (mkcall a e (Returned (Ok tt))) /\
     nth_error (threads w) i = Some t /\ tstate_id (stat t) = Some id).
Proof.
  intros R i0 t' e0 N' G.
  assert (K : forall i t u cs, w' = mkworld (upd (threads w) i u) cs -> nth_error (threads w) i = Some t ->
     (gets u e0 -> gets t e0) -> exists t, nth_error (threads w) i0 = Some t /\ gets t e0).
  { intros i t u cs -> N C. cbn in N'. rewrite (nth_upd _ _ _ _ _ N) in N'. destruct (Nat.eqb_spec i0 i) as [->|D]; [|eauto].
    inversion N'; subst. eauto. }
  destruct R; try (left; exists t'; split; [exact N'|exact G]); try (left; eapply K; [reflexivity|eassumption|]; unfold gets; cbn; intuition discriminate).
  - left. cbn in N'. apply nth_snoc in N'. destruct N' as [[-> ->]|N']; [|eauto]. destruct G as [[]|G]; discriminate.
  - left. eapply K; [reflexivity|eassumption|]. unfold gets; cbn. rewrite in_app_iff. cbn. intuition (try discriminate). subst; auto.
  - cbn [threads] in N'. rewrite (nth_upd _ _ _ _ _ H0) in N'. destruct (Nat.eqb_spec i0 i) as [->|D]; [|left; eauto].
    inversion N'; subst t'. destruct G as [G|G]; cbn in G.
    + left. exists t. split; auto. left. exact G.
    + inversion G; subst e0. right. exists c, a, t, id. repeat split; auto. cbn. rewrite (nth_upd _ _ _ _ _ H), Nat.eqb_refl. reflexivity.
Qed.
Lemma tstate_ident s id : tstate_id s = Some id -> ident s = Some id.
Proof. destruct s; cbn; congruence. Qed.
Lemma found_step w ev w' : stepR w ev w' -> forall c a e id, nth_error (calls w') c = Some (mkcall a e (Found (Some id))) ->
  nth_error (calls w) c = Some (mkcall a e (Found (Some id))) \/
  (threads w' = threads w /\ check supported (threads w) a = Found (Some id)).
Proof.
  intros R c0 a0 e0 id0 N. destruct R; auto.
  - cbn in N. apply nth_snoc in N. destruct N as [[_ N]|N]; [discriminate|auto].
  - cbn in N. rewrite (nth_upd _ _ _ _ _ H) in N. destruct (Nat.eqb_spec c0 c) as [->|]; [|auto]. inversion N; subst. auto.
  - cbn in N. rewrite (nth_upd _ _ _ _ _ H) in N. destruct (Nat.eqb_spec c0 c) as [->|]; [|auto]. discriminate.
  - cbn in N. rewrite (nth_upd _ _ _ _ _ H) in N. destruct (Nat.eqb_spec c0 c) as [->|]; [|auto]. discriminate.
Qed.
Lemma gets_ident_none w : traced w -> forall i t, nth_error (threads w) i = Some t -> ident (stat t) = None -> forall e, ~ gets t e.
Proof. intros T i t N I0 e G. destruct (tr_gets w T i t e N G) as (c & j & u & id & _ & _ & _ & F). congruence. Qed.
Lemma traced_step w ev w' : stepR w ev w' -> traced w -> traced w'.
Proof.
  intros R T. constructor.
  - intros c a e id N. destruct (found_step _ _ _ R c a e id N) as [F|[Et F]].
    + destruct (tr_found w T c a e id F) as (j & t & -> & Nj & Ij). destruct (ident_step _ _ _ R j t id Nj Ij) as (t' & N' & I'). eauto.
    + rewrite Et. exact (check_found _ _ _ F).
  - intros i t' e N' G. destruct (gets_step _ _ _ R i t' e N' G) as [(t & N & G0)|(c & a & t & id & -> & Nc & Nc' & N & Ti)].
    + destruct (tr_gets w T i t e N G0) as (c & j & u & id & Nc & Nj & Iu & It).
      destruct (ident_step _ _ _ R j u id Nj Iu) as (u' & Nu' & Iu').
      destruct (ident_step _ _ _ R i t id N It) as (t'' & Nt' & It').
      exists c, j, u', id. repeat split; auto. exact (returned_step _ _ _ R _ _ _ _ Nc). congruence.
    + destruct (tr_found w T c a e id Nc) as (j & u & -> & Nj & Iu).
      destruct (ident_step _ _ _ R j u id Nj Iu) as (u' & Nu' & Iu').
      destruct (ident_step _ _ _ R i t id N (tstate_ident _ _ Ti)) as (t'' & Nt' & It').
      exists c, j, u', id. repeat split; auto. congruence.
Qed.
Lemma traced_run h : traced (run h).
Proof.
  induction h as [|ev h IH] using rev_ind.
  - constructor.
    + intros [|c]; discriminate.
    + intros [|i] t e N G; cbn in N; [|destruct i; discriminate]. inversion N; subst. destruct G as [[]|G]; discriminate.
  - rewrite run_snoc. exact (traced_step _ _ _ (step_R _ _) IH).
Qed.

(** If idents are not used again, an ident names one thread *)
Definition named (h : list event) (w : world) : Prop :=
  (forall i t id, nth_error (threads w) i = Some t -> ident (stat t) = Some id -> In id (idents_given h)) /\
  (NoDup (idents_given h) -> forall i j t u id, nth_error (threads w) i = Some t -> nth_error (threads w) j = Some u ->
     ident (stat t) = Some id -> ident (stat u) = Some id -> i = j).
Lemma given_snoc h ev : idents_given (h ++ [ev]) = idents_given h ++ match ev with Boot _ id => [id] | _ => [] end.
Proof. unfold idents_given. rewrite flat_map_app. cbn [flat_map]. rewrite app_nil_r. reflexivity. Qed.
Lemma ident_back w ev w' : stepR w ev w' -> forall i t' id, nth_error (threads w') i = Some t' -> ident (stat t') = Some id ->
  (exists t, nth_error (threads w) i = Some t /\ ident (stat t) = Some id) \/ ev = Boot i id.
Proof.
  intros R i0 t' id0 N' I'.
  assert (K : forall i t u cs, w' = mkworld (upd (threads w) i u) cs -> nth_error (threads w) i = Some t ->
     (forall id, ident (stat u) = Some id -> ident (stat t) = Some id) -> exists t, nth_error (threads w) i0 = Some t /\ ident (stat t) = Some id0).
  { intros i t u cs -> N C. cbn in N'. rewrite (nth_upd _ _ _ _ _ N) in N'. destruct (Nat.eqb_spec i0 i) as [->|D]; [|eauto].
    inversion N'; subst. eauto. }
  destruct R; try (left; exists t'; split; [exact N'|exact I']); try (left; eapply K; [reflexivity|eassumption|]; cbn; intros; (assumption || discriminate)).
  - left. cbn in N'. apply nth_snoc in N'. destruct N' as [[-> ->]|N']; [discriminate|eauto].
  - cbn in N'. rewrite (nth_upd _ _ _ _ _ H) in N'. destruct (Nat.eqb_spec i0 i) as [->|D]; [|left; eauto].
    inversion N'; subst t'. cbn in I'. inversion I'; subst. auto.
Qed.
Lemma nodup_app_l {A} (l l' : list A) : NoDup (l ++ l') -> NoDup l.
Proof. induction l as [|a l IH]; cbn; [constructor|]. intro H. inversion H; subst. constructor; [rewrite in_app_iff in *; tauto|auto]. Qed.
Lemma nodup_snoc {A} (l : list A) a : NoDup (l ++ [a]) -> ~ In a l.
Proof. intros H F. apply NoDup_remove_2 in H. rewrite app_nil_r in H. auto. Qed.
Lemma named_run h : named h (run h).
Proof.
  induction h as [|ev h [IH1 IH2]] using rev_ind.
  - split.
    + intros [|i] t id N; cbn in N; [|destruct i; discriminate]. inversion N; subst. cbn. intro H; inversion H. auto.
    + intros _ [|i] [|j] t u id N M; cbn in N, M; auto; try (destruct i; discriminate); destruct j; discriminate.
  - rewrite run_snoc. pose proof (step_R (run h) ev) as R. split.
    + intros i t id N I0. rewrite given_snoc, in_app_iff. destruct (ident_back _ _ _ R i t id N I0) as [(t0 & N0 & I1)| ->].
      * left. exact (IH1 i t0 id N0 I1).
      * right. left. reflexivity.
    + intros ND i j t u id N M It Iu. rewrite given_snoc in ND. specialize (IH2 (nodup_app_l _ _ ND)).
      destruct (ident_back _ _ _ R i t id N It) as [(t0 & N0 & I1)|E1]; destruct (ident_back _ _ _ R j u id M Iu) as [(u0 & M0 & I2)|E2].
      * exact (IH2 i j t0 u0 id N0 M0 I1 I2).
      * subst ev. exfalso. apply (nodup_snoc _ _ ND). exact (IH1 i t0 id N0 I1).
      * subst ev. exfalso. apply (nodup_snoc _ _ ND). exact (IH1 j u0 id M0 I2).
      * congruence.
Qed.

Theorem source h i t e : is_thread (run h) i t -> gets t e ->
  exists c j u id, is_call (run h) c (Thread j) e (Returned (Ok tt)) /\ is_thread (run h) j u /\
    ident (stat u) = Some id /\ ident (stat t) = Some id.
Proof. exact (tr_gets _ (traced_run h) i t e). Qed.
Theorem target h i t e : NoDup (idents_given h) -> is_thread (run h) i t -> gets t e ->
  exists c, is_call (run h) c (Thread i) e (Returned (Ok tt)).
Proof.
  intros ND N G. destruct (source h i t e N G) as (c & j & u & id & C & Nj & Iu & It).
  rewrite <- (proj2 (named_run h) ND j i u t id Nj N Iu It). eauto.
Qed.

(** No exception is doubled *)
Lemma sent_upd w c e x (cl cl' : call) : nth_error (calls w) c = Some cl ->
  forall ts, total_sent x (mkworld ts (upd (calls w) c cl')) + (if succeeded x cl then 1 else 0) = total_sent x w + (if succeeded x cl' then 1 else 0) + 0 * e.
Proof. intros N ts. unfold total_sent. cbn [calls]. rewrite !filter_sum. pose proof (sum_upd (fun a => if succeeded x a then 1 else 0) (calls w) c cl' cl N). cbn beta in *. lia. Qed.
Lemma got_upd w i x t t' : nth_error (threads w) i = Some t ->
  forall cs, total_got x (mkworld (upd (threads w) i t') cs) + times_got x t = total_got x w + times_got x t'.
Proof. intros N cs. unfold total_got. cbn [threads]. apply sum_upd. exact N. Qed.
Lemma total_step w ev w' x : stepR w ev w' -> total_got x w <= total_sent x w -> total_got x w' <= total_sent x w'.
Proof.
  intros R L. destruct R; auto.
  - unfold total_got, total_sent in *. cbn. rewrite sum_app. cbn. lia.
  - pose proof (got_upd w i x _ (mkthread Limbo p r) H (calls w)) as G. unfold times_got in G at 1 2. cbn in G. unfold set_thread.
    unfold total_sent in *. cbn. lia.
  - pose proof (got_upd w i x _ (mkthread (Running id) None r) H (calls w)) as G. unfold times_got in G. cbn in G. unfold set_thread, total_sent in *. cbn. lia.
  - pose proof (got_upd w i x _ (mkthread (Ending id) p r) H (calls w)) as G. unfold times_got in G. cbn in G. unfold set_thread, total_sent in *. cbn. lia.
  - pose proof (got_upd w i x _ (mkthread (Gone id) None r) H (calls w)) as G. unfold times_got in G. cbn in G. unfold set_thread, total_sent in *. cbn. lia.
  - pose proof (got_upd w i x _ (mkthread s None (r ++ [e])) H (calls w)) as G. unfold times_got in G. cbn in G.
    rewrite count_occ_app in G. cbn in G. unfold set_thread, total_sent in *. cbn. destruct (Nat.eq_dec e x); lia.
  - unfold total_got, total_sent in *. cbn [threads calls]. rewrite filter_app, app_length. cbn [filter succeeded at_ length]. lia.
  - pose proof (sent_upd w c 0 x _ (mkcall a e (check supported (threads w) a)) H (threads w)) as G. cbn [succeeded at_] in G.
    unfold total_got in *. cbn [threads calls] in *. lia.
  - pose proof (sent_upd w c 0 x _ (mkcall a e (Returned (Ok tt))) H (upd (threads w) i (mkthread (stat t) (Some e) (received t)))) as G. cbn [succeeded at_ exc] in G.
    pose proof (got_upd w i x _ (mkthread (stat t) (Some e) (received t)) H0 (upd (calls w) c (mkcall a e (Returned (Ok tt))))) as G'. unfold times_got in G'. cbn [pending received] in G'.
    destruct (Nat.eqb_spec e x); destruct (Nat.eq_dec e x); try congruence; destruct (pending t) as [p|]; try destruct (Nat.eq_dec p x); lia.
  - pose proof (sent_upd w c 0 x _ (mkcall a e (Returned (Raise x0))) H (threads w)) as G. cbn [succeeded at_] in G. unfold total_got in *. cbn [threads calls] in *. lia.
Qed.
Theorem total h e : total_got e (run h) <= total_sent e (run h).
Proof.
  induction h as [|ev h IH] using rev_ind; [cbn; lia|]. rewrite run_snoc. exact (total_step _ _ _ _ (step_R _ _) IH).
Qed.

(** The two steps of a call *)
Lemma exists_tstate t id : exists_with t id <-> tstate_id (stat t) = Some id.
Proof. unfold exists_with. destruct (stat t); cbn; intuition congruence. Qed.
Theorem injected h c a e id : is_call (run h) c a e (Found (Some id)) ->
  let w := run h in let w' := run (h ++ [Inject c]) in
  (forall i t, is_thread w i t -> exists_with t id -> is_call w' c a e (Returned (Ok tt)) /\ only_awaits w w' i e) /\
  ((forall i t, is_thread w i t -> ~ exists_with t id) -> is_call w' c a e (Returned (Raise ValueError)) /\ threads w' = threads w).
Proof.
  intros C. cbn zeta. rewrite run_snoc. cbn [AsyModel.step]. unfold is_call in *. rewrite C.
  destruct (inject_spec (threads (run h)) (Some id) e) as [(i & t & id' & E & N & T & ->)|(N & ->)]; cbn [calls threads].
  - injection E as <-. split.
    + intros j u Nj X. apply exists_tstate in X. assert (j = i) by exact (unique_run h j i u t id Nj N X T). subst j.
      split; [rewrite (nth_upd _ _ _ _ _ C), Nat.eqb_refl; reflexivity|].
      split; [cbn; apply len_upd|]. intros j v Nv. unfold is_thread in *. cbn [threads]. rewrite (nth_upd _ _ _ _ _ N).
      destruct (Nat.eq_dec j i) as [->|D].
      * rewrite Nat.eqb_refl. eexists. split; [reflexivity|]. cbn. assert (v = t) by congruence. subst. auto.
      * destruct (Nat.eqb_spec j i); [congruence|exact Nv].
    + intro F. exfalso. apply (F i t N). apply exists_tstate. exact T.
  - split.
    + intros j u Nj X. apply exists_tstate in X. exfalso. exact (N id j u eq_refl Nj X).
    + intros _. split; auto. rewrite (nth_upd _ _ _ _ _ C), Nat.eqb_refl. reflexivity.
Qed.
Theorem injected_none h c a e : is_call (run h) c a e (Found None) ->
  is_call (run (h ++ [Inject c])) c a e (Returned (Raise TypeError)) /\ threads (run (h ++ [Inject c])) = threads (run h).
Proof.
  intros C. rewrite run_snoc. cbn [AsyModel.step]. unfold is_call in *. rewrite C. cbn. split; auto.
  rewrite (nth_upd _ _ _ _ _ C), Nat.eqb_refl. reflexivity.
Qed.

(** What becomes of an exception that awaits a thread *)
Lemma alone_step w ev w' i t e id : stepR w ev w' -> leaves_alone i ev = true ->
  nth_error (threads w) i = Some t -> pending t = Some e -> tstate_id (stat t) = Some id ->
  exists t', nth_error (threads w') i = Some t' /\ pending t' = Some e /\ tstate_id (stat t') = Some id /\ received t' = received t.
Proof.
  intros R L N P T.
  assert (K : forall j u v cs, nth_error (threads w) j = Some u -> (j = i -> u = t -> pending v = Some e /\ tstate_id (stat v) = Some id /\ received v = received t) ->
    exists t', nth_error (threads (mkworld (upd (threads w) j v) cs)) i = Some t' /\ pending t' = Some e /\ tstate_id (stat t') = Some id /\ received t' = received t).
  { intros j u v cs Nj C. cbn. rewrite (nth_upd _ _ _ _ _ Nj). destruct (Nat.eqb_spec i j) as [->|D]; [|eauto].
    assert (u = t) by congruence. destruct (C eq_refl H) as (? & ? & ?). eauto. }
  destruct R; cbn in L; try discriminate; try (exists t; repeat split; solve [assumption|exact (nth_keep _ _ _ _ N)]).
  - eapply K; [eassumption|]. intros -> <-. cbn in *. discriminate.
  - eapply K; [eassumption|]. intros -> <-. cbn in *. discriminate.
  - eapply K; [eassumption|]. intros -> <-. cbn in *. auto.
  - eapply K; [eassumption|]. intros -> <-. rewrite Nat.eqb_refl in L. discriminate.
  - eapply K; [eassumption|]. intros -> <-. rewrite Nat.eqb_refl in L. discriminate.
Qed.
Lemma pending_step w ev w' : stepR w ev w' ->
  (forall i t e, nth_error (threads w) i = Some t -> pending t = Some e -> exists id, tstate_id (stat t) = Some id) ->
  (forall i t e, nth_error (threads w') i = Some t -> pending t = Some e -> exists id, tstate_id (stat t) = Some id).
Proof.
  intros R H i0 t' e0 N' P.
  assert (K : forall i t u cs, w' = mkworld (upd (threads w) i u) cs -> nth_error (threads w) i = Some t ->
     (pending u = Some e0 -> exists id, tstate_id (stat u) = Some id) -> exists id, tstate_id (stat t') = Some id).
  { intros i t u cs -> N C. cbn in N'. rewrite (nth_upd _ _ _ _ _ N) in N'. destruct (Nat.eqb_spec i0 i) as [->|D]; [|eauto].
    inversion N'; subst. auto. }
  destruct R as [| |i p r Hn|i id p r Hn|i id p r Hn|i id p r Hn|i s e r id Hn Ht| | |c a e i t id Hc Hn Ht|]; eauto;
    try (eapply K; [reflexivity|exact Hn|]; cbn; intros; first [discriminate|eauto]).
  - cbn in N'. apply nth_snoc in N'. destruct N' as [[-> ->]|N']; [discriminate|eauto].
  - exact (H i _ e0 Hn H0).
Qed.
Lemma pending_run h : forall i t e, nth_error (threads (run h)) i = Some t -> pending t = Some e -> exists id, tstate_id (stat t) = Some id.
Proof.
  induction h as [|ev h IH] using rev_ind.
  - intros [|i] t e N; cbn in N; [|destruct i; discriminate]. inversion N; subst. discriminate.
  - rewrite run_snoc. exact (pending_step _ _ _ (step_R _ _) IH).
Qed.
Theorem delivered h h' i t e : is_thread (run h) i t -> pending t = Some e -> forallb (leaves_alone i) h' = true ->
  exists t', is_thread (run (h ++ h' ++ [Look i])) i t' /\ received t' = received t ++ [e] /\ pending t' = None.
Proof.
  intros N P A. destruct (pending_run h i t e N P) as (id & T). rewrite app_assoc, run_snoc, run_app.
  assert (K : forall w, nth_error (threads w) i = Some t ->
    exists u, nth_error (threads (fold_left step h' w)) i = Some u /\ pending u = Some e /\ tstate_id (stat u) = Some id /\ received u = received t).
  { clear N. revert P T. generalize t. revert A. induction h' as [|ev h' IH]; intros A t0 P T w N.
    - exists t0. auto.
    - cbn in *. apply andb_prop in A. destruct A as [A1 A2].
      destruct (alone_step _ _ _ i t0 e id (step_R w ev) A1 N P T) as (t1 & N1 & P1 & T1 & R1).
      destruct (IH A2 t1 P1 T1 _ N1) as (u & ? & ? & ? & R2). exists u. repeat split; auto. congruence. }
  destruct (K (run h) N) as ([s p r] & Nu & Pu & Tu & Ru). cbn in Pu, Ru, Tu. subst p r.
  cbn [AsyModel.step]. rewrite Nu, Tu. unfold is_thread, set_thread. cbn. rewrite (nth_upd _ _ _ _ _ Nu), Nat.eqb_refl.
  eexists. split; [reflexivity|]. auto.
Qed.

(** What a call can return *)
Definition outcomes (r : outcome unit) : Prop := r = Ok tt \/ r = Raise ValueError \/ r = Raise TypeError \/ r = Raise NotImplementedError.
Lemma returns_step w ev w' : stepR w ev w' ->
  (forall c a e r, nth_error (calls w) c = Some (mkcall a e (Returned r)) -> outcomes r) ->
  (forall c a e r, nth_error (calls w') c = Some (mkcall a e (Returned r)) -> outcomes r).
Proof.
  intros R H c0 a0 e0 r0 N. destruct R; eauto.
  - cbn in N. apply nth_snoc in N. destruct N as [[_ N]|N]; [discriminate|eauto].
  - cbn in N. rewrite (nth_upd _ _ _ _ _ H0) in N. destruct (Nat.eqb_spec c0 c) as [->|]; [|eauto].
    assert (check supported (threads w) a = Returned r0) as E by congruence. revert E. unfold check. unfold outcomes.
    destruct supported; cbn; [|intro E; inversion E; auto]. destruct a as [|j]; [intro E; inversion E; auto|].
    destruct (nth_error (threads w) j); [|intro E; inversion E; auto]. destruct (existsb _ _); [discriminate|intro E; inversion E; auto].
  - cbn in N. rewrite (nth_upd _ _ _ _ _ H0) in N. destruct (Nat.eqb_spec c0 c) as [->|]; [|eauto]. inversion N. left; auto.
  - cbn in N. rewrite (nth_upd _ _ _ _ _ H0) in N. destruct (Nat.eqb_spec c0 c) as [->|]; [|eauto]. inversion N; subst.
    unfold outcomes. destruct tid; auto.
Qed.
Theorem returns h c a e r : is_call (run h) c a e (Returned r) -> outcomes r.
Proof.
  revert c a e r. induction h as [|ev h IH] using rev_ind.
  - intros [|c]; discriminate.
  - rewrite run_snoc. exact (returns_step _ _ _ (step_R _ _) IH).
Qed.
End Platform.

(** 296-304 *)
Lemma enum_in ts tid : existsb (opt_eqb tid) (map (fun t => ident (stat t)) (filter (fun t => enumerated (stat t)) ts)) = true <->
  exists j u, nth_error ts j = Some u /\ enumerated (stat u) = true /\ ident (stat u) = tid.
Proof.
  rewrite existsb_exists. split.
  - intros (x & I0 & E). apply in_map_iff in I0. destruct I0 as (u & <- & F). apply filter_In in F. destruct F as [F G].
    apply In_nth_error in F. destruct F as [j F]. apply opt_eqb_eq in E. eauto.
  - intros (j & u & N & G & <-). exists (ident (stat u)). split; [|apply opt_eqb_eq; reflexivity].
    apply in_map_iff. exists u. split; auto. apply filter_In. split; auto. exact (nth_error_In _ _ N).
Qed.
Lemma checked_step supported h c a e : is_call (run supported h) c a e Called ->
  is_call (run supported (h ++ [Check c])) c a e (check supported (threads (run supported h)) a) /\
  threads (run supported (h ++ [Check c])) = threads (run supported h).
Proof.
  intro C. rewrite run_snoc. cbn [step]. unfold is_call in *. rewrite C. cbn. split; auto.
  rewrite (nth_upd _ _ _ _ _ C), Nat.eqb_refl. reflexivity.
Qed.
Theorem checked h c i t e : is_call (run true h) c (Thread i) e Called -> is_thread (run true h) i t ->
  let w := run true h in let w' := run true (h ++ [Check c]) in
  threads w' = threads w /\
  ((exists j u, is_thread w j u /\ (stat u = Limbo \/ exists id, stat u = Running id) /\ ident (stat u) = ident (stat t)) ->
     is_call w' c (Thread i) e (Found (ident (stat t)))) /\
  ((forall j u, is_thread w j u -> stat u = Limbo \/ (exists id, stat u = Running id) -> ident (stat u) <> ident (stat t)) ->
     is_call w' c (Thread i) e (Returned (Raise ValueError))).
Proof.
  intros C N. cbn zeta. destruct (checked_step true h c (Thread i) e C) as [K ->]. split; [reflexivity|]. revert K.
  unfold check. cbn [negb]. unfold is_thread in *. rewrite N. cbn zeta.
  assert (En : forall u : thread, enumerated (stat u) = true <-> stat u = Limbo \/ exists id, stat u = Running id).
  { intro u. destruct (stat u); cbn; split; intro H; auto; try discriminate; try (destruct H as [H|[? H]]; discriminate); eauto. }
  destruct (existsb _ _) eqn:X; intro K; split; intro H; auto.
  - apply enum_in in X. destruct X as (j & u & Nj & Eu & Iu). exfalso. exact (H j u Nj (proj1 (En u) Eu) Iu).
  - exfalso. destruct H as (j & u & Nj & Eu & Iu). assert (F := proj2 (enum_in (threads (run true h)) (ident (stat t))) (ex_intro _ j (ex_intro _ u (conj Nj (conj (proj2 (En u) Eu) Iu))))). congruence.
Qed.
Theorem checked_not_thread h c e : is_call (run true h) c NotThread e Called ->
  is_call (run true (h ++ [Check c])) c NotThread e (Returned (Raise TypeError)) /\ threads (run true (h ++ [Check c])) = threads (run true h).
Proof. exact (checked_step true h c NotThread e). Qed.

Lemma unsupported_inv h :
  (forall c a e tid, ~ is_call (run false h) c a e (Found tid)) /\
  (forall c a e r, is_call (run false h) c a e (Returned r) -> r = Raise NotImplementedError).
Proof.
  induction h as [|ev h [IH1 IH2]] using rev_ind.
  - split; intros [|c]; discriminate.
  - rewrite run_snoc. pose proof (step_R false (run false h) ev) as R. unfold is_call in *. destruct R; try (split; eassumption).
    + split; intros c0 a0 e0 x N; cbn in N; apply nth_snoc in N; (destruct N as [[_ N]|N]; [discriminate|]); [exact (IH1 _ _ _ _ N)|exact (IH2 _ _ _ _ N)].
    + split; intros c0 a0 e0 x N; cbn in N; rewrite (nth_upd _ _ _ _ _ H) in N; (destruct (Nat.eqb_spec c0 c) as [->|]; [|first [exact (IH1 _ _ _ _ N)|exact (IH2 _ _ _ _ N)]]); congruence.
    + exfalso. exact (IH1 _ _ _ _ H).
    + exfalso. exact (IH1 _ _ _ _ H).
Qed.
Theorem unsupported h :
  (forall c a e, is_call (run false h) c a e Called -> is_call (run false (h ++ [Check c])) c a e (Returned (Raise NotImplementedError))) /\
  (forall c a e r, is_call (run false h) c a e (Returned r) -> r = Raise NotImplementedError) /\
  (forall i t e, is_thread (run false h) i t -> ~ gets t e).
Proof.
  split; [|split].
  - intros c a e C. exact (proj1 (checked_step false h c a e C)).
  - exact (proj2 (unsupported_inv h)).
  - intros i t e N G. destruct (source false h i t e N G) as (c & j & u & id & C & _). pose proof (proj2 (unsupported_inv h) _ _ _ _ C). discriminate.
Qed.
