From Coq Require Import String List Bool ZArith Lia.
From Verif Require Import Base BaseProofs CollModel CollProofs BindModel FoldModel FoldProofs FunModel FunSpec.
Import ListNotations.
Open Scope list_scope.

Section Compose.
Context {D S : Type}.
Implicit Types (f g : func D S) (v : val D) (fs : list (func D S)).

Definition unp v : list (val D) * kwvals D :=
  match v with Vals a k => (a, k) | Obj _ => ([v], []) end.
Lemma call_unpacked_eq f ctx v s : call_unpacked f ctx v s = code f ctx (fst (unp v)) (snd (unp v)) s.
Proof. destruct v; reflexivity. Qed.

(** functions from the second on *)
Fixpoint rest ctx fs v (s : S) : outcome (val D) * S :=
  match fs with
  | [] => (Ok v, s)
  | f :: fs' => match code f ctx (fst (unp v)) (snd (unp v)) s with
                | (Ok v', s') => rest ctx fs' v' s'
                | (Raise e, s') => (Raise e, s')
                end
  end.
Lemma chain_rest ctx f fs args kw s :
  chain ctx f fs args kw s =
  match code f ctx args kw s with (Ok v, s') => rest ctx fs v s' | (Raise e, s') => (Raise e, s') end.
Proof.
  revert f args kw s. induction fs as [|g fs IH]; intros f args kw s; cbn.
  - destruct (code f ctx args kw s) as [[v|e] s']; reflexivity.
  - destruct (code f ctx args kw s) as [[v|e] s']; [|reflexivity].
    destruct v; rewrite IH; reflexivity.
Qed.
Lemma rest_app ctx fs gs v s :
  rest ctx (fs ++ gs) v s =
  match rest ctx fs v s with (Ok v', s') => rest ctx gs v' s' | (Raise e, s') => (Raise e, s') end.
Proof.
  revert v s. induction fs as [|f fs IH]; intros v s; [reflexivity|]. cbn.
  destruct (code f ctx _ _ s) as [[v'|e] s']; [apply IH|reflexivity].
Qed.

Definition foldc fs f : func D S := fold_left (fun acc x => compose_two x acc) fs f.
Lemma foldc_code fs f : Forall plain fs ->
  forall ctx args kw s, code (foldc fs f) ctx args kw s = chain ctx f fs args kw s.
Proof.
  unfold foldc. intros P ctx args kw s. revert f args kw s.
  induction P as [|g fs Pg P IH]; intros f args kw s; cbn [fold_left].
  - rewrite chain_rest. cbn. destruct (code f ctx args kw s) as [[]]; reflexivity.
  - rewrite IH, !chain_rest. cbn. unfold bind_. rewrite Pg.
    destruct (code f ctx args kw s) as [[v|e] s']; [|reflexivity].
    rewrite call_unpacked_eq. reflexivity.
Qed.
Lemma foldc_dict fs f : has_dict f = true \/ fs <> [] -> has_dict (foldc fs f) = true.
Proof.
  unfold foldc. revert f. induction fs as [|g fs IH]; intros f H; cbn.
  - destruct H; congruence.
  - apply IH. left. reflexivity.
Qed.
Lemma foldc_plain fs f : plain f \/ fs <> [] -> plain (foldc fs f).
Proof.
  unfold foldc. revert f. induction fs as [|g fs IH]; intros f H; cbn.
  - destruct H; congruence.
  - apply IH. left. reflexivity.
Qed.
Lemma composel_eq f fs : has_dict f = true \/ fs <> [] -> composel (f :: fs) = Ok (foldc fs f).
Proof.
  intros H. unfold composel. rewrite reducel_eq. unfold mark. change (fold_left _ fs f) with (foldc fs f).
  rewrite foldc_dict by exact H. reflexivity.
Qed.
Lemma composel_ok f fs : has_dict f = true \/ fs <> [] -> Forall plain (f :: fs) ->
  exists c, composel (f :: fs) = Ok c /\ plain c /\
    forall ctx args kw s, code c ctx args kw s = chain ctx f fs args kw s.
Proof.
  intros H P. inversion P; subst. exists (foldc fs f). split; [now apply composel_eq|].
  split; [apply foldc_plain; auto|]. now apply foldc_code.
Qed.

(** the other direction: [gs] is [rev fs ++ ...] *)
Definition foldr_ (gs : list (func D S)) f : func D S := fold_left (fun acc x => compose_two acc x) gs f.
Lemma foldr_plain fs f : plain f \/ fs <> [] -> plain (foldr_ fs f).
Proof.
  unfold foldr_. revert f. induction fs as [|g fs IH]; intros f H; cbn.
  - destruct H; congruence.
  - apply IH. left. reflexivity.
Qed.
Lemma foldr_dict fs f : has_dict f = true \/ fs <> [] -> has_dict (foldr_ fs f) = true.
Proof.
  unfold foldr_. revert f. induction fs as [|g fs IH]; intros f H; cbn.
  - destruct H; congruence.
  - apply IH. left. reflexivity.
Qed.
Lemma foldr_code gs f : plain f -> forall ctx args kw s,
  code (foldr_ gs f) ctx args kw s =
  match rev gs ++ [f] with
  | [] => (Raise TypeError, s)
  | h :: hs => chain ctx h hs args kw s
  end.
Proof.
  unfold foldr_. revert f. induction gs as [|g gs IH]; intros f P ctx args kw s; cbn [fold_left rev].
  - cbn. destruct (code f ctx args kw s) as [[]]; reflexivity.
  - rewrite IH by reflexivity. rewrite <- app_assoc. cbn [app].
    assert (Q : forall args kw s, code (compose_two f g) ctx args kw s =
              match code g ctx args kw s with (Ok v, s') => rest ctx [f] v s' | (Raise e, s') => (Raise e, s') end).
    { intros a k t. cbn. unfold bind_. rewrite P. destruct (code g ctx a k t) as [[v|e] t']; [|reflexivity].
      rewrite call_unpacked_eq. destruct (code f _ _ _ _) as [[]]; reflexivity. }
    destruct (rev gs) as [|h hs]; cbn [app].
    + rewrite !chain_rest. rewrite Q.
      destruct (code g ctx args kw s) as [[v|e] s']; [|reflexivity].
      cbn. destruct (code f _ _ _ _) as [[]]; reflexivity.
    + rewrite !chain_rest. destruct (code h ctx args kw s) as [[v|e] s']; [|reflexivity].
      rewrite !rest_app. destruct (rest ctx hs v s') as [[v'|e] s'']; [|reflexivity].
      cbn [rest]. rewrite Q. destruct (code g _ _ _ _) as [[v''|e] s3]; [|reflexivity].
      cbn. destruct (code f _ _ _ _) as [[]]; reflexivity.
Qed.
Lemma composer_ok f fs : has_dict f = true \/ fs <> [] -> Forall plain (f :: fs) ->
  exists c, composer (rev (f :: fs)) = Ok c /\ plain c /\
    forall ctx args kw s, code c ctx args kw s = chain ctx f fs args kw s.
Proof.
  intros H P. destruct (rev (f :: fs)) as [|h hs] eqn:E.
  { cbn in E. destruct (rev fs); discriminate. }
  assert (E2 : f :: fs = rev hs ++ [h]).
  { rewrite <- (rev_involutive (f :: fs)), E. reflexivity. }
  assert (H2 : has_dict h = true \/ hs <> []).
  { destruct hs; [|right; discriminate]. injection E2 as -> ->. destruct H; auto. }
  assert (Ph : plain h).
  { rewrite E2 in P. apply Forall_app in P as [_ P]. now inversion P. }
  exists (foldr_ hs h). split; [|split].
  - unfold composer. rewrite reducel_eq. unfold mark. change (fold_left _ hs h) with (foldr_ hs h).
    rewrite foldr_dict by exact H2. reflexivity.
  - apply foldr_plain. auto.
  - intros. rewrite foldr_code by exact Ph. rewrite <- E2. reflexivity.
Qed.

Lemma composel_assoc f fs g gs cf cg :
  Forall plain (f :: fs ++ g :: gs) ->
  composel (f :: fs) = Ok cf -> composel (g :: gs) = Ok cg ->
  exists whole pair, composel (f :: fs ++ g :: gs) = Ok whole /\ composel [cf; cg] = Ok pair /\
    same whole pair.
Proof.
  intros P Ef Eg.
  change (f :: fs ++ g :: gs) with ((f :: fs) ++ g :: gs) in P.
  apply Forall_app in P as [Pf Pg].
  assert (Hf : has_dict f = true \/ fs <> []).
  { destruct fs; [|right; discriminate]. unfold composel in Ef. rewrite reducel_eq in Ef. cbn in Ef.
    destruct (has_dict f); auto. discriminate. }
  assert (Hg : has_dict g = true \/ gs <> []).
  { destruct gs; [|right; discriminate]. unfold composel in Eg. rewrite reducel_eq in Eg. cbn in Eg.
    destruct (has_dict g); auto. discriminate. }
  destruct (composel_ok f fs Hf Pf) as (cf' & Ef' & Pcf & Cf).
  destruct (composel_ok g gs Hg Pg) as (cg' & Eg' & Pcg & Cg).
  assert (cf' = cf) by congruence. assert (cg' = cg) by congruence. subst cf' cg'.
  destruct (composel_ok f (fs ++ g :: gs)) as (w & Ew & _ & Cw).
  { right. destruct fs; discriminate. }
  { change (f :: fs ++ g :: gs) with ((f :: fs) ++ g :: gs). apply Forall_app. auto. }
  destruct (composel_ok cf [cg]) as (p & Ep & _ & Cp).
  { right. discriminate. }
  { repeat constructor; assumption. }
  exists w, p. split; [exact Ew|]. split; [exact Ep|]. intros ctx args kw s.
  rewrite Cw, Cp, !chain_rest, Cf, chain_rest.
  destruct (code f ctx args kw s) as [[v|e] s']; [|reflexivity].
  rewrite rest_app. destruct (rest ctx fs v s') as [[v'|e] s'']; [|reflexivity].
  cbn [rest]. rewrite Cg, chain_rest.
  destruct (code g _ _ _ _) as [[v''|e] s3]; [|reflexivity].
  destruct (rest ctx gs v'' s3) as [[]]; reflexivity.
Qed.

(** ** pipes *)
Lemma pipe_loop_plain ctx fs v s : Forall plain fs -> pipe_loop ctx v fs s = rest ctx fs v s.
Proof.
  intros P. revert v s. induction P as [|f fs Pf P IH]; intros v s; [reflexivity|].
  cbn. unfold bind_. rewrite Pf. cbn [andb]. rewrite call_unpacked_eq.
  destruct (code f _ _ _ _) as [[v'|e] s']; [apply IH|reflexivity].
Qed.
Lemma lift_unwrap (r : outcome (val D) * S) :
  match r with (Ok v, s) => lift (unwrap v) s | (Raise e, s) => (Raise e, s) end = at_exit r.
Proof.
  destruct r as [[v|e] s]; [|reflexivity]. unfold lift, unwrap.
  destruct v as [d|[|x [|y l]] [|kw ks]]; reflexivity.
Qed.
Lemma pipe_ok ctx f fs args kw s : Forall plain (f :: fs) ->
  pipe ctx (Vals args kw) (f :: fs) s = at_exit (chain ctx f fs args kw s).
Proof.
  intros P. unfold pipe, bind_. rewrite pipe_loop_plain by exact P.
  rewrite <- lift_unwrap. rewrite chain_rest. reflexivity.
Qed.
Lemma run_funcs_rest ctx fs v s : run_funcs ctx v fs s = rest ctx fs v s.
Proof.
  revert v s. induction fs as [|f fs IH]; intros v s; [reflexivity|].
  cbn. unfold bind_. rewrite call_unpacked_eq.
  destruct (code f _ _ _ _) as [[v'|e] s']; [apply IH|reflexivity].
Qed.

Lemma as_values_unp v : exists a k, as_values v = Vals a k /\ unp v = (a, k).
Proof. destruct v; cbn; eauto. Qed.

Definition keeps (h h' : heap D S) : Prop := forall j o, nth_error h j = Some o -> nth_error h' j = Some o.
Lemma keeps_refl h : keeps h h. Proof. intros j o H. exact H. Qed.
Lemma keeps_app h o : keeps h (h ++ [o]).
Proof. intros j p H. rewrite nth_error_app1; [exact H|]. apply nth_error_Some. congruence. Qed.

Lemma por_keeps ctx (h : heap D S) i (op : operand) s h' s' r : por ctx h i op s = Some (h', s', r) -> keeps h h'.
Proof.
  unfold por, new_pipe, alloc. destruct (nth_error h i) as [[xs|xs funcs|x|x funcs]|]; [| | | |discriminate];
    destruct op as [|f].
  - intros [= <- <- <-]. apply keeps_refl.
  - destruct (call_unpacked _ _ _ _) as [[v|e] t]; intros [= <- <- <-]; [apply keeps_app|apply keeps_refl].
  - destruct (bind_ _ _ _) as [q t]. intros [= <- <- <-]. apply keeps_refl.
  - intros [= <- <- <-]. apply keeps_app.
  - intros [= <- <- <-]. apply keeps_refl.
  - destruct (code _ _ _ _) as [[v|e] t]; intros [= <- <- <-]; [apply keeps_app|apply keeps_refl].
  - destruct (run_funcs1 _ _ _ _) as [q t]. intros [= <- <- <-]. apply keeps_refl.
  - intros [= <- <- <-]. apply keeps_app.
Qed.

Lemma nth_last {A} (l : list A) x : nth_error (l ++ [x]) (length l) = Some x.
Proof. rewrite nth_error_app2, Nat.sub_diag by lia. reflexivity. Qed.

Lemma piped_rest ctx fs : forall h i args kw s,
  nth_error h i = Some (Piped (Vals args kw)) ->
  exists h', por_chain ctx h i fs s =
    let '(r, s') := at_exit (match fs with
                             | [] => (Ok (Vals args kw), s)
                             | f :: fs' => chain ctx f fs' args kw s
                             end) in
    Some (h', s', omap Value r).
Proof.
  induction fs as [|f fs IH]; intros h i args kw s H.
  - exists h. cbn [por_chain]. unfold por. rewrite H. rewrite <- lift_unwrap. reflexivity.
  - cbn [por_chain]. unfold por. rewrite H. cbn [call_unpacked]. rewrite chain_rest.
    destruct (code f ctx args kw s) as [[v|e] s'].
    + destruct (as_values_unp v) as (a & k & E1 & E2).
      unfold new_pipe, alloc. rewrite E1.
      destruct (IH (h ++ [Piped (Vals a k)]) (length h) a k s') as (h' & Eh); [apply nth_last|].
      exists h'. rewrite Eh. destruct fs as [|g fs'].
      * cbn [rest]. destruct v; cbn in E1; injection E1 as <- <-; reflexivity.
      * rewrite chain_rest. cbn [rest]. rewrite E2. reflexivity.
    + exists h. reflexivity.
Qed.
Lemma lazy_rest ctx fs : forall h i v funcs s,
  nth_error h i = Some (LazyPiped v funcs) ->
  exists h', por_chain ctx h i fs s =
    let '(r, s') := at_exit (rest ctx (funcs ++ fs) v s) in Some (h', s', omap Value r).
Proof.
  induction fs as [|f fs IH]; intros h i v funcs s H.
  - exists h. cbn [por_chain]. unfold por. rewrite H, app_nil_r. unfold bind_.
    rewrite run_funcs_rest, lift_unwrap. destruct (at_exit _). reflexivity.
  - cbn [por_chain]. unfold por. rewrite H. unfold new_pipe, alloc.
    destruct (IH (h ++ [LazyPiped v (funcs ++ [f])]) (length h) v (funcs ++ [f]) s) as (h' & Eh); [apply nth_last|].
    exists h'. rewrite Eh, <- app_assoc. reflexivity.
Qed.
Lemma piped_ok ctx h i f fs args kw s :
  nth_error h i = Some (Piped (Vals args kw)) ->
  exists h', por_chain ctx h i (f :: fs) s =
    let '(r, s') := at_exit (chain ctx f fs args kw s) in Some (h', s', omap Value r).
Proof. intros H. exact (piped_rest ctx (f :: fs) h i args kw s H). Qed.
Lemma lazy_piped_ok ctx h i f fs args kw s :
  nth_error h i = Some (LazyPiped (Vals args kw) []) ->
  exists h', por_chain ctx h i (f :: fs) s =
    let '(r, s') := at_exit (chain ctx f fs args kw s) in Some (h', s', omap Value r).
Proof.
  intros H. destruct (lazy_rest ctx (f :: fs) h i _ _ s H) as (h' & E). exists h'.
  rewrite E, chain_rest. reflexivity.
Qed.
Lemma por_chain_keeps ctx fs : forall h i s h' s' r, por_chain ctx h i fs s = Some (h', s', r) -> keeps h h'.
Proof.
  induction fs as [|f fs IH]; intros h i s h' s' r; cbn [por_chain]; [apply por_keeps|].
  destruct (por ctx h i (Fn f) s) as [[[h1 s1] [[j|v]|e]]|] eqn:E; intros H.
  - apply por_keeps in E. apply IH in H. intros j' o N. auto.
  - injection H as <- <- <-. eapply por_keeps; eauto.
  - injection H as <- <- <-. eapply por_keeps; eauto.
  - discriminate.
Qed.

(** ** one-argument versions *)
Lemma chain1_app ctx fs gs v s :
  chain1 ctx (fs ++ gs) v s =
  match chain1 ctx fs v s with (Ok v', s') => chain1 ctx gs v' s' | (Raise e, s') => (Raise e, s') end.
Proof.
  revert v s. induction fs as [|f fs IH]; intros v s; [reflexivity|]. cbn.
  destruct (code f ctx _ _ s) as [[v'|e] s']; [apply IH|reflexivity].
Qed.
Lemma composel1_ok f fs : has_dict f = true \/ fs <> [] ->
  exists c, composel1 (f :: fs) = Ok c /\ forall ctx x s, code c ctx [x] [] s = chain1 ctx (f :: fs) x s.
Proof.
  intros H. unfold composel1. rewrite reducel_eq.
  set (F := fun (gs : list (func D S)) h => fold_left (fun acc x => compose1_two x acc) gs h).
  change (fold_left _ fs f) with (F fs f).
  assert (A : forall gs h, has_dict h = true \/ gs <> [] -> has_dict (F gs h) = true).
  { unfold F. induction gs as [|g gs IH]; intros h [Q|Q]; cbn; auto; try congruence; apply IH; left; reflexivity. }
  assert (B : forall gs h ctx x s, code (F gs h) ctx [x] [] s = chain1 ctx (h :: gs) x s).
  { unfold F. induction gs as [|g gs IH]; intros h ctx x s.
    - cbn. destruct (code h ctx [x] [] s) as [[]]; reflexivity.
    - cbn [fold_left]. rewrite IH. cbn. unfold bind_.
      destruct (code h ctx [x] [] s) as [[v|e] s']; reflexivity. }
  exists (F fs f). unfold mark. rewrite A by exact H. split; [reflexivity|]. apply B.
Qed.
Lemma composer1_ok f fs : has_dict f = true \/ fs <> [] ->
  exists c, composer1 (rev (f :: fs)) = Ok c /\ forall ctx x s, code c ctx [x] [] s = chain1 ctx (f :: fs) x s.
Proof.
  intros H. destruct (rev (f :: fs)) as [|h hs] eqn:E.
  { cbn in E. destruct (rev fs); discriminate. }
  assert (E2 : f :: fs = rev hs ++ [h]).
  { rewrite <- (rev_involutive (f :: fs)), E. reflexivity. }
  assert (H2 : has_dict h = true \/ hs <> []).
  { destruct hs; [|right; discriminate]. injection E2 as -> ->. destruct H; auto. }
  unfold composer1. rewrite reducel_eq. rewrite E2.
  set (F := fun (gs : list (func D S)) h => fold_left (fun acc x => compose1_two acc x) gs h).
  change (fold_left _ hs h) with (F hs h).
  assert (A : forall gs h, has_dict h = true \/ gs <> [] -> has_dict (F gs h) = true).
  { unfold F. induction gs as [|g gs IH]; intros k [Q|Q]; cbn; auto; try congruence; apply IH; left; reflexivity. }
  assert (B : forall gs h ctx x s, code (F gs h) ctx [x] [] s = chain1 ctx (rev gs ++ [h]) x s).
  { unfold F. induction gs as [|g gs IH]; intros k ctx x s.
    - cbn. destruct (code k ctx [x] [] s) as [[]]; reflexivity.
    - cbn [fold_left]. rewrite IH. cbn [rev]. rewrite !chain1_app.
      destruct (chain1 ctx (rev gs) x s) as [[v|e] s']; [|reflexivity].
      cbn. unfold bind_. destruct (code g _ _ _ _) as [[v'|e] s'']; [|reflexivity].
      cbn. destruct (code k _ _ _ _) as [[]]; reflexivity. }
  exists (F hs h). unfold mark. rewrite A by exact H2. split; [reflexivity|]. apply B.
Qed.
Lemma compose1_two_arity f g ctx args kw s : (forall x, (args, kw) <> ([x], [])) ->
  (forall x, (args, kw) <> ([], [("x"%string, x)])) -> code (compose1_two (D:=D) (S:=S) f g) ctx args kw s = (Raise TypeError, s).
Proof.
  intros H1 H2. cbn. destruct args as [|x [|y args]]; destruct kw as [|[k v] [|kv kw]]; try reflexivity.
  - destruct (String.eqb_spec k "x") as [->|]; [now destruct (H2 v)|reflexivity].
  - now destruct (H1 x).
Qed.
Lemma fold_compose1_arity (F : func D S -> func D S -> func D S) g : forall fs f,
  (forall a b, exists c d, F a b = compose1_two c d) ->
  exists a b, fold_left F (fs ++ [g]) f = compose1_two a b.
Proof. intros fs f H. rewrite fold_left_app. cbn. apply H. Qed.
Lemma compose1_arity f fs c ctx args kw s : fs <> [] ->
  composel1 (f :: fs) = Ok c \/ composer1 (f :: fs) = Ok c ->
  (forall x, (args, kw) <> ([x], [])) -> (forall x, (args, kw) <> ([], [("x"%string, x)])) ->
  code c ctx args kw s = (Raise TypeError, s).
Proof.
  intros H K H1 H2. destruct (exists_last H) as (gs & g & ->).
  destruct K as [K|K].
  - unfold composel1 in K. rewrite reducel_eq in K.
    destruct (fold_compose1_arity (fun acc x => compose1_two x acc) g gs f) as (a & b & E); [eauto|].
    rewrite E in K. unfold mark in K. cbn [has_dict compose1_two] in K. injection K as <-.
    now apply compose1_two_arity.
  - unfold composer1 in K. rewrite reducel_eq in K.
    destruct (fold_compose1_arity (fun acc x => compose1_two acc x) g gs f) as (a & b & E); [eauto|].
    rewrite E in K. unfold mark in K. cbn [has_dict compose1_two] in K. injection K as <-.
    now apply compose1_two_arity.
Qed.
Lemma compose1_named f fs c ctx x s : fs <> [] ->
  composel1 (f :: fs) = Ok c \/ composer1 (f :: fs) = Ok c ->
  code c ctx [] [("x"%string, x)] s = code c ctx [x] [] s.
Proof.
  intros H K. destruct (exists_last H) as (gs & g & ->).
  destruct K as [K|K].
  - unfold composel1 in K. rewrite reducel_eq in K.
    destruct (fold_compose1_arity (fun acc x => compose1_two x acc) g gs f) as (a & b & E); [eauto|].
    rewrite E in K. unfold mark in K. cbn [has_dict compose1_two] in K. injection K as <-. reflexivity.
  - unfold composer1 in K. rewrite reducel_eq in K.
    destruct (fold_compose1_arity (fun acc x => compose1_two acc x) g gs f) as (a & b & E); [eauto|].
    rewrite E in K. unfold mark in K. cbn [has_dict compose1_two] in K. injection K as <-. reflexivity.
Qed.
Lemma pipe1_ok ctx fs x s : pipe1 ctx x fs s = chain1 ctx fs x s.
Proof.
  revert x s. induction fs as [|f fs IH]; intros x s; [reflexivity|]. cbn. unfold bind_.
  destruct (code f _ _ _ _) as [[v'|e] s']; [apply IH|reflexivity].
Qed.
Lemma piped1_ok ctx fs : forall h i x s, nth_error h i = Some (Piped1 x) ->
  exists h', por_chain ctx h i fs s =
    let '(r, s') := chain1 ctx fs x s in Some (h', s', omap Value r).
Proof.
  induction fs as [|f fs IH]; intros h i x s H.
  - exists h. cbn [por_chain]. unfold por. rewrite H. reflexivity.
  - cbn [por_chain chain1]. unfold por. rewrite H.
    destruct (code f ctx [x] [] s) as [[v|e] s']; [|exists h; reflexivity].
    apply IH. apply nth_last.
Qed.
Lemma run1_ok ctx fs x s : run_funcs1 ctx x fs s = chain1 ctx fs x s.
Proof.
  revert x s. induction fs as [|f fs IH]; intros x s; [reflexivity|]. cbn. unfold bind_.
  destruct (code f _ _ _ _) as [[v'|e] s']; [apply IH|reflexivity].
Qed.
Lemma lazy1_rest ctx fs : forall h i x funcs s, nth_error h i = Some (LazyPiped1 x funcs) ->
  exists h', por_chain ctx h i fs s =
    let '(r, s') := chain1 ctx (funcs ++ fs) x s in Some (h', s', omap Value r).
Proof.
  induction fs as [|f fs IH]; intros h i x funcs s H.
  - exists h. cbn [por_chain]. unfold por. rewrite H, app_nil_r, run1_ok. reflexivity.
  - cbn [por_chain]. unfold por. rewrite H. unfold new_pipe, alloc.
    destruct (IH (h ++ [LazyPiped1 x (funcs ++ [f])]) (length h) x (funcs ++ [f]) s) as (h' & Eh); [apply nth_last|].
    exists h'. rewrite Eh, <- app_assoc. reflexivity.
Qed.
Lemma lazy_piped1_ok ctx fs h i x s : nth_error h i = Some (LazyPiped1 x []) ->
  exists h', por_chain ctx h i fs s =
    let '(r, s') := chain1 ctx fs x s in Some (h', s', omap Value r).
Proof. exact (lazy1_rest ctx fs h i x [] s). Qed.

(** ** curried functions *)
Definition is_curried f : Prop := curried f = true /\ ctx_blind f.
Definition up (c n : nat) : nat := match n with O => c | Datatypes.S _ => Datatypes.S c end.
(** everything but the last function runs in a non-empty context *)
Fixpoint crest ctx fs v (s : S) : outcome (val D) * S :=
  match fs with
  | [] => (Ok v, s)
  | f :: fs' => match code f (up ctx (length fs')) (fst (unp v)) (snd (unp v)) s with
                | (Ok v', s') => crest ctx fs' v' s'
                | (Raise e, s') => (Raise e, s')
                end
  end.
Lemma up_S f c n args kw s : is_curried f ->
  code f (up (Datatypes.S c) n) args kw s = code f (Datatypes.S c) args kw s.
Proof. intros [_ B]. destruct n; cbn; [reflexivity|apply B]. Qed.
Lemma crest_snoc ctx fs g v s : Forall is_curried fs ->
  crest ctx (fs ++ [g]) v s =
  match crest (Datatypes.S ctx) fs v s with
  | (Ok v', s') => code g ctx (fst (unp v')) (snd (unp v')) s'
  | (Raise e, s') => (Raise e, s')
  end.
Proof.
  intros P. revert v s. induction P as [|f fs Pf P IH]; intros v s.
  - cbn. destruct (code g _ _ _ _) as [[]]; reflexivity.
  - cbn [crest app]. rewrite app_length, Nat.add_1_r. cbn [up]. rewrite up_S by exact Pf.
    destruct (code f _ _ _ _) as [[v'|e] s']; [apply IH|reflexivity].
Qed.
Lemma pipe_loop_curried ctx fs v s : Forall is_curried fs -> pipe_loop ctx v fs s = crest ctx fs v s.
Proof.
  intros P. revert v s. induction P as [|f fs [Pf _] P IH]; intros v s; [reflexivity|].
  cbn. unfold bind_. rewrite Pf. rewrite call_unpacked_eq.
  destruct fs as [|g fs]; cbn [length up negb andb].
  - destruct (code f _ _ _ _) as [[]]; reflexivity.
  - destruct (code f _ _ _ _) as [[v'|e] s']; [apply IH|reflexivity].
Qed.
Lemma foldc_curried fs : forall f, is_curried f -> Forall is_curried fs ->
  forall ctx args kw s,
  code (foldc fs f) ctx args kw s = crest ctx (f :: fs) (Vals args kw) s.
Proof.
  induction fs as [|g fs IH] using rev_ind; intros f Pf P ctx args kw s.
  - cbn. destruct (code f _ _ _ _) as [[]]; reflexivity.
  - apply Forall_app in P as [P Pg]. inversion Pg as [|? ? [Pg1 Pg2] _]; subst.
    unfold foldc. rewrite fold_left_app. cbn [fold_left]. change (fold_left _ fs f) with (foldc fs f).
    change (f :: fs ++ [g]) with ((f :: fs) ++ [g]).
    rewrite crest_snoc by (constructor; assumption).
    cbn [compose_two code]. unfold bind_. rewrite Pg1, IH by assumption.
    destruct (crest _ (f :: fs) _ s) as [[v|e] s']; [|reflexivity]. apply call_unpacked_eq.
Qed.
Lemma curried_ok f fs : has_dict f = true \/ fs <> [] -> Forall is_curried (f :: fs) ->
  exists c, composel (f :: fs) = Ok c /\ forall ctx args kw s,
    pipe ctx (Vals args kw) (f :: fs) s = at_exit (code c ctx args kw s).
Proof.
  intros H P. exists (foldc fs f). split; [now apply composel_eq|]. intros.
  unfold pipe, bind_. rewrite pipe_loop_curried by exact P. inversion P; subst.
  rewrite foldc_curried by assumption. apply lift_unwrap.
Qed.
End Compose.
