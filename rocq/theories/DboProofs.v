From Coq Require Import List Bool Arith Lia.
From Verif Require Import Base CollModel CollProofs DynModel DynSpec DynProofs DboModel DboSpec.
Import ListNotations.
Open Scope nat_scope.
Open Scope list_scope.

Section DboP.
Context {N V : Type}.
Variable neqb : N -> N -> bool.
Notation scope := (dict N V).
Notation envs := (list (env (N := N))).
Definition chain (es : envs) (os : list nat) : env := concat (map (fun o => nth o es []) os).
Record Q (es : envs) (os : list nat) (w : bst N V) (s : ost (N := N) (V := V)) : Prop := {
  Q_envs : fst s = es;
  Q_objs : objs w = map (vals (store (snd s))) es;
  Q_nodup : NoDup (locs (concat es));
  Q_next : forall l, In l (locs (concat es)) -> l < next (snd s);
  Q_stack : bstack w = os;
  Q_in : forall o, In o os -> o < length es;
  Q_glob : bglobals w = sglobals (snd s) }.

Lemma bindings_vals es os w s o : Q es os w s -> bindings w o = vals (store (snd s)) (nth o es []).
Proof.
  intros H. unfold bindings. rewrite (Q_objs _ _ _ _ H). change (@nil (N * V)) with (vals (store (snd s)) (@nil (N * nat))). apply map_nth.
Qed.
Lemma bfind_rel es os w s n : Q es os w s -> forall os',
  match dict_get neqb (chain es os') n with
  | Some l => exists o, bfind neqb w os' n = Some o /\ In o os' /\ dict_get neqb (nth o es []) n = Some l
  | None => bfind neqb w os' n = None
  end.
Proof.
  intros H os'. induction os' as [|o os' IH]; simpl; auto. unfold chain in *. cbn. rewrite get_app.
  rewrite (bindings_vals es os w s o H), in_scope_vals.
  destruct (dict_get neqb (nth o es []) n) as [l|] eqn:E; [exists o; auto|].
  destruct (dict_get neqb (concat _) n) as [l|]; [|exact IH]. destruct IH as (o' & A & B & C). exists o'. auto.
Qed.
Lemma bget_sim es os w s n : Q es os w s ->
  bget neqb w n = match sget neqb (chain es os) (snd s) n with Some v => Ok v | None => Raise AttributeError end.
Proof.
  intros H. unfold bget, bresolve, sget. rewrite (Q_stack _ _ _ _ H). pose proof (bfind_rel es os w s n H os) as F.
  destruct (dict_get neqb (chain es os) n) as [l|].
  - destruct F as (o & -> & Ho & E). cbn. rewrite (bindings_vals es os w s o H), get_vals, E. reflexivity.
  - rewrite F. unfold in_scope. rewrite (Q_glob _ _ _ _ H). destruct (dict_get neqb (sglobals (snd s)) n) eqn:E; cbn; [|reflexivity].
    rewrite E. reflexivity.
Qed.
Lemma bresolve_sim es os w s n : Q es os w s ->
  (exists r, bresolve neqb w n = Ok r) /\ sget neqb (chain es os) (snd s) n <> None
  \/ bresolve neqb w n = Raise AttributeError /\ sget neqb (chain es os) (snd s) n = None.
Proof.
  intros H. unfold bresolve, sget. rewrite (Q_stack _ _ _ _ H). pose proof (bfind_rel es os w s n H os) as F.
  destruct (dict_get neqb (chain es os) n) as [l|].
  - destruct F as (o & -> & Ho & E). left. split; [eauto | discriminate].
  - rewrite F. unfold in_scope. rewrite (Q_glob _ _ _ _ H). destruct (dict_get neqb (sglobals (snd s)) n) eqn:E; [left; split; [eauto | discriminate] | right; auto].
Qed.
Lemma bwrite_sim es os w0 s0 w s n v r : Q es os w0 s0 -> Q es os w s -> bresolve neqb w0 n = Ok r ->
  Q es os (bwrite neqb w r n v) (fst s, sset neqb (chain es os) (snd s) n v).
Proof.
  intros H0 H R. unfold bresolve in R. rewrite (Q_stack _ _ _ _ H0) in R. pose proof (bfind_rel es os w0 s0 n H0 os) as F. unfold sset.
  destruct (dict_get neqb (chain es os) n) as [l|].
  - destruct F as (o & F & Ho & E). rewrite F in R. injection R as <-. destruct H as [H1 H2 H3 H4 H5 H6 H7].
    constructor; cbn; auto. unfold bindings. rewrite H2. apply set_rel; auto.
  - rewrite F in R. destruct (in_scope neqb (bglobals w0) n); [|discriminate]. injection R as <-. destruct H as [H1 H2 H3 H4 H5 H6 H7].
    constructor; cbn; auto. rewrite H7. reflexivity.
Qed.
Lemma bresolve_all_sim es os w s (b : scope) : Q es os w s ->
  if forallb (fun nv => match sget neqb (chain es os) (snd s) (fst nv) with Some _ => true | None => false end) b
  then exists rs, bresolve_all neqb w b = Ok rs /\ Forall2 (fun r nv => bresolve neqb w (fst nv) = Ok r) rs b
  else bresolve_all neqb w b = Raise AttributeError.
Proof.
  intros H. induction b as [|[n v] b IH]; simpl; [exists []; auto|].
  destruct (bresolve_sim es os w s n H) as [[[r Hr] Hs]|[Hr Hs]]; rewrite Hr; simpl.
  - destruct (sget neqb (chain es os) (snd s) n); [|congruence]. simpl. destruct (forallb _ b).
    + destruct IH as (rs & -> & F). cbn. eexists. split; eauto.
    + rewrite IH. reflexivity.
  - rewrite Hs. reflexivity.
Qed.
Lemma bwrite_all_sim es os w0 s0 (b : scope) : Q es os w0 s0 -> forall rs w s, Q es os w s ->
  Forall2 (fun r nv => bresolve neqb w0 (fst nv) = Ok r) rs b ->
  Q es os (bwrite_all neqb w rs b) (fst s, fold_left (fun s nv => sset neqb (chain es os) s (fst nv) (snd nv)) b (snd s)).
Proof.
  intros H0. induction b as [|[n v] b IH]; intros rs w s H F; inversion F; subst; simpl in *.
  - destruct s. exact H.
  - apply (IH _ _ (fst s, sset neqb (chain es os) (snd s) n v)); auto. apply (bwrite_sim es os w0 s0); auto.
Qed.
Lemma sset_next e (s : sst (N := N) (V := V)) n v : next (sset neqb e s n v) = next s.
Proof. unfold sset. destruct (dict_get neqb e n); reflexivity. Qed.
Lemma ssets_next e (b : scope) : forall s : sst (N := N) (V := V), next (fold_left (fun s nv => sset neqb e s (fst nv) (snd nv)) b s) = next s.
Proof. induction b; intros s; cbn; auto. rewrite IHb. apply sset_next. Qed.

Lemma chain_more es more os : (forall o, In o os -> o < length es) -> chain (es ++ more) os = chain es os.
Proof.
  intros H. unfold chain. f_equal. apply map_ext_in. intros o Ho. apply app_nth1. auto.
Qed.
Lemma Q_new es os w s (b : scope) e1 s1 : Q es os w s -> alloc b (snd s) = (e1, s1) ->
  Q (es ++ [e1]) os (mkbst (objs w ++ [b]) (bstack w) (bglobals w)) (fst s ++ [e1], s1).
Proof.
  intros [H1 H2 H3 H4 H5 H6 H7] A. destruct (alloc_spec _ _ _ _ A) as (A1 & A2 & A3 & A4 & A5).
  constructor; cbn; auto; try congruence.
  - rewrite map_app. cbn. rewrite A5, H2. f_equal. apply map_ext_in. intros e He. apply map_ext_in. intros [m l] Hl. cbn. f_equal. symmetry.
    apply A3. apply H4. unfold locs. apply (in_map snd (concat es) (m, l)). apply in_concat. eauto.
  - rewrite concat_app. cbn. rewrite app_nil_r, locs_app, A4. clear - H3 H4.
    assert (D : forall l, In l (locs (concat es)) -> ~ In l (seq (next (snd s)) (length b))) by (intros l Hl K; apply H4 in Hl; apply in_seq in K; lia).
    revert H3 D. generalize (locs (concat es)). pose proof (seq_NoDup (length b) (next (snd s))) as S. revert S.
    generalize (seq (next (snd s)) (length b)). intros q S. induction l as [|x l IH]; cbn; intros H D; auto.
    inversion H; subst. constructor; [rewrite in_app_iff; intros [?|?]; [auto | apply (D x); auto] | apply IH; auto].
  - intros l. rewrite concat_app. cbn. rewrite app_nil_r, locs_app, in_app_iff, A4, in_seq. intros [Hl|Hl]; [apply H4 in Hl|]; lia.
  - intros o Ho. rewrite app_length. specialize (H6 o Ho). lia.
Qed.

Lemma bexec_sim c : forall es os w s, Q es os w s ->
  match bexec neqb c w, bmeaning neqb c (chain es os) s with
  | (r, w', t), (r', s', t') => r = r' /\ t = t' /\ exists more, Q (es ++ more) os w' s'
  end.
Proof.
  induction c as [|c1 IH1 c2 IH2|n k IH|n v|b|b|x|c IHc h IHh|b k IH|o body IH]; intros es os w s H; simpl.
  - repeat split; auto. exists []. rewrite app_nil_r. exact H.
  - specialize (IH1 es os w s H). destruct (bexec neqb c1 w) as [[r1 w1] t1], (bmeaning neqb c1 (chain es os) s) as [[r1' s1] t1'].
    destruct IH1 as (<- & <- & more & HQ). destruct r1; [|eauto].
    specialize (IH2 (es ++ more) os w1 s1 HQ). rewrite (chain_more es more os (Q_in _ _ _ _ H)) in IH2.
    destruct (bexec neqb c2 w1) as [[r2 w2] t2], (bmeaning neqb c2 (chain es os) s1) as [[r2' s2] t2'].
    destruct IH2 as (<- & <- & more2 & HQ2). repeat split; auto. exists (more ++ more2). rewrite app_assoc. exact HQ2.
  - rewrite (bget_sim es os w s n H). destruct (sget neqb (chain es os) (snd s) n) as [v|]; [|repeat split; auto; exists []; rewrite app_nil_r; exact H].
    specialize (IH v es os w s H). destruct (bexec neqb (k v) w) as [[r1 w1] t1], (bmeaning neqb (k v) (chain es os) s) as [[r1' s1] t1'].
    destruct IH as (<- & <- & HQ). auto.
  - destruct (bresolve_sim es os w s n H) as [[[r Hr] Hs]|[Hr Hs]]; rewrite Hr.
    + destruct (sget neqb (chain es os) (snd s) n); [|congruence]. repeat split; auto. exists []. rewrite app_nil_r. apply (bwrite_sim es os w s); auto.
    + rewrite Hs. repeat split; auto. exists []. rewrite app_nil_r. exact H.
  - pose proof (bresolve_all_sim es os w s b H) as Hs. destruct (forallb _ b).
    + destruct Hs as (rs & -> & F). repeat split; auto. exists []. rewrite app_nil_r. apply (bwrite_all_sim es os w s); auto.
    + rewrite Hs. repeat split; auto. exists []. rewrite app_nil_r. exact H.
  - repeat split; auto. exists []. rewrite app_nil_r. destruct H as [H1 H2 H3 H4 H5 H6 H7]. constructor; cbn; auto. rewrite H7. reflexivity.
  - repeat split; auto. exists []. rewrite app_nil_r. exact H.
  - specialize (IHc es os w s H). destruct (bexec neqb c w) as [[r1 w1] t1], (bmeaning neqb c (chain es os) s) as [[r1' s1] t1'].
    destruct IHc as (<- & <- & more & HQ). destruct r1 as [u|x]; [eauto|].
    specialize (IHh x (es ++ more) os w1 s1 HQ). rewrite (chain_more es more os (Q_in _ _ _ _ H)) in IHh.
    destruct (bexec neqb (h x) w1) as [[r2 w2] t2], (bmeaning neqb (h x) (chain es os) s1) as [[r2' s2] t2'].
    destruct IHh as (<- & <- & more2 & HQ2). repeat split; auto. exists (more ++ more2). rewrite app_assoc. exact HQ2.
  - destruct (alloc b (snd s)) as [e1 s1] eqn:A. pose proof (Q_new es os w s b e1 s1 H A) as HQ.
    assert (El : length (objs w) = length (fst s)) by (rewrite (Q_objs _ _ _ _ H), (Q_envs _ _ _ _ H), map_length; reflexivity). rewrite El.
    specialize (IH (length (fst s)) _ _ _ _ HQ). rewrite (chain_more es [e1] os (Q_in _ _ _ _ H)) in IH.
    destruct (bexec neqb _ _) as [[r1 w1] t1], (bmeaning neqb _ _ _) as [[r1' s2] t1'].
    destruct IH as (<- & <- & more & HQ2). repeat split; auto. exists (e1 :: more). rewrite <- app_assoc in HQ2. exact HQ2.
  - assert (El : length (objs w) = length (fst s)) by (rewrite (Q_objs _ _ _ _ H), (Q_envs _ _ _ _ H), map_length; reflexivity). rewrite El.
    destruct (nth_error (fst s) o) as [e1|] eqn:E.
    2:{ apply nth_error_None in E. destruct (Nat.ltb_spec o (length (fst s))) as [L|L]; [lia|]. repeat split; auto. exists []. rewrite app_nil_r. exact H. }
    assert (Lo : o < length (fst s)) by (apply nth_error_Some; congruence). destruct (Nat.ltb_spec o (length (fst s))) as [L|L]; [|lia]. clear L.
    rewrite (Q_envs _ _ _ _ H) in E, Lo. assert (E1 : nth o es [] = e1) by (apply nth_error_nth; exact E).
    assert (X : exists os', benter w o = mkbst (objs w) os' (bglobals w) /\ chain es os' = e1 ++ chain es os /\
                (e1 = [] /\ os' = os \/ e1 <> [] /\ os' = o :: os)).
    { unfold benter. rewrite (bindings_vals es os w s o H), E1. destruct e1 as [|p e1]; cbn.
      - exists os. repeat split; auto. rewrite <- (Q_stack _ _ _ _ H). destruct w; reflexivity.
      - exists (o :: os). rewrite (Q_stack _ _ _ _ H). repeat split; auto; [unfold chain; cbn; rewrite E1; reflexivity | right; split; [discriminate | reflexivity]]. }
    destruct X as (os' & Ew & Ec & Eos).
    assert (HQ : Q es os' (benter w o) s).
    { rewrite Ew. destruct H as [H1 H2 H3 H4 H5 H6 H7]. constructor; cbn; auto. intros i Hi. destruct Eos as [[_ ->]|[_ ->]]; [auto|]. destruct Hi as [<-|Hi]; auto. }
    specialize (IH es os' _ s HQ). rewrite Ec in IH.
    destruct (bexec neqb body (benter w o)) as [[r1 w1] t1], (bmeaning neqb body (e1 ++ chain es os) s) as [[r1' s1] t1'].
    destruct IH as (<- & <- & more & HQ1). repeat split; auto. exists more.
    assert (E2 : nth o (es ++ more) [] = e1) by (rewrite app_nth1; assumption).
    unfold bexit. rewrite (bindings_vals _ _ w1 s1 o HQ1), E2.
    destruct Eos as [[Ee ->]|[Ee ->]]; [subst e1; rewrite Ee; exact HQ1|]. destruct e1 as [|p e1]; [congruence|]. cbn.
    destruct HQ1 as [K1 K2 K3 K4 K5 K6 K7]. constructor; cbn; auto; [rewrite K5; reflexivity | intros i Hi; apply K6; right; exact Hi].
Qed.

Lemma Q0 (g : scope) v0 : Q [] [] (mkbst [] [] g) ([], sst0 g v0).
Proof. constructor; cbn; auto; [constructor | tauto | tauto]. Qed.
Lemma object_meaning (c : bcmd N V) (g : scope) (v0 : V) :
  fst (fst (bexec neqb c (mkbst [] [] g))) = fst (fst (bmeaning neqb c [] ([], sst0 g v0))) /\
  snd (bexec neqb c (mkbst [] [] g)) = snd (bmeaning neqb c [] ([], sst0 g v0)) /\
  bglobals (snd (fst (bexec neqb c (mkbst [] [] g)))) = sglobals (snd (snd (fst (bmeaning neqb c [] ([], sst0 g v0))))).
Proof.
  pose proof (bexec_sim c [] [] _ _ (Q0 g v0)) as H. cbn [chain map concat] in H.
  destruct (bexec neqb c _) as [[r w] t], (bmeaning neqb c _ _) as [[r' s] t']. destruct H as (-> & -> & more & HQ).
  cbn. repeat split; auto. apply (Q_glob _ _ _ _ HQ).
Qed.

(** ** Entered once *)
Lemma embed_meaning (c : cmd N V) : forall e os s,
  match meaning neqb c e s, bmeaning neqb (embed c) e (os, s) with
  | (r, s1, t), (r', (os', s1'), t') => r = r' /\ s1 = s1' /\ t = t'
  end.
Proof.
  induction c as [|c1 IH1 c2 IH2|n k IH|n v|b|b|x|c IHc h IHh|b body IH]; intros e os s; simpl; auto.
  - specialize (IH1 e os s). destruct (meaning neqb c1 e s) as [[r1 s1] t1], (bmeaning neqb (embed c1) e (os, s)) as [[r1' [os1 s1']] t1'].
    destruct IH1 as (<- & <- & <-). destruct r1; [|auto]. specialize (IH2 e os1 s1).
    destruct (meaning neqb c2 e s1) as [[r2 s2] t2], (bmeaning neqb (embed c2) e (os1, s1)) as [[r2' [os2 s2']] t2']. destruct IH2 as (<- & <- & <-). auto.
  - destruct (sget neqb e s n) as [v|]; [|auto]. specialize (IH v e os s).
    destruct (meaning neqb (k v) e s) as [[r1 s1] t1], (bmeaning neqb (embed (k v)) e (os, s)) as [[r1' [os1 s1']] t1']. destruct IH as (<- & <- & <-). auto.
  - destruct (sget neqb e s n); auto.
  - destruct (forallb _ b); auto.
  - specialize (IHc e os s). destruct (meaning neqb c e s) as [[r1 s1] t1], (bmeaning neqb (embed c) e (os, s)) as [[r1' [os1 s1']] t1'].
    destruct IHc as (<- & <- & <-). destruct r1 as [|x]; [auto|]. specialize (IHh x e os1 s1).
    destruct (meaning neqb (h x) e s1) as [[r2 s2] t2], (bmeaning neqb (embed (h x)) e (os1, s1)) as [[r2' [os2 s2']] t2']. destruct IHh as (<- & <- & <-). auto.
  - destruct (alloc b s) as [e1 s1]. cbn. rewrite nth_error_app2, Nat.sub_diag by lia. cbn. apply IH.
Qed.
Lemma once (c : cmd N V) (g : scope) (v0 : V) :
  fst (fst (bexec neqb (embed c) (mkbst [] [] g))) = fst (fst (exec neqb c (mkdst [] g))) /\
  snd (bexec neqb (embed c) (mkbst [] [] g)) = snd (exec neqb c (mkdst [] g)) /\
  bglobals (snd (fst (bexec neqb (embed c) (mkbst [] [] g)))) = globals (snd (fst (exec neqb c (mkdst [] g)))).
Proof.
  destruct (object_meaning (embed c) g v0) as (-> & -> & ->). destruct (exec_meaning neqb c g v0) as (-> & -> & _ & ->).
  pose proof (embed_meaning c [] [] (sst0 g v0)) as H.
  destruct (meaning neqb c _ _) as [[r s] t], (bmeaning neqb (embed c) _ _) as [[r' [os s']] t']. destruct H as (<- & <- & <-). auto.
Qed.

(** ** Restoration *)
Definition keys (w : bst N V) : list (list N) := map (map fst) (objs w).
Lemma keys_bindings (w : bst N V) o : nth o (keys w) [] = map fst (bindings w o).
Proof. unfold keys, bindings. change (@nil N) with (map fst (@nil (N * V))). apply map_nth. Qed.
Lemma bindings_nil (w w' : bst N V) o more : keys w' = keys w ++ more -> o < length (objs w) -> map fst (bindings w' o) = map fst (bindings w o).
Proof. intros H L. rewrite <- !keys_bindings, H. apply app_nth1. unfold keys. rewrite map_length. exact L. Qed.
Lemma bfind_in (w : bst N V) os n o : bfind neqb w os n = Some o -> In o os /\ in_scope neqb (bindings w o) n = true.
Proof.
  induction os as [|i os IH]; cbn; [discriminate|]. destruct (in_scope neqb (bindings w i) n) eqn:E; [intros [= <-]; auto|].
  intros H. destruct (IH H). auto.
Qed.
Lemma in_scope_fst (a b : scope) n : map fst a = map fst b -> in_scope neqb a n = in_scope neqb b n.
Proof. apply in_scope_keys. Qed.
Lemma bwrite_keys (w : bst N V) r n v : (forall o, r = Some o -> in_scope neqb (bindings w o) n = true) -> keys (bwrite neqb w r n v) = keys w.
Proof.
  intros H. destruct r as [o|]; [|reflexivity]. unfold keys, bwrite. cbn. specialize (H o eq_refl).
  pose proof (set_same_keys neqb (bindings w o) n v H) as E. unfold bindings in *. clear H. revert o E. generalize (objs w) as l.
  induction l as [|s l IH]; intros [|o] E; cbn in *; auto; f_equal; auto.
Qed.
Lemma bwrite_stack (w : bst N V) r n v : bstack (bwrite neqb w r n v) = bstack w.
Proof. destruct r; reflexivity. Qed.
Lemma bwrite_all_stack (b : scope) : forall w rs, bstack (bwrite_all neqb w rs b) = bstack w.
Proof. induction b as [|[n v] b IH]; intros w [|r rs]; cbn; auto. rewrite IH. apply bwrite_stack. Qed.
Lemma bresolve_all_F2 (w : bst N V) (b : scope) : forall rs, bresolve_all neqb w b = Ok rs -> Forall2 (fun r (nv : N * V) => bresolve neqb w (fst nv) = Ok r) rs b.
Proof.
  induction b as [|[n v] b IH]; cbn; intros rs H; [injection H as <-; constructor|].
  destruct (bresolve neqb w n) as [r|] eqn:E; cbn in H; [|discriminate]. destruct (bresolve_all neqb w b) as [rs'|]; cbn in H; [|discriminate].
  injection H as <-. constructor; auto.
Qed.
Lemma bresolve_some (w : bst N V) n o : bresolve neqb w n = Ok (Some o) -> In o (bstack w) /\ in_scope neqb (bindings w o) n = true.
Proof.
  unfold bresolve. destruct (bfind neqb w (bstack w) n) eqn:E; [intros [= <-]; apply (bfind_in w _ _ _ E)|].
  destruct (in_scope neqb (bglobals w) n); discriminate.
Qed.
Lemma bwrite_all_keys (w0 : bst N V) (b : scope) : forall rs w, keys w = keys w0 -> Forall2 (fun r (nv : N * V) => bresolve neqb w0 (fst nv) = Ok r) rs b ->
  keys (bwrite_all neqb w rs b) = keys w0.
Proof.
  induction b as [|[n v] b IH]; intros rs w E F; inversion F as [|r nv rs' b' Hr Hb]; subst; cbn; auto. apply IH; auto. rewrite bwrite_keys; auto.
  intros o ->. cbn in *. destruct (bresolve_some _ _ _ Hr) as [_ K]. rewrite <- K. apply in_scope_fst. rewrite <- !keys_bindings, E. reflexivity.
Qed.
Lemma restored (c : bcmd N V) : forall w, bstack (snd (fst (bexec neqb c w))) = bstack w /\ exists more, keys (snd (fst (bexec neqb c w))) = keys w ++ more.
Proof.
  assert (Z : forall w : bst N V, exists more, keys w = keys w ++ more) by (intros; exists []; rewrite app_nil_r; reflexivity).
  induction c as [|c1 IH1 c2 IH2|n k IH|n v|b|b|x|c IHc h IHh|b k IH|o body IH]; intros w; simpl; auto.
  - specialize (IH1 w). destruct (bexec neqb c1 w) as [[[u|x] w1] t1]; [|exact IH1]. specialize (IH2 w1). destruct (bexec neqb c2 w1) as [[r2 w2] t2]. cbn in *.
    destruct IH1 as [<- [m1 E1]], IH2 as [-> [m2 E2]]. split; auto. exists (m1 ++ m2). rewrite E2, E1, app_assoc. reflexivity.
  - destruct (bget neqb w n) as [v|x]; [|auto]. specialize (IH v w). destruct (bexec neqb (k v) w) as [[r1 w1] t1]. exact IH.
  - destruct (bresolve neqb w n) as [r|] eqn:E; cbn; [|auto]. rewrite bwrite_stack. split; auto. exists []. rewrite app_nil_r. apply bwrite_keys.
    intros o ->. apply (bresolve_some _ _ _ E).
  - destruct (bresolve_all neqb w b) as [rs|] eqn:E; cbn; [|auto]. rewrite bwrite_all_stack. split; auto. exists []. rewrite app_nil_r.
    apply bwrite_all_keys; auto. apply bresolve_all_F2. exact E.
  - split; auto. apply (Z w).
  - specialize (IHc w). destruct (bexec neqb c w) as [[[u|x] w1] t1]; [exact IHc|]. specialize (IHh x w1). destruct (bexec neqb (h x) w1) as [[r2 w2] t2]. cbn in *.
    destruct IHc as [<- [m1 E1]], IHh as [-> [m2 E2]]. split; auto. exists (m1 ++ m2). rewrite E2, E1, app_assoc. reflexivity.
  - destruct (IH (length (objs w)) (mkbst (objs w ++ [b]) (bstack w) (bglobals w))) as [-> [m E]]. split; auto. rewrite E. unfold keys. cbn.
    rewrite map_app, <- app_assoc. eauto.
  - destruct (Nat.ltb_spec o (length (objs w))) as [L|L]; [|cbn; auto]. specialize (IH (benter w o)). destruct (bexec neqb body (benter w o)) as [[r1 w1] t1]. cbn in *.
    destruct IH as [E [m K]].
    assert (K' : keys w1 = keys w ++ m) by (rewrite K; unfold benter; destruct (bindings w o); reflexivity).
    pose proof (bindings_nil w w1 o m K' L) as B. unfold bexit. unfold benter in E.
    destruct (bindings w o) as [|p l] eqn:Ew, (bindings w1 o) as [|p' l'] eqn:Ew1; cbn in B; try discriminate; cbn; eauto.
    rewrite E. cbn. eauto.
Qed.
Lemma unassigned (c : bcmd N V) : assigns_nothing c -> forall w,
  (exists more, objs (snd (fst (bexec neqb c w))) = objs w ++ more) /\ bglobals (snd (fst (bexec neqb c w))) = bglobals w.
Proof.
  assert (Z : forall w : bst N V, exists more, objs w = objs w ++ more) by (intros; exists []; rewrite app_nil_r; reflexivity).
  induction c as [|c1 IH1 c2 IH2|n k IH|n v|b|b|x|c IHc h IHh|b k IH|o body IH]; intros A w; simpl in *; auto; try contradiction.
  - destruct A as [A1 A2]. specialize (IH1 A1 w). destruct (bexec neqb c1 w) as [[[u|x] w1] t1]; [|exact IH1]. specialize (IH2 A2 w1).
    destruct (bexec neqb c2 w1) as [[r2 w2] t2]. cbn in *. destruct IH1 as [[m1 E1] <-], IH2 as [[m2 E2] ->]. split; auto. exists (m1 ++ m2). rewrite E2, E1, app_assoc. reflexivity.
  - destruct (bget neqb w n) as [v|x]; [|auto]. specialize (IH v (A v) w). destruct (bexec neqb (k v) w) as [[r1 w1] t1]. exact IH.
  - destruct A as [A1 A2]. specialize (IHc A1 w). destruct (bexec neqb c w) as [[[u|x] w1] t1]; [exact IHc|]. specialize (IHh x (A2 x) w1).
    destruct (bexec neqb (h x) w1) as [[r2 w2] t2]. cbn in *. destruct IHc as [[m1 E1] <-], IHh as [[m2 E2] ->]. split; auto. exists (m1 ++ m2). rewrite E2, E1, app_assoc. reflexivity.
  - destruct (IH (length (objs w)) (A _) (mkbst (objs w ++ [b]) (bstack w) (bglobals w))) as [[m E] ->]. split; auto. rewrite E. cbn. rewrite <- app_assoc. eauto.
  - destruct (Nat.ltb_spec o (length (objs w))) as [L|L]; [|cbn; auto]. specialize (IH A (benter w o)). destruct (bexec neqb body (benter w o)) as [[r1 w1] t1]. cbn in *.
    assert (E : objs (bexit w1 o) = objs w1 /\ bglobals (bexit w1 o) = bglobals w1) by (unfold bexit; destruct (bindings w1 o); auto). destruct E as [-> ->].
    assert (E : objs (benter w o) = objs w /\ bglobals (benter w o) = bglobals w) by (unfold benter; destruct (bindings w o); auto). destruct E as [E1 E2]. rewrite E1, E2 in IH. exact IH.
Qed.
Lemma bget_ext (w w' : bst N V) n : bstack w = bstack w' -> bglobals w = bglobals w' -> (forall o, In o (bstack w) -> bindings w o = bindings w' o) ->
  bget neqb w n = bget neqb w' n.
Proof.
  intros E1 E2 H. unfold bget, bresolve. rewrite <- E1, <- E2.
  assert (F : forall os, (forall o, In o os -> bindings w o = bindings w' o) -> bfind neqb w os n = bfind neqb w' os n).
  { induction os as [|o os IH]; intros K; cbn; auto. rewrite (K o (or_introl eq_refl)), IH; auto. intros; apply K; right; auto. }
  rewrite <- (F (bstack w) H). destruct (bfind neqb w (bstack w) n) as [o|] eqn:E.
  - cbn. rewrite (H o); auto. apply (bfind_in _ _ _ _ E).
  - destruct (in_scope neqb (bglobals w) n); reflexivity.
Qed.
Lemma values (c : bcmd N V) : assigns_nothing c -> forall w, (forall o, In o (bstack w) -> o < length (objs w)) ->
  (forall n, bget neqb (snd (fst (bexec neqb c w))) n = bget neqb w n) /\
  (forall o, o < length (objs w) -> bindings (snd (fst (bexec neqb c w))) o = bindings w o).
Proof.
  intros A w L. destruct (unassigned c A w) as [[m E] G]. destruct (restored c w) as [S _].
  assert (B : forall o, o < length (objs w) -> bindings (snd (fst (bexec neqb c w))) o = bindings w o) by (intros o Ho; unfold bindings; rewrite E; apply app_nth1; exact Ho).
  split; [|exact B]. intros n. apply bget_ext; auto. rewrite S. auto.
Qed.

(** ** An object that is not entered *)
Lemma bwrite_other (w : bst N V) r n v o : r <> Some o -> bindings (bwrite neqb w r n v) o = bindings w o.
Proof.
  destruct r as [i|]; intros H; [|reflexivity]. assert (K : i <> o) by congruence. unfold bwrite. generalize (dict_set neqb (bindings w i) n v) as d.
  unfold bindings. cbn [objs]. clear H. revert i o K. generalize (objs w) as l.
  induction l as [|a l IH]; intros [|i] [|o] K d; cbn; auto; try congruence.
Qed.
Lemma bwrite_len (w : bst N V) r n v : length (objs (bwrite neqb w r n v)) = length (objs w).
Proof.
  destruct r as [i|]; [|reflexivity]. cbn. generalize (dict_set neqb (bindings w i) n v) as d. revert i. generalize (objs w) as l.
  induction l as [|a l IH]; intros [|i] d; cbn; auto.
Qed.
Lemma bwrite_all_other o (b : scope) : forall rs w, ~ In (Some o) rs -> bindings (bwrite_all neqb w rs b) o = bindings w o /\ length (objs (bwrite_all neqb w rs b)) = length (objs w).
Proof.
  induction b as [|[n v] b IH]; intros [|r rs] w H; cbn; auto. destruct (IH rs (bwrite neqb w r n v)) as [-> ->]; [intros K; apply H; right; exact K|].
  rewrite bwrite_len. split; auto. apply bwrite_other. intros ->. apply H. left. reflexivity.
Qed.
Lemma untouched (c : bcmd N V) o : avoids o c -> forall w, o < length (objs w) -> ~ In o (bstack w) ->
  bindings (snd (fst (bexec neqb c w))) o = bindings w o /\ length (objs w) <= length (objs (snd (fst (bexec neqb c w)))).
Proof.
  induction c as [|c1 IH1 c2 IH2|n k IH|n v|b|b|x|c IHc h IHh|b k IH|i body IH]; intros A w L S; simpl in *; auto.
  - destruct A as [A1 A2]. specialize (IH1 A1 w L S). pose proof (proj1 (restored c1 w)) as R. destruct (bexec neqb c1 w) as [[[u|x] w1] t1]; [|exact IH1]. cbn in R.
    cbn in IH1. destruct IH1 as [B1 L1]. specialize (IH2 A2 w1 ltac:(lia)). rewrite R in IH2. specialize (IH2 S).
    destruct (bexec neqb c2 w1) as [[r2 w2] t2]. cbn in *. destruct IH2 as [-> L2]. split; [exact B1 | lia].
  - destruct (bget neqb w n) as [v|x]; [|auto]. specialize (IH v (A v) w L S). destruct (bexec neqb (k v) w) as [[r1 w1] t1]. exact IH.
  - destruct (bresolve neqb w n) as [r|] eqn:E; cbn; [|auto]. rewrite bwrite_len. split; auto. apply bwrite_other. intros ->. apply S. apply (bresolve_some _ _ _ E).
  - destruct (bresolve_all neqb w b) as [rs|] eqn:E; cbn; [|auto].
    destruct (bwrite_all_other o b rs w) as [-> ->]; [|auto]. apply bresolve_all_F2 in E. intros K. clear - E K S.
    induction E as [|r nv rs b H E IH]; cbn in *; auto. destruct K as [-> |K]; auto. apply S. apply (bresolve_some _ _ _ H).
  - destruct A as [A1 A2]. specialize (IHc A1 w L S). pose proof (proj1 (restored c w)) as R. destruct (bexec neqb c w) as [[[u|x] w1] t1]; [exact IHc|]. cbn in R.
    cbn in IHc. destruct IHc as [B1 L1]. specialize (IHh x (A2 x) w1 ltac:(lia)). rewrite R in IHh. specialize (IHh S).
    destruct (bexec neqb (h x) w1) as [[r2 w2] t2]. cbn in *. destruct IHh as [-> L2]. split; [exact B1 | lia].
  - assert (Ne : length (objs w) <> o) by lia. specialize (IH (length (objs w)) (A _ Ne) (mkbst (objs w ++ [b]) (bstack w) (bglobals w))). cbn in IH. rewrite app_length in IH. cbn in IH.
    destruct (IH ltac:(lia) S) as [-> K]. split; [|lia]. unfold bindings. cbn. apply app_nth1. exact L.
  - destruct A as [A1 A2]. destruct (Nat.ltb_spec i (length (objs w))) as [Li|Li]; [|cbn; auto].
    assert (E : objs (benter w i) = objs w) by (unfold benter; destruct (bindings w i); reflexivity).
    specialize (IH A2 (benter w i)). rewrite E in IH. specialize (IH L).
    assert (B : bindings (benter w i) o = bindings w o) by (unfold bindings; rewrite E; reflexivity). rewrite B in IH.
    assert (S' : ~ In o (bstack (benter w i))) by (unfold benter; destruct (bindings w i); cbn; auto; intros [K|K]; auto). specialize (IH S').
    destruct (bexec neqb body (benter w i)) as [[r1 w1] t1]. cbn in *.
    assert (X : objs (bexit w1 i) = objs w1) by (unfold bexit; destruct (bindings w1 i); reflexivity). unfold bindings in *. rewrite X. exact IH.
Qed.
Lemma inside (w : bst N V) o n v k : o < length (objs w) -> dict_get neqb (bindings w o) n = Some v ->
  exists t, snd (bexec neqb (BWith o (BRead n k)) w) = v :: t.
Proof.
  intros L H. cbn [bexec]. destruct (Nat.ltb_spec o (length (objs w))) as [L'|L']; [|lia].
  assert (E : bget neqb (benter w o) n = Ok v).
  { unfold benter. destruct (bindings w o) as [|p l] eqn:E; [discriminate|]. unfold bget, bresolve. cbn [bstack bfind].
    assert (Eb : bindings (mkbst (objs w) (o :: bstack w) (bglobals w)) o = p :: l) by exact E. rewrite Eb.
    unfold in_scope. rewrite H. cbn [obind]. rewrite Eb, H. reflexivity. }
  rewrite E. destruct (bexec neqb (k v) (benter w o)) as [[r w1] t]. exists t. reflexivity.
Qed.
End DboP.
