From Coq Require Import List Bool Arith Lia.
From Verif Require Import Base CollModel CollProofs DynModel DynSpec DynProofs DboModel DboSpec DboProofs DgnModel DgnSpec.
Import ListNotations.
Open Scope nat_scope.
Open Scope list_scope.

Section DgnP.
Context {N V : Type}.
Variable neqb : N -> N -> bool.
Notation envs := (list (env (N := N))).
Notation gst := (gst N V).
Notation event := (event N V).
Definition full (made : envs) (o : nat) : bool := match nth o made [] with [] => false | _ => true end.
Definition stk (made : envs) (os : opened) : list nat := filter (full made) (map snd os).
Definition mine (t : nat) (os : opened) : list nat := map snd (filter (fun p => fst p =? t) os).
Lemma visible_chain made os : visible made os = chain made (stk made os).
Proof.
  unfold visible, chain, stk. induction os as [|p os IH]; auto. cbn. rewrite IH. unfold full at 2. destruct (nth (snd p) made []) eqn:E; auto. cbn. rewrite E. reflexivity.
Qed.
Lemma stk_in made os o : In o (stk made os) -> In o (map snd os).
Proof. intros H. apply filter_In in H. tauto. Qed.
Record R (os : opened) (g : gst) (h : ost (N := N) (V := V)) : Prop := {
  R_Q : Q (fst h) (stk (fst h) os) (gw g) h;
  R_fr : forall t, gframes g t = mine t os;
  R_in : forall o, In o (map snd os) -> o < length (fst h) }.

Lemma bindings_full os g h o : R os g h -> full (fst h) o = match bindings (gw g) o with [] => false | _ => true end.
Proof.
  intros H. rewrite (bindings_vals _ _ _ _ o (R_Q _ _ _ H)). unfold full. destruct (nth o (fst h) []); reflexivity.
Qed.
Lemma objs_len os g h : R os g h -> length (objs (gw g)) = length (fst h).
Proof. intros H. rewrite (Q_objs _ _ _ _ (R_Q _ _ _ H)), map_length. reflexivity. Qed.
Lemma Q_restack es os os' (w : bst N V) h : Q es os w h -> (forall o, In o os' -> o < length es) -> Q es os' (mkbst (objs w) os' (bglobals w)) h.
Proof. intros [H1 H2 H3 H4 H5 H6 H7] H. constructor; cbn; auto. Qed.
Lemma Q_made es os (w : bst N V) s : Q es os w s -> fst s = es.
Proof. intros []. assumption. Qed.
Lemma stk_more made more os : (forall o, In o (map snd os) -> o < length made) -> stk (made ++ more) os = stk made os.
Proof.
  intros H. unfold stk. apply filter_ext_in. intros o Ho. unfold full. rewrite app_nth1; auto.
Qed.
Lemma leave_mine t os : match leave t os with Some os' => exists a b o, os = a ++ (t, o) :: b /\ os' = a ++ b /\ Forall (fun p => fst p <> t) a | None => mine t os = [] end.
Proof.
  induction os as [|[u o] os IH]; cbn; auto. unfold mine. cbn. destruct (Nat.eqb_spec u t) as [->|D].
  - exists [], os, o. auto.
  - destruct (leave t os) as [os'|].
    + destruct IH as (a & b & o' & -> & -> & F). exists ((u, o) :: a), b, o'. repeat split; auto.
    + exact IH.
Qed.
Lemma mine_none t a : Forall (fun p => fst p <> t) a -> mine t a = [].
Proof. induction 1 as [|p a H _ IH]; auto. unfold mine. cbn. destruct (Nat.eqb_spec (fst p) t); [congruence|exact IH]. Qed.
Lemma mine_app t a b : mine t (a ++ b) = mine t a ++ mine t b.
Proof. unfold mine. rewrite filter_app, map_app. reflexivity. Qed.
Lemma mine_cons t u o b : mine t ((u, o) :: b) = if u =? t then o :: mine t b else mine t b.
Proof. unfold mine. cbn. destruct (u =? t); reflexivity. Qed.

(** One step that is in order *)
Definition in_order (e : event) (os : opened) : Prop :=
  match snd e with ALeave => match os with p :: _ => fst p = fst e | [] => True end | _ => True end.
Lemma step_sim e os g h : R os g h -> in_order e os ->
  match gstep neqb e g, sstep neqb e (os, h) with
  | Some (x, g'), Some (x', (os', h')) => x = x' /\ R os' g' h'
  | None, None => True
  | _, _ => False
  end.
Proof.
  intros H I. destruct e as [t a]. pose proof (R_Q _ _ _ H) as HQ. pose proof (R_in _ _ _ H) as Hi. pose proof (R_fr _ _ _ H) as Hf.
  destruct a as [b|o| |n|n v|b|b]; cbn [gstep sstep fst snd]; rewrite ?visible_chain.
  - destruct (alloc b (snd h)) as [e1 h1] eqn:A. split; auto. constructor; cbn; auto.
    + rewrite stk_more by auto. apply Q_new; auto.
    + intros o Ho. rewrite app_length. specialize (Hi o Ho). lia.
  - rewrite (objs_len _ _ _ H). destruct (Nat.ltb_spec o (length (fst h))) as [L|L]; auto. split; auto. constructor; cbn.
    + unfold benter. unfold stk. cbn. rewrite (bindings_full _ _ _ o H). destruct (bindings (gw g) o) eqn:E; auto.
      pose proof (Q_stack _ _ _ _ HQ) as E1. rewrite E1. apply (Q_restack _ _ (o :: stk (fst h) os) _ _ HQ).
      intros o' [<-|Ho]; auto. apply Hi, (stk_in (fst h)), Ho.
    + intros u. change (set_frames (gframes g) t (o :: gframes g t) u = mine u ((t, o) :: os)). unfold set_frames. rewrite mine_cons, (Nat.eqb_sym t u). destruct (Nat.eqb_spec u t) as [->|]; rewrite Hf; reflexivity.
    + intros o' [<-|Ho]; auto.
  - cbn in I. destruct os as [|[u o] os]; cbn [fst snd leave] in *.
    + rewrite Hf. exact Logic.I.
    + subst u. rewrite Nat.eqb_refl, Hf, mine_cons, Nat.eqb_refl. unfold gexit.
      pose proof (bindings_full _ _ _ o H) as B. pose proof (Q_stack _ _ _ _ HQ) as S1. unfold stk in S1. cbn in S1. rewrite B in S1.
      assert (F : forall u, set_frames (gframes g) t (mine t os) u = mine u os).
      { intros u. unfold set_frames. destruct (Nat.eqb_spec u t) as [->|D]; auto. rewrite Hf, mine_cons. destruct (Nat.eqb_spec t u); congruence. }
      assert (Hi' : forall o', In o' (map snd os) -> o' < length (fst h)) by (intros; apply Hi; cbn; auto).
      destruct (bindings (gw g) o) eqn:E.
      * split; auto. constructor; auto. unfold stk in HQ. cbn in HQ. rewrite B in HQ. exact HQ.
      * rewrite S1. split; auto. constructor; auto. apply (Q_restack _ _ (stk (fst h) os) _ _ HQ). intros o' Ho. apply Hi', (stk_in (fst h)), Ho.
  - rewrite (bget_sim neqb _ _ _ _ n HQ). auto.
  - destruct (bresolve_sim neqb _ _ _ _ n HQ) as [[[r Hr] Hs]|[Hr Hs]]; rewrite Hr.
    + destruct (sget neqb _ (snd h) n); [|congruence]. split; auto. constructor; auto. exact (bwrite_sim neqb _ _ _ _ _ _ n v r HQ HQ Hr).
    + rewrite Hs. auto.
  - pose proof (bresolve_all_sim neqb _ _ _ _ b HQ) as A. destruct (forallb _ b).
    + destruct A as (rs & -> & F). split; auto. constructor; auto. exact (bwrite_all_sim neqb _ _ _ _ b HQ rs _ _ HQ F).
    + rewrite A. auto.
  - split; auto. constructor; auto. destruct HQ as [H1 H2 H3 H4 H5 H6 H7]. constructor; cbn; auto. rewrite H7. reflexivity.
Qed.
Lemma sstep_opened (e : event) os h x os' h' : sstep neqb e (os, h) = Some (x, (os', h')) ->
  match snd e with AEnter o => os' = (fst e, o) :: os | ALeave => leave (fst e) os = Some os' | _ => os' = os end.
Proof.
  destruct e as [t a]. destruct a; cbn [sstep fst snd]; intros E.
  - destruct (alloc b (snd h)). congruence.
  - destruct (_ <? _); congruence.
  - destruct (leave t os); congruence.
  - congruence.
  - destruct (sget _ _ _ _); congruence.
  - destruct (forallb _ _); congruence.
  - congruence.
Qed.
Lemma run_sim es : forall os g h, R os g h -> orderly (map fst os) es ->
  match grun neqb es g, srun neqb es (os, h) with
  | Some (x, g'), Some (x', (os', h')) => x = x' /\ R os' g' h'
  | None, None => True
  | _, _ => False
  end.
Proof.
  induction es as [|e es IH]; intros os g h H O; cbn [grun srun]; auto.
  assert (I : in_order e os) by (destruct e as [t []]; cbn in *; auto; destruct os; cbn in *; auto; symmetry; tauto).
  pose proof (step_sim e os g h H I) as S1. destruct (gstep neqb e g) as [[x g1]|], (sstep neqb e (os, h)) as [[x' [os1 h1]]|] eqn:E; auto; try contradiction.
  destruct S1 as [<- S1]. apply sstep_opened in E.
  assert (O1 : orderly (map fst os1) es).
  { destruct e as [t []]; cbn in *; subst; auto. destruct os as [|p os]; cbn in *; [discriminate|]. destruct O as [-> O]. rewrite Nat.eqb_refl in E. injection E as <-. exact O. }
  specialize (IH os1 g1 h1 S1 O1). destruct (grun neqb es g1) as [[y g2]|], (srun neqb es (os1, h1)) as [[y' [os2 h2]]|]; auto.
  destruct IH as [<- IH]. auto.
Qed.
Lemma R0 (defaults : dict N V) v0 : R [] (g0 defaults) ([], sst0 defaults v0).
Proof. constructor; cbn; auto; [apply Q0 | contradiction]. Qed.
Lemma orderly_meaning (es : list event) (defaults : dict N V) (v0 : V) : orderly [] es ->
  option_map fst (grun neqb es (g0 defaults)) = option_map fst (srun neqb es (s0 defaults v0)).
Proof.
  intros O. pose proof (run_sim es [] _ _ (R0 defaults v0) O) as S1. unfold s0.
  destruct (grun neqb es _) as [[x g']|], (srun neqb es _) as [[x' [os' h']]|]; cbn; auto; try contradiction. destruct S1 as [<- _]. reflexivity.
Qed.
Lemma undisturbed_orderly (es : list event) : forall owners, undisturbed owners es -> orderly owners es.
Proof.
  induction es as [|[t a] es IH]; intros owners; cbn; auto. intros [F U]. apply IH in U. destruct a; auto.
  destruct owners as [|u owners]; auto. inversion F; subst. auto.
Qed.

(** Any order *)
Definition wfull (w : bst N V) (o : nat) : bool := match bindings w o with [] => false | _ => true end.
Record L (base : list nat) (os : opened) (g : gst) : Prop := {
  L_st : exists pushed, bstack (gw g) = pushed ++ base /\ length pushed = length (filter (wfull (gw g)) (map snd os));
  L_fr : forall t, gframes g t = mine t os;
  L_in : forall o, In o (map snd os) -> o < length (objs (gw g)) }.
Lemma wfull_keys (w w' : bst N V) more o : keys w' = keys w ++ more -> o < length (objs w) -> wfull w' o = wfull w o.
Proof.
  intros K H. pose proof (bindings_nil w w' o more K H) as E. unfold wfull. destruct (bindings w' o), (bindings w o); auto; discriminate.
Qed.
Lemma keys_len (w : bst N V) : length (keys w) = length (objs w).
Proof. unfold keys. apply map_length. Qed.
Lemma L_change base os g w' more : L base os g -> bstack w' = bstack (gw g) -> keys w' = keys (gw g) ++ more -> L base os (mkgst w' (gframes g)).
Proof.
  intros [(p & S1 & S2) F I] S K. constructor; cbn; auto.
  - exists p. rewrite S. split; auto. rewrite S2. f_equal. apply filter_ext_in. intros o Ho. symmetry. apply (wfull_keys _ _ more); auto.
  - intros o Ho. apply I in Ho. rewrite <- keys_len, K, app_length, keys_len. lia.
Qed.
Lemma any_step (e : event) os base g x g' : L base os g -> gstep neqb e g = Some (x, g') ->
  (exists os', L base os' g') /\ x <> ODone (Raise IndexError) /\ (exists more, keys (gw g') = keys (gw g) ++ more).
Proof.
  intros H. pose proof H as [(p & S1 & S2) F I]. destruct e as [t a]. destruct a as [b|o| |n|n v|b|b]; cbn [gstep]; intros E.
  - injection E as <- <-. split; [|split; [discriminate|]].
    + exists os. apply (L_change _ _ _ _ [map fst b] H); cbn; auto. unfold keys. cbn. rewrite map_app. reflexivity.
    + exists [map fst b]. unfold keys. cbn. rewrite map_app. reflexivity.
  - destruct (Nat.ltb_spec o (length (objs (gw g)))); [|discriminate]. injection E as <- <-.
    assert (O : objs (benter (gw g) o) = objs (gw g)) by (unfold benter; destruct (bindings _ _); auto).
    assert (WF : forall i, wfull (benter (gw g) o) i = wfull (gw g) i) by (intros; unfold wfull, bindings; rewrite O; reflexivity).
    split; [|split; [discriminate|]].
    + exists ((t, o) :: os). constructor; cbn.
      * rewrite (filter_ext _ (wfull (gw g)) WF), WF. unfold benter, wfull at 1. destruct (bindings (gw g) o) eqn:B; [exists p; auto|].
        exists (o :: p). cbn. rewrite S1, S2. auto.
      * intros u. change (set_frames (gframes g) t (o :: gframes g t) u = mine u ((t, o) :: os)). unfold set_frames. rewrite mine_cons, (Nat.eqb_sym t u). destruct (Nat.eqb_spec u t) as [->|]; rewrite F; reflexivity.
      * rewrite O. intros o' [<-|Ho]; auto.
    + exists []. unfold keys. cbn. rewrite O, app_nil_r. reflexivity.
  - rewrite F in E. pose proof (leave_mine t os) as LM. destruct (leave t os) as [os'|]; [|rewrite LM in E; discriminate].
    destruct LM as (a & b & o & -> & -> & Fa). rewrite mine_app, (mine_none t a Fa), mine_cons, Nat.eqb_refl in E. cbn in E.
    rewrite map_app, filter_app in S2. cbn in S2. destruct (gexit (gw g) o) as [r w1] eqn:G. injection E as <- <-.
    assert (Z : r = Ok tt /\ objs w1 = objs (gw g) /\ exists p', bstack w1 = p' ++ base /\ length p' = length (filter (wfull (gw g)) (map snd (a ++ b)))).
    { rewrite map_app, filter_app, app_length. rewrite app_length in S2. unfold gexit in G. unfold wfull in S2 at 2. destruct (bindings (gw g) o) eqn:B.
      - injection G as <- <-. repeat split; auto. exists p. split; auto.
      - cbn [length] in S2. destruct p as [|q p]; cbn in S2; [lia|]. rewrite S1 in G. cbn in G. injection G as <- <-. repeat split; auto. exists p. split; auto. cbn. lia. }
    destruct Z as (-> & O & p' & Z1 & Z2).
    assert (WF : forall i, wfull w1 i = wfull (gw g) i) by (intros; unfold wfull, bindings; rewrite O; reflexivity).
    split; [|split; [discriminate|]].
    + exists (a ++ b). constructor; cbn.
      * exists p'. rewrite (filter_ext _ (wfull (gw g)) WF). auto.
      * intros u. unfold set_frames. destruct (Nat.eqb_spec u t) as [->|D].
        -- rewrite mine_app, (mine_none t a Fa). reflexivity.
        -- rewrite F, !mine_app, mine_cons. destruct (Nat.eqb_spec t u); congruence.
      * rewrite O. intros o' Ho. apply I. rewrite map_app, in_app_iff in *. cbn. tauto.
    + exists []. unfold keys. cbn. rewrite O, app_nil_r. reflexivity.
  - injection E as <- <-. split; [eauto|split; [discriminate|]]. exists []. rewrite app_nil_r. reflexivity.
  - destruct (bresolve neqb (gw g) n) as [s|y] eqn:B; injection E as <- <-.
    + assert (K : keys (bwrite neqb (gw g) s n v) = keys (gw g)) by (apply bwrite_keys; intros o ->; apply (bresolve_some neqb (gw g) n o B)).
      split; [|split; [discriminate|]]; [exists os; apply (L_change _ _ _ _ [] H); [apply bwrite_stack | rewrite app_nil_r; exact K] | exists []; rewrite app_nil_r; exact K].
    + split; [eauto|split]; [|exists []; rewrite app_nil_r; reflexivity].
      unfold bresolve in B. destruct (bfind _ _ _ _); [discriminate|]. destruct (in_scope _ _ _); congruence.
  - destruct (bresolve_all neqb (gw g) b) as [ss|y] eqn:B; injection E as <- <-.
    + assert (K : keys (bwrite_all neqb (gw g) ss b) = keys (gw g)) by (apply (bwrite_all_keys neqb (gw g)); auto; apply bresolve_all_F2; auto).
      split; [|split; [discriminate|]]; [exists os; apply (L_change _ _ _ _ [] H); [apply bwrite_all_stack | rewrite app_nil_r; exact K] | exists []; rewrite app_nil_r; exact K].
    + split; [eauto|split]; [|exists []; rewrite app_nil_r; reflexivity].
      assert (y = AttributeError); [|congruence]. clear - B. induction b as [|[n v] b IH]; cbn in B; [discriminate|].
      destruct (bresolve neqb (gw g) n) as [s|z] eqn:E; cbn in B.
      * destruct (bresolve_all neqb (gw g) b); cbn in B; [discriminate|]. apply IH. exact B.
      * unfold bresolve in E. destruct (bfind _ _ _ _); [discriminate|]. destruct (in_scope _ _ _); congruence.
  - injection E as <- <-. split; [|split; [discriminate|]]; [exists os; apply (L_change _ _ _ _ [] H); cbn; auto | exists []]; rewrite app_nil_r; reflexivity.
Qed.
Lemma any_run es : forall os base g xs g', L base os g -> grun neqb es g = Some (xs, g') ->
  (exists os', L base os' g') /\ ~ In (ODone (Raise IndexError)) xs /\ (exists more, keys (gw g') = keys (gw g) ++ more).
Proof.
  induction es as [|e es IH]; intros os base g xs g' H; cbn; intros E.
  - injection E as <- <-. split; [eauto|split; [auto|]]. exists []. rewrite app_nil_r. reflexivity.
  - destruct (gstep neqb e g) as [[x g1]|] eqn:S1; [|discriminate]. destruct (grun neqb es g1) as [[ys g2]|] eqn:S2; [|discriminate]. injection E as <- <-.
    destruct (any_step _ _ _ _ _ _ H S1) as ([os1 H1] & X & m1 & K1). destruct (IH _ _ _ _ _ H1 S2) as (H2 & Y & m2 & K2).
    split; auto. split; [intros [?|?]; auto|]. exists (m1 ++ m2). rewrite K2, K1, app_assoc. reflexivity.
Qed.
Lemma L0 (w : bst N V) : L (bstack w) [] (mkgst w no_frames).
Proof. constructor; cbn; auto; [exists []; auto | contradiction]. Qed.
Lemma any_order (es : list event) (w : bst N V) xs g : grun neqb es (mkgst w no_frames) = Some (xs, g) ->
  (exists pushed, bstack (gw g) = pushed ++ bstack w) /\
  ~ In (ODone (Raise IndexError)) xs /\
  ((forall t, gframes g t = []) -> bstack (gw g) = bstack w) /\
  exists made, map (map fst) (objs (gw g)) = map (map fst) (objs w) ++ made.
Proof.
  intros E. destruct (any_run es [] _ _ _ _ (L0 w) E) as ([os [(p & S1 & S2) F I]] & X & K). split; [eauto|]. split; [exact X|]. split; [|exact K].
  intros Z. destruct os as [|[t o] os].
  - cbn in S2. destruct p; [exact S1|discriminate].
  - specialize (F t). rewrite Z, mine_cons, Nat.eqb_refl in F. discriminate.
Qed.
Lemma quiet_step (e : event) (g : gst) x g' : quiet [e] -> gstep neqb e g = Some (x, g') ->
  bglobals (gw g') = bglobals (gw g) /\ exists more, objs (gw g') = objs (gw g) ++ more.
Proof.
  intros Hq. inversion Hq as [|? ? Hs _]; subst. destruct e as [t []]; cbn [gstep snd] in *; try contradiction; intros E.
  - injection E as <- <-. cbn. eauto.
  - destruct (_ <? _); [|discriminate]. injection E as <- <-. cbn. unfold benter. destruct (bindings _ _); cbn; split; auto; exists []; rewrite app_nil_r; reflexivity.
  - destruct (gframes g t); [discriminate|]. unfold gexit in E. destruct (bindings _ _); [|destruct (bstack _)]; injection E as <- <-; cbn; split; auto; exists []; rewrite app_nil_r; reflexivity.
  - injection E as <- <-. split; auto. exists []. rewrite app_nil_r. reflexivity.
Qed.
Lemma quiet_run es : forall (g : gst) xs g', quiet es -> grun neqb es g = Some (xs, g') ->
  bglobals (gw g') = bglobals (gw g) /\ exists more, objs (gw g') = objs (gw g) ++ more.
Proof.
  induction es as [|e es IH]; intros g xs g' Hq; cbn; intros E.
  - injection E as <- <-. split; auto. exists []. rewrite app_nil_r. reflexivity.
  - destruct (gstep neqb e g) as [[x g1]|] eqn:S1; [|discriminate]. destruct (grun neqb es g1) as [[ys g2]|] eqn:S2; [|discriminate]. injection E as <- <-.
    inversion Hq; subst. destruct (quiet_step e g x g1) as (A & m1 & B); auto; [constructor; auto; constructor|]. destruct (IH g1 ys g2) as (C & m2 & D); auto.
    split; [congruence|]. exists (m1 ++ m2). rewrite D, B, app_assoc. reflexivity.
Qed.
Lemma quiet_restored (es : list event) (w : bst N V) xs g : quiet es -> (forall o, In o (bstack w) -> o < length (objs w)) ->
  grun neqb es (mkgst w no_frames) = Some (xs, g) -> (forall t, gframes g t = []) ->
  forall n, bget neqb (gw g) n = bget neqb w n.
Proof.
  intros Hq B E Z n. destruct (any_order es w xs g E) as (_ & _ & S1 & _). specialize (S1 Z). destruct (quiet_run _ _ _ _ Hq E) as (G & m & O). cbn in *.
  symmetry. apply bget_ext; auto. intros o Ho. unfold bindings. rewrite O. symmetry. apply app_nth1. auto.
Qed.

(** The first block left out of order *)
Lemma in_scope_nil (w : bst N V) o n : in_scope neqb (bindings w o) n = true -> bindings w o <> [].
Proof. intros H E. rewrite E in H. discriminate. Qed.
Lemma bfind_none (w : bst N V) os n : (forall o, In o os -> in_scope neqb (bindings w o) n = false) -> bfind neqb w os n = None.
Proof. induction os as [|o os IH]; cbn; intros H; auto. rewrite (H o) by auto. apply IH. auto. Qed.
Lemma bfind_some (w : bst N V) os n o : In o os -> in_scope neqb (bindings w o) n = true -> exists o', bfind neqb w os n = Some o'.
Proof.
  induction os as [|o1 os IH]; cbn; [contradiction|]. intros Ho H. destruct (in_scope neqb (bindings w o1) n) eqn:E; eauto.
  destruct Ho as [->|Ho]; [congruence|]. auto.
Qed.
Lemma out_of_order (es : list event) (defaults : dict N V) (v0 : V) xs g ys u o os h t os' :
  orderly [] es -> grun neqb es (g0 defaults) = Some (xs, g) -> srun neqb es (s0 defaults v0) = Some (ys, ((u, o) :: os, h)) ->
  t <> u -> leave t os = Some os' -> bindings (gw g) o <> [] ->
  exists left x g', In (t, left) os /\ gstep neqb (t, ALeave) g = Some (x, g') /\
    (bindings (gw g) left <> [] ->
      objs (gw g') = objs (gw g) /\ bglobals (gw g') = bglobals (gw g) /\
      bstack (gw g') = filter (wfull (gw g)) (map snd os)).
Proof.
  intros O E1 E2 D Lv Ne. pose proof (run_sim es [] _ _ (R0 defaults v0) O) as S1. rewrite E1 in S1.
  revert S1. match goal with |- context [srun ?a ?b ?c] => change (srun a b c) with (srun neqb es (s0 defaults v0)) end. rewrite E2. intros [_ H].
  pose proof (leave_mine t os) as LM. rewrite Lv in LM. destruct LM as (a & b & lo & -> & -> & Fa).
  exists lo. cbn [gstep]. rewrite (R_fr _ _ _ H), mine_cons, mine_app, (mine_none t a Fa), mine_cons, Nat.eqb_refl. destruct (Nat.eqb_spec u t); [congruence|].
  cbn [app]. pose proof (Q_stack _ _ _ _ (R_Q _ _ _ H)) as S1. unfold stk in S1. cbn [map snd] in S1. cbn [filter] in S1.
  rewrite (bindings_full _ _ _ o H) in S1. destruct (bindings (gw g) o) eqn:B; [congruence|].
  unfold gexit. rewrite S1. destruct (bindings (gw g) lo) eqn:BL.
  - do 2 eexists. split; [apply in_app_iff; cbn; auto|]. split; [reflexivity|]. congruence.
  - do 2 eexists. split; [apply in_app_iff; cbn; auto|]. split; [reflexivity|]. intros _. cbn. repeat split; auto.
    apply filter_ext. intros i. apply (bindings_full _ _ _ i H).
Qed.
Lemma lost_and_kept (es : list event) (defaults : dict N V) (v0 : V) xs g ys u o os h t os' :
  orderly [] es -> grun neqb es (g0 defaults) = Some (xs, g) -> srun neqb es (s0 defaults v0) = Some (ys, ((u, o) :: os, h)) ->
  t <> u -> leave t os = Some os' -> bindings (gw g) o <> [] ->
  exists left x g', In (t, left) os /\ gstep neqb (t, ALeave) g = Some (x, g') /\
    (bindings (gw g) left <> [] ->
      (forall n, in_scope neqb (bindings (gw g) left) n = true -> exists v, bget neqb (gw g') n = Ok v) /\
      (forall n, in_scope neqb (bglobals (gw g)) n = false -> (forall p, In p os -> in_scope neqb (bindings (gw g) (snd p)) n = false) ->
         bget neqb (gw g') n = Raise AttributeError)).
Proof.
  intros O E1 E2 D Lv Ne. destruct (out_of_order es defaults v0 xs g ys u o os h t os' O E1 E2 D Lv Ne) as (lo & x & g' & I & S1 & K).
  exists lo, x, g'. split; [auto|]. split; [auto|]. intros B. destruct (K B) as (K1 & K2 & K3). clear K.
  assert (BB : forall i, bindings (gw g') i = bindings (gw g) i) by (intros; unfold bindings; rewrite K1; reflexivity). split.
  - intros n Hn. unfold bget, bresolve. rewrite K3.
    destruct (bfind_some (gw g') (filter (wfull (gw g)) (map snd os)) n lo) as [o' Ho'].
    + apply filter_In. split; [apply (in_map snd _ _ I)|]. unfold wfull. destruct (bindings (gw g) lo); congruence.
    + rewrite BB. exact Hn.
    + rewrite Ho'. cbn. apply bfind_in in Ho'. destruct Ho' as [_ Ho']. unfold in_scope in Ho'. destruct (dict_get neqb (bindings (gw g') o') n); [eauto|discriminate].
  - intros n Hg Hn. unfold bget, bresolve. rewrite K3, bfind_none; [rewrite K2, Hg; reflexivity|].
    intros i Hi. apply filter_In in Hi. destruct Hi as [Hi _]. apply in_map_iff in Hi. destruct Hi as (p & <- & Hp). rewrite BB. apply Hn. exact Hp.
Qed.

(** Any order: as if by one *)
Lemma by_one_undisturbed (es : list event) : forall owners, Forall (eq 0) owners -> undisturbed owners (by_one es).
Proof.
  induction es as [|[t a] es IH]; intros owners F; cbn; auto. split; auto. apply IH. destruct a; auto. destruct F; cbn; auto.
Qed.
Record W (os : opened) (os1 : list nat) (g g1 : gst) : Prop := {
  W_w : gw g = gw g1;
  W_fr : forall t, gframes g t = mine t os;
  W_fr1 : gframes g1 0 = os1;
  W_len : length os = length os1;
  W_in : Forall (fun o => o < length (objs (gw g))) (map snd os);
  W_in1 : Forall (fun o => o < length (objs (gw g))) os1;
  W_full : forall ks, In ks (keys (gw g)) -> ks <> [] }.
Lemma W_bindings os os1 g g1 o : W os os1 g g1 -> o < length (objs (gw g)) -> bindings (gw g) o <> [].
Proof.
  intros H L E. apply (W_full _ _ _ _ H (map fst (bindings (gw g) o))); [|rewrite E; reflexivity].
  unfold keys. apply in_map. apply nth_In. exact L.
Qed.
Lemma W_change os os1 g g1 w' : W os os1 g g1 -> keys w' = keys (gw g) -> W os os1 (mkgst w' (gframes g)) (mkgst w' (gframes g1)).
Proof.
  intros [H1 H2 H3 H4 H5 H6 H7] K. assert (length (objs w') = length (objs (gw g))) as L1 by (rewrite <- !keys_len, K; reflexivity).
  constructor; cbn; auto; rewrite ?L1, ?K; auto.
Qed.
Lemma one_step t a os os1 g g1 : W os os1 g g1 -> a <> ANew [] ->
  match gstep neqb (t, a) g with
  | None => True
  | Some (x, g') => exists g1' os' os1', gstep neqb (0, a) g1 = Some (x, g1') /\ W os' os1' g' g1'
  end.
Proof.
  intros H Ha. pose proof H as [H1 H2 H3 H4 H5 H6 H7]. destruct a as [b|o| |n|n v|b|b]; cbn [gstep]; rewrite <- ?H1.
  - eexists _, os, os1. split; [reflexivity|]. constructor; cbn; auto.
    + eapply Forall_impl; [|exact H5]. intros o Ho. cbn in *. rewrite app_length. lia.
    + eapply Forall_impl; [|exact H6]. intros o Ho. cbn in *. rewrite app_length. lia.
    + intros ks. unfold keys. cbn. rewrite map_app, in_app_iff. intros [K|[<-|[]]]; [apply H7; auto|]. destruct b; [congruence|discriminate].
  - destruct (Nat.ltb_spec o (length (objs (gw g)))) as [L1|]; auto.
    assert (O : objs (benter (gw g) o) = objs (gw g)) by (unfold benter; destruct (bindings _ _); auto).
    eexists _, ((t, o) :: os), (o :: os1). split; [reflexivity|]. constructor; auto; cbn [gw gframes map snd length].
    + intros u. unfold set_frames. rewrite mine_cons, (Nat.eqb_sym t u). destruct (Nat.eqb_spec u t) as [->|]; rewrite H2; reflexivity.
    + unfold set_frames. cbn. rewrite H3. reflexivity.
    + congruence.
    + rewrite O. auto.
    + rewrite O. auto.
    + unfold keys. rewrite O. exact H7.
  - rewrite H2. pose proof (leave_mine t os) as LM. destruct (leave t os) as [os'|]; [|rewrite LM; exact I].
    destruct LM as (a & b & o & -> & -> & Fa). rewrite mine_app, (mine_none t a Fa), mine_cons, Nat.eqb_refl. cbn [app].
    rewrite app_length in H4. cbn in H4. destruct os1 as [|o1 os1]; [cbn in H4; lia|]. rewrite H3.
    assert (B : bindings (gw g) o <> []) by (apply (W_bindings _ _ _ _ _ H); rewrite Forall_forall in H5; apply H5; rewrite map_app, in_app_iff; cbn; auto).
    assert (B1 : bindings (gw g) o1 <> []) by (apply (W_bindings _ _ _ _ _ H); inversion H6; auto).
    assert (G : gexit (gw g) o = gexit (gw g) o1) by (unfold gexit; destruct (bindings (gw g) o), (bindings (gw g) o1); congruence).
    rewrite <- G. destruct (gexit (gw g) o) as [r w1] eqn:E.
    assert (O : objs w1 = objs (gw g)) by (unfold gexit in E; destruct (bindings (gw g) o), (bstack (gw g)); injection E as <- <-; reflexivity).
    eexists _, (a ++ b), os1. split; [reflexivity|]. constructor; auto; cbn [gw gframes].
    + intros u. unfold set_frames. destruct (Nat.eqb_spec u t) as [->|D].
      * rewrite mine_app, (mine_none t a Fa). reflexivity.
      * rewrite H2, !mine_app, mine_cons. destruct (Nat.eqb_spec t u); congruence.
    + rewrite app_length. cbn in H4. lia.
    + rewrite O, map_app in *. rewrite Forall_app in *. cbn in H5. destruct H5 as [F1 F2]. inversion F2; auto.
    + rewrite O. inversion H6; auto.
    + unfold keys. rewrite O. exact H7.
  - eauto 6.
  - destruct (bresolve neqb (gw g) n) as [s|y] eqn:B; [|eauto 6]. eexists _, os, os1. split; [reflexivity|]. apply W_change; auto.
    apply bwrite_keys. intros o ->. apply (bresolve_some neqb (gw g) n o B).
  - destruct (bresolve_all neqb (gw g) b) as [ss|y] eqn:B; [|eauto 6]. eexists _, os, os1. split; [reflexivity|]. apply W_change; auto.
    apply (bwrite_all_keys neqb (gw g)); auto. apply bresolve_all_F2; auto.
  - eexists _, os, os1. split; [reflexivity|]. apply W_change; auto.
Qed.
Lemma one_run es : forall os os1 g g1 xs g', binding es -> W os os1 g g1 -> grun neqb es g = Some (xs, g') ->
  exists g1' os' os1', grun neqb (by_one es) g1 = Some (xs, g1') /\ W os' os1' g' g1'.
Proof.
  induction es as [|[t a] es IH]; intros os os1 g g1 xs g' Hb H; cbn [grun by_one map snd]; intros E.
  - injection E as <- <-. eauto 6.
  - inversion Hb as [|? ? Ha Hb']; subst. pose proof (one_step t a os os1 g g1 H Ha) as S1. destruct (gstep neqb (t, a) g) as [[x g2]|]; [|discriminate].
    destruct S1 as (g12 & os2 & os12 & S1 & H2). destruct (grun neqb es g2) as [[ys g3]|] eqn:S2; [|discriminate]. injection E as <- <-.
    destruct (IH _ _ _ _ _ _ Hb' H2 S2) as (g13 & os3 & os13 & S3 & H3). rewrite S1. unfold by_one in S3. rewrite S3. eauto 6.
Qed.
Lemma as_by_one (es : list event) (defaults : dict N V) (v0 : V) xs g : binding es -> grun neqb es (g0 defaults) = Some (xs, g) ->
  option_map fst (srun neqb (by_one es) (s0 defaults v0)) = Some xs.
Proof.
  intros Hb E. destruct (one_run es [] [] (g0 defaults) (g0 defaults) xs g Hb) as (g1 & os & os1 & S1 & _); auto.
  - constructor; cbn; auto.
  - rewrite <- orderly_meaning by (apply undisturbed_orderly, by_one_undisturbed; constructor). rewrite S1. reflexivity.
Qed.
End DgnP.
