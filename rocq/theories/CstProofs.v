From Coq Require Import String List Bool Arith Lia.
From Verif Require Import Base CstModel CstSpec.
Import ListNotations.
Open Scope list_scope.

Lemma oeqb_ok a b : oeqb a b = true <-> a = b.
Proof. destruct a, b. unfold oeqb. cbn. rewrite andb_true_iff, !Nat.eqb_eq. split; [intros []; congruence|intros E; injection E; auto]. Qed.
Lemma oeqb_refl a : oeqb a a = true. Proof. now apply oeqb_ok. Qed.
Lemma set_same {A} (f : nat -> A) t a : set_at f t a t = a.
Proof. unfold set_at. now rewrite Nat.eqb_refl. Qed.
Lemma set_other {A} (f : nat -> A) t a u : u <> t -> set_at f t a u = f u.
Proof. unfold set_at. intros N. destruct (Nat.eqb_spec u t); congruence. Qed.

Section Sub.
Variable sub : nat -> nat -> bool.
Notation step := (step sub). Notation run := (run sub). Notation results := (results sub).

Lemma run_app es es' : forall w, run w (es ++ es') = run (run w es) es'.
Proof. induction es as [|e es IH]; intros w; cbn; [reflexivity|apply IH]. Qed.

(** ** Isolation *)
Definition alike (t : nat) (w w' : world) : Prop :=
  (forall n, lookup (t, n) (objs w) = lookup (t, n) (objs w')) /\ hst w t = hst w' t /\ rst w t = rst w' t.
Lemma alike_refl t w : alike t w w. Proof. repeat split. Qed.
Lemma alike_own t w w' o : alike t w w' -> (forall b, (o = Enter b \/ o = Exit b) -> fst b = t) ->
  alike t (fst (step w (t, o))) (fst (step w' (t, o))) /\ snd (step w (t, o)) = snd (step w' (t, o)).
Proof.
  intros (A & H & R) O. unfold alike. destruct o as [n b|[u k]|[u k]|n| | |c]; cbn [CstModel.step fst snd].
  - split; [|reflexivity]. split; [|auto]. intros m. cbn [objs lookup]. destruct (oeqb (t, m) (t, n)); auto.
  - assert (u = t) by exact (O (u, k) (or_introl eq_refl)). subst u. rewrite <- (A k).
    destruct (lookup (t, k) (objs w)) as [[l|l]|]; cbn [fst snd objs hst rst]; rewrite ?set_same, ?H, ?R; auto.
  - assert (u = t) by exact (O (u, k) (or_intror eq_refl)). subst u. rewrite <- (A k), <- H, <- R.
    destruct (lookup (t, k) (objs w)) as [[l|l]|]; [destruct (hst w t) eqn:E|destruct (rst w t) eqn:E|]; cbn [fst snd objs hst rst]; rewrite ?set_same, <- ?H, <- ?R; auto.
  - rewrite R. auto.
  - rewrite R. auto.
  - rewrite H. auto.
  - rewrite H. auto.
Qed.
Lemma alike_other t u w w' o : u <> t -> alike t w w' -> (forall b, (o = Enter b \/ o = Exit b) -> fst b = u) -> alike t (fst (step w (u, o))) w'.
Proof.
  intros N (A & H & R) O. unfold alike. destruct o as [n b|[v k]|[v k]|n| | |c]; cbn [CstModel.step fst snd]; auto.
  - split; [|auto]. intros m. cbn [objs lookup]. destruct (oeqb (t, m) (u, n)) eqn:E; [|auto]. apply oeqb_ok in E. congruence.
  - assert (v = u) by exact (O (v, k) (or_introl eq_refl)). subst v.
    destruct (lookup (u, k) (objs w)) as [[l|l]|]; cbn [fst snd objs hst rst]; rewrite ?set_other by congruence; auto.
  - assert (v = u) by exact (O (v, k) (or_intror eq_refl)). subst v.
    destruct (lookup (u, k) (objs w)) as [[l|l]|]; [destruct (hst w u)|destruct (rst w u)|]; cbn [fst snd objs hst rst]; rewrite ?set_other by congruence; auto.
Qed.
Definition mine {A} (t : nat) (l : list (nat * A)) : list (nat * A) := filter (fun e => Nat.eqb (fst e) t) l.
Lemma isolated_from t es : own_use es -> forall w w', alike t w w' -> mine t (results w es) = results w' (mine t es).
Proof.
  intros O. induction es as [|[u o] es IH]; intros w w' A; [reflexivity|]. unfold mine. cbn [CstModel.results filter fst].
  assert (O' : own_use es) by (intros v b H; apply (O v b); cbn; tauto).
  assert (Ou : forall b, (o = Enter b \/ o = Exit b) -> fst b = u) by (intros b H; apply (O u b); cbn; destruct H as [->| ->]; auto).
  destruct (Nat.eqb_spec u t) as [->|N].
  - destruct (alike_own t w w' o A Ou) as [A' E]. cbn [CstModel.results fst]. rewrite E. f_equal. apply (IH O'). exact A'.
  - apply (IH O'). now apply alike_other.
Qed.
Theorem isolated t es : own_use es -> mine t (results w0 es) = results w0 (mine t es).
Proof. intros O. apply isolated_from; [exact O|apply alike_refl]. Qed.

(** ** What is found *)
Lemma open_snoc t es e : open t (es ++ [e]) = opens t (open t es) e.
Proof. unfold open. now rewrite fold_left_app. Qed.
Lemma made_snoc es e o : made (es ++ [e]) o = match made es o with Some b => Some b | None => match e with (t, New n b) => if oeqb o (t, n) then Some b else None | _ => None end end.
Proof.
  induction es as [|[t []] es IH]; cbn [app made]; try exact IH.
  - destruct e as [t []]; reflexivity.
  - destruct (oeqb o (t, n)); [reflexivity|exact IH].
Qed.
Definition handler_blocks (es : list (nat * op)) (l : list obj) := flat_map (fun o => match made es o with Some (Handlers l) => [l] | _ => [] end) l.
Definition restart_blocks (es : list (nat * op)) (l : list obj) := flat_map (fun o => match made es o with Some (Restarts l) => [(o, l)] | _ => [] end) l.
Record inv (es : list (nat * op)) (w : world) : Prop := mkinv {
  i_objs : forall o, lookup o (objs w) = made es o;
  i_made : forall t o, In o (open t es) -> made es o <> None /\ fst o = t;
  i_once : forall t, NoDup (open t es);
  i_h : forall t, hst w t = handler_blocks es (open t es);
  i_r : forall t, rst w t = restart_blocks es (open t es) }.
Lemma proper_prefix es es' : proper (es ++ es') -> proper es.
Proof.
  intros (A & B & C). repeat split.
  - intros before t n b after ->. eapply A. rewrite <- app_assoc. reflexivity.
  - eapply B. rewrite H, <- app_assoc. reflexivity.
  - eapply B. rewrite H, <- app_assoc. reflexivity.
  - intros before t o after ->. eapply C. rewrite <- app_assoc. reflexivity.
Qed.
Lemma own_prefix es es' : own_use (es ++ es') -> own_use es.
Proof. intros O t o H. apply O. rewrite !in_app_iff. tauto. Qed.
Lemma open_other t es u o : u <> t -> open t (es ++ [(u, o)]) = open t es.
Proof. intros N. rewrite open_snoc. unfold opens. cbn. destruct (Nat.eqb_spec u t); congruence. Qed.
Lemma blocks_same {B} es e l (f : obj -> option bindings -> list B) : (forall o, In o l -> made es o <> None) ->
  flat_map (fun o => f o (made (es ++ [e]) o)) l = flat_map (fun o => f o (made es o)) l.
Proof.
  intros H. induction l as [|o l IH]; [reflexivity|]. cbn [flat_map]. rewrite IH by (intros x I; apply H; now right). f_equal.
  rewrite made_snoc. destruct (made es o) eqn:E; [reflexivity|]. exfalso. apply (H o); [now left|exact E].
Qed.
Lemma filter_out o l : ~ In o l -> filter (fun o' => negb (oeqb o o')) l = l.
Proof.
  intros N. induction l as [|a l IH]; [reflexivity|]. cbn. destruct (oeqb o a) eqn:E; [apply oeqb_ok in E; subst; destruct N; now left|].
  cbn. f_equal. apply IH. intros I. apply N. now right.
Qed.
Lemma inv_keep es w t o : inv es w -> (forall b, o <> Enter b) -> (forall b, o <> Exit b) -> (forall n b, o <> New n b) -> inv (es ++ [(t, o)]) w.
Proof.
  intros [I1 I2 I3 I4 I5] N1 N2 N3.
  assert (Op : forall u, open u (es ++ [(t, o)]) = open u es).
  { intros u. rewrite open_snoc. unfold opens. cbn. destruct (Nat.eqb t u); [|reflexivity]. destruct o; try reflexivity; [now destruct (N1 o)|now destruct (N2 o)]. }
  assert (Md : forall x, made (es ++ [(t, o)]) x = made es x).
  { intros x. rewrite made_snoc. destruct (made es x); [reflexivity|]. destruct o; try reflexivity. now destruct (N3 n b). }
  constructor.
  - intros x. now rewrite Md.
  - intros u x. rewrite Op, Md. apply I2.
  - intros u. rewrite Op. apply I3.
  - intros u. rewrite Op, I4. unfold handler_blocks. apply flat_map_ext. intros x. now rewrite Md.
  - intros u. rewrite Op, I5. unfold restart_blocks. apply flat_map_ext. intros x. now rewrite Md.
Qed.
Lemma hb_same es es' l : (forall x, made es x = made es' x) -> handler_blocks es l = handler_blocks es' l.
Proof. intros H. unfold handler_blocks. apply flat_map_ext. intros x. now rewrite H. Qed.
Lemma rb_same es es' l : (forall x, made es x = made es' x) -> restart_blocks es l = restart_blocks es' l.
Proof. intros H. unfold restart_blocks. apply flat_map_ext. intros x. now rewrite H. Qed.
Lemma flat_map_nil {A B} (f : A -> list B) l : (forall x, In x l -> f x = []) -> flat_map f l = [].
Proof. induction l as [|x l IH]; intros H; [reflexivity|]. cbn. rewrite (H x (or_introl eq_refl)), IH; [reflexivity|]. intros y J. apply H. now right. Qed.
Lemma inv_step es w e : own_use (es ++ [e]) -> proper (es ++ [e]) -> inv es w -> inv (es ++ [e]) (fst (step w e)) /\
  (match snd e with New _ _ | Enter _ | Exit _ => snd (step w e) = Nothing | _ => True end).
Proof.
  intros O P I. destruct e as [t o]. pose proof I as [I1 I2 I3 I4 I5].
  destruct o as [n b|o|o|n| | |c]; try (split; [apply inv_keep; [exact I|discriminate..]|exact Logic.I]).
  - split; [|reflexivity]. assert (F : made es (t, n) = None) by (eapply (proj1 P); reflexivity).
    assert (Op : forall u, open u (es ++ [(t, New n b)]) = open u es) by (intros u; rewrite open_snoc; unfold opens; cbn; now destruct (Nat.eqb t u)).
    constructor; cbn [CstModel.step fst objs hst rst].
    + intros o. rewrite made_snoc. cbn [lookup]. rewrite I1. destruct (oeqb o (t, n)) eqn:E; [|destruct (made es o); reflexivity].
      apply oeqb_ok in E. subst o. now rewrite F.
    + intros u o J. rewrite Op in J. destruct (I2 u o J) as [M U]. split; [|exact U]. rewrite made_snoc. destruct (made es o); congruence.
    + intros u. rewrite Op. apply I3.
    + intros u. rewrite Op, I4. unfold handler_blocks. symmetry. apply (blocks_same es (t, New n b) (open u es) (fun _ m => match m with Some (Handlers l) => [l] | _ => [] end)). intros o J. now apply (I2 u).
    + intros u. rewrite Op, I5. unfold restart_blocks. symmetry. apply (blocks_same es (t, New n b) (open u es) (fun o m => match m with Some (Restarts l) => [(o, l)] | _ => [] end)). intros o J. now apply (I2 u).
  - assert (Ot : fst o = t) by (apply (O t o); left; apply in_or_app; right; now left).
    destruct (proj1 (proj2 P) es t o [] eq_refl) as [M F].
    assert (Md : forall x, made (es ++ [(t, Enter o)]) x = made es x) by (intros x; rewrite made_snoc; now destruct (made es x)).
    assert (Op : open t (es ++ [(t, Enter o)]) = o :: open t es) by (rewrite open_snoc; unfold opens; cbn; now rewrite Nat.eqb_refl).
    cbn [CstModel.step snd]. rewrite I1. destruct (made es o) as [b|] eqn:E; [|congruence].
    assert (G1 : forall x, In x (o :: open t es) -> made es x <> None /\ fst x = t) by (intros x [<-|J]; [split; [congruence|exact Ot]|now apply I2]).
    assert (G2 : NoDup (o :: open t es)) by (constructor; [exact F|apply I3]).
    split; [|destruct b; reflexivity].
    destruct b as [l|l]; constructor; cbn [fst objs hst rst].
    + intros x. now rewrite Md, I1.
    + intros u x. rewrite Md. destruct (Nat.eq_dec t u) as [<-|N]; [rewrite Op; apply G1|rewrite open_other by exact N; apply I2].
    + intros u. destruct (Nat.eq_dec t u) as [<-|N]; [rewrite Op; apply G2|rewrite open_other by exact N; apply I3].
    + intros u. rewrite (hb_same _ _ _ Md).
      rewrite Ot. destruct (Nat.eq_dec t u) as [<-|N]; [rewrite Op, set_same; unfold handler_blocks; cbn [flat_map]; rewrite E; cbn [app]; f_equal; apply I4|rewrite open_other by exact N; rewrite set_other by congruence; apply I4].
    + intros u. rewrite (rb_same _ _ _ Md).
      destruct (Nat.eq_dec t u) as [<-|N]; [rewrite Op; unfold restart_blocks; cbn [flat_map]; rewrite E; apply I5|rewrite open_other by exact N; apply I5].
    + intros x. now rewrite Md, I1.
    + intros u x. rewrite Md. destruct (Nat.eq_dec t u) as [<-|N]; [rewrite Op; apply G1|rewrite open_other by exact N; apply I2].
    + intros u. destruct (Nat.eq_dec t u) as [<-|N]; [rewrite Op; apply G2|rewrite open_other by exact N; apply I3].
    + intros u. rewrite (hb_same _ _ _ Md).
      destruct (Nat.eq_dec t u) as [<-|N]; [rewrite Op; unfold handler_blocks; cbn [flat_map]; rewrite E; apply I4|rewrite open_other by exact N; apply I4].
    + intros u. rewrite (rb_same _ _ _ Md).
      rewrite Ot. destruct (Nat.eq_dec t u) as [<-|N]; [rewrite Op, set_same; unfold restart_blocks; cbn [flat_map]; rewrite E; cbn [app]; f_equal; apply I5|rewrite open_other by exact N; rewrite set_other by congruence; apply I5].
  - assert (Ot : fst o = t) by (apply (O t o); right; apply in_or_app; right; now left).
    destruct (proj2 (proj2 P) es t o [] eq_refl) as (inner & rest & R & K).
    assert (Md : forall x, made (es ++ [(t, Exit o)]) x = made es x) by (intros x; rewrite made_snoc; now destruct (made es x)).
    pose proof (I3 t) as ND. rewrite R in ND. pose proof (NoDup_remove_1 _ _ _ ND) as ND'. pose proof (NoDup_remove_2 _ _ _ ND) as F. subst t.
    assert (Op : open (fst o) (es ++ [(fst o, Exit o)]) = inner ++ rest).
    { rewrite open_snoc; unfold opens; cbn; rewrite Nat.eqb_refl, R, filter_app; cbn; rewrite oeqb_refl; cbn. rewrite <- filter_app. now apply filter_out. }
    destruct (I2 (fst o) o) as [M _]; [rewrite R; apply in_or_app; right; now left|]. set (t := fst o) in *.
    assert (G1 : forall x, In x (inner ++ rest) -> made es x <> None /\ fst x = t).
    { intros x J; apply I2; rewrite R. apply in_or_app. apply in_app_or in J. destruct J; [now left|right; now right]. }
    cbn [CstModel.step snd]. rewrite I1. destruct (made es o) as [[l|l]|] eqn:E; [| |congruence]; fold t.
    + assert (K0 : handler_blocks es inner = []).
      { apply flat_map_nil. intros x J. specialize (K x J). unfold same_kind in K. rewrite E in K. destruct (made es x) as [[]|]; tauto. }
      assert (Hd : hst w t = l :: handler_blocks es (inner ++ rest)).
      { rewrite I4, R. unfold handler_blocks in *. rewrite !flat_map_app, K0. cbn [flat_map]. now rewrite E. }
      rewrite Hd. split; [|reflexivity]. constructor; cbn [fst objs hst rst].
      * intros x. now rewrite Md, I1.
      * intros u x. rewrite Md. destruct (Nat.eq_dec t u) as [<-|N]; [rewrite Op; apply G1|rewrite open_other by exact N; apply I2].
      * intros u. destruct (Nat.eq_dec t u) as [<-|N]; [rewrite Op; exact ND'|rewrite open_other by exact N; apply I3].
      * intros u. rewrite (hb_same _ _ _ Md).
        destruct (Nat.eq_dec t u) as [<-|N]; [now rewrite Op, set_same|rewrite open_other by exact N; rewrite set_other by congruence; apply I4].
      * intros u. rewrite (rb_same _ _ _ Md).
        destruct (Nat.eq_dec t u) as [<-|N]; [|rewrite open_other by exact N; apply I5]. rewrite Op, I5, R. unfold restart_blocks. rewrite !flat_map_app. cbn [flat_map]. now rewrite E.
    + assert (K0 : restart_blocks es inner = []).
      { apply flat_map_nil. intros x J. specialize (K x J). unfold same_kind in K. rewrite E in K. destruct (made es x) as [[]|]; tauto. }
      assert (Hd : rst w t = (o, l) :: restart_blocks es (inner ++ rest)).
      { rewrite I5, R. unfold restart_blocks in *. rewrite !flat_map_app, K0. cbn [flat_map]. now rewrite E. }
      rewrite Hd. split; [|reflexivity]. constructor; cbn [fst objs hst rst].
      * intros x. now rewrite Md, I1.
      * intros u x. rewrite Md. destruct (Nat.eq_dec t u) as [<-|N]; [rewrite Op; apply G1|rewrite open_other by exact N; apply I2].
      * intros u. destruct (Nat.eq_dec t u) as [<-|N]; [rewrite Op; exact ND'|rewrite open_other by exact N; apply I3].
      * intros u. rewrite (hb_same _ _ _ Md).
        destruct (Nat.eq_dec t u) as [<-|N]; [|rewrite open_other by exact N; apply I4]. rewrite Op, I4, R. unfold handler_blocks. rewrite !flat_map_app. cbn [flat_map]. now rewrite E.
      * intros u. rewrite (rb_same _ _ _ Md).
        destruct (Nat.eq_dec t u) as [<-|N]; [now rewrite Op, set_same|rewrite open_other by exact N; rewrite set_other by congruence; apply I5].
Qed.
Lemma inv_run es : own_use es -> proper es -> inv es (run w0 es).
Proof.
  induction es as [|e es IH] using rev_ind; intros O P.
  - constructor; try reflexivity; [intros t o []|intros t; constructor].
  - rewrite run_app. cbn [CstModel.run]. apply inv_step; auto. apply IH; [eapply own_prefix|eapply proper_prefix]; eauto.
Qed.

Lemma find_ok es t n : match find_restart n (restart_blocks es (open t es)) with
  | Some (o, f) => innermost es t n o f
  | None => forall o, In o (open t es) -> restart_of es n o = None end.
Proof.
  unfold innermost. induction (open t es) as [|o l IH]; [intros o []|]. cbn [restart_blocks flat_map]. fold (restart_blocks es l).
  assert (Q : match find_restart n (restart_blocks es l) with
    | Some (p, f) => restart_of es n o = None -> exists inner outer, o :: l = inner ++ p :: outer /\ restart_of es n p = Some f /\ (forall o', In o' inner -> restart_of es n o' = None)
    | None => restart_of es n o = None -> forall p, In p (o :: l) -> restart_of es n p = None end).
  { destruct (find_restart n (restart_blocks es l)) as [[p f]|].
    - intros H. destruct IH as (inner & outer & -> & E & F). exists (o :: inner), outer. split; [reflexivity|]. split; [exact E|]. intros o' [<-|J]; auto.
    - intros H p [<-|J]; auto. }
  destruct (made es o) as [[b|b]|] eqn:E; cbn [app find_restart].
  - assert (N : restart_of es n o = None) by (unfold restart_of; now rewrite E).
    destruct (find_restart n (restart_blocks es l)) as [[p f]|]; exact (Q N).
  - destruct (assoc n b) as [f|] eqn:A.
    + exists [], l. split; [reflexivity|]. split; [unfold restart_of; now rewrite E|intros o' []].
    + assert (N : restart_of es n o = None) by (unfold restart_of; now rewrite E).
      destruct (find_restart n (restart_blocks es l)) as [[p f]|]; exact (Q N).
  - assert (N : restart_of es n o = None) by (unfold restart_of; now rewrite E).
    destruct (find_restart n (restart_blocks es l)) as [[p f]|]; exact (Q N).
Qed.
Lemma innermost_unique es t n o f o' f' : innermost es t n o f -> innermost es t n o' f' -> o = o' /\ f = f'.
Proof.
  intros (a & b & E & F & G) (a' & b' & E' & F' & G'). rewrite E in E'. clear E.
  revert a' E' G'. induction a as [|x a IH]; intros [|y a'] E' G'; cbn in E'; injection E' as X Y.
  - subst. split; [reflexivity|congruence].
  - subst y. rewrite (G' o (or_introl eq_refl)) in F. discriminate.
  - subst x. rewrite (G o' (or_introl eq_refl)) in F'. discriminate.
  - subst y. apply (IH (fun z J => G z (or_intror J)) a' Y (fun z J => G' z (or_intror J))).
Qed.

Section Unseen.
Context {K : Type}.
Variable eqb : K -> K -> bool.
Hypothesis eqb_ok : forall x y, eqb x y = true <-> x = y.
Lemma seen_in k l : existsb (eqb k) l = true <-> In k l.
Proof. rewrite existsb_exists. split; [intros (y & I & E); apply eqb_ok in E; now subst|intros I; exists k; split; [exact I|now apply eqb_ok]]. Qed.
Lemma unseen_ok l : forall seen, NoDup (map fst (unseen eqb seen l)) /\ (forall k, In k seen -> ~ In k (map fst (unseen eqb seen l))) /\
  forall k f, In (k, f) (unseen eqb seen l) <-> ~ In k seen /\ exists a b, l = a ++ (k, f) :: b /\ ~ In k (map fst a).
Proof.
  induction l as [|[k f] l IH]; intros seen; cbn [unseen].
  - split; [constructor|]. split; [intros k _ []|]. intros k f. split; [intros []|]. intros (_ & a & b & E & _). now destruct a.
  - destruct (existsb (eqb k) seen) eqn:E.
    + apply seen_in in E. destruct (IH seen) as (N & M & S). split; [exact N|]. split; [exact M|]. intros k' f'. rewrite S. split.
      * intros (H & a & b & -> & J). split; [exact H|]. exists ((k, f) :: a), b. split; [reflexivity|]. cbn. intros [->|J']; auto.
      * intros (H & [|[k2 f2] a] & b & Q & J); cbn in Q; injection Q as Q1 Q2.
        -- congruence.
        -- split; [exact H|]. exists a, b. split; [assumption|]. intros J'. apply J. now right.
    + assert (Nk : ~ In k seen) by (intros J; apply seen_in in J; congruence). destruct (IH (k :: seen)) as (N & M & S). split; [|split].
      * cbn. constructor; [apply M; now left|exact N].
      * intros k' J. cbn. intros [<-|J']; [auto|]. apply (M k'); [now right|exact J'].
      * intros k' f'. cbn [In]. rewrite S. split.
        -- intros [Q|(H & a & b & -> & J)].
           ++ injection Q as <- <-. split; [exact Nk|]. exists [], l. split; [reflexivity|intros []].
           ++ split; [intros J'; apply H; now right|]. exists ((k, f) :: a), b. split; [reflexivity|]. cbn. intros [->|J']; [apply H; now left|auto].
        -- intros (H & [|[k2 f2] a] & b & Q & J); cbn in Q.
           ++ injection Q as Q1 Q2 Q3. left. congruence.
           ++ injection Q as Q1 Q2 Q3. subst k2 f2. right. split; [|exists a, b; split; [assumption|intros J'; apply J; now right]].
              intros [->|J']; [apply J; now left|auto].
Qed.
End Unseen.
Lemma assoc_split n (l : list (string * nat)) f : assoc n l = Some f <-> exists a b, l = a ++ (n, f) :: b /\ ~ In n (map fst a).
Proof.
  induction l as [|[m g] l IH]; cbn [assoc].
  - split; [discriminate|]. intros (a & b & E & _). now destruct a.
  - destruct (String.eqb_spec n m) as [->|N].
    + split.
      * intros E. injection E as ->. exists [], l. split; [reflexivity|intros []].
      * intros ([|[k h] a] & b & E & J); cbn in E; [congruence|]. injection E as E1 E2 E3. subst. destruct J. now left.
    + rewrite IH. split.
      * intros (a & b & -> & J). exists ((m, g) :: a), b. split; [reflexivity|]. cbn. intros [E|J']; [congruence|auto].
      * intros ([|[k h] a] & b & E & J); cbn in E; [congruence|]. injection E as E1 E2 E3. subst. exists a, b. split; [reflexivity|]. intros J'. apply J. now right.
Qed.
Lemma assoc_app n (a b : list (string * nat)) : assoc n (a ++ b) = match assoc n a with Some f => Some f | None => assoc n b end.
Proof. induction a as [|[m g] a IH]; cbn; [reflexivity|]. now destruct (String.eqb n m). Qed.
Lemma assoc_flat es n l : assoc n (flat_map snd (restart_blocks es l)) = match find_restart n (restart_blocks es l) with Some (_, f) => Some f | None => None end.
Proof.
  induction (restart_blocks es l) as [|[o b] m IH]; [reflexivity|]. cbn [flat_map find_restart snd]. rewrite assoc_app. now destruct (assoc n b).
Qed.
Lemma restarts_ok es t n f : In (n, f) (available_restarts (restart_blocks es (open t es))) <-> exists o, innermost es t n o f.
Proof.
  unfold available_restarts. destruct (unseen_ok String.eqb String.eqb_eq (flat_map snd (restart_blocks es (open t es))) []) as (_ & _ & S). rewrite S, <- assoc_split.
  rewrite assoc_flat. pose proof (find_ok es t n) as F. destruct (find_restart n (restart_blocks es (open t es))) as [[o g]|].
  - split; [intros [_ E]; injection E as ->; eauto|]. intros [o' I]. split; [intros []|]. f_equal. now apply (innermost_unique es t n o g o' f).
  - split; [intros [_ E]; discriminate|]. intros (o & a & b & E & R & _). rewrite F in R; [discriminate|]. rewrite E. apply in_or_app. right. now left.
Qed.
Definition spread (l : list (list nat * nat)) : list (nat * nat) := flat_map (fun th : list nat * nat => map (fun t => (t, snd th)) (fst th)) l.
Lemma spread_app a b : spread (a ++ b) = spread a ++ spread b.
Proof. unfold spread. apply flat_map_app. Qed.
Lemma in_spread k l : In k (map fst (spread l)) <-> exists ts h, In (ts, h) l /\ In k ts.
Proof.
  unfold spread. rewrite in_map_iff. split.
  - intros ([k' h] & E & I). cbn in E. subst k'. apply in_flat_map in I. destruct I as ([ts h'] & I & J). cbn in J. apply in_map_iff in J. destruct J as (x & E & J).
    injection E as -> ->. eauto.
  - intros (ts & h & I & J). exists (k, h). split; [reflexivity|]. apply in_flat_map. exists (ts, h). split; [exact I|]. cbn. apply in_map_iff. eauto.
Qed.
Lemma first_spread k h l : (exists a b, spread l = a ++ (k, h) :: b /\ ~ In k (map fst a)) <->
  exists before ts after, l = before ++ (ts, h) :: after /\ In k ts /\ forall ts' h', In (ts', h') before -> ~ In k ts'.
Proof.
  split.
  - induction l as [|[ts g] l IH]; intros (a & b & E & J); [now destruct a|].
    destruct (in_dec Nat.eq_dec k ts) as [I|N].
    + exists [], ts, l. split; [|split; [exact I|intros ts' h' []]]. cbn [app]. do 2 f_equal.
      assert (G : forall ts a, In k ts -> map (fun t => (t, g)) ts ++ spread l = a ++ (k, h) :: b -> ~ In k (map fst a) -> g = h).
      { clear. induction ts as [|y ts IH]; intros a I E J; [destruct I|]. cbn in E. destruct a as [|[z q] a]; cbn in E; injection E as E1 E2 E3.
        - congruence.
        - subst z q. destruct (Nat.eq_dec y k) as [->|N]; [destruct J; now left|]. destruct I as [I|I]; [congruence|]. apply (IH a I E3). intros K. apply J. now right. }
      apply (G ts a I); [exact E|exact J].
    + assert (G : forall ts a, ~ In k ts -> map (fun t => (t, g)) ts ++ spread l = a ++ (k, h) :: b -> ~ In k (map fst a) -> exists a', spread l = a' ++ (k, h) :: b /\ ~ In k (map fst a')).
      { clear. induction ts as [|y ts IH]; intros a N E J; [exists a; auto|]. cbn in E. destruct a as [|[z q] a]; cbn in E; injection E as E1 E2 E3.
        - destruct N. now left.
        - subst z q. apply (IH a); [intros K; apply N; now right|exact E3|intros K; apply J; now right]. }
      destruct (G ts a N E J) as (a' & E' & J'). destruct IH as (before & ts2 & after & -> & I & F); [eauto|].
      exists ((ts, g) :: before), ts2, after. split; [reflexivity|]. split; [exact I|]. intros ts' h' [Q|Q]; [injection Q as <- <-; exact N|eauto].
  - intros (before & ts & after & -> & I & F). rewrite spread_app.
    assert (G : exists u v, ts = u ++ k :: v /\ ~ In k u).
    { clear F. induction ts as [|y ts IH]; [destruct I|]. destruct (Nat.eq_dec y k) as [->|N]; [exists [], ts; split; [reflexivity|intros []]|].
      destruct I as [I|I]; [congruence|]. destruct (IH I) as (u & v & -> & J). exists (y :: u), v. split; [reflexivity|]. intros [K|K]; auto. }
    destruct G as (u & v & -> & J). exists (spread before ++ map (fun t => (t, h)) u), (map (fun t => (t, h)) v ++ spread after). split.
    + rewrite <- app_assoc. f_equal. unfold spread at 1. cbn [flat_map fst snd]. rewrite map_app, <- app_assoc. reflexivity.
    + rewrite map_app, in_app_iff, map_map. cbn. rewrite map_id. intros [K|K]; [|auto]. apply in_spread in K. destruct K as (ts & h' & K & K'). exact (F ts h' K K').
Qed.
Lemma handlers_flat es t : flat_map (fun e => e) (handler_blocks es (open t es)) = in_order es t.
Proof. unfold handler_blocks, in_order. induction (open t es) as [|o l IH]; [reflexivity|]. cbn [flat_map]. rewrite flat_map_app, IH. f_equal. destruct (made es o) as [[b|b]|]; cbn; rewrite ?app_nil_r; reflexivity. Qed.
Lemma flat_flat {A B C} (f : B -> list C) (g : A -> list B) l : flat_map (fun x => flat_map f (g x)) l = flat_map f (flat_map g l).
Proof. induction l; cbn; [reflexivity|]. now rewrite flat_map_app, IHl. Qed.
Theorem found before t o after : let es := before ++ (t, o) :: after in own_use es -> proper es ->
  right sub before t o (snd (step (run w0 before) (t, o))).
Proof.
  cbv zeta. intros O P. change ((t, o) :: after) with ([(t, o)] ++ after) in O, P. rewrite app_assoc in O, P. apply own_prefix in O. apply proper_prefix in P.
  assert (I : inv before (run w0 before)) by (apply inv_run; [eapply own_prefix|eapply proper_prefix]; eauto).
  destruct (inv_step before _ (t, o) O P I) as [_ S]. destruct I as [I1 I2 I3 I4 I5].
  destruct o as [n b|o|o|n| | |c]; cbn [snd] in S; [exact S|exact S|exact S|..]; clear S; cbn [right CstModel.step snd].
  - rewrite I5. pose proof (find_ok before t n) as F. destruct (find_restart n (restart_blocks before (open t before))) as [[o f]|]; [left; eauto|right; auto].
  - rewrite I5. eexists. split; [reflexivity|]. split; [unfold available_restarts; apply (unseen_ok String.eqb String.eqb_eq)|]. intros n f. apply restarts_ok.
  - rewrite I4. eexists. split; [reflexivity|]. unfold available_handlers. rewrite (flat_flat (fun th : list nat * nat => map (fun t0 => (t0, snd th)) (fst th)) (fun e => e)), handlers_flat.
    fold (spread (in_order before t)). destruct (unseen_ok Nat.eqb Nat.eqb_eq (spread (in_order before t)) []) as (N & _ & S). split; [exact N|].
    intros ty h. rewrite S, first_spread. split; [intros [_ H]; exact H|intros H; split; [intros []|exact H]].
  - rewrite I4. f_equal. unfold find_handlers. rewrite (flat_flat (fun th : list nat * nat => if existsb (sub c) (fst th) then [snd th] else []) (fun e => e)), handlers_flat.
    induction (in_order before t) as [|[ts h] l IH]; [reflexivity|]. cbn [flat_map filter fst]. destruct (existsb (sub c) ts); cbn [map app snd]; now rewrite IH.
Qed.
(** ** Blocks that are left in any order *)
Record linv (es : list (nat * op)) (w : world) : Prop := mklinv {
  l_objs : forall o, lookup o (objs w) = made es o;
  l_made : forall t o, In o (open t es) -> made es o <> None /\ fst o = t;
  l_once : forall t, NoDup (open t es);
  l_h : forall t, length (hst w t) = length (handler_blocks es (open t es));
  l_r : forall t, length (rst w t) = length (restart_blocks es (open t es)) }.
Lemma any_prefix es es' : any_order (es ++ es') -> any_order es.
Proof.
  intros (A & B & C). split; [|split].
  - intros before t n b after ->. eapply A. rewrite <- app_assoc. reflexivity.
  - intros before t o after ->. eapply B. rewrite <- app_assoc. reflexivity.
  - intros before t o after ->. eapply C. rewrite <- app_assoc. reflexivity.
Qed.
Lemma linv_step es w e : own_use (es ++ [e]) -> any_order (es ++ [e]) -> linv es w -> linv (es ++ [e]) (fst (step w e)) /\
  (match snd e with New _ _ | Enter _ | Exit _ => snd (step w e) = Nothing | _ => True end).
Proof.
  intros O P I. destruct e as [t o]. pose proof I as [I1 I2 I3 I4 I5].
  assert (Keep : (forall b, o <> Enter b) -> (forall b, o <> Exit b) -> (forall n b, o <> New n b) -> linv (es ++ [(t, o)]) w).
  { intros N1 N2 N3.
    assert (Op : forall u, open u (es ++ [(t, o)]) = open u es).
    { intros u. rewrite open_snoc. unfold opens. cbn. destruct (Nat.eqb t u); [|reflexivity]. destruct o; try reflexivity; [now destruct (N1 o)|now destruct (N2 o)]. }
    assert (Md : forall x, made (es ++ [(t, o)]) x = made es x).
    { intros x. rewrite made_snoc. destruct (made es x); [reflexivity|]. destruct o; try reflexivity. now destruct (N3 n b). }
    constructor; intros u; rewrite ?Op, ?Md, ?(hb_same _ _ _ Md), ?(rb_same _ _ _ Md); auto. intros x. rewrite Md. apply I2. }
  destruct o as [n b|o|o|n| | |c]; try (split; [apply Keep; discriminate|exact Logic.I]); clear Keep.
  - split; [|reflexivity]. assert (F : made es (t, n) = None) by (eapply (proj1 P); reflexivity).
    assert (Op : forall u, open u (es ++ [(t, New n b)]) = open u es) by (intros u; rewrite open_snoc; unfold opens; cbn; now destruct (Nat.eqb t u)).
    constructor; cbn [CstModel.step fst objs hst rst].
    + intros o. rewrite made_snoc. cbn [lookup]. rewrite I1. destruct (oeqb o (t, n)) eqn:E; [|destruct (made es o); reflexivity].
      apply oeqb_ok in E. subst o. now rewrite F.
    + intros u o J. rewrite Op in J. destruct (I2 u o J) as [M U]. split; [|exact U]. rewrite made_snoc. destruct (made es o); congruence.
    + intros u. rewrite Op. apply I3.
    + intros u. rewrite Op, I4. f_equal. unfold handler_blocks. symmetry. apply (blocks_same es (t, New n b) (open u es) (fun _ m => match m with Some (Handlers l) => [l] | _ => [] end)). intros o J. now apply (I2 u).
    + intros u. rewrite Op, I5. f_equal. unfold restart_blocks. symmetry. apply (blocks_same es (t, New n b) (open u es) (fun o m => match m with Some (Restarts l) => [(o, l)] | _ => [] end)). intros o J. now apply (I2 u).
  - assert (Ot : fst o = t) by (apply (O t o); left; apply in_or_app; right; now left).
    destruct (proj1 (proj2 P) es t o [] eq_refl) as [M F].
    assert (Md : forall x, made (es ++ [(t, Enter o)]) x = made es x) by (intros x; rewrite made_snoc; now destruct (made es x)).
    assert (Op : open t (es ++ [(t, Enter o)]) = o :: open t es) by (rewrite open_snoc; unfold opens; cbn; now rewrite Nat.eqb_refl).
    cbn [CstModel.step snd]. rewrite I1. destruct (made es o) as [b|] eqn:E; [|congruence].
    assert (G1 : forall x, In x (o :: open t es) -> made es x <> None /\ fst x = t) by (intros x [<-|J]; [split; [congruence|exact Ot]|now apply I2]).
    assert (G2 : NoDup (o :: open t es)) by (constructor; [exact F|apply I3]).
    split; [|destruct b; reflexivity].
    destruct b as [l|l]; (constructor; cbn [fst objs hst rst];
      [ intros x; now rewrite Md, I1
      | intros u x; rewrite Md; destruct (Nat.eq_dec t u) as [<-|N]; [rewrite Op; apply G1|rewrite open_other by exact N; apply I2]
      | intros u; destruct (Nat.eq_dec t u) as [<-|N]; [rewrite Op; apply G2|rewrite open_other by exact N; apply I3]
      | intros u; rewrite (hb_same _ _ _ Md), ?Ot; destruct (Nat.eq_dec t u) as [<-|N];
          [rewrite Op, ?set_same; unfold handler_blocks; cbn [flat_map]; rewrite E; cbn [app length]; rewrite I4; reflexivity|rewrite open_other by exact N; rewrite ?set_other by congruence; apply I4]
      | intros u; rewrite (rb_same _ _ _ Md), ?Ot; destruct (Nat.eq_dec t u) as [<-|N];
          [rewrite Op, ?set_same; unfold restart_blocks; cbn [flat_map]; rewrite E; cbn [app length]; rewrite I5; reflexivity|rewrite open_other by exact N; rewrite ?set_other by congruence; apply I5] ]).
  - assert (Ot : fst o = t) by (apply (O t o); right; apply in_or_app; right; now left).
    destruct (in_split _ _ (proj2 (proj2 P) es t o [] eq_refl)) as (inner & rest & R).
    assert (Md : forall x, made (es ++ [(t, Exit o)]) x = made es x) by (intros x; rewrite made_snoc; now destruct (made es x)).
    pose proof (I3 t) as ND. rewrite R in ND. pose proof (NoDup_remove_1 _ _ _ ND) as ND'. pose proof (NoDup_remove_2 _ _ _ ND) as F. subst t.
    assert (Op : open (fst o) (es ++ [(fst o, Exit o)]) = inner ++ rest).
    { rewrite open_snoc; unfold opens; cbn; rewrite Nat.eqb_refl, R, filter_app; cbn; rewrite oeqb_refl; cbn. rewrite <- filter_app. now apply filter_out. }
    destruct (I2 (fst o) o) as [M _]; [rewrite R; apply in_or_app; right; now left|]. set (t := fst o) in *.
    assert (G1 : forall x, In x (inner ++ rest) -> made es x <> None /\ fst x = t).
    { intros x J; apply I2; rewrite R. apply in_or_app. apply in_app_or in J. destruct J; [now left|right; now right]. }
    pose proof (I4 t) as Lh. pose proof (I5 t) as Lr. rewrite R in Lh, Lr. unfold handler_blocks in Lh. unfold restart_blocks in Lr.
    rewrite flat_map_app, app_length in Lh, Lr. cbn [flat_map] in Lh, Lr.
    cbn [CstModel.step snd]. rewrite I1. destruct (made es o) as [[l|l]|] eqn:E; [| |congruence]; fold t; cbn [app length] in Lh, Lr.
    + destruct (hst w t) as [|h0 hs] eqn:Hh; [cbn in Lh; lia|]. cbn [length] in Lh. split; [|reflexivity]. constructor; cbn [fst objs hst rst].
      * intros x. now rewrite Md, I1.
      * intros u x. rewrite Md. destruct (Nat.eq_dec t u) as [<-|N]; [rewrite Op; apply G1|rewrite open_other by exact N; apply I2].
      * intros u. destruct (Nat.eq_dec t u) as [<-|N]; [rewrite Op; exact ND'|rewrite open_other by exact N; apply I3].
      * intros u. rewrite (hb_same _ _ _ Md). destruct (Nat.eq_dec t u) as [<-|N]; [|rewrite open_other by exact N; rewrite set_other by congruence; apply I4].
        rewrite Op, set_same. unfold handler_blocks. rewrite flat_map_app, app_length. lia.
      * intros u. rewrite (rb_same _ _ _ Md). destruct (Nat.eq_dec t u) as [<-|N]; [|rewrite open_other by exact N; apply I5].
        rewrite Op. unfold restart_blocks. rewrite flat_map_app, app_length. exact Lr.
    + destruct (rst w t) as [|h0 hs] eqn:Hh; [cbn in Lr; lia|]. cbn [length] in Lr. split; [|reflexivity]. constructor; cbn [fst objs hst rst].
      * intros x. now rewrite Md, I1.
      * intros u x. rewrite Md. destruct (Nat.eq_dec t u) as [<-|N]; [rewrite Op; apply G1|rewrite open_other by exact N; apply I2].
      * intros u. destruct (Nat.eq_dec t u) as [<-|N]; [rewrite Op; exact ND'|rewrite open_other by exact N; apply I3].
      * intros u. rewrite (hb_same _ _ _ Md). destruct (Nat.eq_dec t u) as [<-|N]; [|rewrite open_other by exact N; apply I4].
        rewrite Op. unfold handler_blocks. rewrite flat_map_app, app_length. exact Lh.
      * intros u. rewrite (rb_same _ _ _ Md). destruct (Nat.eq_dec t u) as [<-|N]; [|rewrite open_other by exact N; rewrite set_other by congruence; apply I5].
        rewrite Op, set_same. unfold restart_blocks. rewrite flat_map_app, app_length. lia.
Qed.
Lemma linv_run es : own_use es -> any_order es -> linv es (run w0 es).
Proof.
  induction es as [|e es IH] using rev_ind; intros O P.
  - constructor; try reflexivity; [intros t o []|intros t; constructor].
  - rewrite run_app. cbn [CstModel.run]. apply linv_step; auto. apply IH; [eapply own_prefix|eapply any_prefix]; eauto.
Qed.
Theorem restored before t o after : let es := before ++ (t, o) :: after in own_use es -> any_order es ->
  match o with New _ _ | Enter _ | Exit _ => snd (step (run w0 before) (t, o)) = Nothing | _ => True end /\
  (open t before = [] -> snd (step (run w0 before) (t, o)) = empty_result o).
Proof.
  cbv zeta. intros O P. change ((t, o) :: after) with ([(t, o)] ++ after) in O, P. rewrite app_assoc in O, P. apply own_prefix in O. apply any_prefix in P.
  assert (I : linv before (run w0 before)) by (apply linv_run; [eapply own_prefix|eapply any_prefix]; eauto).
  pose proof (proj2 (linv_step _ _ _ O P I)) as S1. cbn [snd] in S1. split; [destruct o; exact S1|]. intros E.
  pose proof (l_h _ _ I t) as Lh. pose proof (l_r _ _ I t) as Lr. rewrite E in Lh, Lr. cbn in Lh, Lr. apply length_zero_iff_nil in Lh, Lr.
  destruct o; try exact S1; cbn; rewrite ?Lh, ?Lr; reflexivity.
Qed.
End Sub.

(** ** A check of the hypotheses, for examples *)
Definition same_kindb (es : list (nat * op)) (o o' : obj) : bool :=
  match made es o, made es o' with
  | Some (Handlers _), Some (Handlers _) | Some (Restarts _), Some (Restarts _) => true
  | _, _ => false
  end.
Fixpoint innermost_of (es : list (nat * op)) (o : obj) (l : list obj) : bool :=
  match l with [] => false | o' :: l => oeqb o o' || (negb (same_kindb es o o') && innermost_of es o l) end.
Lemma innermost_of_ok es o l : innermost_of es o l = true -> exists inner outer, l = inner ++ o :: outer /\ forall o', In o' inner -> ~ same_kind es o o'.
Proof.
  induction l as [|a l IH]; cbn; intros H; [discriminate|]. apply orb_true_iff in H. destruct H as [H|H].
  - apply oeqb_ok in H. subst. exists [], l. split; [reflexivity|intros ? []].
  - apply andb_true_iff in H. destruct H as [H1 H2]. destruct (IH H2) as (i & r & -> & K). exists (a :: i), r. split; [reflexivity|].
    intros x [<-|J]; [|now apply K]. unfold same_kindb, same_kind in *. destruct (made es o) as [[]|], (made es a) as [[]|]; cbn in H1; try discriminate; auto.
Qed.
Definition ok1 (before : list (nat * op)) (e : nat * op) : bool :=
  match e with
  | (t, New n _) => match made before (t, n) with None => true | _ => false end
  | (t, Enter o) => match made before o with None => false | _ => negb (existsb (oeqb o) (open t before)) && Nat.eqb (fst o) t end
  | (t, Exit o) => innermost_of before o (open t before) && Nat.eqb (fst o) t
  | _ => true
  end.
Fixpoint check (before es : list (nat * op)) : bool :=
  match es with [] => true | e :: es => ok1 before e && check (before ++ [e]) es end.
Lemma check_all es : forall before, check before es = true -> forall a e b, es = a ++ e :: b -> ok1 (before ++ a) e = true.
Proof.
  induction es as [|x es IH]; intros before C a e b E; [now destruct a|]. cbn in C. apply andb_true_iff in C. destruct C as [C1 C2].
  destruct a as [|y a]; cbn in E; injection E as -> E; [now rewrite app_nil_r|]. subst es. specialize (IH _ C2 a e b eq_refl). now rewrite <- app_assoc in IH.
Qed.
Lemma checked es : check [] es = true -> own_use es /\ proper es.
Proof.
  intros C. pose proof (check_all es [] C) as H. cbn [app] in H. split; [|split; [|split]].
  - intros t o [I|I]; apply in_split in I; destruct I as (a & b & E); specialize (H _ _ _ E); cbn in H.
    + destruct (made a o); [|discriminate]. apply andb_true_iff in H. now apply Nat.eqb_eq.
    + apply andb_true_iff in H. now apply Nat.eqb_eq.
  - intros a t n b c E. specialize (H _ _ _ E). cbn in H. now destruct (made a (t, n)).
  - intros a t o c E. specialize (H _ _ _ E). cbn in H. destruct (made a o) eqn:M; [|discriminate]. split; [discriminate|]. apply andb_true_iff in H. destruct H as [H _].
    intros I. apply negb_true_iff in H. assert (existsb (oeqb o) (open t a) = true) by (apply existsb_exists; exists o; split; [exact I|apply oeqb_refl]). congruence.
  - intros a t o c E. specialize (H _ _ _ E). cbn in H. apply andb_true_iff in H. destruct H as [H _]. now apply innermost_of_ok.
Qed.
(** Two threads, each with blocks of its own that have the same names *)
Definition interleaved : list (nat * op) :=
  [(0, New 0 (Handlers [([1], 10); ([2; 3], 11)])); (1, New 0 (Restarts [("use_value"%string, 20)])); (0, Enter (0, 0)); (1, Enter (1, 0));
   (0, New 1 (Restarts [("use_value"%string, 30); ("retry"%string, 31)])); (0, Enter (0, 1)); (0, New 2 (Restarts [("use_value"%string, 40)])); (0, Enter (0, 2));
   (0, FindRestart "use_value"); (1, FindRestart "use_value"); (0, AvailableRestarts); (1, FindHandlers 1); (0, FindHandlers 1); (0, Exit (0, 2));
   (0, FindRestart "use_value"); (0, FindRestart "retry"); (1, FindRestart "retry")].
Definition same (a b : nat) : bool := Nat.eqb a b.
Lemma interleaved_ok : own_use interleaved /\ proper interleaved /\
  map snd (filter (fun r => match snd r with Nothing => false | _ => true end) (results same w0 interleaved)) =
  [Found (Some ((0, 2), 40)); Found (Some ((1, 0), 20)); TheRestarts [("use_value"%string, 40); ("retry"%string, 31)]; Matching []; Matching [10];
   Found (Some ((0, 1), 30)); Found (Some ((0, 1), 31)); Found None].
Proof. destruct (checked interleaved) as [A B]; [reflexivity|]. split; [exact A|]. split; [exact B|]. reflexivity. Qed.

(** ** Blocks that are left in another order: a generator that is suspended inside a block *)
Definition suspended : list (nat * op) :=
  [(0, New 0 (Restarts [("a"%string, 1)])); (0, Enter (0, 0)); (0, New 1 (Restarts [("b"%string, 2)])); (0, Enter (0, 1)); (0, Exit (0, 0))].
Lemma out_of_order sub : open 0 suspended = [(0, 1)] /\
  snd (step sub (run sub w0 suspended) (0, FindRestart "b")) = Found None /\
  snd (step sub (run sub w0 suspended) (0, FindRestart "a")) = Found (Some ((0, 0), 1)).
Proof. repeat split. Qed.
(** ** A block that one thread makes and another enters *)
Fixpoint at_each (P : list (nat * op) -> nat * op -> Prop) (before es : list (nat * op)) : Prop :=
  match es with [] => True | e :: es => P before e /\ at_each P (before ++ [e]) es end.
Lemma at_all P es : forall before, at_each P before es -> forall a e c, es = a ++ e :: c -> P (before ++ a) e.
Proof.
  induction es as [|x es IH]; intros before H a e c E; [now destruct a|]. destruct H as [H1 H2].
  destruct a as [|y a]; cbn in E; injection E as -> E; [now rewrite app_nil_r|]. specialize (IH _ H2 a e c E). now rewrite <- app_assoc in IH.
Qed.
(** Both blocks are left in the end, the outer one first *)
Definition crossed : list (nat * op) := suspended ++ [(0, Exit (0, 1))].
Lemma crossed_ok : own_use crossed /\ any_order crossed /\ open 0 crossed = [].
Proof.
  split; [|split; [split; [|split]|reflexivity]].
  - intros t o [I|I]; cbn in I; repeat (destruct I as [I|I]; [try discriminate; inversion I; subst; reflexivity|]); destruct I.
  - intros a t n b c E. exact (at_all (fun a e => match e with (t, New n b) => made a (t, n) = None | _ => True end) crossed [] ltac:(repeat split; discriminate) a _ c E).
  - intros a t o c E. refine (at_all (fun a e => match e with (t, Enter o) => made a o <> None /\ ~ In o (open t a) | _ => True end) crossed [] _ a _ c E).
    cbn. repeat split; try discriminate; intuition discriminate.
  - intros a t o c E. refine (at_all (fun a e => match e with (t, Exit o) => In o (open t a) | _ => True end) crossed [] _ a _ c E). cbn. tauto.
Qed.
(** Handlers and restarts that are not nested in each other *)
Definition across : list (nat * op) :=
  [(0, New 0 (Handlers [([1], 10)])); (0, Enter (0, 0)); (0, New 1 (Restarts [("b"%string, 2)])); (0, Enter (0, 1)); (0, Exit (0, 0)); (0, FindRestart "b")].
Lemma across_ok : own_use across /\ proper across.
Proof. apply checked. reflexivity. Qed.
Definition handed : list (nat * op) := [(0, New 0 (Handlers [([1], 10)])); (1, Enter (0, 0))].
Lemma handed_over : open 1 handed = [(0, 0)] /\ open 0 handed = [] /\
  snd (step same (run same w0 handed) (1, FindHandlers 1)) = Matching [] /\
  snd (step same (run same w0 handed) (0, FindHandlers 1)) = Matching [10].
Proof. repeat split. Qed.
