From Coq Require Import List Bool ZArith Arith Lia.
From Verif Require Import Base BaseProofs CollModel CollSpec.
Import ListNotations.
Open Scope nat_scope.

Section Mog.
Context {A K : Type}.
Variable aeqb : A -> A -> bool.
Hypothesis aeqb_ok : forall a b, aeqb a b = true <-> a = b.
Notation tree := (tree A K).
Notation mval := (mval A K).
Notation mheap := (mheap A K).
Implicit Types (h : mheap) (v : mval) (t : tree).

Section Ind.
Variable P : tree -> Prop.
Hypotheses (Ha : forall a, P (TAtom a)) (Ht : forall l, Forall P l -> P (TTuple l))
  (Hf : forall l, Forall (fun kv => P (snd kv)) l -> P (TFrozendict l)) (Hs : forall l, P (TFrozenset l))
  (Hn : P TNil) (Hc : forall a d, P a -> P d -> P (TCons a d)) (Ho : forall x, P x -> P (TSome x))
  (Hl : forall r l, Forall P l -> P (TList r l))
  (Hd : forall r l, Forall (fun kv => P (snd kv)) l -> P (TDict r l))
  (Hm : forall r l, P (TMSet r l)) (Hb : forall r x, P x -> P (TBox r x)).
Fixpoint tree_ind2 (t : tree) : P t :=
  let all := fix all (l : list tree) : Forall P l :=
     match l with [] => Forall_nil _ | x :: l' => Forall_cons _ (tree_ind2 x) (all l') end in
  let allkv := fix allkv (l : list (K * tree)) : Forall (fun kv => P (snd kv)) l :=
     match l with [] => Forall_nil _ | x :: l' => Forall_cons _ (tree_ind2 (snd x)) (allkv l') end in
  match t with
  | TAtom a => Ha a
  | TTuple l => Ht l (all l)
  | TFrozendict l => Hf l (allkv l)
  | TFrozenset l => Hs l
  | TNil => Hn
  | TCons a d => Hc a d (tree_ind2 a) (tree_ind2 d)
  | TSome x => Ho x (tree_ind2 x)
  | TList r l => Hl r l (all l)
  | TDict r l => Hd r l (allkv l)
  | TMSet r l => Hm r l
  | TBox r x => Hb r x (tree_ind2 x)
  end.
End Ind.

Definition agree (rs : list nat) (h h' : mheap) : Prop := forall r, In r rs -> h' r = h r.
Lemma agree_sub rs rs' h h' : (forall r, In r rs' -> In r rs) -> agree rs h h' -> agree rs' h h'.
Proof. unfold agree. auto. Qed.

Lemma unfolds_agree : forall t h h' v, unfolds h v t -> agree (refs t) h h' -> unfolds h' v t.
Proof.
  assert (L : forall l : list tree, Forall (fun t => forall h h' v, unfolds h v t -> agree (refs t) h h' -> unfolds h' v t) l ->
     forall h h' vs, Forall2 (unfolds h) vs l -> agree (flat_map refs l) h h' -> Forall2 (unfolds h') vs l).
  { induction 1 as [|t l Ht Hl IH]; intros h h' vs F G; inversion F; subst; constructor.
    - apply Ht with h; auto. eapply agree_sub; [|exact G]. intros r Hr. simpl. apply in_or_app. auto.
    - apply IH with h; auto. eapply agree_sub; [|exact G]. intros r Hr. simpl. apply in_or_app. auto. }
  assert (LK : forall l : list (K * tree), Forall (fun kv => forall h h' v, unfolds h v (snd kv) -> agree (refs (snd kv)) h h' -> unfolds h' v (snd kv)) l ->
     forall h h' vs, Forall2 (fun a b => fst a = fst b /\ unfolds h (snd a) (snd b)) vs l ->
     agree (flat_map (fun kv => refs (snd kv)) l) h h' -> Forall2 (fun a b => fst a = fst b /\ unfolds h' (snd a) (snd b)) vs l).
  { induction 1 as [|t l Ht Hl IH]; intros h h' vs F G; inversion F as [|? ? ? ? [F1 F2] F3]; subst; constructor.
    - split; auto. apply Ht with h; auto. eapply agree_sub; [|exact G]. intros r Hr. simpl. apply in_or_app. auto.
    - apply IH with h; auto. eapply agree_sub; [|exact G]. intros r Hr. simpl. apply in_or_app. auto. }
  induction t using tree_ind2; intros h h' v U G; inversion U; subst; simpl in G; econstructor;
    try (rewrite G; [eassumption|simpl; auto]); eauto;
    try (eapply L; eauto; eapply agree_sub; [|exact G]; simpl; auto; fail);
    try (eapply LK; eauto; eapply agree_sub; [|exact G]; simpl; auto; fail).
  - eapply IHt1; eauto. eapply agree_sub; [|exact G]. intros; apply in_or_app; auto.
  - eapply IHt2; eauto. eapply agree_sub; [|exact G]. intros; apply in_or_app; auto.
  - eapply IHt; eauto. eapply agree_sub; [|exact G]. simpl; auto.
Qed.

Lemma flat_map_map {X Y Z} (f : Y -> list Z) (g : X -> Y) l : flat_map f (map g l) = flat_map (fun x => f (g x)) l.
Proof. induction l; simpl; auto. now rewrite IHl. Qed.

Lemma refs_tmap mk f t : refs (tmap mk f t) = refs t.
Proof.
  induction t using tree_ind2; simpl; auto; rewrite ?flat_map_map; simpl; try congruence.
  - induction H; simpl; auto; congruence.
  - induction H; simpl; auto; congruence.
  - f_equal. induction H; simpl; auto; congruence.
  - f_equal. induction H; simpl; auto; congruence.
Qed.

Section Func.
Variable func : A -> A.
Notation doit := (doit aeqb func).
Notation tmap := (tmap (dedup aeqb []) func).

Definition good (t : tree) : Prop := forall fuel h v,
  depth t <= fuel -> unfolds h v t -> NoDup (refs t) ->
  exists h' v', doit fuel h v = Some (h', v') /\ unfolds h' v' (tmap t)
  /\ (forall r, ~ In r (refs t) -> h' r = h r).

(** the list loops of [doit] *)
Definition all (fuel : nat) := fix all (h : mheap) (l : list mval) : option (mheap * list mval) :=
  match l with
  | [] => Some (h, [])
  | e :: l' => match doit fuel h e with
               | None => None
               | Some (h, e) => match all h l' with None => None | Some (h, es) => Some (h, e :: es) end
               end
  end.
Definition allkv (fuel : nat) := fix allkv (h : mheap) (l : list (K * mval)) : option (mheap * list (K * mval)) :=
  match l with
  | [] => Some (h, [])
  | (k, e) :: l' => match doit fuel h e with
               | None => None
               | Some (h, e) => match allkv h l' with None => None | Some (h, es) => Some (h, (k, e) :: es) end
               end
  end.

Lemma doit_ref fuel h r : doit (S fuel) h (MRef r) =
  match h r return option (mheap * mval) with
  | None => None
  | Some (CList l) => match all fuel h l with Some (h1, y) => Some (hset h1 r (CList y), MRef r) | None => None end
  | Some (CDict l) => match allkv fuel h l with Some (h1, y) => Some (hset h1 r (CDict y), MRef r) | None => None end
  | Some (CSet l) => Some (hset h r (CSet (dedup aeqb [] (map func l))), MRef r)
  | Some (CBox e) => match doit fuel h e with Some (h1, y) => Some (hset h1 r (CBox y), MRef r) | None => None end
  end.
Proof. reflexivity. Qed.

Lemma nodup_app {X} (a b : list X) : NoDup (a ++ b) -> NoDup a /\ NoDup b /\ (forall x, In x a -> ~ In x b).
Proof.
  induction a as [|x a IH]; simpl; intro H.
  - repeat split; auto; constructor || tauto.
  - inversion H; subst. destruct (IH H3) as (I1 & I2 & I3). repeat split; auto.
    + constructor; auto. intro C. apply H2. apply in_or_app; auto.
    + intros y [->|Hy] C; [apply H2; apply in_or_app; auto | eapply I3; eauto].
Qed.

Lemma all_good (l : list tree) : Forall good l -> forall fuel h vs,
  list_max (map depth l) <= fuel -> Forall2 (unfolds h) vs l -> NoDup (flat_map refs l) ->
  exists h' vs', all fuel h vs = Some (h', vs') /\ Forall2 (unfolds h') vs' (map tmap l)
  /\ (forall r, ~ In r (flat_map refs l) -> h' r = h r).
Proof.
  induction 1 as [|t l Ht Hl IH]; intros fuel h vs Hd F N; inversion F; subst; simpl.
  - exists h, []. repeat split; constructor.
  - simpl in Hd, N. destruct (nodup_app _ _ N) as (N1 & N2 & N3).
    destruct (Ht fuel h x) as (h1 & v1 & E1 & U1 & G1); auto; [lia|].
    rewrite E1. destruct (IH fuel h1 l0) as (h2 & vs2 & E2 & U2 & G2); auto; [lia| |].
    + clear -H3 N3 G1. induction H3; constructor.
      * eapply unfolds_agree; eauto. intros r Hr. apply G1. intro C. eapply N3; eauto. simpl. apply in_or_app; auto.
      * apply IHForall2. intros x0 Hx C. eapply N3; eauto. simpl. apply in_or_app; auto.
    + rewrite E2. exists h2, (v1 :: vs2). split; auto. split.
      * constructor; auto. eapply unfolds_agree; eauto. rewrite refs_tmap. intros r Hr. apply G2. eapply N3; eauto.
      * intros r Hr. rewrite in_app_iff in Hr. rewrite G2 by tauto. apply G1. tauto.
Qed.

Lemma allkv_good (l : list (K * tree)) : Forall (fun kv => good (snd kv)) l -> forall fuel h vs,
  list_max (map (fun kv => depth (snd kv)) l) <= fuel ->
  Forall2 (fun a b => fst a = fst b /\ unfolds h (snd a) (snd b)) vs l -> NoDup (flat_map (fun kv => refs (snd kv)) l) ->
  exists h' vs', allkv fuel h vs = Some (h', vs')
  /\ Forall2 (fun a b => fst a = fst b /\ unfolds h' (snd a) (snd b)) vs' (map (fun kv => (fst kv, tmap (snd kv))) l)
  /\ (forall r, ~ In r (flat_map (fun kv => refs (snd kv)) l) -> h' r = h r).
Proof.
  induction 1 as [|[k t] l Ht Hl IH]; intros fuel h vs Hd F N; inversion F as [|[k' x] ? l0 ? [F1 F2] F3]; subst; simpl.
  - exists h, []. repeat split; constructor.
  - simpl in Hd, N, Ht, F1, F2. subst. destruct (nodup_app _ _ N) as (N1 & N2 & N3).
    destruct (Ht fuel h x) as (h1 & v1 & E1 & U1 & G1); auto; [lia|].
    rewrite E1. destruct (IH fuel h1 l0) as (h2 & vs2 & E2 & U2 & G2); auto; [lia| |].
    + clear -F3 N3 G1. induction F3 as [|? ? ? ? [I1 I2] I3]; constructor.
      * split; auto. eapply unfolds_agree; eauto. intros r Hr. apply G1. intro C. eapply N3; eauto. simpl. apply in_or_app; auto.
      * apply IHI3. intros x0 Hx C. eapply N3; eauto. simpl. apply in_or_app; auto.
    + rewrite E2. exists h2, ((k, v1) :: vs2). split; auto. split.
      * constructor; auto. split; auto. simpl. eapply unfolds_agree; eauto. rewrite refs_tmap. intros r Hr. apply G2. eapply N3; eauto.
      * intros r Hr. rewrite in_app_iff in Hr. rewrite G2 by tauto. apply G1. tauto.
Qed.

Lemma hset_same h r c : hset h r c r = Some c.
Proof. unfold hset. now rewrite Nat.eqb_refl. Qed.
Lemma hset_other h r c r' : r' <> r -> hset h r c r' = h r'.
Proof. unfold hset. intro H. apply Nat.eqb_neq in H. now rewrite H. Qed.

Lemma doit_good t : good t.
Proof.
  induction t using tree_ind2; intros fuel h v D U N; destruct fuel as [|fuel]; simpl in D; try lia;
    inversion U; subst; simpl in N.
  - exists h, (MAtom (func a)). simpl. repeat split; auto; try constructor.
  - destruct (all_good l H fuel h l0) as (h' & vs & E & F & G); auto; [lia|].
    exists h', (MTuple vs). change (doit (S fuel) h (MTuple l0)) with
      (match all fuel h l0 with Some (h, y) => Some (h, MTuple y) | None => None end).
    rewrite E. split; auto. split; [constructor; auto|]. auto.
  - destruct (allkv_good l H fuel h l0) as (h' & vs & E & F & G); auto; [lia|].
    exists h', (MFrozendict vs). change (doit (S fuel) h (MFrozendict l0)) with
      (match allkv fuel h l0 with Some (h, y) => Some (h, MFrozendict y) | None => None end).
    rewrite E. split; auto. split; [constructor; auto|]. auto.
  - exists h, (MFrozenset (dedup aeqb [] (map func l))). simpl. repeat split; auto; try constructor.
  - exists h, MNil. simpl. repeat split; auto; try constructor.
  - destruct (nodup_app _ _ N) as (N1 & N2 & N3).
    destruct (IHt1 fuel h a) as (h1 & v1 & E1 & U1 & G1); auto; [lia|].
    destruct (IHt2 fuel h1 d) as (h2 & v2 & E2 & U2 & G2); auto; [lia| |].
    { eapply unfolds_agree; eauto. intros r Hr. apply G1. intro C. eapply N3; eauto. }
    exists h2, (MCons v1 v2). simpl. rewrite E1, E2. split; auto. split.
    + constructor; auto. eapply unfolds_agree; eauto. rewrite refs_tmap. intros r Hr. apply G2. eapply N3; eauto.
    + intros r Hr. rewrite in_app_iff in Hr. rewrite G2 by tauto. apply G1. tauto.
  - destruct (IHt fuel h x) as (h1 & v1 & E1 & U1 & G1); auto; [lia|].
    exists h1, (MSome v1). simpl. rewrite E1. split; auto. split; auto. constructor; auto.
  - inversion N; subst. destruct (all_good l H fuel h l0) as (h' & vs & E & F & G); auto; [lia|].
    exists (hset h' r (CList vs)), (MRef r). rewrite doit_ref, H3, E. split; auto. simpl. split.
    + econstructor; [apply hset_same|]. revert F H2. clear. intros F H2.
      assert (Hr : ~ In r (flat_map refs (map tmap l))).
      { rewrite flat_map_map. rewrite (flat_map_ext (fun x => refs (tmap x)) refs); auto. intro; apply refs_tmap. }
      clear H2. generalize (CList vs) as c. intro c. induction F; constructor.
      * eapply unfolds_agree; eauto. intros r' Hr'. apply hset_other. intros ->. apply Hr. simpl. apply in_or_app; auto.
      * apply IHF. intro C. apply Hr. simpl. apply in_or_app; auto.
    + intros r' Hr'. rewrite hset_other by (intros ->; apply Hr'; now left). apply G. intro; apply Hr'; now right.
  - inversion N; subst. destruct (allkv_good l H fuel h l0) as (h' & vs & E & F & G); auto; [lia|].
    exists (hset h' r (CDict vs)), (MRef r). rewrite doit_ref, H3, E. split; auto. simpl. split.
    + econstructor; [apply hset_same|]. revert F H2. clear. intros F H2.
      assert (Hr : ~ In r (flat_map (fun kv => refs (snd kv)) (map (fun kv => (fst kv, tmap (snd kv))) l))).
      { rewrite flat_map_map. simpl. erewrite flat_map_ext; [exact H2|]. intro; apply refs_tmap. }
      clear H2. generalize (CDict vs) as c. intro c. induction F as [|? ? ? ? [I1 I2] I3 IHF]; constructor.
      * split; auto. eapply unfolds_agree; eauto. intros r' Hr'. apply hset_other. intros ->. apply Hr. simpl. apply in_or_app; auto.
      * apply IHF. intro C. apply Hr. simpl. apply in_or_app; auto.
    + intros r' Hr'. rewrite hset_other by (intros ->; apply Hr'; now left). apply G. intro; apply Hr'; now right.
  - exists (hset h r (CSet (dedup aeqb [] (map func l)))), (MRef r). simpl. match goal with E : h r = Some _ |- _ => rewrite E end. split; auto. split.
    + constructor. apply hset_same.
    + intros r' Hr'. apply hset_other. intros ->. apply Hr'. now left.
  - inversion N; subst. destruct (IHt fuel h x) as (h1 & v1 & E1 & U1 & G1); auto; [lia|].
    exists (hset h1 r (CBox v1)), (MRef r). simpl. match goal with E : h r = Some _ |- _ => rewrite E end. rewrite E1. split; auto. split.
    + econstructor; [apply hset_same|]. eapply unfolds_agree; eauto. rewrite refs_tmap.
      intros r' Hr'. apply hset_other. intros ->. contradiction.
    + intros r' Hr'. rewrite hset_other by (intros ->; apply Hr'; now left). apply G1. intro; apply Hr'; now right.
Qed.
End Func.

(** ** functor laws *)
Lemma dedup_spec l : forall seen,
  (forall x, In x (dedup aeqb seen l) <-> In x l /\ ~ In x seen).
Proof.
  assert (Hex : forall x s, existsb (aeqb x) s = true <-> In x s).
  { intros x s. rewrite existsb_exists. split; [intros (y & H & E); apply aeqb_ok in E; now subst|].
    intro H; exists x; split; auto. now apply aeqb_ok. }
  induction l as [|y l IH]; intros seen x; simpl; [tauto|].
  destruct (existsb (aeqb y) seen) eqn:E.
  - apply Hex in E. rewrite IH. split; [tauto|]. intros [[->|H] Hn]; tauto.
  - assert (~ In y seen) by (rewrite <- Hex; congruence). simpl. rewrite IH, in_app_iff. simpl.
    split; [intros [->|H']; tauto|]. intros [[->|H1] H2]; [tauto|].
    destruct (aeqb y x) eqn:Eyx; [apply aeqb_ok in Eyx; auto|]. right. split; auto.
    intros [C|[C|[]]]; [tauto|]. subst. assert (aeqb x x = true) by now apply aeqb_ok. congruence.
Qed.

Lemma aeqb_existsb x s : existsb (aeqb x) s = true <-> In x s.
Proof.
  rewrite existsb_exists. split; [intros (y & H & E); apply aeqb_ok in E; now subst|].
  intro H; exists x; split; auto. now apply aeqb_ok.
Qed.

Lemma dedup_nodup l : forall seen, NoDup (dedup aeqb seen l).
Proof.
  induction l as [|y l IH]; intro seen; simpl; [constructor|].
  destruct (existsb (aeqb y) seen) eqn:E; auto. constructor; auto.
  rewrite dedup_spec. intros [_ H]. apply H. apply in_or_app. right. now left.
Qed.

Lemma dedup_id l : forall seen, NoDup l -> (forall x, In x l -> ~ In x seen) -> dedup aeqb seen l = l.
Proof.
  induction l as [|y l IH]; intros seen H D; simpl; auto. inversion H; subst.
  destruct (existsb (aeqb y) seen) eqn:E.
  - apply aeqb_existsb in E. exfalso. eapply D; eauto. now left.
  - f_equal. apply IH; auto. intros x Hx C. apply in_app_iff in C. destruct C as [C|[C|[]]].
    + eapply D; eauto. now right.
    + subst. contradiction.
Qed.

(** de-duplicating before mapping does not matter *)
Lemma dedup_seen_eq l : forall s s', (forall x, In x s <-> In x s') -> dedup aeqb s l = dedup aeqb s' l.
Proof.
  induction l as [|y l IH]; intros s s' H; simpl; auto.
  assert (existsb (aeqb y) s = existsb (aeqb y) s') as -> by (apply eq_true_iff_eq; rewrite !aeqb_existsb; auto).
  destruct (existsb (aeqb y) s'); auto. f_equal. apply IH. intro x. rewrite !in_app_iff. firstorder.
Qed.

Lemma dedup_map_dedup f l : forall s s', (forall x, In x s -> In (f x) s') ->
  dedup aeqb s' (map f (dedup aeqb s l)) = dedup aeqb s' (map f l).
Proof.
  induction l as [|y l IH]; intros s s' H; simpl; auto.
  destruct (existsb (aeqb y) s) eqn:E.
  - apply aeqb_existsb in E. apply H in E. apply aeqb_existsb in E. rewrite E. auto.
  - simpl. destruct (existsb (aeqb (f y)) s') eqn:E'.
    + apply IH. intros x Hx. apply in_app_iff in Hx. destruct Hx as [Hx|[->|[]]]; auto. now apply aeqb_existsb.
    + f_equal. apply IH. intros x Hx. apply in_app_iff in Hx. rewrite in_app_iff.
      destruct Hx as [Hx|[->|[]]]; auto. right; now left.
Qed.

Notation mk := (dedup aeqb []).
Lemma tmap_compose f g t : tmap mk f (tmap mk g t) = tmap mk (fun x => f (g x)) t.
Proof.
  induction t using tree_ind2; simpl; rewrite ?map_map; f_equal; auto.
  - apply map_ext_in. intros x Hx. rewrite Forall_forall in H. auto.
  - apply map_ext_in. intros x Hx. rewrite Forall_forall in H. simpl. f_equal. auto.
  - rewrite dedup_map_dedup, map_map; auto.
  - apply map_ext_in. intros x Hx. rewrite Forall_forall in H. auto.
  - apply map_ext_in. intros x Hx. rewrite Forall_forall in H. simpl. f_equal. auto.
  - rewrite dedup_map_dedup, map_map; auto.
Qed.

Lemma tmap_id f t : (forall a, f a = a) -> sets_ok t -> tmap mk f t = t.
Proof.
  intro Hf. induction t using tree_ind2; simpl; intro O; f_equal; auto; try (apply IHt1; tauto); try (apply IHt2; tauto).
  - rewrite <- (map_id l) at 2. induction H; simpl in *; auto. f_equal; tauto.
  - rewrite <- (map_id l) at 2. induction H as [|[k t] l]; simpl in *; auto. f_equal; [f_equal|]; tauto.
  - rewrite (map_ext _ (fun x => x)), map_id; auto. apply dedup_id; auto.
  - rewrite <- (map_id l) at 2. induction H; simpl in *; auto. f_equal; tauto.
  - rewrite <- (map_id l) at 2. induction H as [|[k t] l]; simpl in *; auto. f_equal; [f_equal|]; tauto.
  - rewrite (map_ext _ (fun x => x)), map_id; auto. apply dedup_id; auto.
Qed.

Lemma unfolds_inj : forall t h h' v v', unfolds h v t -> unfolds h' v' t -> v = v' /\ agree (refs t) h h'.
Proof.
  assert (L : forall l : list tree, Forall (fun t => forall h h' v v', unfolds h v t -> unfolds h' v' t -> v = v' /\ agree (refs t) h h') l ->
     forall h h' vs vs', Forall2 (unfolds h) vs l -> Forall2 (unfolds h') vs' l -> vs = vs' /\ agree (flat_map refs l) h h').
  { induction 1 as [|t l Ht Hl IH]; intros h h' vs vs' F F'; inversion F as [|? ? ? ? F1 F2]; inversion F' as [|? ? ? ? G1 G2]; subst; simpl.
    - split; auto. intros r [].
    - destruct (Ht _ _ _ _ F1 G1). destruct (IH _ _ _ _ F2 G2). subst. split; auto.
      intros r Hr. apply in_app_iff in Hr. destruct Hr; auto. }
  assert (LK : forall l : list (K * tree), Forall (fun kv => forall h h' v v', unfolds h v (snd kv) -> unfolds h' v' (snd kv) -> v = v' /\ agree (refs (snd kv)) h h') l ->
     forall h h' vs vs', Forall2 (fun a b => fst a = fst b /\ unfolds h (snd a) (snd b)) vs l ->
     Forall2 (fun a b => fst a = fst b /\ unfolds h' (snd a) (snd b)) vs' l -> vs = vs' /\ agree (flat_map (fun kv => refs (snd kv)) l) h h').
  { induction 1 as [|[k t] l Ht Hl IH]; intros h h' vs vs' F F'.
    - inversion F; inversion F'; subst; simpl. split; auto. intros r [].
    - inversion F as [|[k1 v1] ? vs1 ? [F1 F2] F3]; inversion F' as [|[k2 v2] ? vs2 ? [G1 G2] G3]; subst; simpl in *; subst.
      destruct (Ht _ _ _ _ F2 G2). destruct (IH _ _ _ _ F3 G3). subst. split; auto.
      intros r Hr. apply in_app_iff in Hr. destruct Hr; auto. }
  induction t using tree_ind2; intros h h' v v' U U'; inversion U; inversion U'; subst; simpl;
    try (split; [reflexivity|intros ? []]; fail);
    repeat match goal with
    | F : Forall2 (unfolds h) ?vs ?l, F' : Forall2 (unfolds h') ?vs' ?l |- _ => destruct (L _ H _ _ _ _ F F'); clear F F'
    | F : Forall2 (fun _ _ => _ /\ unfolds h _ _) ?vs ?l, F' : Forall2 (fun _ _ => _ /\ unfolds h' _ _) ?vs' ?l |- _ =>
        destruct (LK _ H _ _ _ _ F F'); clear F F'
    | I : forall h h' v v', unfolds h v ?t -> _, F : unfolds h _ ?t, F' : unfolds h' _ ?t |- _ => destruct (I _ _ _ _ F F'); clear F F'
    end; subst; (split; [reflexivity|]); auto;
    intros r' Hr; simpl in Hr; try (apply in_app_iff in Hr); destruct Hr as [Hr|Hr]; auto;
    try contradiction; subst; try congruence.
Qed.

Lemma depth_tmap f t : depth (tmap mk f t) = depth t.
Proof.
  induction t using tree_ind2; simpl; auto; rewrite ?map_map; simpl; auto.
  - f_equal. f_equal. apply map_ext_in. intros x Hx. rewrite Forall_forall in H; auto.
  - f_equal. f_equal. apply map_ext_in. intros x Hx. rewrite Forall_forall in H; apply H; auto.
  - f_equal. f_equal. apply map_ext_in. intros x Hx. rewrite Forall_forall in H; auto.
  - f_equal. f_equal. apply map_ext_in. intros x Hx. rewrite Forall_forall in H; apply H; auto.
Qed.

Lemma mogrify_id f h v t fuel : (forall a, f a = a) -> unfolds h v t -> NoDup (refs t) -> sets_ok t -> depth t <= fuel ->
  exists h', doit aeqb f fuel h v = Some (h', v) /\ forall r, h' r = h r.
Proof.
  intros Hf U N O D. destruct (doit_good f t fuel h v D U N) as (h' & v' & E & U' & G).
  rewrite tmap_id in U' by auto. destruct (unfolds_inj _ _ _ _ _ U U') as [-> Ha].
  exists h'. split; auto. intro r. destruct (in_dec Nat.eq_dec r (refs t)); auto.
Qed.

Lemma mogrify_compose f g h v t fuel : unfolds h v t -> NoDup (refs t) -> depth t <= fuel ->
  exists h1 v1 h2 v2 h3,
    doit aeqb g fuel h v = Some (h1, v1) /\ doit aeqb f fuel h1 v1 = Some (h2, v2) /\
    doit aeqb (fun x => f (g x)) fuel h v = Some (h3, v2) /\ forall r, h3 r = h2 r.
Proof.
  intros U N D. destruct (doit_good g t fuel h v D U N) as (h1 & v1 & E1 & U1 & G1).
  destruct (doit_good f (tmap mk g t) fuel h1 v1) as (h2 & v2 & E2 & U2 & G2); auto.
  { now rewrite depth_tmap. } { now rewrite refs_tmap. }
  destruct (doit_good (fun x => f (g x)) t fuel h v D U N) as (h3 & v3 & E3 & U3 & G3).
  rewrite tmap_compose in U2. destruct (unfolds_inj _ _ _ _ _ U2 U3) as [<- Ha].
  exists h1, v1, h2, v2, h3. repeat split; auto. intro r.
  rewrite refs_tmap in *. destruct (in_dec Nat.eq_dec r (refs t)) as [i|n].
  - now apply Ha.
  - rewrite G3, G2, G1; auto.
Qed.

(** leaves *)
Lemma leaves_tmap f t : no_sets t -> leaves (tmap mk f t) = map f (leaves t).
Proof.
  induction t using tree_ind2; simpl; intro O; auto; try tauto; try rewrite flat_map_map;
    try (induction H; simpl in *; auto; rewrite map_app, IHForall by tauto; f_equal; tauto).
  rewrite map_app. f_equal; tauto.
Qed.

(** a list that contains itself *)
Lemma doit_cyclic f h r : h r = Some (CList [MRef r]) -> forall fuel, doit aeqb f fuel h (MRef r) = None.
Proof.
  intros H fuel. induction fuel as [|n IH]; auto.
  rewrite doit_ref, H. unfold all. rewrite IH. reflexivity.
Qed.
End Mog.

Lemma dedup_image {A} (aeqb : A -> A -> bool) (H : forall a b, aeqb a b = true <-> a = b) (f : A -> A) l :
  forall y, In y (dedup aeqb [] (map f l)) <-> exists x, In x l /\ f x = y.
Proof.
  intro y. rewrite (dedup_spec aeqb H), in_map_iff. simpl. firstorder.
Qed.

Lemma shared_twice : exists (h : mheap nat nat) v (t : tree nat nat) h' v',
  unfolds h v t /\ doit Nat.eqb (fun x => x + 1) 5 h v = Some (h', v')
  /\ ~ unfolds h' v' (tmap (dedup Nat.eqb []) (fun x => x + 1) t) /\ h' 0 = Some (CList [MAtom 3]).
Proof.
  exists (fun r => if r =? 0 then Some (CList [MAtom 1]) else None), (MTuple [MRef 0; MRef 0]),
    (TTuple [TList 0 [TAtom 1]; TList 0 [TAtom 1]]).
  eexists. eexists. split.
  - constructor. repeat econstructor.
  - split; [reflexivity|]. split; [|reflexivity].
    intro C. simpl in C. inversion C as [|l ts F| | | | | | | | |]; subst. inversion F as [|? ? ? ? U]; subst.
    inversion U as [| | | | | | |r l ts E F1| | |]; subst. cbv in E. injection E as <-.
    inversion F1 as [|? ? ? ? U1]; subst. inversion U1.
Qed.

Lemma set_shrinks : exists (f : nat -> nat) (h : mheap nat nat) l l' h',
  NoDup l /\ doit Nat.eqb f 5 h (MFrozenset l) = Some (h', MFrozenset l') /\ length l' < length l.
Proof.
  exists (fun _ => 0), (fun _ => None), [1; 2]. eexists. eexists. split.
  - repeat constructor; simpl; intuition discriminate.
  - split; [reflexivity|]. simpl. lia.
Qed.
