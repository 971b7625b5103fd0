(** Proofs for C53. *)
From Coq Require Import List Bool Lia PeanoNat.
From Verif Require Import Base TypeModel TypeSpec.
Import ListNotations.
Open Scope list_scope.

Lemma typ_ind' (P : typ -> Prop) :
  P TAny -> (forall l, Forall P l -> P (TVar l)) -> (forall l, Forall P l -> P (TUnion l)) -> P TUnionBare ->
  (forall c, P (TNewType c)) -> (forall c, P (TPony c)) -> P TReversible -> (forall c, P (TSupports c)) ->
  (forall t, P t -> P (TTupleOf t)) -> (forall l, Forall P l -> P (TTuple l)) ->
  (forall c t, P t -> P (TAlias1 c t)) -> (forall c k w, P k -> P w -> P (TAlias2 c k w)) ->
  P TCallable -> (forall c, P (TBare c)) -> (forall c, P (TClass c)) -> P TOther -> forall t, P t.
Proof.
  intros H1 H2 H3 H4 H5 H6 H7 H8 H9 H10 H11 H12 H13 H14 H15 H16.
  fix F 1. intros t.
  assert (L : forall l : list typ, Forall P l).
  { fix G 1. intros [|x l]; constructor; [apply F|apply G]. }
  destruct t.
  - exact H1.
  - apply H2, L.
  - apply H3, L.
  - exact H4.
  - apply H5.
  - apply H6.
  - exact H7.
  - apply H8.
  - apply H9, F.
  - apply H10, L.
  - apply H11, F.
  - apply H12; apply F.
  - exact H13.
  - apply H14.
  - apply H15.
  - exact H16.
Qed.

Definition decides (o : outcome bool) (P : Prop) : Prop := exists b, o = Ok b /\ (b = true <-> P).
Lemma decides_ok b (P : Prop) : (b = true <-> P) -> decides (Ok b) P.
Proof. intros H. exists b. auto. Qed.
Lemma decides_iff o (P Q : Prop) : (P <-> Q) -> decides o P -> decides o Q.
Proof. intros H (b & E & Hb). exists b. split; [exact E|]. now rewrite Hb. Qed.
Lemma any_decides {X} f (P : X -> Prop) l : Forall (fun x => decides (f x) (P x)) l ->
  decides (any_of f l) (exists x, In x l /\ P x).
Proof.
  induction 1 as [|x l (b & E & Hb) _ IH]; cbn.
  - apply decides_ok. split; [discriminate|intros (x & [] & _)].
  - rewrite E. cbn. destruct b.
    + apply decides_ok. split; [|reflexivity]. intros _. exists x. split; [now left|]. now apply Hb.
    + eapply decides_iff; [|exact IH]. split.
      * intros (y & Hy & Py). exists y. split; [now right|exact Py].
      * intros (y & [->|Hy] & Py); [apply Hb in Py; discriminate|eauto].
Qed.
Lemma all_decides {X} f (P : X -> Prop) l : (forall x, decides (f x) (P x)) -> decides (all_of f l) (Forall P l).
Proof.
  intros H. induction l as [|x l IH]; cbn.
  - apply decides_ok. split; [constructor|reflexivity].
  - destruct (H x) as (b & E & Hb). rewrite E. cbn. destruct b.
    + eapply decides_iff; [|exact IH]. split.
      * intros HF. constructor; [now apply Hb|exact HF].
      * now inversion 1.
    + apply decides_ok. split; [discriminate|]. inversion 1; subst. now apply Hb.
Qed.
Lemma all_zip_decides {X Y} (f : X -> Y -> outcome bool) (P : X -> Y -> Prop) l :
  Forall (fun x => forall y, decides (f x y) (P x y)) l ->
  forall m, length m = length l -> decides (all_zip f l m) (Forall2 P l m).
Proof.
  induction 1 as [|x l H _ IH]; intros [|y m] Hl; cbn; try discriminate.
  - apply decides_ok. split; [constructor|reflexivity].
  - destruct (H y) as (b & E & Hb). rewrite E. cbn. destruct b.
    + eapply decides_iff; [|apply IH; now injection Hl]. split.
      * intros HF. constructor; [now apply Hb|exact HF].
      * now inversion 1.
    + apply decides_ok. split; [discriminate|]. inversion 1; subst. now apply Hb.
Qed.
Lemma forall2_len {X Y} (P : X -> Y -> Prop) l m : Forall2 P l m -> length l = length m.
Proof. induction 1; cbn; congruence. Qed.
Lemma both_decides a b (P Q : Prop) : decides a P -> decides b Q -> decides (both a b) (P /\ Q).
Proof.
  intros (x & -> & Hx) (y & -> & Hy). unfold both. cbn. destruct x.
  - apply decides_ok. intuition.
  - apply decides_ok. split; [discriminate|]. intros [HP _]. now apply Hx.
Qed.

Section Proofs.
Variable usub : nat -> cls -> bool.
Variable has_reversed : cls -> bool.
Notation issub := (issub usub).
Notation isinst := (isinst usub).
Notation instance := (instance usub).
Notation isoftype := (isoftype usub has_reversed).
Notation of_type := (of_type usub has_reversed).

Lemma cin_spec c l : cin c l = true <-> In c l.
Proof.
  unfold cin. rewrite existsb_exists. split.
  - intros (x & Hx & E). unfold ceqb in E. destruct (cls_eq_dec c x); [now subst|discriminate].
  - intros H. exists c. split; [exact H|]. unfold ceqb. now destruct (cls_eq_dec c c).
Qed.
Lemma is_empty_spec {X} (l : list X) : is_empty l = false <-> l <> [].
Proof. destruct l; cbn; split; congruence. Qed.

Lemma iscollection_decides rt f (P : value -> Prop) v : (forall x, decides (f x) (P x)) ->
  decides (iscollection usub rt f v) (instance v rt /\ elts v <> [] /\ Forall P (elts v)).
Proof.
  intros H. unfold iscollection, TypeSpec.instance. fold (isinst v rt). destruct (isinst v rt) eqn:E; cbn [negb].
  - destruct (is_empty (elts v)) eqn:Ee.
    + apply decides_ok. split; [discriminate|]. intros (_ & Hn & _). apply is_empty_spec in Hn. congruence.
    + eapply decides_iff; [|now apply all_decides]. apply is_empty_spec in Ee. tauto.
  - apply decides_ok. split; [discriminate|]. unfold TypeModel.isinst in E. intros (Hi & _). congruence.
Qed.
Lemma ismapping_decides rt f g (P Q : value -> Prop) v : (forall x, decides (f x) (P x)) -> (forall x, decides (g x) (Q x)) ->
  decides (ismapping usub rt f g v) (instance v rt /\ elts v <> [] /\ Forall (fun kv => P (fst kv) /\ Q (snd kv)) (items v)).
Proof.
  intros Hf Hg. unfold ismapping, TypeSpec.instance. fold (isinst v rt). destruct (isinst v rt) eqn:E; cbn [negb].
  - destruct (is_empty (elts v)) eqn:Ee.
    + apply decides_ok. split; [discriminate|]. intros (_ & Hn & _). apply is_empty_spec in Hn. congruence.
    + eapply decides_iff; [|apply all_decides; intros x; apply both_decides; [apply Hf|apply Hg]].
      apply is_empty_spec in Ee. tauto.
  - apply decides_ok. split; [discriminate|]. unfold TypeModel.isinst in E. intros (Hi & _). congruence.
Qed.
Lemma anything_decides v : decides (anything v) True.
Proof. apply decides_ok. intuition. Qed.
Lemma inst_decides v c : decides (Ok (isinst v c)) (instance v c).
Proof. apply decides_ok. reflexivity. Qed.

Lemma Forall_true {X} (l : list X) : Forall (fun _ => True) l.
Proof. induction l; auto. Qed.

(** bare generics *)
Lemma bare_coll_decides c v : c <> CByteString -> In c (CItemsView :: mappings ++ collections) -> 
  (isoftype_class usub false c v = iscollection usub c anything v \/ isoftype_class usub false c v = ismapping usub c anything anything v) ->
  decides (isoftype_class usub false c v) (of_type (TBare c) v).
Proof.
  intros Hb Hin [-> | ->].
  - eapply decides_iff; [|apply iscollection_decides; apply anything_decides]. split.
    + intros (A & B & _). now apply OBare.
    + intros H. inversion H; subst; try congruence; try (cbn in Hin; intuition congruence).
      split; [assumption|]. split; [assumption|apply Forall_true].
  - eapply decides_iff; [|apply ismapping_decides; apply anything_decides]. split.
    + intros (A & B & _). now apply OBare.
    + intros H. inversion H; subst; try congruence; try (cbn in Hin; intuition congruence).
      split; [assumption|]. split; [assumption|]. rewrite Forall_forall. auto.
Qed.
Lemma bare_decides c v : In c (CTuple :: CCallable :: CItemsView :: mappings ++ collections) ->
  decides (isoftype_class usub false c v) (of_type (TBare c) v).
Proof.
  intros [<-|[<-|H]].
  - eapply decides_iff; [|exact (inst_decides v CTuple)]. split; [apply OBareTuple|].
    intros H. inversion H; subst; auto.
  - eapply decides_iff; [|exact (inst_decides v CCallable)]. split; [apply OBareCallable|].
    intros H. inversion H; subst; auto.
  - destruct (cls_eq_dec c CByteString) as [->|Hb].
    + change (isoftype_class usub false CByteString v) with (iscollection usub CByteString (fun e => Ok (isinst e CInt)) v).
      eapply decides_iff; [|apply iscollection_decides; intros x; apply inst_decides]. split.
      * intros (A & B & C). now apply OByteString.
      * intros H0. inversion H0; subst; [congruence|]. auto.
    + apply bare_coll_decides; auto.
      cbn in H. repeat (destruct H as [<-|H]; [try (left; reflexivity); try (right; reflexivity); try congruence|]). destruct H.
Qed.

Lemma ordinary_class c v : ordinary usub c -> isoftype_class usub true c v = Ok (isinst v c).
Proof.
  intros [->|[->|H]]; [reflexivity|reflexivity|].
  unfold isoftype_class. unfold special in H.
  inversion H as [|? ? H1 T1]; subst. inversion T1 as [|? ? H2 T2]; subst. inversion T2 as [|? ? H3 T3]; subst.
  inversion T3 as [|? ? H4 T4]; subst. change (Forall (fun k => issub c k = false) (mappings ++ collections)) in T4. apply Forall_app in T4. destruct T4 as [Hm Hc].
  rewrite H1, H2, H3, H4.
  assert (F : forall l, Forall (fun k => issub c k = false) l -> find (issub c) l = None).
  { induction 1 as [|k l E _ IH]; cbn; [reflexivity|]. now rewrite E. }
  rewrite (F _ Hm), (F _ Hc). now destruct (ceqb c CStr || ceqb c CBytes).
Qed.

Lemma isoftype_decides T : supported usub T -> forall v, decides (isoftype T v) (of_type T v).
Proof.
  induction T using typ_ind'; intros S v; cbn [TypeModel.isoftype]; inversion S; subst.
  - apply decides_ok. split; [constructor|reflexivity].
  - destruct l as [|t l].
    + apply decides_ok. split; [constructor|reflexivity].
    + eapply decides_iff; [|apply any_decides with (P := fun U => of_type U v)].
      * split; [intros (x & Hx & Hp); econstructor; eauto|]. intros Ho. inversion Ho; subst; eauto.
      * rewrite Forall_forall in *. eauto.
  - eapply decides_iff; [|apply any_decides with (P := fun U => of_type U v)].
    + split; [intros (x & Hx & Hp); econstructor; eauto|]. intros Ho. inversion Ho; subst; eauto.
    + rewrite Forall_forall in *. eauto.
  - apply decides_ok. split; [discriminate|inversion 1].
  - eapply decides_iff; [|apply inst_decides]. split; [now constructor|now inversion 1].
  - eapply decides_iff; [|apply inst_decides]. split; [now constructor|now inversion 1].
  - apply decides_ok. split; [now constructor|now inversion 1].
  - eapply decides_iff; [|apply inst_decides]. split; [now constructor|now inversion 1].
  - change (if negb (isinst v CTuple) then Ok false else if is_empty (elts v) then Ok false else all_of (isoftype T) (elts v))
      with (iscollection usub CTuple (isoftype T) v).
    eapply decides_iff; [|apply iscollection_decides; intros x; now apply IHT].
    split; [intros (A & B & C); now constructor|]. inversion 1; subst; auto.
  - destruct (isinst v CTuple) eqn:E; cbn [negb].
    + destruct (Nat.eqb_spec (length (elts v)) (length l)) as [El|El]; cbn [negb].
      * eapply decides_iff; [|apply all_zip_decides with (P := of_type)].
        -- split; [intros HF; now constructor|now inversion 1].
        -- rewrite Forall_forall in *. intros x Hx y. auto.
        -- exact El.
      * apply decides_ok. split; [discriminate|]. intros Ho. inversion Ho as [| | | | | | | | |? ? A B| | | | | | | |]; subst. apply forall2_len in B. congruence.
    + apply decides_ok. split; [discriminate|]. intros Ho. inversion Ho as [| | | | | | | | |? ? A B| | | | | | | |]; subst. unfold TypeSpec.instance in A. unfold TypeModel.isinst in E. congruence.
  - match goal with H : In _ collections |- _ => apply cin_spec in H; rewrite H end.
    eapply decides_iff; [|apply iscollection_decides; intros x; now apply IHT].
    split; [intros (A & B & C); now constructor|]. inversion 1; subst; auto.
  - assert (B : cin c mappings || ceqb c CItemsView = true).
    { match goal with H : In c (CItemsView :: _) |- _ => destruct H as [<-|Hm] end.
      - now rewrite orb_true_r.
      - apply cin_spec in Hm. now rewrite Hm. }
    rewrite B. eapply decides_iff; [|apply ismapping_decides; intros x; [now apply IHT1|now apply IHT2]].
    split; [intros (A & B' & C); now constructor|]. inversion 1; subst; auto.
  - eapply decides_iff; [|apply inst_decides]. split; [now constructor|now inversion 1].
  - now apply bare_decides.
  - rewrite ordinary_class by assumption. eapply decides_iff; [|apply inst_decides]. split; [now constructor|now inversion 1].
Qed.

(** * Where classes are not what they seem *)
Lemma str_subclass c v : issub c CStr = true -> isoftype (TClass c) v = Ok (isinst v CStr).
Proof. intros H. cbn. unfold isoftype_class. now rewrite H. Qed.
Lemma tuple_subclass c v : issub c CStr = false -> issub c CTuple = true -> isoftype (TClass c) v = Ok (isinst v CTuple).
Proof. intros H1 H2. cbn. unfold isoftype_class. now rewrite H1, H2. Qed.
End Proofs.

Lemma object_type usub hr v : (forall n, usub n (CUser n) = true) ->
  isoftype usub hr (TClass CObject) v = Ok true /\
  forall c, issub usub c CObject = true /\ issub usub c c = true.
Proof.
  intros U. assert (O : forall c, issub usub c CObject = true) by (intros c; destruct c; reflexivity). split.
  - destruct v as [c l m]. cbn. unfold isinst. cbn [class_of]. now rewrite O.
  - intros c. split; auto. destruct c; cbn; auto.
Qed.
