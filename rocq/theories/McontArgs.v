(** Arguments of functions and continuations in a continuations block. *)
From Coq Require Import String List Bool Arith Lia.
From Verif Require Import Base McontModel.
Import ListNotations.
Open Scope string_scope.
Open Scope list_scope.
Open Scope nat_scope.

Section Args.
Context {V : Type}.
Implicit Types (l : list (string * V)) (args : list V).

Lemma assoc_app x l m :
  assoc x (l ++ m) = match assoc x l with Some v => Some v | None => assoc x m end.
Proof. induction l as [|[y v] l IH]; cbn; [reflexivity|]. destruct (String.eqb x y); auto. Qed.
Lemma assoc_combine ps : forall args i p a, NoDup ps ->
  nth_error ps i = Some p -> nth_error args i = Some a -> assoc p (combine ps args) = Some a.
Proof.
  induction ps as [|q ps IH]; intros args i p a N; destruct i as [|i]; cbn; try discriminate.
  - intros [= ->]. destruct args as [|b args]; cbn; [discriminate|]. intros [= ->].
    now rewrite String.eqb_refl.
  - intros Hp. destruct args as [|b args]; cbn; [discriminate|]. intros Ha. inversion N; subst.
    destruct (String.eqb p q) eqn:E.
    + apply String.eqb_eq in E. subst. exfalso. apply nth_error_In in Hp. contradiction.
    + now apply (IH args i).
Qed.
Lemma assoc_notin ps : forall args x, ~ In x ps -> assoc x (combine ps args) = None.
Proof.
  induction ps as [|q ps IH]; intros args x Hx; [reflexivity|].
  destruct args as [|b args]; [reflexivity|]. cbn in *.
  destruct (String.eqb x q) eqn:E.
  - apply String.eqb_eq in E. subst. exfalso. auto.
  - apply IH. auto.
Qed.

Lemma newframe_ok tup ps star loc (args : list V) cc :
  NoDup (ps ++ starl star ++ ["cc"]) ->
  (match star with None => length args = length ps | Some _ => length ps <= length args end ->
   exists fr, newframe tup ps star false loc args cc = Some fr /\
     (forall i p a, nth_error ps i = Some p -> nth_error args i = Some a ->
        assoc p (vals fr) = Some a) /\
     (forall x front rest, star = Some x -> args = front ++ rest -> length front = length ps ->
        assoc x (vals fr) = Some (tup rest)) /\
     assoc "cc" (vals fr) = Some cc) /\
  (~ match star with None => length args = length ps | Some _ => length ps <= length args end ->
   newframe tup ps star false loc args cc = None).
Proof.
  intros N. unfold newframe.
  assert (Np : NoDup ps) by (clear -N; induction ps; [constructor|];
    inversion N; subst; constructor; [intros H; apply H1; apply in_or_app; now left|auto]).
  assert (Nc : ~ In "cc" ps).
  { intros H. apply in_split in H as (l1 & l2 & ->). rewrite <- app_assoc in N. cbn in N.
    apply NoDup_remove_2 in N. apply N. apply in_or_app. right. apply in_or_app. right.
    apply in_or_app. right. now left. }
  split; intros Hl.
  - destruct star as [x|].
    + assert (E : (length ps <=? length args) = true) by now apply Nat.leb_le.
      rewrite E. eexists. split; [reflexivity|]. cbn [vals].
      assert (Nx : ~ In x ps).
      { intros H. apply in_split in H as (l1 & l2 & ->). rewrite <- app_assoc in N. cbn in N.
        apply NoDup_remove_2 in N. apply N. apply in_or_app. right. apply in_or_app. right.
        now left. }
      assert (Nxc : x <> "cc").
      { intros ->. cbn in N. apply (NoDup_remove_2 ps ["cc"] "cc") in N.
        apply N, in_or_app. right. now left. }
      split; [|split].
      * intros i p a Hp Ha. rewrite assoc_app, (assoc_combine ps args i p a); auto.
      * intros y front rest [= <-] -> Hf. rewrite assoc_app, assoc_notin by auto. cbn.
        rewrite String.eqb_refl. do 2 f_equal. rewrite <- Hf.
        rewrite skipn_app, skipn_all, Nat.sub_diag. reflexivity.
      * rewrite assoc_app, assoc_notin by auto. cbn [assoc].
        destruct (String.eqb "cc" x) eqn:Ex; [apply String.eqb_eq in Ex; congruence|].
        reflexivity.
    + assert (E : (length args =? length ps) = true) by now apply Nat.eqb_eq.
      rewrite E. eexists. split; [reflexivity|]. cbn [vals]. split; [|split].
      * intros i p a Hp Ha. rewrite assoc_app, (assoc_combine ps args i p a); auto.
      * discriminate.
      * rewrite assoc_app, assoc_notin by auto. reflexivity.
  - destruct star as [x|].
    + destruct (length ps <=? length args) eqn:E; [apply Nat.leb_le in E; contradiction|].
      reflexivity.
    + destruct (length args =? length ps) eqn:E; [apply Nat.eqb_eq in E; contradiction|].
      reflexivity.
Qed.

(** call_cc[None] *)
Lemma none_fits tup ts star loc (v : V) cc : NoDup (ts ++ starl star ++ ["cc"]) ->
  exists fr, newframe tup ts star (ignores ts star) loc (repeat v (arity ts star)) cc = Some fr /\
    (forall t, In t ts -> assoc t (vals fr) = Some v) /\
    (forall x, star = Some x -> assoc x (vals fr) = Some (tup [])).
Proof.
  intros N. unfold arity. destruct (ignores ts star) eqn:E.
  - destruct ts, star; try discriminate. eexists. split; [reflexivity|].
    split; [intros t []|discriminate].
  - destruct (newframe_ok tup ts star loc (repeat v (length ts)) cc N) as [H _].
    rewrite repeat_length in H.
    destruct H as (fr & Hf & H1 & H2 & _); [destruct star; lia|].
    exists fr. split; [exact Hf|]. split.
    + intros t Ht. apply In_nth_error in Ht as (i & Hi). apply (H1 i t v Hi).
      apply nth_error_repeat. apply nth_error_Some. congruence.
    + intros x ->. apply (H2 x (repeat v (length ts)) []); [reflexivity| |apply repeat_length].
      now rewrite app_nil_r.
Qed.
(** a call_cc[] without targets ignores what it gets *)
Lemma ignored tup loc (args : list V) cc :
  newframe tup [] None (ignores [] None) loc args cc =
  if length args <=? 1 then Some (mkframe ("cc" :: loc) [("cc", cc)]) else None.
Proof. reflexivity. Qed.
End Args.
