From Coq Require Import String List Bool.
From Verif Require Import Base CollModel AmbModel AmbSpec AmbProofs FamModel FamSpec.
Import ListNotations.
Open Scope string_scope.
Open Scope list_scope.

Section P.
Context {D W : Type}.
Implicit Types (ls : list (fline D W)) (sc : scope D) (w : W).

(** the tree that build makes *)
Definition key (l : fline D W) := match fname l with Some x => x | None => "_ignored" end.
Fixpoint tree ls : mx D W :=
  match ls with
  | [] => Here
  | [l] => Unit (fbody l) false
  | l :: rest => Bind (Unit (fbody l) true) (key l) (tree rest)
  end.
Lemma splice_splice (a b t : mx D W) : splice a (splice b t) = splice (splice a b) t.
Proof. induction t; cbn; congruence. Qed.
Lemma build_some ls : forall t, build ls (Some t) = Some (splice (tree ls) t).
Proof.
  induction ls as [|l ls IH]; intros t.
  - cbn. f_equal. induction t; cbn; congruence.
  - destruct ls as [|l' ls]; [reflexivity|].
    change (build (l :: l' :: ls) (Some t)) with (build (l' :: ls) (Some (splice (Bind (Unit (fbody l) true) (key l) Here) t))).
    rewrite IH, splice_splice. reflexivity.
Qed.
Lemma build_none ls : ls <> [] -> build ls None = Some (tree ls).
Proof.
  destruct ls as [|l [|l' ls]]; [congruence|reflexivity|]. intros _.
  change (build (l :: l' :: ls) None) with (build (l' :: ls) (Some (Bind (Unit (fbody l) true) (key l) Here))).
  rewrite build_some. reflexivity.
Qed.
Lemma macro_eq ls sc w : ls <> [] -> forall_macro ls sc w = meval sc (tree ls) w.
Proof. intros N. unfold forall_macro. now rewrite build_none. Qed.

Lemma each_for f g x (w : W) : (forall v w, In v x -> f v w = g v w) ->
  for_each g x w = match each_elt f x w with (Ok rs, w) => (Ok (@concat (val D) rs), w) | (Raise e, w) => (Raise e, w) end.
Proof.
  revert w. induction x as [|v x IH]; intros w E; [reflexivity|]. cbn. rewrite <- E by now left.
  destruct (f v w) as [[r|e] w1]; [|reflexivity]. rewrite IH by (intros; apply E; now right).
  destruct (each_elt f x w1) as [[rs|e] w2]; reflexivity.
Qed.
Definition agree sc sc' := forall x, x <> "_ignored" -> lookup x sc = lookup x sc'.
Lemma agree_cons x v sc sc' : agree sc sc' -> agree ((x, v) :: sc) ((x, v) :: sc').
Proof. intros A y N. cbn. rewrite (A y N). reflexivity. Qed.
Lemma agree_skip v sc sc' : agree sc sc' -> agree (("_ignored", v) :: sc) sc'.
Proof. intros A y N. cbn [lookup]. destruct (String.eqb_spec "_ignored" y); [congruence|]. exact (A y N). Qed.
Definition okline (l : fline D W) := looks_up (fbody l) /\ good_values (fbody l).
Lemma each_good f x w rs w' (G : forall v w r w', f v w = (Ok r, w') -> r <> [Nil]) :
  each_elt f x w = (Ok rs, w') -> forall r, In r rs -> r <> [@Nil D].
Proof.
  revert w rs. induction x as [|v x IH]; intros w rs E; cbn in E.
  - injection E as <- <-. intros r [].
  - destruct (f v w) as [[r|e] w1] eqn:F; [|discriminate]. destruct (each_elt f x w1) as [[rs'|e] w2] eqn:Q; [|discriminate].
    injection E as <- <-. intros r' [<-|R]; [eauto|eapply IH; eauto].
Qed.
Lemma bind_not f x (w w' : W) r : bind_elts f x w = (Ok r, w') -> r <> [@Nil D].
Proof.
  unfold bind_elts. destruct (each_elt f x w) as [[rs|[]] w1]; intros E; try discriminate E; injection E as <- <-; try discriminate; apply mlist_not.
Qed.
Lemma meval_not ls sc w r w' : Forall okline ls -> meval sc (tree ls) w = (Ok r, w') -> r <> [Nil].
Proof.
  intros F E. destruct ls as [|l [|l' ls]].
  - discriminate E.
  - cbn in E. destruct (fbody l sc w) as [[v|e] w1] eqn:B; [|discriminate]. injection E as <- <-.
    rewrite monadify_results. apply results_not. inversion F as [|? ? [_ G] _]; subst. exact (G _ _ _ _ B).
  - change (tree (l :: l' :: ls)) with (Bind (Unit (fbody l) true) (key l) (tree (l' :: ls))) in E. cbn [meval] in E.
    destruct (fbody l sc w) as [[v|e] w1]; [|discriminate]. exact (bind_not _ _ _ _ _ E).
Qed.
Lemma bind_no_te f x (w w' : W) e : bind_elts f x w = (Raise e, w') -> exists w1, (exists e1, each_elt f x w = (@Raise (list (list (val D))) e1, w1)) /\ ~ peculiar e.
Proof.
  unfold bind_elts. destruct (each_elt f x w) as [[rs|e'] w1]; intros E; [discriminate E|].
  destruct e'; try discriminate E; injection E as <- <-; eexists; (split; [eexists; reflexivity|intros [?|?]; discriminate]).
Qed.
(** these can only be from the first line *)
Lemma first_peculiar l ls sc w e w' : peculiar e -> forall_macro (l :: ls) sc w = (Raise e, w') -> fbody l sc w = (Raise e, w').
Proof.
  intros Pe. rewrite macro_eq by discriminate. destruct ls as [|l' ls].
  - cbn. destruct (fbody l sc w) as [[v|e'] w1]; congruence.
  - change (tree (l :: l' :: ls)) with (Bind (Unit (fbody l) true) (key l) (tree (l' :: ls))). cbn [meval].
    destruct (fbody l sc w) as [[v|e'] w1]; [|congruence]. intros E. apply bind_no_te in E as (? & _ & N). now destruct N.
Qed.

Definition nte ls := Forall (fun l => no_peculiar (fbody l)) ls.
Lemma each_ext f g x w : (forall v w, In v x -> f v w = g v w) -> each_elt f x w = each_elt g x w :> outcome (list (list (val D))) * W.
Proof.
  revert w. induction x as [|v x IH]; intros w E; [reflexivity|]. cbn. rewrite E by now left.
  destruct (g v w) as [[r|e] w1]; [|reflexivity]. rewrite IH by (intros; apply E; now right). reflexivity.
Qed.
Lemma sim ls : ls <> [] -> Forall okline ls -> nte (tl ls) -> forall sc sc' w, agree sc sc' -> meval sc (tree ls) w = loops ls sc' w.
Proof.
  induction ls as [|l ls IH]; [congruence|]. intros _ F N sc sc' w A.
  inversion F as [|? ? [L G] F']; subst. cbn [tl] in N. destruct ls as [|l' ls].
  - cbn. rewrite (L sc sc' w A). destruct (fbody l sc' w) as [[v|e] w1]; [|reflexivity]. now rewrite monadify_results.
  - change (tree (l :: l' :: ls)) with (Bind (Unit (fbody l) true) (key l) (tree (l' :: ls))). cbn [meval].
    change (loops (l :: l' :: ls) sc' w) with (match fbody l sc' w with
      | (Ok v, w) => for_each (fun c => loops (l' :: ls) (match fname l with Some x => (x, c) :: sc' | None => sc' end)) (choices v) w
      | (Raise e, w) => (Raise e, w) end).
    rewrite (L sc sc' w A). destruct (fbody l sc' w) as [[v|e] w1]; [|reflexivity]. rewrite monadify_choices.
    assert (E : forall c w, meval ((key l, c) :: sc) (tree (l' :: ls)) w = loops (l' :: ls) (match fname l with Some x => (x, c) :: sc' | None => sc' end) w).
    { intros c w2. apply IH; [discriminate|exact F'|inversion N; subst; assumption|].
      unfold key. destruct (fname l) as [x|]; [apply agree_cons, A|apply agree_skip, A]. }
    rewrite (each_for (fun v w => meval ((key l, v) :: sc) (tree (l' :: ls)) w) _ (choices v) w1) by (intros; apply E).
    unfold bind_elts. destruct (each_elt _ (choices v) w1) as [[rs|e] w2] eqn:Q.
    + rewrite mlist_id; [reflexivity|]. apply concat_not. intros r R.
      revert r R. eapply each_good; [|exact Q]. cbn beta. intros. eapply meval_not; eauto.
    + assert (T : forall x w e w', peculiar e -> each_elt (fun v w => meval ((key l, v) :: sc) (tree (l' :: ls)) w) x w <> (Raise e, w'));
      [|destruct e; try reflexivity; exfalso; eapply T; try exact Q; [now left|now right]]. clear e Q.
      induction x as [|u x IHx]; intros w3 e w4 Pe; cbn [each_elt]; [discriminate|].
      destruct (meval ((key l, u) :: sc) (tree (l' :: ls)) w3) as [[r|e5] w5] eqn:M.
      * specialize (IHx w5 e w4 Pe). destruct (each_elt _ x w5) as [[rs|e6] w6]; [discriminate|]. intros [= -> ->]. now apply IHx.
      * intros [= -> ->]. rewrite <- macro_eq in M by discriminate. apply (first_peculiar _ _ _ _ _ _ Pe) in M.
        inversion N as [|? ? N1 _]; subst. exact (N1 _ _ _ _ Pe M).
Qed.
Lemma macro_loops ls sc w : ls <> [] -> Forall (fun l => looks_up (fbody l) /\ good_values (fbody l)) ls ->
  Forall (fun l => no_peculiar (fbody l)) (tl ls) -> forall_macro ls sc w = loops ls sc w.
Proof. intros. rewrite macro_eq by assumption. apply sim; auto. intros x _. reflexivity. Qed.
End P.
Lemma insist_stops {D W} (t : D) (l : fline D W) rest sc w w' : rest <> [] ->
  fbody l sc w = (Ok (MList (insist t false)), w') -> forall_macro (l :: rest) sc w = (Ok [], w').
Proof.
  intros N B. rewrite macro_eq by discriminate. destruct rest as [|l' rest]; [congruence|].
  change (tree (l :: l' :: rest)) with (Bind (Unit (fbody l) true) (key l) (tree (l' :: rest))). cbn [meval]. rewrite B. reflexivity.
Qed.
