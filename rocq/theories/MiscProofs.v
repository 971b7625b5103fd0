(** Proofs for C66. *)
From Coq Require Import List Lia.
From Verif Require Import Base MiscModel MiscSpec.
Import ListNotations.
Open Scope list_scope.

Section MiscProofs.
Context {X : Type}.

Lemma items_app (a b : list (option X)) : items (a ++ b) = items a ++ items b.
Proof. induction a as [|[x|] a IH]; cbn; congruence. Qed.

(** Each answer is the first item of the contents at that time *)
Lemma popper_each (l : list X) es : let (c, o) := popper_run l es in
  popper_run l (es ++ [PNext]) = (tl c, o ++ [hd_error c]).
Proof.
  unfold popper_run. rewrite fold_left_app. cbn. destruct (fold_left popper_step es (l, [])) as [c o]. cbn.
  destruct c as [|x c]; reflexivity.
Qed.
Lemma popper_fifo (l : list X) es a : appends es a ->
  let (c, o) := popper_run l es in items o ++ c = l ++ a.
Proof.
  intros H. unfold popper_run.
  assert (G : forall l o, let (c, o') := fold_left popper_step es (l, o) in items o' ++ c = items o ++ l ++ a).
  { clear l. induction H as [|es a H IH|x es a H IH]; intros l o; cbn.
    - now rewrite app_nil_r.
    - destruct l as [|x l]; cbn.
      + specialize (IH [] (o ++ [None])). destruct (fold_left popper_step es ([], o ++ [None])) as [c o']. rewrite IH, items_app. cbn.
        now rewrite app_nil_r.
      + specialize (IH l (o ++ [Some x])). destruct (fold_left popper_step es (l, o ++ [Some x])) as [c o']. rewrite IH, items_app. cbn.
        now rewrite <- app_assoc.
    - specialize (IH (l ++ [x]) o). destruct (fold_left popper_step es (l ++ [x], o)) as [c o']. rewrite IH. now rewrite <- app_assoc. }
  specialize (G l []). exact G.
Qed.

Section Counting.
Context {I : Type}.
Variable next : I -> outcome X * I.
Lemma counting_spec n : forall c, let (rs, c') := counting_run next n c in
  plain_run next n (inner c) = (rs, inner c') /\ count c' = count c + length (yielded rs).
Proof.
  induction n as [|n IH]; intros c; cbn; [split; [reflexivity|lia]|]. unfold counting_next.
  destruct (next (inner c)) as [r it]. destruct r as [x|e].
  - specialize (IH (mkC it (S (count c)))). destruct (counting_run next n (mkC it (S (count c)))) as [rs c'].
    cbn in IH. destruct IH as [-> ->]. cbn. split; [reflexivity|lia].
  - specialize (IH (mkC it (count c))). destruct (counting_run next n (mkC it (count c))) as [rs c'].
    cbn in IH. destruct IH as [-> ->]. cbn. split; [reflexivity|lia].
Qed.
End Counting.

Lemma qrun_taken es : forall s : qst (X:=X), taken (fold_left qstep es s) ++ queue (fold_left qstep es s) = taken s ++ queue s ++ puts es.
Proof.
  induction es as [|e es IH]; intros s; cbn; [now rewrite app_nil_r|]. rewrite IH. destruct e as [x| |]; cbn.
  - now rewrite <- app_assoc.
  - destruct (queue s) as [|x q] eqn:Q; cbn; [now rewrite Q|]. now rewrite <- app_assoc.
  - destruct (finished s); [reflexivity|]. destruct (queue s) as [|x q] eqn:Q; cbn; [reflexivity|]. now rewrite <- app_assoc.
Qed.
Lemma sub_app_r (a b : list X) x : subsequence a b -> subsequence (a ++ [x]) (b ++ [x]).
Proof.
  induction 1 as [l|y a b H IH|y a b H IH]; cbn.
  - induction l as [|z l IH]; cbn; [constructor; constructor|now constructor].
  - now constructor.
  - now constructor.
Qed.
Lemma sub_app_drop (a b c : list X) : subsequence a b -> subsequence a (b ++ c).
Proof. induction 1; cbn; now constructor. Qed.
Lemma qrun_sub es : forall s : qst (X:=X), subsequence (out s) (taken s) -> subsequence (out (fold_left qstep es s)) (taken (fold_left qstep es s)).
Proof.
  induction es as [|e es IH]; intros s H; cbn; [exact H|]. apply IH. destruct e as [x| |]; cbn.
  - exact H.
  - destruct (queue s); [exact H|]. cbn. now apply sub_app_drop.
  - destruct (finished s); [exact H|]. destruct (queue s); cbn; [exact H|]. now apply sub_app_r.
Qed.
Lemma qrun_only es : forall s : qst (X:=X), only_slurp es -> taken s = out s -> taken (fold_left qstep es s) = out (fold_left qstep es s).
Proof.
  induction es as [|e es IH]; intros s Ho H; cbn; [exact H|]. apply IH.
  - intros Hi. apply Ho. now right.
  - destruct e as [x| |]; cbn.
    + exact H.
    + exfalso. apply Ho. now left.
    + destruct (finished s); [exact H|]. destruct (queue s); cbn; [exact H|]. now rewrite H.
Qed.
Lemma slurp_fifo (q : list X) es : taken (qrun q es) ++ queue (qrun q es) = q ++ puts es.
Proof. unfold qrun. now rewrite qrun_taken. Qed.
Lemma slurp_order (q : list X) es : subsequence (out (qrun q es)) (q ++ puts es).
Proof. rewrite <- slurp_fifo. apply sub_app_drop. apply qrun_sub. constructor. Qed.
Lemma slurp_only (q : list X) es : only_slurp es -> out (qrun q es) ++ queue (qrun q es) = q ++ puts es.
Proof. intros H. rewrite <- slurp_fifo. f_equal. symmetry. apply qrun_only; auto. Qed.
(** When slurp returns, at least the initial items are out *)
Lemma finished_all es : forall s : qst (X:=X), only_slurp es -> finished s = false -> finished (fold_left qstep es s) = true ->
  exists more, out (fold_left qstep es s) = out s ++ queue s ++ more.
Proof.
  induction es as [|e es IH]; intros s Ho Hf H; cbn in *; [congruence|].
  assert (Ho' : only_slurp es) by (intros Hi; apply Ho; now right).
  destruct e as [x| |]; cbn in *.
  - destruct (IH (mkQ (queue s ++ [x]) (out s) (finished s) (taken s)) Ho' Hf H) as [more E]. cbn in E.
    exists ([x] ++ more). now rewrite E, <- app_assoc.
  - exfalso. apply Ho. now left.
  - rewrite Hf in *. destruct (queue s) as [|x q].
    + assert (D : forall es (s : qst (X:=X)), finished s = true -> out (fold_left qstep es s) = out s).
      { clear. induction es as [|e es IH]; intros s H; cbn; [reflexivity|]. rewrite IH; destruct e; cbn; auto; try (destruct (queue s); auto); now rewrite H. }
      rewrite D by reflexivity. exists []. cbn. now rewrite app_nil_r.
    + destruct (IH (mkQ q (out s ++ [x]) false (taken s ++ [x])) Ho' eq_refl H) as [more E]. cbn in E. exists more. now rewrite E, <- app_assoc.
Qed.
Lemma slurp_complete (q : list X) es : only_slurp es -> finished (qrun q es) = true -> exists more, out (qrun q es) = q ++ more.
Proof. intros Ho H. destruct (finished_all es (mkQ q [] false []) Ho eq_refl H) as [more E]. exists more. exact E. Qed.
End MiscProofs.
