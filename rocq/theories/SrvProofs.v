From Verif Require Import Base SrvModel SrvSpec.
From Coq Require Import List Bool Arith Lia.
Import ListNotations.

Section Proofs.
Variables o1 o2 : option prompt.
Notation run := (run o1 o2).
Notation step := (step o1 o2).
Notation start := start.
Notation stop := (stop o1 o2).
Lemma run_snoc h e : run (h ++ [e]) = step (run h) e.
Proof. unfold SrvModel.run. now rewrite fold_left_app. Qed.

(** * what the server changes, in plain histories *)
Definition state_of (s : option nat) (w : world) : Prop :=
  match s with
  | Some l => instance w = true /\ namespace w = Some l /\ stdin w = Shimmed /\ stdout w = Shimmed /\ stderr w = Shimmed /\
      ps1 w = Some Server /\ ps2 w = Some Server /\ registered w = true /\ repl_port w = true /\ control_port w = true
  | None => instance w = false /\ namespace w = None /\ stdin w = Original /\ stdout w = Original /\ stderr w = Original /\
      ps1 w = o1 /\ ps2 w = o2 /\ registered w = false /\ repl_port w = false /\ control_port w = false
  end.
Lemma serving_app s h h' : serving s (h ++ h') = serving (serving s h) h'.
Proof. revert s. induction h as [|e h IH]; intros s; cbn; auto. destruct e; cbn; auto. Qed.
Lemma serves h : (forall e, In e h -> plain e) -> state_of (serving None h) (run h).
Proof.
  induction h as [|e h IH] using rev_ind; intros P; [cbn; auto 20|]. rewrite run_snoc, serving_app.
  assert (PE : plain e) by (apply P, in_or_app; right; now left).
  assert (I : state_of (serving None h) (run h)) by (apply IH; intros; apply P, in_or_app; now left).
  set (w := run h) in *. clearbody w. destruct w as [wi wn w0 w1 w2 wp1 wp2 wr wpo wc we wh ws wk].
  destruct e as [l a b| |d| |n|n|n]; cbn in PE; try contradiction; cbn [serving]; try exact I.
  - destruct PE as [-> ->]. destruct (serving None h) as [k|]; cbn [state_of] in *; cbn in I; decompose [and] I; subst; cbn; auto 20.
  - destruct (serving None h) as [k|]; cbn [state_of] in *; cbn in I; decompose [and] I; subst; cbn.
    + unfold SrvModel.stop. cbn. destruct o1 as [p1|], o2 as [p2|]; cbn; auto 20.
    + unfold SrvModel.stop. cbn. auto 20.
Qed.

(** * halting *)
Lemma halted_app s h h' : halted s (h ++ h') = halted (halted s h) h'.
Proof. revert s. induction h as [|e h IH]; intros s; cbn; auto. destruct e; cbn; auto. Qed.
Lemma opened_app h h' : opened (h ++ h') = opened h + opened h'.
Proof. induction h as [|e h IH]; cbn; auto. destruct e; cbn; lia. Qed.
Definition other (w w' : world) : Prop := halt_pending w' = halt_pending w /\ sessions w' = sessions w /\ counter w' = counter w.
Lemma start_other w l a b : other w (fst (start w l a b)).
Proof. unfold SrvModel.start, other. destruct (instance w), a, b; cbn; auto; destruct (repl_port w), (control_port w); cbn; auto. Qed.
Lemma stop_other w : other w (fst (stop w)).
Proof. unfold SrvModel.stop, other. destruct (instance w), o1, o2; cbn; auto; destruct (ps1 w), (ps2 w); cbn; auto. Qed.
Lemma halts h : halt_pending (run h) = halted false h.
Proof.
  induction h as [|e h IH] using rev_ind; auto. rewrite run_snoc, halted_app, <- IH.
  destruct e; cbn [SrvModel.step halted]; auto; [apply start_other|apply stop_other].
Qed.
Lemma counts h : counter (run h) = S (opened h).
Proof.
  induction h as [|e h IH] using rev_ind; auto. rewrite run_snoc, opened_app.
  destruct e; cbn [SrvModel.step opened counter]; rewrite ?IH; try lia.
  - destruct (start_other (run h) locals repl_ok control_ok) as (_ & _ & ->). lia.
  - destruct (stop_other (run h)) as (_ & _ & ->). lia.
Qed.
Lemma active_bound h n : active h n -> n <= opened h.
Proof. intros (b & a & -> & -> & _). rewrite opened_app. cbn. lia. Qed.
Lemma active_snoc h e n : active (h ++ [e]) n <-> (active h n /\ e <> Close n) \/ (e = Open /\ n = S (opened h)).
Proof.
  split.
  - intros (b & a & E & -> & N). destruct a as [|x a] using rev_ind.
    + apply app_inj_tail in E as [-> ->]. auto.
    + clear IHa. change (b ++ Open :: a ++ [x]) with (b ++ (Open :: a) ++ [x]) in E. rewrite app_assoc in E. apply app_inj_tail in E as [-> ->].
      left. split.
      * exists b, a. repeat split; auto. intros H. apply N, in_or_app. auto.
      * intros ->. apply N, in_or_app. right. now left.
  - intros [[(b & a & -> & -> & N) C]|[-> ->]].
    + exists b, (a ++ [e]). rewrite <- app_assoc. repeat split; auto. intros H. apply in_app_or in H as [H|[H|[]]]; auto.
    + exists h, []. auto.
Qed.
Lemma sessions_ok h n : In n (sessions (run h)) <-> active h n.
Proof.
  induction h as [|e h IH] using rev_ind.
  - cbn. split; [tauto|]. intros (b & a & E & _). destruct b; discriminate.
  - rewrite run_snoc, active_snoc, <- IH. destruct e; cbn [SrvModel.step sessions].
    + destruct (start_other (run h) locals repl_ok control_ok) as (_ & -> & _). intuition discriminate.
    + destruct (stop_other (run h)) as (_ & -> & _). intuition discriminate.
    + intuition discriminate.
    + rewrite counts. cbn [In]. intuition (try discriminate); auto.
    + split.
      * intros H. apply in_remove in H as [H N]. left. split; auto. congruence.
      * intros [[H N]|[H _]]; [|discriminate]. apply in_in_remove; auto.
    + intuition discriminate.
    + intuition discriminate.
Qed.
Lemma main_loop h : leaves_main (run h) = true <-> halted false h = true /\ forall n, ~ active h n.
Proof.
  unfold leaves_main. rewrite halts, andb_true_iff. split; intros [H S1]; split; auto.
  - intros n A. apply sessions_ok in A. destruct (sessions (run h)); [contradiction|discriminate].
  - destruct (sessions (run h)) as [|n l] eqn:E; auto. exfalso. apply (S1 n). apply sessions_ok. rewrite E. now left.
Qed.

(** * single calls *)
Lemma start_running w l a b : instance w = true -> start w l a b = (w, Raised RuntimeError).
Proof. intros H. unfold SrvModel.start. now rewrite H. Qed.
Lemma stop_stopped w : instance w = false -> stop w = (w, Returned).
Proof. intros H. unfold SrvModel.stop. now rewrite H. Qed.
End Proofs.
