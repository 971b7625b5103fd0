(** Proofs for C38. *)
From Coq Require Import List Arith Lia.
From Verif Require Import Base GtcoModel GtcoSpec.
Import ListNotations.
Open Scope list_scope.
Section GtcoProofs.
Context {V D : Type}.
Implicit Types (g it : gen V D) (p : point V D).

(** [run] with more fuel continues *)
Lemma run_plus n m p : run (n + m) p =
  match run n p with
  | (l, Running p') => let (l', s) := run m p' in (l ++ l', s)
  | done => done
  end.
Proof.
  revert p. induction n as [|n IH]; intros p; cbn.
  - destruct (run m p); reflexivity.
  - destruct (step p) as [v p'|p'|r|e]; auto. rewrite IH. destruct (run n p') as [l s].
    destruct s as [r|e|p'']; auto. destruct (run m p''); reflexivity.
Qed.

Lemma yields_run g l g' : yields g l g' -> exists n, run n (Outer g) = (l, Running (Outer g')).
Proof.
  induction 1 as [g|v g l g' H [n IH]]; [exists 0; reflexivity|]. exists (S n). cbn. now rewrite IH.
Qed.
Lemma yields_run_batch d it l it' : yields it l it' -> exists n, run n (Batch d it) = (l, Running (Batch d it')).
Proof.
  induction 1 as [g|v g l g' H [n IH]]; [exists 0; reflexivity|]. exists (S n). cbn. now rewrite IH.
Qed.
Lemma chain_run g l g' : chain g l g' -> exists n, run n (gtco g) = (l, Running (Outer g')).
Proof.
  unfold gtco. induction 1 as [g l g' H|g l1 r g2 l2 g' H Hr Hc [m IH]].
  - now apply yields_run.
  - destruct (yields_run _ _ _ H) as [n Hn]. exists (n + S m). rewrite run_plus, Hn. cbn.
    destruct r; try discriminate; injection Hr as ->; cbn; rewrite IH; reflexivity.
Qed.

Lemma chain_cons v g l g' : chain g l g' -> chain (GYield v g) (v :: l) g'.
Proof.
  intros H. destruct H as [g l g' H|g l1 r g2 l2 g' H Hr Hc].
  - apply ChLast. now constructor.
  - change (v :: l1 ++ l2) with ((v :: l1) ++ l2). eapply ChJump; eauto. now constructor.
Qed.
Lemma chain_jump r g2 l g' : jumps_to r = Some g2 -> chain g2 l g' -> chain (GReturn r) l g'.
Proof. intros Hr H. apply (ChJump (GReturn r) [] r g2 l g'); auto. constructor. Qed.

Lemma run_batch n : forall d it l s, run n (Batch d it) = (l, s) ->
  exists it', yields it l it' /\
    match s with
    | Running p => p = Batch d it'
    | Returned r => (exists r', it' = GReturn r' /\ r = RNone) \/ (it' = GRaise TypeError /\ r = RIter d (GRaise TypeError))
    | Raised e => it' = GRaise e /\ e <> TypeError
    end.
Proof.
  induction n as [|n IH]; intros d it l s H; cbn in H.
  - injection H as <- <-. exists it. split; [constructor|reflexivity].
  - destruct it as [v it|r|e]; cbn in H.
    + destruct (run n (Batch d it)) as [l1 s1] eqn:E. injection H as <- <-.
      destruct (IH _ _ _ _ E) as (it' & Y & S1). exists it'. split; [now constructor|exact S1].
    + injection H as <- <-. exists (GReturn r). split; [constructor|left; eauto].
    + exists (GRaise e). destruct e; cbn in H; injection H as <- <-; (split; [constructor|]); auto;
        split; congruence.
Qed.

(** What [n] steps show *)
Definition shown g l (s : status V D) : Prop :=
  (exists g', chain g l g' /\
     match s with
     | Running p => p = Outer g'
     | Returned r => g' = GReturn r /\ (r = RNone \/ exists d, r = RData d)
     | Raised e => g' = GRaise e
     end) \/
  (exists l1 d it l2 it', chain g l1 (GReturn (RIter d it)) /\ yields it l2 it' /\ l = l1 ++ l2 /\
     match s with
     | Running p => p = Batch d it'
     | Returned r => (exists r', it' = GReturn r' /\ r = RNone) \/ (it' = GRaise TypeError /\ r = RIter d (GRaise TypeError))
     | Raised e => it' = GRaise e /\ e <> TypeError
     end).

Lemma shown_cons v g l s : shown g l s -> shown (GYield v g) (v :: l) s.
Proof.
  intros [(g' & H & Hs)|(l1 & d & it & l2 & it' & H & Y & -> & Hs)].
  - left. exists g'. split; [now apply chain_cons|exact Hs].
  - right. exists (v :: l1), d, it, l2, it'. split; [now apply chain_cons|auto].
Qed.
Lemma shown_jump r g2 l s : jumps_to r = Some g2 -> shown g2 l s -> shown (GReturn r) l s.
Proof.
  intros Hr [(g' & H & Hs)|(l1 & d & it & l2 & it' & H & Y & -> & Hs)].
  - left. exists g'. split; [eapply chain_jump; eauto|exact Hs].
  - right. exists l1, d, it, l2, it'. split; [eapply chain_jump; eauto|auto].
Qed.

Lemma run_shown n : forall g l s, run n (gtco g) = (l, s) -> shown g l s.
Proof.
  unfold gtco. induction n as [|n IH]; intros g l s H; cbn in H.
  - injection H as <- <-. left. exists g. split; [apply ChLast; constructor|reflexivity].
  - destruct g as [v g|r|e]; cbn in H.
    + destruct (run n (Outer g)) as [l1 s1] eqn:E. injection H as <- <-. apply shown_cons. now apply IH.
    + destruct r as [|d|d it|g2|g2]; cbn in H.
      * injection H as <- <-. left. exists (GReturn RNone). split; [apply ChLast; constructor|auto].
      * injection H as <- <-. left. exists (GReturn (RData d)). split; [apply ChLast; constructor|eauto].
      * destruct (run_batch _ _ _ _ _ H) as (it' & Y & Hs). right. exists [], d, it, l, it'.
        split; [apply ChLast; constructor|auto].
      * eapply shown_jump; [reflexivity|]. now apply IH.
      * eapply shown_jump; [reflexivity|]. now apply IH.
    + injection H as <- <-. left. exists (GRaise e). split; [apply ChLast; constructor|reflexivity].
Qed.

Lemma chain_returns g l r : chain g l (GReturn r) -> r = RNone \/ (exists d, r = RData d) ->
  exists n, run n (gtco g) = (l, Returned r).
Proof.
  intros H Hr. destruct (chain_run _ _ _ H) as [n E]. exists (n + 1). rewrite run_plus, E. cbn.
  destruct Hr as [->|[d ->]]; cbn; now rewrite app_nil_r.
Qed.
Lemma chain_raises g l e : chain g l (GRaise e) -> exists n, run n (gtco g) = (l, Raised e).
Proof.
  intros H. destruct (chain_run _ _ _ H) as [n E]. exists (n + 1). rewrite run_plus, E. cbn. now rewrite app_nil_r.
Qed.
Lemma chain_batch g l d it l2 it' : chain g l (GReturn (RIter d it)) -> yields it l2 it' ->
  exists n, run n (gtco g) = (l ++ l2, Running (Batch d it')).
Proof.
  intros H Y. destruct (chain_run _ _ _ H) as [n E]. destruct (yields_run_batch d _ _ _ Y) as [m E2].
  exists (n + S m). rewrite run_plus, E. cbn. now rewrite E2.
Qed.
Lemma chain_batch_end g l d it l2 r : chain g l (GReturn (RIter d it)) -> yields it l2 (GReturn r) ->
  exists n, run n (gtco g) = (l ++ l2, Returned RNone).
Proof.
  intros H Y. destruct (chain_batch _ _ _ _ _ _ H Y) as [n E]. exists (n + 1). rewrite run_plus, E. cbn. now rewrite app_nil_r.
Qed.
Lemma chain_batch_raise g l d it l2 e : chain g l (GReturn (RIter d it)) -> yields it l2 (GRaise e) -> e <> TypeError ->
  exists n, run n (gtco g) = (l ++ l2, Raised e).
Proof.
  intros H Y Hn. destruct (chain_batch _ _ _ _ _ _ H Y) as [n E]. exists (n + 1). rewrite run_plus, E.
  destruct e; cbn; try congruence; now rewrite app_nil_r.
Qed.
End GtcoProofs.
