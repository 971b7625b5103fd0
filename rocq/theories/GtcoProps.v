(** C38: gtco. *)
From Coq Require Import List Arith.
From Verif Require Import Base GtcoModel GtcoSpec GtcoProofs.
Import ListNotations.
Open Scope nat_scope.
Open Scope list_scope.

(** The items of the chain come out, in order, and then the last generator is running. *)
Theorem C38_items : forall (V D : Type) (g : gen V D) l g',
  chain g l g' -> exists n, run n (gtco g) = (l, Running (gtco g')).
Proof. intros V D. exact chain_run. Qed.
Print Assumptions C38_items.

(** The value or exception the chain ends with is passed on. *)
Theorem C38_returns : forall (V D : Type) (g : gen V D) l r,
  chain g l (GReturn r) -> r = RNone \/ (exists d, r = RData d) ->
  exists n, run n (gtco g) = (l, Returned r).
Proof. intros V D. exact chain_returns. Qed.
Print Assumptions C38_returns.

Theorem C38_raises : forall (V D : Type) (g : gen V D) l e,
  chain g l (GRaise e) -> exists n, run n (gtco g) = (l, Raised e).
Proof. intros V D. exact chain_raises. Qed.
Print Assumptions C38_raises.

(** Nothing else ever comes out: after any number of steps, the items shown are items of the chain,
    or all of them followed by items of the iterable that the last generator returned. *)
Theorem C38_nothing_else : forall (V D : Type) n (g : gen V D) l s, run n (gtco g) = (l, s) ->
  (exists g', chain g l g' /\
     match s with
     | Running p => p = gtco g'
     | Returned r => g' = GReturn r /\ (r = RNone \/ exists d, r = RData d)
     | Raised e => g' = GRaise e
     end) \/
  (exists l1 d it l2 it', chain g l1 (GReturn (RIter d it)) /\ yields it l2 it' /\ l = l1 ++ l2 /\
     match s with
     | Running p => p = Batch d it'
     | Returned r => (exists r', it' = GReturn r' /\ r = RNone) \/ (it' = GRaise TypeError /\ r = RIter d (GRaise TypeError))
     | Raised e => it' = GRaise e /\ e <> TypeError
     end).
Proof. intros V D. exact run_shown. Qed.
Print Assumptions C38_nothing_else.

(** The last batch: an iterable returned at the end is yielded from. *)
Theorem C38_last_batch : forall (V D : Type) (g : gen V D) l d it l2 r,
  chain g l (GReturn (RIter d it)) -> yields it l2 (GReturn r) ->
  exists n, run n (gtco g) = (l ++ l2, Returned RNone).
Proof. intros V D. exact chain_batch_end. Qed.
Print Assumptions C38_last_batch.

Theorem C38_last_batch_raises : forall (V D : Type) (g : gen V D) l d it l2 e,
  chain g l (GReturn (RIter d it)) -> yields it l2 (GRaise e) -> e <> TypeError ->
  exists n, run n (gtco g) = (l ++ l2, Raised e).
Proof. intros V D. exact chain_batch_raise. Qed.
Print Assumptions C38_last_batch_raises.

(** As stated, "returns the last non-generator value" fails when that value is iterable: the
    generator returns None. *)
Theorem C38_value_refuted : exists (g : gen nat nat) l d it,
  chain g l (GReturn (RIter d it)) /\ exists n l', run n (gtco g) = (l', Returned RNone).
Proof.
  exists (GReturn (RIter 5 (GYield 1 (GReturn RNone)))), [], 5, (GYield 1 (GReturn RNone)).
  split; [apply ChLast; constructor|]. exists 3, [1]. reflexivity.
Qed.
Print Assumptions C38_value_refuted.

(** A TypeError raised while the last batch is iterated is swallowed. *)
Theorem C38_typeerror_refuted : exists (g : gen nat nat) l d it l2,
  chain g l (GReturn (RIter d it)) /\ yields it l2 (GRaise TypeError) /\
  exists n x, run n (gtco g) = (l ++ l2, Returned x).
Proof.
  exists (GReturn (RIter 5 (GYield 1 (GRaise TypeError)))), [], 5, (GYield 1 (GRaise TypeError)), [1].
  split; [apply ChLast; constructor|]. split; [repeat constructor|]. exists 3. eexists. reflexivity.
Qed.
Print Assumptions C38_typeerror_refuted.

Definition g3 : gen nat nat :=
  GYield 1 (GYield 2 (GReturn (RTramp (GYield 3 (GReturn (RGen (GReturn (RGen (GYield 4 (GReturn (RData 9))))))))))).
Example g3_chain : chain g3 [1; 2; 3; 4] (GReturn (RData 9)).
Proof.
  unfold g3. change [1; 2; 3; 4] with ([1; 2] ++ [3; 4]). eapply ChJump; [repeat constructor|reflexivity|].
  change [3; 4] with ([3] ++ [4]). eapply ChJump; [repeat constructor|reflexivity|].
  change [4] with ([] ++ [4]). eapply ChJump; [repeat constructor|reflexivity|].
  apply ChLast. repeat constructor.
Qed.
CoFixpoint ones : gen nat nat := GYield 1 (GReturn (RTramp ones)).
Example ones_run : run 7 (gtco ones) = ([1; 1; 1; 1], Running (gtco (GReturn (RTramp ones)))).
Proof. reflexivity. Qed.
Definition batch_ex : gen nat nat := GYield 1 (GReturn (RIter 5 (GYield 2 (GRaise ValueError)))).
Example batch_chain : chain batch_ex [1] (GReturn (RIter 5 (GYield 2 (GRaise ValueError)))) /\
  yields (GYield 2 (GRaise ValueError)) [2] (GRaise ValueError : gen nat nat).
Proof. split; [apply ChLast; repeat constructor|repeat constructor]. Qed.
Example batch_end : yields (GYield 2 (GReturn RNone)) [2] (GReturn RNone : gen nat nat).
Proof. repeat constructor. Qed.
