(** C58, C59: interned symbols and singletons under any schedule. *)
From Coq Require Import List Arith Bool.
From Verif Require Import Base InternModel InternSpec InternProofs.
Import ListNotations.
Open Scope nat_scope.
Open Scope list_scope.

(** C58, C59.  At any time at most one object per name (or class) is alive, whatever the threads do. *)
Theorem C58_unique : forall reentrant s, reachable reentrant s -> one_per_key s.
Proof. exact reach_one. Qed.
Print Assumptions C58_unique.

(** A call that returns gives the caller a reference to the one live object of that name. *)
Theorem C58_returns : forall reentrant s t s' k i, reachable reentrant s -> step reentrant s t Go = Some s' ->
  pcs s' t = Idle (Some (k, Obj i)) ->
  In (t, i) (refs s') /\ keyof s' i = k /\ forall j, alive s' j -> keyof s' j = k -> j = i.
Proof. exact reach_result. Qed.
Print Assumptions C58_returns.

(** While some thread is in the middle of sym(...), some thread can proceed. *)
Theorem C58_no_deadlock : forall reentrant sched s t, uninterrupted sched -> only_new sched ->
  run reentrant init sched = Some s -> busy s t -> exists u s', step reentrant s u Go = Some s'.
Proof. exact sym_progress. Qed.
Print Assumptions C58_no_deadlock.

(** sym(name) does not fail in a program with one thread ... *)
Theorem C58_no_failure_partial : forall reentrant t sched s k, uninterrupted sched -> by_thread t sched ->
  run reentrant init sched = Some s -> pcs s t <> Idle (Some (k, RKeyError)).
Proof. exact single_thread. Qed.
Print Assumptions C58_no_failure_partial.

Definition steps (t n : nat) : list (nat * action) := repeat (t, Go) n.
(** ... but with two it can: the other thread's symbol dies between the test and the lookup. *)
Theorem C58_keyerror_refuted : exists sched s, uninterrupted sched /\ only_new sched /\
  run false init sched = Some s /\ pcs s 1 = Idle (Some (7, RKeyError)).
Proof.
  exists ([(1, New 7); (1, Go); (0, New 7)] ++ steps 0 6 ++ [(1, Go); (1, Go); (0, Drop 0); (1, Go); (1, Go)]).
  destruct (witness (fun s => pcs s 1) false _ (Idle (Some (7, RKeyError)))
    (eq_refl : option_map _ (run false init ([(1, New 7); (1, Go); (0, New 7)] ++ steps 0 6 ++ [(1, Go); (1, Go); (0, Drop 0); (1, Go); (1, Go)])) = _)) as (s & E & P).
  exists s. split; [repeat constructor; discriminate|]. split; [repeat constructor; discriminate|]. auto.
Qed.
Print Assumptions C58_keyerror_refuted.

(** A finalizer or signal handler that makes a symbol while its thread is inside the lock: deadlock. *)
Theorem C58_finalizer_refuted : exists sched s, only_new sched /\ run false init sched = Some s /\
  busy s 0 /\ forall t, step false s t Go = None.
Proof.
  pose (sched := [(0, New 7)] ++ steps 0 3 ++ [(0, Interrupt); (0, New 8); (0, Go)]). exists sched.
  destruct (witness (fun s => (pcs s 0, lock s)) false sched (Acquire 8 false, Some (0, 1)) eq_refl) as (s & E & P).
  injection P as P Q. exists s. split; [repeat constructor; discriminate|]. split; [exact E|].
  split; [intros r; rewrite P; discriminate|]. apply stuck.
  - apply (idle_others false sched) with (s := init); auto. cbn. intuition subst; reflexivity.
  - unfold go, acquire. now rewrite P, Q.
Qed.
Print Assumptions C58_finalizer_refuted.

(** C59.  The constructor raises TypeError exactly when an instance is alive, and then changes
    nothing. *)
Theorem C59_type_error : forall reentrant s t k, reachable reentrant s -> pcs s t = CallCheck k ->
  exists s', step reentrant s t Go = Some s' /\
  ((exists i, alive s i /\ keyof s i = k) /\ pcs s' t = Idle (Some (k, RTypeError)) /\ made s' = made s /\ refs s' = refs s /\ registry s' = registry s \/
   (forall i, alive s i -> keyof s i <> k) /\ pcs s' t = Look k true).
Proof. exact call_check. Qed.
Print Assumptions C59_type_error.

(** Otherwise __init__ is called, and on an object created during this very call. *)
Theorem C59_new_object : forall reentrant s t k sched s' i, reachable reentrant s -> pcs s t = Look k true ->
  uninterrupted sched -> Forall (fun x => fst x = t -> snd x = Go) sched ->
  run reentrant s sched = Some s' -> pcs s' t = Init k i -> made s <= i.
Proof. exact call_fresh. Qed.
Print Assumptions C59_new_object.

Theorem C59_no_deadlock : forall s t, reachable true s -> busy s t -> exists u s', step true s u Go = Some s'.
Proof. exact singleton_progress. Qed.
Print Assumptions C59_no_deadlock.

(** At most one instance per class, under any schedule without signal handlers in the constructor. *)
Theorem C59_unique_partial : forall s, reachable true s -> one_per_key s.
Proof. exact (reach_one true). Qed.
Print Assumptions C59_unique_partial.

(** A signal handler that makes the singleton while its thread is inside the constructor: the lock is
    reentrant, so both instances are made. *)
Theorem C59_signal_refuted : exists sched s, run true init sched = Some s /\ ~ one_per_key s.
Proof.
  pose (sched := [(0, Construct 7)] ++ steps 0 5 ++ [(0, Interrupt); (0, Construct 7)] ++ steps 0 9 ++ [(0, Resume)] ++ steps 0 4).
  exists sched.
  destruct (witness (fun s => (pcs s 0, refs s, keyof s 0, keyof s 1)) true sched (Idle (Some (7, Obj 1)), [(0, 1); (0, 0)], 7, 7) eq_refl) as (s & E & P).
  injection P as P R K0 K1. exists s. split; [exact E|]. intros H. specialize (H 0 1).
  assert (X : 0 = 1); [|discriminate X].
  apply H; [exists 0; rewrite R; right; now left|exists 0; rewrite R; now left|congruence].
Qed.
Print Assumptions C59_signal_refuted.

(** Unpickling in two threads at once can fail like sym. *)
Theorem C59_unpickle_refuted : exists sched s, uninterrupted sched /\
  run true init sched = Some s /\ pcs s 1 = Idle (Some (7, RKeyError)).
Proof.
  pose (sched := [(1, New 7); (1, Go); (0, Construct 7)] ++ steps 0 9 ++ [(1, Go); (1, Go); (0, Drop 0); (1, Go); (1, Go)]).
  exists sched.
  destruct (witness (fun s => pcs s 1) true sched (Idle (Some (7, RKeyError))) eq_refl) as (s & E & P).
  exists s. split; [repeat constructor; discriminate|]. auto.
Qed.
Print Assumptions C59_unpickle_refuted.

(** Two threads ask for the same name at the same time, a third for another. *)
Example C58_ex : exists s, reachable false s /\ pcs s 0 = Idle (Some (7, Obj 0)) /\ pcs s 1 = Idle (Some (7, Obj 0)) /\ alive s 0 /\ alive s 1.
Proof.
  pose (sched := [(0, New 7); (1, New 7); (0, Go); (1, Go)] ++ steps 0 5 ++ steps 1 4 ++ [(2, New 8)] ++ steps 2 6).
  destruct (witness (fun s => (pcs s 0, pcs s 1, refs s)) false sched
    (Idle (Some (7, Obj 0)), Idle (Some (7, Obj 0)), [(2, 1); (1, 0); (0, 0)]) eq_refl) as (s & E & P).
  injection P as P0 P1 R. exists s. split.
  - exists sched. split; [repeat constructor; discriminate|exact E].
  - split; [exact P0|]. split; [exact P1|]. split; [exists 0|exists 2]; rewrite R; cbn; auto.
Qed.
Example C59_ex : exists s, reachable true s /\ pcs s 1 = Idle (Some (7, RTypeError)) /\ pcs s 2 = Idle (Some (7, Obj 0)) /\ pcs s 3 = CallCheck 7.
Proof.
  pose (sched := [(0, Construct 7); (1, Construct 7)] ++ steps 0 9 ++ steps 1 2 ++ [(2, New 7); (2, Go); (3, Construct 7); (3, Go)]).
  destruct (witness (fun s => (pcs s 1, pcs s 2, pcs s 3)) true sched
    (Idle (Some (7, RTypeError)), Idle (Some (7, Obj 0)), CallCheck 7) eq_refl) as (s & E & P).
  injection P as P1 P2 P3. exists s. split; [|auto].
  exists sched. split; [repeat constructor; discriminate|exact E].
Qed.
