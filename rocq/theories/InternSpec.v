(** Specification for C58, C59. *)
From Coq Require Import List.
From Verif Require Import Base InternModel.
Import ListNotations.
Open Scope list_scope.

(** An object is alive while some thread has a reference to it *)
Definition alive (s : st) (i : nat) : Prop := exists t, In (t, i) (refs s).
Definition one_per_key (s : st) : Prop := forall i j, alive s i -> alive s j -> keyof s i = keyof s j -> i = j.
(** The schedule has no signal handlers or finalizers that run in the middle of a construction *)
Definition uninterrupted (sched : list (nat * action)) : Prop := Forall (fun x => snd x <> Interrupt) sched.
Definition reachable (reentrant : bool) (s : st) : Prop :=
  exists sched, uninterrupted sched /\ run reentrant init sched = Some s.
(** Thread [t] is in the middle of a construction *)
Definition busy (s : st) (t : nat) : Prop := forall r, pcs s t <> Idle r.
(** Only the methods of [sym]: no constructor call goes through the metaclass *)
Definition only_new (sched : list (nat * action)) : Prop := Forall (fun x => forall k, snd x <> Construct k) sched.
Definition by_thread (t : nat) (sched : list (nat * action)) : Prop := Forall (fun x => fst x = t) sched.
