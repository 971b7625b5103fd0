(** C31, C32, C33: memoized generators and functions. *)
From Coq Require Import List Bool Arith ZArith Lia.
From Verif Require Import Base CollModel MemoModel MemoSpec GmemoProofs MemoProofs.
Import ListNotations.
Open Scope nat_scope.

(** ** C31.  The generator may itself use instances of its sequence ([own]), as long as it does
    not need an item to compute that same item ([productive]); every other instance is used by
    one thread at a time ([one_user]).  Schedules are arbitrary otherwise. *)

(** The k-th next() on any instance gives the k-th item of the sequence, be it a value or an
    exception. *)
Theorem C31_every_instance_partial : forall (V G : Type) (resume : G -> gprog V G) (own : nat -> bool) (g : G),
  productive resume g -> (forall g', uses_only own (resume g')) ->
  forall acts s i k r, one_user resume own (gst0 g) acts -> gmrun resume (gst0 g) acts = Some s ->
  nth_error (given s i) k = Some r -> item resume g k = Some r.
Proof. intros V G resume own g. exact (every_instance resume own g). Qed.
Print Assumptions C31_every_instance_partial.

(** When no call is in progress, the generator has been resumed exactly as often as the
    instance that got furthest has been advanced: each item was computed once, on demand. *)
Theorem C31_once_partial : forall (V G : Type) (resume : G -> gprog V G) (own : nat -> bool) (g : G),
  productive resume g -> (forall g', uses_only own (resume g')) ->
  forall acts s, one_user resume own (gst0 g) acts -> gmrun resume (gst0 g) acts = Some s ->
  (forall t, calls s t = []) ->
  (forall i, length (given s i) <= advanced s) /\ (advanced s = 0 \/ exists i, length (given s i) = advanced s).
Proof. intros V G resume own g. exact (once resume own g). Qed.
Print Assumptions C31_once_partial.

(** No deadlock, also for recursively defined sequences. *)
Theorem C31_no_deadlock : forall (V G : Type) (resume : G -> gprog V G) (own : nat -> bool) (g : G),
  productive resume g -> (forall g', uses_only own (resume g')) ->
  forall acts s, one_user resume own (gst0 g) acts -> gmrun resume (gst0 g) acts = Some s ->
  (exists t, calls s t <> []) -> exists t s', calls s t <> [] /\ gmstep resume s (Go t) = Some s'.
Proof. intros V G resume own g. exact (progress resume own g). Qed.
Print Assumptions C31_no_deadlock.

(** m[k] gives the k-th item (also counted from the end) as far as computed, and IndexError
    outside. *)
Theorem C31_getitem : forall (V G : Type) (resume : G -> gprog V G) (own : nat -> bool) (g : G),
  productive resume g -> (forall g', uses_only own (resume g')) ->
  forall acts s k, one_user resume own (gst0 g) acts -> gmrun resume (gst0 g) acts = Some s ->
  ((0 <= k < gm_len s)%Z ->
     item resume g (Z.to_nat k) = Some (gm_getitem s k) /\ gm_getitem s (k - gm_len s) = gm_getitem s k)
  /\ ((gm_len s <= k \/ k < - gm_len s)%Z -> gm_getitem s k = Raise IndexError).
Proof. intros V G resume own g. exact (getitem_spec resume own g). Qed.
Print Assumptions C31_getitem.

(** A slice has the items of its indices; if some of them are exceptions, the first of these is raised. *)
Theorem C31_getslice : forall (V G : Type) (s : gst V G) k,
  match range_slice (range0 (gm_len s)) k with
  | Raise x => gm_getslice s k = Raise x
  | Ok r =>
      (forall vs, map (gm_getitem s) (range_list r) = map Ok vs -> gm_getslice s k = Ok vs) /\
      (forall vs x rest, map (gm_getitem s) (range_list r) = map Ok vs ++ Raise x :: rest -> gm_getslice s k = Raise x)
  end.
Proof. exact @getslice_spec. Qed.
Print Assumptions C31_getslice.

(** A recursively defined sequence (powers of two), advanced by two threads through two
    instances: both get the same items, the generator is resumed three times. *)
Example C31_ex :
  productive powers 0 /\ (forall g, uses_only (fun i => 10 <=? i) (powers g)) /\
  let acts := [Begin 0 0; Begin 1 1; Go 1; Go 0; Go 1] ++ repeat (Go 1) 3 ++ repeat (Go 0) 3
              ++ [Begin 0 0] ++ repeat (Go 0) 10 ++ [Begin 1 1; Begin 0 0] ++ repeat (Go 0) 10 ++ repeat (Go 1) 4 in
  one_user powers (fun i => 10 <=? i) (gst0 0) acts /\
  match gmrun powers (gst0 0) acts with
  | Some s => given s 0 = [Ok 1; Ok 2; Ok 4] /\ given s 1 = [Ok 1; Ok 2] /\ advanced s = 3
              /\ gm_getitem s (-1) = Ok 4 /\ calls s 0 = [] /\ calls s 1 = []
  | None => False
  end.
Proof.
  split; [exact powers_productive|]. split. { intros [|g]; simpl; auto. }
  split; [|vm_compute; auto 10].
  cbv -[not]. repeat split; try (intros [|[|u]] f; cbv -[not]; intuition (subst; discriminate)); auto.
Qed.

(** Which generator an instance belongs to: calls of the memoized generator function with the
    same arguments, if they do not overlap, all get the same generator. *)
Theorem C31_one_generator_partial : forall (K : Type) (keqb : K -> K -> bool), (forall a b, keqb a b = true <-> a = b) ->
  forall acts s k g g', no_overlap keqb cst0 acts -> crun keqb cst0 acts = Some s ->
  In (k, g) (cresults s) -> In (k, g') (cresults s) -> g = g'.
Proof. intros K keqb. exact (one_generator keqb). Qed.
Print Assumptions C31_one_generator_partial.
Example C31_one_generator_ex :
  let acts := [CBegin 0 5; CBegin 1 6; CGo 0; CGo 1; CGo 0; CGo 0; CBegin 0 5; CGo 0; CGo 0] in
  no_overlap Nat.eqb cst0 acts /\
  match crun Nat.eqb cst0 acts with Some s => cresults s = [(5, 0); (5, 0)] | None => False end.
Proof.
  split; [|reflexivity]. cbv -[not]. repeat split; intros [|[|u]] f; cbv -[not]; intro H; try discriminate H; injection H as <-; discriminate.
Qed.
(** If two calls do overlap, they may get two different generators, so the items are computed
    twice. *)
Theorem C31_one_generator_refuted : exists acts,
  option_map cresults (crun Nat.eqb cst0 acts) = Some [(5, 0); (5, 1)].
Proof. exists [CBegin 0 5; CBegin 1 5; CGo 0; CGo 1; CGo 0; CGo 0; CGo 1; CGo 1]. vm_compute. reflexivity. Qed.
Print Assumptions C31_one_generator_refuted.

(** ** C32.  Two threads sharing one instance of the sequence 0, 1, 2, ...: both can get item 0,
    and then nobody gets item 1. *)
Theorem C32_shared_instance_refuted : exists acts,
  option_map (fun s => given s 7) (gmrun (fun n => GOut (Ok n) (S n)) (gst0 0) acts) = Some [Ok 0; Ok 0; Ok 2].
Proof.
  exists ([Begin 0 7; Begin 1 7; Go 0; Go 1] ++ repeat (Go 0) 4 ++ repeat (Go 1) 3 ++ [Begin 0 8] ++ repeat (Go 0) 4
          ++ [Begin 0 8] ++ repeat (Go 0) 5 ++ [Begin 1 7] ++ repeat (Go 1) 5).
  vm_compute. reflexivity.
Qed.
Print Assumptions C32_shared_instance_refuted.

(** ** C33.  [body n k] is what the function does when run with the binding k as the n-th run of
    all.  It may call the memoized function again, with bindings of smaller rank. *)

(** Under every schedule of any number of threads, f runs at most once per binding. *)
Theorem C33_once_partial : forall (K V : Type) (keqb : K -> K -> bool), (forall a b, keqb a b = true <-> a = b) ->
  forall (body : nat -> K -> prog K V) (rank : K -> nat), (forall n k, calls_below rank (rank k) (body n k)) ->
  forall programs schedule s, mrun keqb body (mst0 programs) schedule = Some s -> NoDup (runs s).
Proof. intros K V keqb Hok body rank Hr. exact (m_once keqb Hok body rank Hr). Qed.
Print Assumptions C33_once_partial.

(** All calls with the same binding return the same value or raise the same exception. *)
Theorem C33_same_answer_partial : forall (K V : Type) (keqb : K -> K -> bool), (forall a b, keqb a b = true <-> a = b) ->
  forall (body : nat -> K -> prog K V) (rank : K -> nat), (forall n k, calls_below rank (rank k) (body n k)) ->
  forall programs schedule s k r r', mrun keqb body (mst0 programs) schedule = Some s ->
  In (k, r) (answers s) -> In (k, r') (answers s) -> r = r'.
Proof. intros K V keqb Hok body rank Hr. exact (m_consistent keqb Hok body rank Hr). Qed.
Print Assumptions C33_same_answer_partial.

(** No deadlock: while some thread is not finished, some thread can go on. *)
Theorem C33_no_deadlock : forall (K V : Type) (keqb : K -> K -> bool), (forall a b, keqb a b = true <-> a = b) ->
  forall (body : nat -> K -> prog K V) (rank : K -> nat), (forall n k, calls_below rank (rank k) (body n k)) ->
  forall programs schedule s t, mrun keqb body (mst0 programs) schedule = Some s -> ~ finished s t ->
  exists u s', mstep keqb body s u = Some s'.
Proof. intros K V keqb Hok body rank Hr. exact (m_progress keqb Hok body rank Hr). Qed.
Print Assumptions C33_no_deadlock.

(** If f depends on its arguments only, the answers, and so the results of all threads, are
    those of f without memoization -- whatever it calls. *)
Theorem C33_transparent : forall (K V : Type) (keqb : K -> K -> bool), (forall a b, keqb a b = true <-> a = b) ->
  forall (body : nat -> K -> prog K V) (f : K -> prog K V), (forall n k, body n k = f k) ->
  forall programs schedule s, mrun keqb body (mst0 programs) schedule = Some s ->
  (forall k r, In (k, r) (answers s) -> plain f (f k) r) /\
  (forall t r, threads s t = [FTop (PRet r)] -> plain f (programs t) r).
Proof. intros K V keqb Hok body f Hf. exact (m_plain keqb Hok body f Hf). Qed.
Print Assumptions C33_transparent.

(** Fibonacci numbers, by two threads that both miss the memo at first. *)
Example C33_ex :
  (forall n k, calls_below (fun k => k) k (fib_body n k)) /\
  match mrun Nat.eqb fib_body (mst0 (fun _ => PCall 4 PRet)) ([0; 1; 0; 1] ++ repeat 0 42 ++ repeat 1 4) with
  | Some s => runs s = [4; 3; 2; 1; 0] /\ threads s 0 = [FTop (PRet (Ok 3))] /\ threads s 1 = [FTop (PRet (Ok 3))]
  | None => False
  end.
Proof. split; [|vm_compute; auto]. intros n [|[|k]]; simpl; auto. Qed.

(** If f, run with some binding, calls the memoized f with the same binding again, f runs twice
    and the two calls give different answers (f depends on mutable state here). *)
Theorem C33_reentrant_refuted : exists (body : nat -> nat -> prog nat nat) programs schedule,
  option_map (fun s => (runs s, answers s)) (mrun Nat.eqb body (mst0 programs) schedule)
  = Some ([5; 5], [(5, Ok 1); (5, Ok 2)]).
Proof.
  exists (fun n k => match n with O => PCall k (fun _ => PRet (Ok 2)) | S _ => PRet (Ok 1) end), (fun _ => PCall 5 PRet),
    (repeat 0 16).
  vm_compute. reflexivity.
Qed.
Print Assumptions C33_reentrant_refuted.
