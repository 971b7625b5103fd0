(** C60: promises. *)
From Coq Require Import List Arith Bool.
From Verif Require Import Base LazyModel LazySpec LazyProofs.
Import ListNotations.
Open Scope nat_scope.
Open Scope list_scope.

(** Once a promise has been evaluated, no execution changes its result or runs its thunk again ... *)
Theorem C60_stable : forall (V E St : Type) exc_object is_uninit type_error (thunk : nat -> cmd V E St) fuel c s r s' i x,
  exec exc_object is_uninit thunk type_error fuel c s = Some (r, s') -> evaluated is_uninit s i x ->
  evaluated is_uninit s' i x /\ runs s' i = runs s i.
Proof. exact @stable. Qed.
Print Assumptions C60_stable.

(** ... and forcing it gives that result and changes nothing. *)
Theorem C60_force_again : forall (V E St : Type) exc_object is_uninit type_error (thunk : nat -> cmd V E St) fuel i k s r,
  evaluated is_uninit s i r ->
  exec exc_object is_uninit thunk type_error (S fuel) (Force i k) s = exec exc_object is_uninit thunk type_error fuel (k r) s.
Proof. exact @force_evaluated. Qed.
Print Assumptions C60_force_again.

(** In one thread, if the promises do not depend on each other in a cycle and their thunks end with a
    value (not the symbol _uninitialized) or an Exception: every thunk runs at most once, in every
    program, and if it ran, its promise has a result. *)
Theorem C60_once_partial : forall (V E St : Type) exc_object is_uninit uninit type_error (thunk : nat -> cmd V E St) fuel c u r s',
  is_uninit uninit = true -> acyclic thunk ->
  (forall i fuel s r s', exec exc_object is_uninit thunk type_error fuel (thunk i) s = Some (r, s') -> ordinary is_uninit r) ->
  exec exc_object is_uninit thunk type_error fuel c (fresh uninit u) = Some (r, s') ->
  forall i, runs s' i = 0 /\ value s' i = SVal uninit \/ runs s' i = 1 /\ exists x, evaluated is_uninit s' i x.
Proof. exact @once. Qed.
Print Assumptions C60_once_partial.

(** Values for the witnesses: numbers, exception objects and the symbol. *)
Inductive val := N (n : nat) | X (e : nat) | U.
Definition isU (v : val) : bool := match v with U => true | _ => false end.
Definition tick (f : nat -> val) : nat -> nat * val := fun n => (S n, f n).
Definition twice : cmd val nat nat := Force 0 (fun a => Force 0 (fun b => Done b)).

(** A thunk that returns sym("_uninitialized") runs every time. *)
Theorem C60_symbol_refuted : exists (thunk : nat -> cmd val nat nat) s',
  exec X isU thunk 99 20 twice (fresh U 0) = Some (RVal U, s') /\ runs s' 0 = 2.
Proof. exists (fun _ => Done (RVal U)). eexists. split; reflexivity. Qed.
Print Assumptions C60_symbol_refuted.

(** So does one that raises a BaseException that is not an Exception. *)
Theorem C60_base_exception_refuted : exists (thunk : nat -> cmd val nat nat) s',
  exec X isU thunk 99 20 twice (fresh U 0) = Some (RBase 1, s') /\ runs s' 0 = 2.
Proof. exists (fun _ => Eff (tick N) (fun v => match v with N n => Done (RBase n) | _ => Done (RVal v) end)). eexists. split; reflexivity. Qed.
Print Assumptions C60_base_exception_refuted.

(** A thunk that forces its own promise on the first run: it runs twice, and the force inside saw
    another value than all later ones. *)
Theorem C60_reentrant_refuted : exists (thunk : nat -> cmd val nat nat) s',
  exec X isU thunk 99 20 (Force 0 (fun a => Done a)) (fresh U 0) = Some (RVal (N 5), s') /\
  runs s' 0 = 2 /\ user s' = 6.
Proof.
  exists (fun _ => Eff (tick N) (fun v => match v with
    | N 0 => Force 0 (fun b => match b with RVal (N m) => Eff (fun s => (m + 5, N 0)) (fun _ => Done (RVal (N 5))) | _ => Done b end)
    | _ => Done (RVal v) end)).
  eexists. split; [reflexivity|]. split; reflexivity.
Qed.
Print Assumptions C60_reentrant_refuted.

(** Many threads: if every run of the thunk returns the same value, every force returns it. *)
Theorem C60_threads_partial : forall (V E : Type) exc_object is_uninit (uninit : V) (type_error : E) v outs sched t r,
  is_uninit uninit = true -> (forall n, outs n = RVal v) ->
  tpcs (trun exc_object is_uninit uninit type_error outs sched) t = PIdle (Some r) -> r = RVal v.
Proof. exact @threads_value. Qed.
Print Assumptions C60_threads_partial.

(** But the thunk may run once per thread, with different values ... *)
Theorem C60_threads_refuted : exists outs sched,
  let s := trun (E:=nat) X isU U 99 outs sched in
  truns s = 2 /\ tpcs s 0 = PIdle (Some (RVal (N 0))) /\ tpcs s 1 = PIdle (Some (RVal (N 1))).
Proof. exists (fun n => RVal (N n)), [0; 1; 0; 1; 0; 0; 0; 0; 1; 1; 1; 1]. repeat split. Qed.
Print Assumptions C60_threads_refuted.

(** ... and when it raises, another thread may get the exception as the promise's value. *)
Theorem C60_threads_exception_refuted : exists outs sched,
  let s := trun X isU U 99 outs sched in
  truns s = 1 /\ outs 0 = RExc 5 /\ tpcs s 1 = PIdle (Some (RVal (X 5))).
Proof. exists (fun _ => RExc 5), [0; 0; 0; 1; 1; 1; 1]. repeat split. Qed.
Print Assumptions C60_threads_exception_refuted.

(** If every run of the thunk raises the same exception, a force raises it or returns the exception object as a value; a force
    that begins after some force has raised it raises it. *)
Theorem C60_threads_error_partial : forall (V E : Type) exc_object is_uninit (uninit : V) (type_error : E) e outs sched t r,
  is_uninit uninit = true -> (forall n, outs n = RExc e) ->
  tpcs (trun exc_object is_uninit uninit type_error outs sched) t = PIdle (Some r) -> r = RExc e \/ r = RVal (exc_object e).
Proof. exact @threads_error. Qed.
Print Assumptions C60_threads_error_partial.
Theorem C60_threads_later_error : forall (V E : Type) exc_object is_uninit (uninit : V) (type_error : E) e outs sched1 sched2 u t r,
  let after sched := tpcs (trun exc_object is_uninit uninit type_error outs sched) in
  is_uninit uninit = true -> (forall n, outs n = RExc e) ->
  after sched1 u = PIdle (Some (RExc e)) -> after sched1 t = PIdle None ->
  after (sched1 ++ sched2)%list t = PIdle (Some r) -> r = RExc e.
Proof. exact @threads_late. Qed.
Print Assumptions C60_threads_later_error.
Example C60_ex_later : let after sched := tpcs (trun (E:=nat) X isU U 99 (fun _ => RExc 5) sched) in
  after [0; 0; 0; 0; 0; 0] 0 = PIdle (Some (RExc 5)) /\ after [0; 0; 0; 0; 0; 0] 1 = PIdle None /\
  after ([0; 0; 0; 0; 0; 0] ++ [1; 1; 1; 1])%list 1 = PIdle (Some (RExc 5)).
Proof. repeat split. Qed.

(** Two promises, the second using the first; the first raises. *)
Definition demo (i : nat) : cmd val nat nat :=
  match i with
  | 0 => Eff (tick N) (fun v => Done (RExc 7))
  | _ => Eff (tick N) (fun v => Force 0 (fun r => match r with RExc e => Done (RVal (N (10 + e))) | _ => Done (RExc 8) end))
  end.
Example C60_ex : acyclic demo /\
  exec X isU demo 99 20 (Force 1 (fun a => Force 0 (fun b => Force 1 (fun c => Done c)))) (fresh U 0) <> None /\
  (exists s', exec X isU demo 99 20 (Force 1 (fun a => Force 0 (fun b => Force 1 (fun c => Done c)))) (fresh U 0) = Some (RVal (N 17), s') /\
     user s' = 2 /\ runs s' 0 = 1 /\ runs s' 1 = 1 /\ evaluated isU s' 0 (RExc 7)) /\
  (forall i fuel s r s', exec X isU demo 99 fuel (demo i) s = Some (r, s') -> ordinary isU r).
Proof.
  split; [|split; [|split]].
  - exists (fun i => i). intros [|i]; cbn.
    + repeat constructor.
    + constructor. intros v. constructor; [apply Nat.lt_0_succ|]. intros [n|e|e]; constructor.
  - vm_compute. discriminate.
  - eexists. split; [reflexivity|]. repeat split.
  - assert (K : forall fuel k s r s', (forall x, exists y, k x = Done y /\ ordinary isU y) ->
        exec X isU demo 99 fuel (Force 0 k) s = Some (r, s') -> ordinary isU r).
    { intros fuel k s r s' Hk H. destruct fuel as [|fuel]; [discriminate|]. cbn [exec] in H.
      assert (D : forall f x s0, exec X isU demo 99 f (k x) s0 = Some (r, s') -> ordinary isU r).
      { intros f x s0 HD. destruct (Hk x) as (y & E & Hy). rewrite E in HD. destruct f; [discriminate|]. injection HD as <- _. exact Hy. }
      destruct (uninitialized isU (value s 0)); [|exact (D _ _ _ H)].
      destruct (exec X isU demo 99 fuel (demo 0) (count_run s 0)) as [[[v|e|e] s1]|]; try discriminate; exact (D _ _ _ H). }
    intros [|i] fuel s r s' H; (destruct fuel as [|fuel]; [discriminate|]); cbn [exec demo tick] in H.
    + destruct fuel as [|fuel]; [discriminate|]. injection H as <- _. exact I.
    + apply K in H; [exact H|]. intros [v|e|e]; eexists; split; try reflexivity; cbn; auto.
Qed.
