(** C29, C30, C71: dynamic assignment. *)
From Coq Require Import List Bool Arith.
From Verif Require Import Base CollModel DynModel DynSpec DynProofs.
Import ListNotations.
Open Scope nat_scope.

(** ** C29 *)

(** Every program of one thread -- nested blocks, reads, assignments, mass updates, exceptions
    raised and caught anywhere -- has the result and reads the values that its reference
    semantics gives, in which a block binds its names to new locations for the extent of its
    body; and when it is over, no scope is left. *)
Theorem C29_meaning : forall (N V : Type) (neqb : N -> N -> bool) (c : cmd N V) (defaults : dict N V) (v0 : V),
  fst (fst (exec neqb c (mkdst [] defaults))) = fst (fst (meaning neqb c [] (sst0 defaults v0))) /\
  snd (exec neqb c (mkdst [] defaults)) = snd (meaning neqb c [] (sst0 defaults v0)) /\
  stack (snd (fst (exec neqb c (mkdst [] defaults)))) = [] /\
  globals (snd (fst (exec neqb c (mkdst [] defaults)))) = sglobals (snd (fst (meaning neqb c [] (sst0 defaults v0)))).
Proof. intros N V neqb. exact (exec_meaning neqb). Qed.
Print Assumptions C29_meaning.
(** x = 1 around x = 2, rebound to 3 inside, left by an exception; reads 3, then 1. *)
Example C29_meaning_ex :
  let c := Let [(0, 1)] (Seq (Try (Let [(0, 2)] (Seq (Assign 0 3) (Read 0 (fun _ => Throw KeyError)))) (fun _ => Skip))
                             (Read 0 (fun _ => Update [(0, 7); (5, 6)]))) in
  exec Nat.eqb c (mkdst [] [(9, 9)]) = (Raise AttributeError, mkdst [] [(9, 9)], [3; 1]) /\
  snd (meaning Nat.eqb c [] (sst0 [(9, 9)] 0)) = [3; 1].
Proof. vm_compute. auto. Qed.

(** However a program ends, from any state, the same scopes with the same names are on the
    stack as before. *)
Theorem C29_scopes_restored : forall (N V : Type) (neqb : N -> N -> bool) (c : cmd N V) d,
  map (map fst) (stack (snd (fst (exec neqb c d)))) = map (map fst) (stack d).
Proof. intros N V neqb. exact (exec_shape neqb). Qed.
Print Assumptions C29_scopes_restored.

(** If it assigns nothing, every dynamic variable reads as before. *)
Theorem C29_values_restored : forall (N V : Type) (neqb : N -> N -> bool) (c : cmd N V), no_assignment c ->
  forall d n, dyn_get neqb (snd (fst (exec neqb c d))) n = dyn_get neqb d n.
Proof. intros N V neqb c H d n. exact (f_equal (fun x => dyn_get neqb x n) (exec_pure neqb c H d)). Qed.
Print Assumptions C29_values_restored.
Example C29_values_restored_ex :
  no_assignment (Let [(0, 2)] (Read 0 (fun v => Throw (UserExn v))) : cmd nat nat) /\
  fst (fst (exec Nat.eqb (Let [(0, 2)] (Read 0 (fun v => Throw (UserExn v)))) (mkdst [[(0, 1)]] []))) = Raise (UserExn 2).
Proof. split; simpl; auto. Qed.

(** That a block removes its own bindings does not hold when blocks do not end in reverse order
    of their beginning, as when a generator is suspended inside a block: here a generator opens
    a block with x = 1, its caller opens one with x = 2, and the generator finishes. Inside its
    block the caller reads 1. *)
Theorem C29_interleaved_blocks_refuted :
  exists before : list (nat * dop nat nat), let generator_block := [(0, 1)] in let caller_block := [(0, 2)] in
  before = [(0, DEnter generator_block); (0, DEnter caller_block); (0, DExit false)] /\
  tget Nat.eqb (trun Nat.eqb tst0 before) 0 0 = Ok 1.
Proof. eexists. split; reflexivity. Qed.
Print Assumptions C29_interleaved_blocks_refuted.

(** ** C30 *)

(** Once a thread uses dyn, no block entered or left by another thread makes a difference to
    what it reads. *)
Theorem C30_blocks_invisible : forall (N V : Type) (neqb : N -> N -> bool) (history : list (nat * dop N V)) u t o n,
  let w := trun neqb tst0 history in
  u <> t -> (t = 0 \/ u <> 0 \/ stacks w t <> None) ->
  (exists b, o = DEnter b) \/ (exists empty, o = DExit empty) ->
  tget neqb (tstep neqb w (u, o)) t n = tget neqb w t n.
Proof. exact (fun N V neqb h u t o n Hu Hi Ho => enter_exit_other neqb _ u o t Hu Hi (run_wft neqb h tst0 wft0) Ho n). Qed.
Print Assumptions C30_blocks_invisible.
Example C30_blocks_invisible_ex :
  let w := trun Nat.eqb tst0 [(0, DEnter [(0, 5)]); (1, DGet 0)] in
  stacks w 1 <> None /\ tget Nat.eqb (trun Nat.eqb w [(0, DEnter [(0, 6)])]) 1 0 = Ok 5
  /\ tget Nat.eqb (trun Nat.eqb w [(0, DEnter [(0, 6)])]) 0 0 = Ok 6.
Proof. vm_compute. repeat split; auto; discriminate. Qed.

(** The bindings of a block entered by a thread other than the main thread cannot be changed
    by anything the other threads do. *)
Theorem C30_private : forall (N V : Type) (neqb : N -> N -> bool) (before after : list (nat * dop N V)) t b n v,
  t <> 0 -> dict_get neqb b n = Some v -> Forall (fun e => fst e <> t) after ->
  tget neqb (trun neqb tst0 (before ++ (t, DEnter b) :: after)) t n = Ok v.
Proof. exact (fun N V neqb es es' t b n v => own_scope neqb es t b n v es'). Qed.
Print Assumptions C30_private.
Example C30_private_ex :
  dict_get Nat.eqb [(0, 5)] 0 = Some 5 /\
  Forall (fun e => fst e <> 1) [(0, DMake [(0, 1)]); (2, DEnter [(0, 9)]); (2, DSet 0 8)] /\
  tget Nat.eqb (trun Nat.eqb tst0 [(1, DEnter [(0, 5)]); (0, DMake [(0, 1)]); (2, DEnter [(0, 9)]); (2, DSet 0 8)]) 2 0 = Ok 8.
Proof. split; [reflexivity|]. split; [repeat constructor; discriminate | reflexivity]. Qed.

(** A thread that has not used dyn yet starts with what the main thread has now. *)
Theorem C30_inherits : forall (N V : Type) (neqb : N -> N -> bool) (w : tst N V) t n,
  t <> 0 -> stacks w t = None -> tget neqb w t n = tget neqb w 0 n.
Proof. intros N V neqb. exact (inherit neqb). Qed.
Print Assumptions C30_inherits.

(** But it is a copy of the stack at the first use, not when the thread is started: the main
    thread opens a block and starts thread 1 in it, leaves the block, then thread 1 reads. *)
Theorem C30_copy_at_start_refuted :
  exists at_start : list (nat * dop nat nat), exists meanwhile,
  Forall (fun e => fst e = 0) meanwhile /\
  tget Nat.eqb (trun Nat.eqb tst0 at_start) 0 0 = Ok 5 /\
  tget Nat.eqb (trun Nat.eqb tst0 (at_start ++ meanwhile)) 1 0 = Raise AttributeError.
Proof. exists [(0, DEnter [(0, 5)])], [(0, DExit false)]. repeat split; repeat constructor. Qed.
Print Assumptions C30_copy_at_start_refuted.

(** And the scopes themselves are shared: an assignment in thread 1 to a variable it inherited
    changes what the main thread reads in its own block. *)
Theorem C30_copy_refuted :
  exists (history : list (nat * dop nat nat)) v, v <> 5 /\
  history = [(0, DEnter [(0, 5)]); (1, DSet 0 v)] /\
  tget Nat.eqb (trun Nat.eqb tst0 history) 0 0 = Ok v.
Proof. exists [(0, DEnter [(0, 5)]); (1, DSet 0 6)], 6. repeat split. discriminate. Qed.
Print Assumptions C30_copy_refuted.

(** ** C71 *)

(** A view made by dyn.asdict() shows, at any time, exactly what dyn has in its thread. *)
Theorem C71_live : forall (N V : Type) (neqb : N -> N -> bool) (history : list (nat * dop N V)) t view n,
  In view (views (trun neqb tst0 history) t) ->
  view_get neqb (trun neqb tst0 history) view n =
    match tget neqb (trun neqb tst0 history) t n with Ok v => Some v | Raise _ => None end.
Proof. intros N V neqb. exact (view_live neqb). Qed.
Print Assumptions C71_live.
Example C71_live_ex :
  let w := trun Nat.eqb tst0 [(0, DView); (0, DEnter [(0, 5)]); (1, DView); (0, DSet 0 6); (0, DExit false)] in
  length (views w 0) = 1 /\ map (fun m => view_get Nat.eqb w m 0) (views w 0) = [None]
  /\ map (fun m => view_get Nat.eqb w m 0) (views w 1) = [Some 6].
Proof. vm_compute. auto. Qed.

(** Views are never released: after any history there are as many as were ever made in that
    thread, by asdict, items, keys, values, iteration, len or ==; and all of them are updated
    by each block. *)
Theorem C71_released_refuted : forall (N V : Type) (neqb : N -> N -> bool) (history : list (nat * dop N V)) t,
  length (views (trun neqb tst0 history) t) =
  length (filter (fun e => (fst e =? t) && match snd e with DView => true | _ => false end) history).
Proof. exact (fun N V neqb h t => eq_trans (view_count neqb h tst0 t) (eq_sym (plus_n_O _))). Qed.
Print Assumptions C71_released_refuted.
