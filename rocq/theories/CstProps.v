(** C125: the handlers and restarts that a thread can find are those of the blocks it is in. *)
From Coq Require Import String List Bool Arith.
From Verif Require Import Base CstModel CstSpec CstProofs.
Import ListNotations.
Open Scope list_scope.

(** Threads that use their own blocks do not see each other: in every schedule, what a thread gets is what it would get if it ran alone. *)
Theorem C125_isolated : forall sub t es, own_use es ->
  filter (fun r => Nat.eqb (fst r) t) (results sub w0 es) = results sub w0 (filter (fun e => Nat.eqb (fst e) t) es).
Proof. exact isolated. Qed.
Print Assumptions C125_isolated.

(** At every point of every schedule where handlers are properly nested, and restarts are, a thread finds the innermost of its open blocks. *)
Theorem C125_found_partial : forall sub before t o after, let es := before ++ (t, o) :: after in own_use es -> proper es ->
  right sub before t o (snd (step sub (run sub w0 before) (t, o))).
Proof. exact found. Qed.
Print Assumptions C125_found_partial.
Example C125_example : own_use interleaved /\ proper interleaved /\
  map snd (filter (fun r => match snd r with Nothing => false | _ => true end) (results same w0 interleaved)) =
  [Found (Some ((0, 2), 40)); Found (Some ((1, 0), 20)); TheRestarts [("use_value"%string, 40); ("retry"%string, 31)]; Matching []; Matching [10];
   Found (Some ((0, 1), 30)); Found (Some ((0, 1), 31)); Found None].
Proof. exact interleaved_ok. Qed.

(** Blocks that are left in any order: entering and leaving never fails; and when a thread has left all its blocks, it finds nothing. *)
Theorem C125_restored : forall sub before t o after, let es := before ++ (t, o) :: after in own_use es -> any_order es ->
  match o with New _ _ | Enter _ | Exit _ => snd (step sub (run sub w0 before) (t, o)) = Nothing | _ => True end /\
  (open t before = [] -> snd (step sub (run sub w0 before) (t, o)) = empty_result o).
Proof. exact restored. Qed.
Print Assumptions C125_restored.
Example ex_restored : own_use crossed /\ any_order crossed /\ open 0 crossed = [].
Proof. exact crossed_ok. Qed.

(** A block that is left while a younger one is open takes the younger one's bindings with it and leaves its own. *)
Theorem C125_order_refuted : exists es, (exists o, open 0 es = [o] /\ restart_of es "b" o = Some 2) /\ forall sub,
  snd (step sub (run sub w0 es) (0, FindRestart "b")) = Found None /\
  exists o, snd (step sub (run sub w0 es) (0, FindRestart "a")) = Found (Some (o, 1)) /\ ~ In o (open 0 es).
Proof.
  exists suspended. split; [exists (0, 1); split; reflexivity|]. intros sub. destruct (out_of_order sub) as (_ & B & A). split; [exact B|]. exists (0, 0). split; [exact A|].
  cbn. intros [E|[]]. discriminate E.
Qed.
Print Assumptions C125_order_refuted.

(** Handlers that one thread makes and another enters are in force in the first and not in the second. *)
Theorem C125_handed_refuted : exists sub es o, open 1 es = [o] /\ open 0 es = [] /\
  snd (step sub (run sub w0 es) (1, FindHandlers 1)) = Matching [] /\
  snd (step sub (run sub w0 es) (0, FindHandlers 1)) = Matching [10].
Proof. exists same, handed, (0, 0). exact handed_over. Qed.
Print Assumptions C125_handed_refuted.
