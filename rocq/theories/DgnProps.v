(** C138: dynamic assignment in interleaved code (generators, coroutines) of one thread *)
From Coq Require Import List Bool Arith.
From Verif Require Import Base CollModel DynModel DynSpec DboModel DboSpec DgnModel DgnSpec DgnProofs.
Import ListNotations.
Open Scope nat_scope.
Open Scope list_scope.

(** If blocks are left in the reverse of the order in which they were entered, over all the code together, then every read,
    assignment and update gives what the open blocks say, whatever the interleaving. *)
Theorem C138_orderly : forall (N V : Type) (neqb : N -> N -> bool) (es : list (event N V)) (defaults : dict N V) (v0 : V),
  orderly [] es ->
  option_map fst (grun neqb es (g0 defaults)) = option_map fst (srun neqb es (s0 defaults v0)).
Proof. exact @orderly_meaning. Qed.
Print Assumptions C138_orderly.

(** So it is for code that gives way to other code outside its blocks only. *)
Theorem C138_undisturbed : forall (N V : Type) (neqb : N -> N -> bool) (es : list (event N V)) (defaults : dict N V) (v0 : V),
  undisturbed [] es ->
  orderly [] es /\ option_map fst (grun neqb es (g0 defaults)) = option_map fst (srun neqb es (s0 defaults v0)).
Proof. exact (fun N V neqb es d v0 U => conj (undisturbed_orderly es [] U) (orderly_meaning neqb es d v0 (undisturbed_orderly es [] U))). Qed.
Print Assumptions C138_undisturbed.

(** In any order at all: the blocks entered before any of this code began stay entered, leaving a block never fails, and
    once all of the code has left its blocks, exactly those entered before are entered.  Blocks keep their names. *)
Theorem C138_any_order : forall (N V : Type) (neqb : N -> N -> bool) (es : list (event N V)) (w : bst N V) xs g,
  grun neqb es (mkgst w no_frames) = Some (xs, g) ->
  (exists pushed, bstack (gw g) = pushed ++ bstack w) /\
  ~ In (ODone (Raise IndexError)) xs /\
  ((forall t, gframes g t = []) -> bstack (gw g) = bstack w) /\
  exists made, map (map fst) (objs (gw g)) = map (map fst) (objs w) ++ made.
Proof. exact @any_order. Qed.
Print Assumptions C138_any_order.

(** In any order, if no block is empty: what is seen is what would be seen if one piece of code took all these steps.
    Leaving a block leaves the block entered last, whoever entered it. *)
Theorem C138_as_by_one : forall (N V : Type) (neqb : N -> N -> bool) (es : list (event N V)) (defaults : dict N V) (v0 : V) xs g,
  binding es -> grun neqb es (g0 defaults) = Some (xs, g) ->
  option_map fst (srun neqb (by_one es) (s0 defaults v0)) = Some xs.
Proof. exact @as_by_one. Qed.
Print Assumptions C138_as_by_one.

(** If nothing is assigned, once all of the code has left its blocks every dynamic variable reads as before. *)
Theorem C138_restored : forall (N V : Type) (neqb : N -> N -> bool) (es : list (event N V)) (w : bst N V) xs g,
  quiet es -> (forall o, In o (bstack w) -> o < length (objs w)) ->
  grun neqb es (mkgst w no_frames) = Some (xs, g) -> (forall t, gframes g t = []) ->
  forall n, bget neqb (gw g) n = bget neqb w n.
Proof. exact @quiet_restored. Qed.
Print Assumptions C138_restored.

(** The first time a block is left while a block of other code, entered later, is open, the wrong one goes: every variable
    of the block that was left is still bound, and those that only the other block binds are not. *)
Theorem C138_out_of_order : forall (N V : Type) (neqb : N -> N -> bool) (es : list (event N V)) (defaults : dict N V) (v0 : V)
    xs g ys u o os h t os',
  orderly [] es ->
  grun neqb es (g0 defaults) = Some (xs, g) ->
  srun neqb es (s0 defaults v0) = Some (ys, ((u, o) :: os, h)) ->      (* u entered the block o last, and is in it *)
  t <> u -> leave t os = Some os' ->                                    (* t is in a block *)
  bindings (gw g) o <> [] ->
  exists left x g', In (t, left) os /\ gstep neqb (t, ALeave) g = Some (x, g') /\
    (bindings (gw g) left <> [] ->
      (forall n, in_scope neqb (bindings (gw g) left) n = true -> exists v, bget neqb (gw g') n = Ok v) /\
      (forall n, in_scope neqb (bglobals (gw g)) n = false ->
         (forall p, In p os -> in_scope neqb (bindings (gw g) (snd p)) n = false) ->
         bget neqb (gw g') n = Raise AttributeError)).
Proof. exact @lost_and_kept. Qed.
Print Assumptions C138_out_of_order.

(** So it is not true that a variable is bound for the extent of its block, and only then:
      def gen():
        with dyn.let(y=2):
          yield
          dyn.y                       (AttributeError)
      with dyn.let(x=1):
        g = gen(); next(g)
      dyn.x                           (1)
      next(g) *)
Definition leaky : list (event nat nat) :=
  [(0, ANew [(0, 1)]); (0, AEnter 0); (1, ANew [(1, 2)]); (1, AEnter 1); (0, ALeave); (0, ARead 0); (1, ARead 1); (1, ALeave); (0, ARead 0)].
Theorem C138_extent_refuted : exists es : list (event nat nat),
  option_map fst (grun Nat.eqb es (g0 [])) =
    Some [ODone (Ok tt); ODone (Ok tt); ODone (Ok tt); ODone (Ok tt); ODone (Ok tt); OVal (Ok 1); OVal (Raise AttributeError); ODone (Ok tt); OVal (Raise AttributeError)] /\
  option_map fst (srun Nat.eqb es (s0 [] 0)) =
    Some [ODone (Ok tt); ODone (Ok tt); ODone (Ok tt); ODone (Ok tt); ODone (Ok tt); OVal (Raise AttributeError); OVal (Ok 2); ODone (Ok tt); OVal (Raise AttributeError)].
Proof. exists leaky. split; vm_compute; reflexivity. Qed.
Print Assumptions C138_extent_refuted.

(** A generator is begun inside a block, goes on in a block of its own, and ends; code takes turns. *)
Example C138_orderly_ex :
  let es := [(0, ANew [(0, 1); (1, 7)]); (0, AEnter 0); (1, ANew [(0, 2)]); (1, ANew []); (1, AEnter 1); (1, AEnter 2); (0, ARead 0); (2, AAssign 1 8);
             (2, AUpdate [(0, 3); (5, 5)]); (2, AUpdate [(0, 3)]); (1, ARead 0); (1, ALeave); (1, ALeave); (0, ARead 0); (0, ARead 1); (0, ALeave); (1, ARead 0); (1, AMake [(0, 9)]); (0, ARead 0)] in
  orderly [] es /\
  option_map fst (grun Nat.eqb es (g0 [])) =
    Some [ODone (Ok tt); ODone (Ok tt); ODone (Ok tt); ODone (Ok tt); ODone (Ok tt); ODone (Ok tt); OVal (Ok 2); ODone (Ok tt); ODone (Raise AttributeError); ODone (Ok tt);
          OVal (Ok 3); ODone (Ok tt); ODone (Ok tt); OVal (Ok 1); OVal (Ok 8); ODone (Ok tt); OVal (Raise AttributeError); ODone (Ok tt); OVal (Ok 9)].
Proof. split; [cbn; repeat split | vm_compute; reflexivity]. Qed.
Example C138_undisturbed_ex :
  let es := [(0, ANew [(0, 1)]); (1, ANew [(0, 2)]); (0, AEnter 0); (0, ARead 0); (0, ALeave); (1, AEnter 1); (1, AEnter 0); (1, ALeave); (1, ARead 0); (1, ALeave); (0, AEnter 0); (0, ARead 0); (0, ALeave)] in
  undisturbed [] es /\ option_map (fun r => nth 8 (fst r) (ODone (Ok tt))) (grun Nat.eqb es (g0 [])) = Some (OVal (Ok 2)).
Proof. split; [cbv; repeat match goal with |- _ /\ _ => split | |- Forall _ [] => apply Forall_nil | |- Forall _ (_ :: _) => apply Forall_cons; [reflexivity|] | |- True => exact I end | vm_compute; reflexivity]. Qed.
(** The generator above, inside another block: not orderly, but restored. *)
Example C138_restored_ex :
  let w := mkbst [[(7, 70)]] [0] [(8, 80)] in
  let es := [(0, ANew [(0, 1)]); (0, AEnter 1); (1, ANew [(7, 2)]); (1, AEnter 2); (0, ALeave); (1, ARead 7); (1, ALeave)] in
  quiet es /\ ~ orderly [] es /\ (forall o, In o (bstack w) -> o < length (objs w)) /\
  match grun Nat.eqb es (mkgst w no_frames) with
  | Some (xs, g) => (forall t, gframes g t = []) /\ bget Nat.eqb (gw g) 7 = Ok 70 /\ nth 5 xs (ODone (Ok tt)) = OVal (Ok 70)
  | None => False
  end.
Proof.
  split; [repeat constructor|]. split; [cbn; intros [E _]; discriminate|]. split; [intros o [<-|[]]; cbn; auto|].
  cbn. split; [intros [|[|t]]; reflexivity|]. split; reflexivity.
Qed.
Example C138_out_of_order_ex :
  let es := firstn 4 leaky in
  orderly [] es /\ leave 0 [(0, 0)] = Some [] /\
  match grun Nat.eqb es (g0 []), srun Nat.eqb es (s0 [] 0) with
  | Some (xs, g), Some (ys, (os, h)) =>
      os = [(1, 1); (0, 0)] /\ objs (gw g) = [[(0, 1)]; [(1, 2)]] /\ bglobals (gw g) = []
  | _, _ => False
  end.
Proof. split; [cbn; auto|]. split; [reflexivity|]. cbn. repeat split. Qed.
Example C138_as_by_one_ex : binding leaky /\ ~ orderly [] leaky /\ grun Nat.eqb leaky (g0 []) <> None.
Proof. split; [repeat constructor; discriminate|]. split; [cbn; intros [E _]; discriminate | vm_compute; discriminate]. Qed.
