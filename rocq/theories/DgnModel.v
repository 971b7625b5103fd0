(** Model of blocks of dynamic assignment in code that runs interleaved in one thread (generators, coroutines, ExitStack):
    a `with dyn.let(...)` block can then be left while a younger block, of other code, is still entered.
    unpythonic/dynassign.py. *)
From Coq Require Import List Bool Arith.
From Verif Require Import Base CollModel DynModel DboModel.
Import ListNotations.
Open Scope nat_scope.
Open Scope list_scope.

Section Dgn.
Context {N V : Type}.
Variable neqb : N -> N -> bool.
(** What code does with dynassign.py 36-48, 156-209, 268-292 *)
Inductive act :=
| ANew (b : dict N V)             (* block = dyn.let( **b) *)
| AEnter (o : nat)                (* with block: begins *)
| ALeave                          (* the innermost `with block:` of this code ends, in whichever way *)
| ARead (n : N)                   (* dyn.n *)
| AAssign (n : N) (v : V)         (* dyn.n = v *)
| AUpdate (b : dict N V)          (* dyn.update( **b) *)
| AMake (b : dict N V).           (* make_dynvar( **b) *)
(** A step of the code (the generator, say) with the given number *)
Definition event : Type := nat * act.
(** What the code observes: a value read, or how the operation ended *)
Inductive obs := OVal (r : outcome V) | ODone (r : outcome unit).
(** The state of dynassign.py 13-34, and the `with` blocks each code is in (Python's own), innermost first *)
Record gst := mkgst { gw : bst N V; gframes : nat -> list nat }.
(** The frames, changed for one code: Python's own, for the `with` statements that run dynassign.py 40, 45 *)
Definition set_frames (f : nat -> list nat) (t : nat) (os : list nat) : nat -> list nat := fun u => if u =? t then os else f u.
(** __exit__: dynassign.py 45-47; pop of an empty list is an IndexError *)
Definition gexit (w : bst N V) (o : nat) : outcome unit * bst N V :=
  match bindings w o with
  | [] => (Ok tt, w)
  | _ => match bstack w with
         | [] => (Raise IndexError, w)
         | _ :: below => (Ok tt, mkbst (objs w) below (bglobals w))
         end
  end.
(** One step; None if there is no such step (no such block object, or the code is in no block).
    __init__ 38-39, __enter__ 40-42, __exit__ 45-47, __getattr__ 156-159, __setattr__ 161-174, update 203-209,
    make_dynvar 291-292 of dynassign.py *)
Definition gstep (e : event) (g : gst) : option (obs * gst) :=
  let (t, a) := e in
  let w := gw g in
  match a with
  | ANew b => Some (ODone (Ok tt), mkgst (mkbst (objs w ++ [b]) (bstack w) (bglobals w)) (gframes g))
  | AEnter o =>
      if o <? length (objs w)
      then Some (ODone (Ok tt), mkgst (benter w o) (set_frames (gframes g) t (o :: gframes g t)))
      else None
  | ALeave =>
      match gframes g t with
      | [] => None
      | o :: os => let (r, w1) := gexit w o in Some (ODone r, mkgst w1 (set_frames (gframes g) t os))
      end
  | ARead n => Some (OVal (bget neqb w n), g)
  | AAssign n v =>
      match bresolve neqb w n with
      | Ok s => Some (ODone (Ok tt), mkgst (bwrite neqb w s n v) (gframes g))
      | Raise x => Some (ODone (Raise x), g)
      end
  | AUpdate b =>
      match bresolve_all neqb w b with
      | Ok ss => Some (ODone (Ok tt), mkgst (bwrite_all neqb w ss b) (gframes g))
      | Raise x => Some (ODone (Raise x), g)
      end
  | AMake b => Some (ODone (Ok tt), mkgst (mkbst (objs w) (bstack w) (dict_update neqb (bglobals w) b)) (gframes g))
  end.
(** A run: what is observed, and the state after.  The steps are those of dynassign.py 36-48, 156-209, 268-292. *)
Fixpoint grun (es : list event) (g : gst) : option (list obs * gst) :=
  match es with
  | [] => Some ([], g)
  | e :: es =>
      match gstep e g with
      | Some (x, g1) => match grun es g1 with Some (xs, g2) => Some (x :: xs, g2) | None => None end
      | None => None
      end
  end.
(** No code is in a block: dynassign.py 17-21 *)
Definition no_frames : nat -> list nat := fun _ => [].
(** At the start: no blocks, and the given defaults (dynassign.py 13, 17) *)
Definition g0 (defaults : dict N V) : gst := mkgst (mkbst [] [] defaults) no_frames.
End Dgn.
Arguments act : clear implicits.
Arguments event : clear implicits.
Arguments obs : clear implicits.
Arguments gst : clear implicits.
