(** Model of unpythonic/gtco.py: gtco, gtrampolined (lines 9-64). *)
From Coq Require Import List Arith.
From Verif Require Import Base.
Import ListNotations.
Open Scope list_scope.

Section Gtco.
Context {V D : Type}.
(** A generator, by what it does from now on when it is iterated with next().  Yielding may go on
    forever.  Simplification: no send() or throw() into the generator. *)
CoInductive gen :=
| GYield (v : V) (g : gen)
| GReturn (r : ret)
| GRaise (e : exn)
with ret :=
| RNone
| RData (d : D)                (* an object that cannot be iterated *)
| RIter (d : D) (it : gen)     (* the object [d], an iterable that is not a generator: its items *)
| RGen (g : gen)               (* a generator object *)
| RTramp (g : gen).            (* the result of calling a @gtrampolined generator function: 54 *)

(** Where the generator [gtco(g)] is: in gtco.py line 24, or in line 33 with the object [d]. *)
Inductive point := Outer (g : gen) | Batch (d : D) (it : gen).
(** What the generator does: it yields, goes on in another generator, or ends: gtco.py 9-35 *)
Inductive event :=
| Emit (v : V) (next : point)
| Silent (next : point)
| Done (r : ret)
| Fail (e : exn).

(** gtco.py 23-35.  A finished last batch goes round the loop again: the generator of line 24 is exhausted
    and gives None, [yield from None] raises TypeError in line 33, and None is returned. *)
Definition step (p : point) : event :=
  match p with
  | Outer (GYield v g) => Emit v (Outer g)
  | Outer (GRaise e) => Fail e
  | Outer (GReturn r) =>
      match r with
      | RTramp g => Silent (Outer g)            (* 26-29 *)
      | RGen g => Silent (Outer g)              (* 28-29 *)
      | RIter d it => Silent (Batch d it)       (* 33 *)
      | RNone => Done RNone                     (* 34-35 *)
      | RData d => Done (RData d)               (* 34-35 *)
      end
  | Batch d (GYield v it) => Emit v (Batch d it)
  | Batch d (GReturn _) => Done RNone
  | Batch d (GRaise TypeError) => Done (RIter d (GRaise TypeError))      (* 34-35 *)
  | Batch d (GRaise e) => Fail e
  end.

(** What a generator is doing (Python's own). *)
Inductive status := Returned (r : ret) | Raised (e : exn) | Running (p : point).
(** The first [fuel] steps: the items that came out, and where it is then. *)
Fixpoint run (fuel : nat) (p : point) : list V * status :=
  match fuel with
  | O => ([], Running p)
  | S fuel =>
      match step p with
      | Emit v p' => let (l, s) := run fuel p' in (v :: l, s)
      | Silent p' => run fuel p'
      | Done r => ([], Returned r)
      | Fail e => ([], Raised e)
      end
  end.
(** 9: gtco(g) *)
Definition gtco (g : gen) : point := Outer g.
(** gtco.py 57-62: iterating what a @gtrampolined generator function returned *)
Definition iter_trampolined (g : gen) : point := gtco g.
End Gtco.
Arguments gen : clear implicits.
Arguments ret : clear implicits.
Arguments status : clear implicits.
Arguments point : clear implicits.
