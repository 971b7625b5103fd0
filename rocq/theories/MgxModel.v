(** Model of mogrify with a function that may raise: the calls it makes, and what it leaves
    behind (collections.py 41-152). *)
From Coq Require Import List Arith Bool.
From Verif Require Import Base.
Import ListNotations.

Section Mgx.
Context {A K : Type}.
(** Immutable containers (collections.py 85, 123-128, 140-150): tuple, namedtuple and any
    other Sequence; frozendict and any other Mapping, with its keys; frozenset and any other
    Set; the empty linked list; a cons cell; [Some]; [Values], whose items are the tuple of
    the positional values and the frozendict of the named values (funutil.py 298-305). *)
Inductive kind := KTuple | KFrozendict (ks : list K) | KFrozenset | KNil | KCons | KSome | KValues.
(** Mutable containers (collections.py 90-121): list, dict with its keys, set, box.  The views
    (lines 99-102, 130-137) are not modelled. *)
Inductive mkind := MList | MDict (ks : list K) | MSet | MBox.
(** Values: atoms (with strings, ranges, env, dyn), references to mutable containers, and
    immutable containers with their items in order of iteration (no code in /repo). *)
Inductive xval := XAtom (a : A) | XRef (r : nat) | XImm (k : kind) (l : list xval).
(** A mutable container: what it is and its items (no code in /repo). *)
Definition cell : Type := mkind * list xval.
(** The memory of mutable containers, and the calls of [func] made so far (no code in /repo). *)
Record state := mkstate { heap : nat -> option cell; calls : list A }.
(** Result of a computation; [Stuck] is for a value that does not exist (a dangling reference, a
    cons cell with one item) and for RecursionError (no code in /repo). *)
Inductive res (T : Type) := Done (s : state) (x : T) | Failed (s : state) (e : exn) | Stuck.
Arguments Done {T}. Arguments Failed {T}. Arguments Stuck {T}.
(** One computation after another (no code in /repo). *)
Definition bind {T U} (x : res T) (f : state -> T -> res U) : res U :=
  match x with Done s x => f s x | Failed s e => Failed s e | Stuck => Stuck end.
(** The container [r] gets new contents (no code in /repo). *)
Definition put (s : state) (r : nat) (c : cell) : state :=
  mkstate (fun r' => if r' =? r then Some c else heap s r') (calls s).

Variable same : xval -> xval -> bool.
Variable func : A -> outcome A.

(** A set built from the items: an item equal to one already there is dropped (collections.py
    104, 150).  That the items are hashable is assumed. *)
Fixpoint dedup (seen l : list xval) : list xval :=
  match l with
  | [] => []
  | x :: l' => if existsb (same x) seen then dedup seen l' else x :: dedup (seen ++ [x]) l'
  end.
(** A list, set or dict comprehension over the items (collections.py 91, 104, 115, 142, 150). *)
Fixpoint all (step : state -> xval -> res xval) (s : state) (l : list xval) : res (list xval) :=
  match l with
  | [] => Done s []
  | x :: l' => bind (step s x) (fun s y => bind (all step s l') (fun s ys => Done s (y :: ys)))
  end.
(** A generator expression over the items, read to the end by a constructor (collections.py 147):
    StopIteration cannot leave a generator. *)
Definition genexpr {T} (x : res T) : res T :=
  match x with Failed s StopIterationE => Failed s RuntimeError | _ => x end.

(** collections.py 84-152.  [fuel] bounds the recursion depth. *)
Fixpoint doit (fuel : nat) (s : state) (x : xval) : res xval :=
  match fuel with
  | O => Stuck
  | S f =>
      match x with
      | XImm KValues [rets; kwrets] =>
          bind (doit f s rets) (fun s new_rets =>
          bind (doit f s kwrets) (fun s new_kwrets =>
          Done s (XImm KValues [new_rets; new_kwrets])))
      | XRef r =>
          match heap s r with
          | Some (MList, l) => bind (all (doit f) s l) (fun s y => Done (put s r (MList, y)) x)
          | Some (MSet, l) => bind (all (doit f) s l) (fun s y => Done (put s r (MSet, dedup [] y)) x)
          | Some (MDict ks, l) => bind (all (doit f) s l) (fun s y => Done (put s r (MDict ks, y)) x)
          | Some (MBox, [e]) => bind (doit f s e) (fun s y => Done (put s r (MBox, [y])) x)
          | _ => Stuck
          end
      | XImm KNil [] => Done s x
      | XImm KCons [a; d] =>
          bind (doit f s a) (fun s a => bind (doit f s d) (fun s d => Done s (XImm KCons [a; d])))
      | XImm KSome [e] => bind (doit f s e) (fun s y => Done s (XImm KSome [y]))
      | XImm (KFrozendict ks) l => bind (all (doit f) s l) (fun s y => Done s (XImm (KFrozendict ks) y))
      | XImm KTuple l => bind (genexpr (all (doit f) s l)) (fun s y => Done s (XImm KTuple y))
      | XImm KFrozenset l => bind (all (doit f) s l) (fun s y => Done s (XImm KFrozenset (dedup [] y)))
      | XAtom a =>
          let s := mkstate (heap s) (calls s ++ [a]) in
          match func a with Ok b => Done s (XAtom b) | Raise e => Failed s e end
      | XImm _ _ => Stuck
      end
  end.
End Mgx.
Arguments kind : clear implicits.
Arguments mkind : clear implicits.
Arguments xval : clear implicits.
Arguments cell : clear implicits.
Arguments state : clear implicits.
Arguments res : clear implicits.
Arguments Done {A K T}. Arguments Failed {A K T}. Arguments Stuck {A K T}.
