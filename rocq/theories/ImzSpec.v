(** What memoized iterables are to do.  A history is a list of operations ([ImzModel.op]) with the list of
    what they gave. *)
From Coq Require Import List Bool Arith.
From Verif Require Import Base ImzModel.
Import ListNotations.
Open Scope list_scope.

Section Spec.
Context {V I A K : Type}.
Variable keqb : K -> K -> bool.
Variable resolve : A -> outcome K.
Variable factory : A -> outcome (iterable I).
Variable advance : I -> outcome V * I.
Variable start : list I.

(** What next() gives for the [k]th time (from 0) when it is called again and again, for a generator that
    raises [e] at once: the exception, and from then on StopIteration. *)
Definition fails (e : exn) (k : nat) : outcome V := Raise match k with 0 => e | _ => StopIterationE end.
(** The same for a generator that goes through an iterator: its items, one after the other, up to the first
    exception (StopIteration, if the iterator is just at its end). *)
Fixpoint plain (k : nat) (i : I) : outcome V :=
  match advance i, k with
  | (Raise e, _), _ => fails e k
  | (Ok v, _), 0 => Ok v
  | (Ok _, i), S k => plain k i
  end.
(** ... and for `yield from factory(a)`, of iterators in their first state. *)
Definition sequence (a : A) (k : nat) : outcome V :=
  match factory a with
  | Ok (Fresh i) => plain k i
  | Ok (Same n) => match nth_error start n with Some i => plain k i | None => fails TypeError k end
  | Ok NotIterable => fails TypeError k
  | Raise StopIterationE => fails RuntimeError k
  | Raise e => fails e k
  end.

(** What next() of instance [i] has given, in order. *)
Fixpoint given (i : nat) (h : list (op A * res V)) : list (outcome V) :=
  match h with
  | [] => []
  | (Next j, RItem r) :: h => if j =? i then r :: given i h else given i h
  | _ :: h => given i h
  end.
(** The arguments of the calls that have made an instance: the instances are numbered in this order. *)
Fixpoint made (h : list (op A * res V)) : list A :=
  match h with
  | [] => []
  | (Call a, RCall (Ok _)) :: h => a :: made h
  | _ :: h => made h
  end.
(** The two calls are for the same sequence. *)
Definition alike (a b : A) : bool :=
  match resolve a, resolve b with Ok k, Ok k' => keqb k k' | _, _ => false end.
(** Which sequence is [a]'s?  That of the first call like it. *)
Fixpoint first_like (a : A) (l : list A) : option A :=
  match l with [] => None | b :: l => if alike b a then Some b else first_like a l end.
(** Nobody else uses the iterator that [a]'s sequence is made from. *)
Definition private (ops : list (op A)) (a : A) : Prop :=
  forall n, factory a = Ok (Same n) ->
    ~ In (Outside n) ops /\ (forall b k, resolve b = Ok k -> factory b = Ok (Same n) -> alike a b = true).
(** References are to objects that exist. *)
Definition exist : Prop := forall a n, factory a = Ok (Same n) -> n < length start.
(** == is an equivalence. *)
Definition equivalence : Prop :=
  (forall a, keqb a a = true) /\ (forall a b, keqb a b = true -> keqb b a = true) /\
  (forall a b c, keqb a b = true -> keqb b c = true -> keqb a c = true).
End Spec.
