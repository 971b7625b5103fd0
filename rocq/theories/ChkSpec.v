(** Words for C132. *)
From Coq Require Import ZArith List Bool Arith.
From Verif Require Import Base ChkModel.
Import ListNotations.
Open Scope list_scope.
Open Scope nat_scope.

Section Words.
Context {A : Type}.
(** The items among the results of the first [k] calls of next() on the input *)
Definition items (input : nat -> ev A) (k : nat) : list A :=
  flat_map (fun j => match input j with Item a => [a] | _ => [] end) (seq 0 k).
(** How many chunks the user has got *)
Definition opened (tr : list (op * res A)) : nat :=
  length (filter (fun x => match x with (NextChunk, Chunk _) => true | _ => false end) tr).
(** The items that the chunk [i] has given *)
Definition given (i : nat) (tr : list (op * res A)) : list A :=
  flat_map (fun x => match x with (NextItem j, Got a) => if j =? i then [a] else [] | _ => [] end) tr.
(** The items that belong to [i]: [owner] says which chunk each item belongs to *)
Definition owned (i : nat) (owner : list nat) (l : list A) : list A :=
  map snd (filter (fun p => fst p =? i) (combine owner l)).
(** The chunk [i], or the generator, has ended or failed before *)
Definition over (o : op) (tr : list (op * res A)) : Prop := In (o, End) tr \/ exists e, In (o, Exn e) tr.
(** Each chunk is read to its end before the next one is requested. *)
Definition tidy (n : nat) (tr : list (op * res A)) : Prop :=
  forall tr1 r tr2, tr = tr1 ++ (NextChunk, r) :: tr2 ->
  forall i, i < opened tr1 -> length (given i tr1) = n \/ In (NextItem i, End) tr1.
Definition never_fails (input : nat -> ev A) : Prop := forall k e, input k <> Fail e.
Definition stays_ended (input : nat -> ev A) : Prop := forall i j, i <= j -> input i = Stop -> input j = Stop.
End Words.
