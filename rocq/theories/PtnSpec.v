(** Words for C131. *)
From Coq Require Import List Bool Arith.
From Verif Require Import Base PtnModel.
Import ListNotations.
Open Scope list_scope.
Open Scope nat_scope.

Section Words.
Context {A : Type}.
(** The items among the results of the first [n] calls of next() on the input *)
Definition items (input : nat -> ev A) (n : nat) : list A :=
  flat_map (fun k => match input k with Item a => [a] | _ => [] end) (seq 0 n).
(** The items for which the predicate has the value [b], in the same order *)
Definition chosen (pred : A -> outcome bool) (b : bool) (l : list A) : list A :=
  filter (fun a => match pred a with Ok c => Bool.eqb c b | Raise _ => false end) l.
(** What the output [b] has given *)
Definition given (b : bool) (tr : list (bool * ev A)) : list A :=
  flat_map (fun x => match x with (c, Item a) => if Bool.eqb c b then [a] else [] | _ => [] end) tr.
Definition total (pred : A -> outcome bool) : Prop := forall a, exists c, pred a = Ok c.
(** Once it has ended, it has ended. *)
Definition stays_ended (input : nat -> ev A) : Prop := forall i j, i <= j -> input i = Stop -> input j = Stop.
End Words.
