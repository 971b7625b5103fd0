(** Model of partition (unpythonic/it.py 588-612) when its two outputs are read in any order.

    The input is any iterator: [input k] is what the call number [k] of next() on it does; it may go on after a
    failure or even after StopIteration.  The predicate is called by both outputs, each for itself. *)
From Coq Require Import List Bool Arith.
From Verif Require Import Base.
Import ListNotations.
Open Scope list_scope.
Open Scope nat_scope.

(** What next() does (no code in /repo): an item, StopIteration, or another exception *)
Inductive ev (A : Type) : Type := Item (a : A) | Stop | Fail (e : exn).
Arguments Item {A} a.
Arguments Stop {A}.
Arguments Fail {A} e.

Section Partition.
Context {A : Type}.
Variable input : nat -> ev A.
Variable pred : A -> outcome bool.

(** it.py 611: tee.  [read]: the items of the input so far; [calls]: of next() on the input; [at_f], [at_t]: how
    many of the items each of the two copies has given.  (An item that both copies have given is no longer
    stored; here it is kept for reading.) *)
Record state := mkS { read : list A; calls : nat; at_f : nat; at_t : nat }.
(** it.py 611: just after tee *)
Definition start : state := mkS [] 0 0 0.
(** it.py 611: how far a copy has come *)
Definition at_ (b : bool) (s : state) : nat := if b then at_t s else at_f s.
(** it.py 611: a copy goes on by one *)
Definition on (b : bool) (s : state) : state :=
  if b then mkS (read s) (calls s) (at_f s) (S (at_t s)) else mkS (read s) (calls s) (S (at_f s)) (at_t s).
(** it.py 611: next() on a copy: from the store, or else from the input *)
Definition pull (b : bool) (s : state) : ev A * state :=
  match nth_error (read s) (at_ b s) with
  | Some a => (Item a, on b s)
  | None =>
      match input (calls s) with
      | Item a => (Item a, on b (mkS (read s ++ [a]) (S (calls s)) (at_f s) (at_t s)))
      | r => (r, mkS (read s) (S (calls s)) (at_f s) (at_t s))
      end
  end.
(** it.py 612: next() on an output, filterfalse ([b] = false) or filter ([b] = true): items are pulled until the
    predicate has the value [b].  An exception from the predicate passes; StopIteration looks like the end. *)
Inductive ask (b : bool) : state -> ev A -> state -> Prop :=
| ask_given s a s' : pull b s = (Item a, s') -> pred a = Ok b -> ask b s (Item a) s'
| ask_other s a s' r s'' : pull b s = (Item a, s') -> pred a = Ok (negb b) -> ask b s' r s'' -> ask b s r s''
| ask_raise s a s' e : pull b s = (Item a, s') -> pred a = Raise e -> e <> StopIterationE -> ask b s (Fail e) s'
| ask_raise_stop s a s' : pull b s = (Item a, s') -> pred a = Raise StopIterationE -> ask b s Stop s'
| ask_stop s s' : pull b s = (Stop, s') -> ask b s Stop s'
| ask_fail s e s' : pull b s = (Fail e, s') -> ask b s (Fail e) s'.
(** it.py 588-612: the user reads the two outputs, in any order *)
Inductive session : state -> list (bool * ev A) -> state -> Prop :=
| session_none s : session s [] s
| session_ask s b r s' tr s'' : ask b s r s' -> session s' tr s'' -> session s ((b, r) :: tr) s''.
End Partition.
Arguments state : clear implicits.
