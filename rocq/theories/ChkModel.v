(** Model of chunked (unpythonic/it.py 738-772) when the chunks are read in any order, also after later chunks have
    been requested.

    The input is any iterator: [input k] is what the call number [k] of next() on it does; it may go on after a
    failure or even after StopIteration. *)
From Coq Require Import ZArith List Bool Arith.
From Verif Require Import Base.
Import ListNotations.
Open Scope list_scope.
Open Scope nat_scope.

(** What next() does (no code in /repo): an item, StopIteration, or another exception *)
Inductive ev (A : Type) : Type := Item (a : A) | Stop | Fail (e : exn).
Arguments Item {A} a.
Arguments Stop {A}.
Arguments Fail {A} e.

(** it.py 769 and 465-474: a chunk, scons of an item and an islice.  [head]: the item, until it is given; [left]: how
    many items the islice may still take (islice: the count less what it has taken, 0 once it has seen the end or a
    failure, as it then drops its iterator) *)
Record chunk (A : Type) := mkC { head : option A; left : nat }.
Arguments mkC {A} head left.
Arguments head {A} c.
Arguments left {A} c.
(** it.py 763-772: [calls]: of next() on [it]; [going]: chunker has not returned or failed; [chunks]: those it has
    given *)
Record state (A : Type) := mkS { calls : nat; going : bool; chunks : list (chunk A) }.
Arguments mkS {A} calls going chunks.
Arguments calls {A} s.
Arguments going {A} s.
Arguments chunks {A} s.
(** What the user can do: next() on the generator, or on the chunk number [i] *)
Inductive op : Type := NextChunk | NextItem (i : nat).
(** What the user sees: the chunk number [i], an item, StopIteration, another exception *)
Inductive res (A : Type) : Type := Chunk (i : nat) | Got (a : A) | End | Exn (e : exn).
Arguments Chunk {A} i.
Arguments Got {A} a.
Arguments End {A}.
Arguments Exn {A} e.

Section Chunked.
Context {A : Type}.
Variable input : nat -> ev A.
Variable n : Z.

(** it.py 761-763 and 772: the call of chunked *)
Definition chunked : outcome (state A) :=
  if (n <? 2)%Z then Raise ValueError else Ok (mkS 0 true []).
(** it.py 764-771: next() on the generator; [next(cit)] takes one item through the new islice *)
Definition next_chunk (s : state A) : res A * state A :=
  if going s then
    match input (calls s) with
    | Item a => (Chunk (length (chunks s)), mkS (S (calls s)) true (chunks s ++ [mkC (Some a) (Z.to_nat n - 1)]))
    | Stop => (End, mkS (S (calls s)) false (chunks s))
    | Fail e => (Exn e, mkS (S (calls s)) false (chunks s))
    end
  else (End, s).
(** it.py 769 and 474: next() on a chunk; [None]: there is no such chunk *)
Definition next_item (i : nat) (s : state A) : option (res A * state A) :=
  match nth_error (chunks s) i with
  | None => None
  | Some c =>
      match head c with
      | Some a => Some (Got a, mkS (calls s) (going s) (upd (chunks s) i (mkC None (left c))))
      | None =>
          match left c with
          | 0 => Some (End, s)
          | S k =>
              match input (calls s) with
              | Item a => Some (Got a, mkS (S (calls s)) (going s) (upd (chunks s) i (mkC None k)))
              | Stop => Some (End, mkS (S (calls s)) (going s) (upd (chunks s) i (mkC None 0)))
              | Fail e => Some (Exn e, mkS (S (calls s)) (going s) (upd (chunks s) i (mkC None 0)))
              end
          end
      end
  end.
(** it.py 738-772: one use *)
Definition step (s : state A) (o : op) : option (res A * state A) :=
  match o with NextChunk => Some (next_chunk s) | NextItem i => next_item i s end.
(** it.py 738-772: uses one after the other, in any order *)
Inductive session : list (op * res A) -> state A -> Prop :=
| session_start s : chunked = Ok s -> session [] s
| session_step tr s o r s' : session tr s -> step s o = Some (r, s') -> session (tr ++ [(o, r)]) s'.
End Chunked.
