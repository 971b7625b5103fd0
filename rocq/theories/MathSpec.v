(** Specification vocabulary for mathematical sequences (C61, C62, C64). *)
From Verif Require Import Base MathModel.
From Coq Require Import List Bool ZArith Arith.
Import ListNotations.
Open Scope nat_scope.

Definition prime (p : nat) : Prop := 2 <= p /\ forall d, Nat.divide d p -> d = 1 \/ d = p.

(** Iterables end once. *)
Definition ends_once {A} (s : stream A) : Prop := forall i, s i = None -> s (S i) = None.
Definition defined {A} (s : stream A) (i : nat) : bool := match s i with Some _ => true | None => false end.
(** The positions [i] of the diagonal [i + j = k] where both inputs have an item. *)
Definition diagonal {A B} (a : stream A) (b : stream B) (k : nat) : list nat :=
  filter (fun i => defined a i && defined b (k - i)) (seq 0 (S k)).
(** a_i, with absent terms counting as 0 *)
Definition coef (a : stream Z) (i : nat) : Z := match a i with Some x => x | None => 0%Z end.
(** sum of f over 0, ..., k *)
Fixpoint sum_upto (f : nat -> Z) (k : nat) : Z :=
  match k with O => f 0 | S k' => (sum_upto f k' + f k)%Z end.

(** The term at a path of positions; a scalar stands for a constant sequence of itself. *)
Fixpoint look {A} (t : term A) (p : list nat) : option (term A) :=
  match t, p with
  | Sc a, _ => Some (Sc a)
  | It f, [] => Some (It f)
  | It f, i :: p' => match f i with Some x => look x p' | None => None end
  end.
(** Value at [x] of the polynomial with the given coefficients (lowest degree first). *)
Fixpoint poly (cs : list Z) (x : Z) : Z :=
  match cs with [] => 0%Z | c :: cs' => (c + x * poly cs' x)%Z end.
