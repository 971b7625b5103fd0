(** Model of unpythonic/mathseq.py: termwise operations, diagonal products, and
    the standard sequences.  ([triangular] is in NumModel.)

    A possibly infinite iterable is a function from positions to optional items;
    position [i] is [None] when the iterable ends before it. *)
From Verif Require Import Base.
From Coq Require Import List Bool ZArith Arith.
Import ListNotations.
Open Scope nat_scope.

(** An iterator that is read from the start: item by number, None beyond the end (no code in /repo). *)
Definition stream (A : Type) : Type := nat -> option A.
(** The iterator over a list (no code in /repo). *)
Definition of_list {A} (l : list A) : stream A := nth_error l.
(** it.py 266-280 [take], on such an iterable: at most [n] items, starting from [i]. *)
Fixpoint stake {A} (n i : nat) (s : stream A) : list A :=
  match n with
  | O => []
  | S n' => match s i with Some x => x :: stake n' (S i) s | None => [] end
  end.

(** ** Termwise operations *)

(** A term is a scalar (no [__iter__]) or an iterable of terms. *)
Inductive term (A : Type) : Type :=
| Sc (a : A)
| It (f : nat -> option (term A)).
Arguments Sc {A} a.
Arguments It {A} f.

(** mathseq.py 627-632 *)
Fixpoint unop {A B} (op : A -> B) (t : term A) : term B :=
  match t with
  | Sc a => Sc (op a)
  | It f => It (fun i => match f i with Some x => Some (unop op x) | None => None end)
  end.

(** mathseq.py 641-644: one operand is not iterable *)
Fixpoint binop_left {A B C} (op : A -> B -> C) (a : term A) (c : B) : term C :=
  match a with
  | Sc x => Sc (op x c)
  | It f => It (fun i => match f i with Some x => Some (binop_left op x c) | None => None end)
  end.
(** The left operand is not iterable: mathseq.py 641-644 *)
Fixpoint binop_right {A B C} (op : A -> B -> C) (c : A) (b : term B) : term C :=
  match b with
  | Sc y => Sc (op c y)
  | It f => It (fun i => match f i with Some y => Some (binop_right op c y) | None => None end)
  end.
(** mathseq.py 633-647; [zip] ends with the shorter input *)
Fixpoint binop {A B C} (op : A -> B -> C) (a : term A) (b : term B) : term C :=
  match a with
  | It f =>
      match b with
      | It g => It (fun i => match f i, g i with Some x, Some y => Some (binop op x y) | _, _ => None end)
      | Sc c => It (fun i => match f i with Some x => Some (binop_left op x c) | None => None end)
      end
  | Sc c =>
      match b with
      | It g => It (fun i => match g i with Some y => Some (binop_right op c y) | None => None end)
      | Sc y => Sc (op c y)
      end
  end.

(** ** Diagonal products *)
Inductive require := Any | All.

(** mathseq.py 873-885, one pass of the loop; [None] = break.  [combine] gets the
    slice of [a] and the reversed slice of [b]. *)
Definition diag_pass {A B E D} (combine : list A -> list B -> E) (reduce : E -> D)
    (req : require) (a : stream A) (b : stream B) (n : nat) : option D :=
  let xs := stake n 0 a in
  let ys := stake n 0 b in
  let lx := length xs in
  let ly := length ys in
  if match req with All => (lx <? n) || (ly <? n) | Any => false end then None
  else
    let cut := ((lx =? ly) && (lx <? n)) || (lx <? ly) || (ly <? lx) in
    let xs' := if cut then skipn (n - ly) xs else xs in
    let ys' := if cut then skipn (n - lx) ys else ys in
    match xs' with
    | [] => None
    | _ => Some (reduce (combine xs' (rev ys')))
    end.
(** mathseq.py 871-886: the first [fuel] outputs, from the pass with the given [n] on *)
Fixpoint diag_loop {A B E D} (combine : list A -> list B -> E) (reduce : E -> D)
    (req : require) (a : stream A) (b : stream B) (fuel n : nat) : list D :=
  match fuel with
  | O => []
  | S fuel' =>
      match diag_pass combine reduce req a b n with
      | None => []
      | Some d => d :: diag_loop combine reduce req a b fuel' (S n)
      end
  end.
(** diagonal_reduce as a whole: mathseq.py 866-886 *)
Definition diagonal_reduce {A B E D} (combine : list A -> list B -> E) (reduce : E -> D)
    (req : require) (a : stream A) (b : stream B) (fuel : nat) : list D :=
  diag_loop combine reduce req a b fuel 1.
(** the [zip] in [smul] applied to two tuples of numbers (mathseq.py 638) *)
Fixpoint zipmul (xs ys : list Z) : list Z :=
  match xs, ys with
  | x :: xs', y :: ys' => (x * y)%Z :: zipmul xs' ys'
  | _, _ => []
  end.
(** [sum] *)
Definition pysum (l : list Z) : Z := fold_left Z.add l 0%Z.
(** mathseq.py 753-779, for number items *)
Definition cauchyprod (req : require) (a b : stream Z) (fuel : nat) : list Z :=
  diagonal_reduce zipmul pysum req a b fuel.

(** ** Sequences *)

(** mathseq.py 890-897: the pair (a, b) after [i] steps *)
Fixpoint fib_state (i : nat) : Z * Z :=
  match i with
  | O => (1, 1)%Z
  | S i' => let (a, b) := fib_state i' in (b, a + b)%Z
  end.
(** fibonacci: mathseq.py 890-897 *)
Definition fibonacci (i : nat) : Z := fst (fib_state i).

(** [any(n % p == 0 for p in takewhile(lambda x: x * x <= n, memo))] *)
Fixpoint has_divisor (n : nat) (memo : list nat) : bool :=
  match memo with
  | [] => false
  | p :: memo' => if p * p <=? n then if n mod p =? 0 then true else has_divisor n memo' else false
  end.
(** mathseq.py 936-945 [_fastprimes]: the memo, which is also the list of numbers
    yielded so far, after 2 and [m] odd candidates n = 3, 5, ..., 2m+1 *)
Fixpoint fastprimes (m : nat) : list nat :=
  match m with
  | O => [2]
  | S m' => let memo := fastprimes m' in
            let n := 2 * m + 1 in
            if has_divisor n memo then memo else memo ++ [n]
  end.

(** mathseq.py 928-933 [_primes]: the generator reads the primes back through its
    own memoized instance.  Running off the end of the memo would ask the generator
    for the next item while it is executing, which is a ValueError. *)
Fixpoint has_divisor_self (n : nat) (memo : list nat) : outcome bool :=
  match memo with
  | [] => Raise ValueError
  | p :: memo' => if p * p <=? n then if n mod p =? 0 then Ok true else has_divisor_self n memo' else Ok false
  end.
(** _primes with its memo: mathseq.py 928-933 *)
Fixpoint memprimes (m : nat) : outcome (list nat) :=
  match m with
  | O => Ok [2]
  | S m' => do memo <- memprimes m';
            let n := 2 * m + 1 in
            do h <- has_divisor_self n memo;
            Ok (if h then memo else memo ++ [n])
  end.
