(** Model of the integer parts of unpythonic/numutil.py. *)
From Verif Require Import Base ItrModel.
From Coq Require Import List Bool ZArith.
Import ListNotations.
Open Scope Z_scope.

(** numutil.py 205-237.  [fuel] bounds the recursion depth; every component is at
    least 1, so [n] levels suffice and the exhausted case is not reached (it would
    raise RecursionError; modelled as [Raise RuntimeError]).  The generator is
    consumed to the end. *)
Fixpoint partition_int_custom_rec (fuel : nat) (n : Z) (components : list Z) : outcome (list (list Z)) :=
  match fuel with
  | O => Raise RuntimeError
  | S fuel' =>
      if n <? 1 then Raise ValueError
      else if existsb (fun x => negb ((1 <=? x) && (x <=? n))) components then Raise ValueError
      else
        (fix rec (ks : list Z) : outcome (list (list Z)) :=
           match ks with
           | [] => Ok []
           | k :: ks' =>
               let m := n - k in
               do ts <- (if m =? 0 then Ok [[k]]
                         else do items <- partition_int_custom_rec fuel' m (filter (fun x => x <=? m) components);
                              Ok (map (fun item => k :: item) items));
               do rest <- rec ks';
               Ok (ts ++ rest)
           end) components
  end.
(** partition_int_custom: numutil.py 205-237 *)
Definition partition_int_custom (n : Z) (components : list Z) : outcome (list (list Z)) :=
  partition_int_custom_rec (S (Z.to_nat n)) n components.

(** numutil.py 122-165 *)
Definition partition_int (n lower : Z) (upper : option Z) : outcome (list (list Z)) :=
  let upper := match upper with Some u => u | None => n end in
  if n <? 1 then Raise ValueError
  else if (lower <? 1) || (upper <? 1) || (n <? lower) || (n <? upper) || (upper <? lower) then Raise ValueError
  else partition_int_custom n (range_list (mkrange (Z.min n upper) (lower - 1) (-1))).

(** mathseq.py 899-919 [triangular]: running total and row size after [i] steps *)
Fixpoint tri_state (i : nat) : Z * Z :=
  match i with
  | O => (1, 2)
  | S i' => let (s, r) := tri_state i' in (s + r, r + 1)
  end.
(** triangular: mathseq.py 899-919 *)
Definition triangular (i : nat) : Z := fst (tri_state i).
(** [takewhile(lambda m: m <= n, triangular())] (numutil.py 200-201); [fuel] is
    large enough when it exceeds n, as triangular numbers grow by at least 1. *)
Fixpoint triangulars_upto (n : Z) (i fuel : nat) : list Z :=
  match fuel with
  | O => []
  | S fuel' => if triangular i <=? n then triangular i :: triangulars_upto n (S i) fuel' else []
  end.
(** numutil.py 167-203 *)
Definition partition_int_triangular (n lower : Z) (upper : option Z) : outcome (list (list Z)) :=
  let upper := match upper with Some u => u | None => n end in
  if n <? 1 then Raise ValueError
  else if (lower <? 1) || (upper <? 1) || (n <? lower) || (n <? upper) || (upper <? lower) then Raise ValueError
  else partition_int_custom n
         (rev_ (filter (fun m => (lower <=? m) && (m <=? upper)) (triangulars_upto n 0 (S (Z.to_nat n))))).

(** numutil.py 84-119 on integers: [last(within(tol, iterate1(f, x0)))].  The pairs
    of consecutive iterates are examined in order; [None] when out of fuel. *)
Fixpoint fixpoint (f : Z -> Z) (x0 tol : Z) (fuel : nat) : option Z :=
  match fuel with
  | O => None
  | S fuel' => let b := f x0 in
               if Z.abs (x0 - b) <=? tol then Some b else fixpoint f b tol fuel'
  end.
