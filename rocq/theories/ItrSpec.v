(** Specification vocabulary for the iterator utilities (C19-C25). *)
From Coq Require Import ZArith List Bool Arith.
Import ListNotations.
Open Scope nat_scope.

(** Positions of [l] whose item is not equal (by key) to any earlier item. *)
Definition first_occurrence {A K} (key : A -> K) (l : list A) (i : nat) : Prop :=
  exists x, nth_error l i = Some x /\
    forall j y, j < i -> nth_error l j = Some y -> key y <> key x.
(** Positions of [l] that start a run of items with equal keys. *)
Definition run_start {A K} (key : A -> K) (l : list A) (i : nat) : Prop :=
  exists x, nth_error l i = Some x /\
    forall j y, i = S j -> nth_error l j = Some y -> key y <> key x.

(** [out] lists the items of [l] at exactly the positions satisfying [P], in order. *)
Inductive picks {A} (l : list A) (P : nat -> Prop) : nat -> list A -> Prop :=
| picks_end : forall i, length l <= i -> picks l P i []
| picks_take : forall i x out, nth_error l i = Some x -> P i -> picks l P (S i) out -> picks l P i (x :: out)
| picks_skip : forall i x out, nth_error l i = Some x -> ~ P i -> picks l P (S i) out -> picks l P i out.

(** [sub] is a subsequence of [l]: some items of [l], in the order of [l]. *)
Inductive subseq {A} : list A -> list A -> Prop :=
| subseq_nil : forall l, subseq [] l
| subseq_take : forall x s l, subseq s l -> subseq (x :: s) (x :: l)
| subseq_skip : forall x s l, subseq s l -> subseq s (x :: l).

(** A possibly infinite iterable of numbers: item [i], or [None] from its end on. *)
Definition it_closed (it : nat -> option Z) : Prop := forall i j, i <= j -> it i = None -> it j = None.

(** [b] lies past [x] in the direction [up]. *)
Definition beyond (up : bool) (x b : Z) : Prop := if up then (x < b)%Z else (b < x)%Z.

(** [up]: non-decreasing, else non-increasing *)
Definition monotone (up : bool) (it : nat -> option Z) : Prop :=
  forall i j a b, i <= j -> it i = Some a -> it j = Some b -> if up then (a <= b)%Z else (b <= a)%Z.

(** Rounds 0..m-1 are complete; in round m the inputs before the first exhausted one are visited. *)
Definition interleaved {A} (iters : list (list A)) (out : list A) : Prop :=
  exists m a c b, iters = a ++ c :: b /\ length c = m /\
    (forall d, In d iters -> m <= length d) /\ (forall d, In d a -> m < length d) /\
    map Some out = flat_map (fun k => map (fun d => nth_error d k) iters) (seq 0 m) ++ map (fun d => nth_error d m) a.
