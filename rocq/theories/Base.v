(** Common vocabulary: outcomes (Python exceptions as values) and the parts of
    the Python language and built-ins the modelled code relies on (floor
    division, [range], [slice], list indexing and slicing).

    The definitions in this file do not model code of /repo; they specify
    CPython built-ins, following the Python language reference ("Sequence types",
    "slice objects", [range]) and [PySlice_AdjustIndices]. *)
From Coq Require Import ZArith List Bool Lia.
Import ListNotations.
Open Scope Z_scope.

(** Exceptions that the modelled code can raise. *)
Inductive exn : Type :=
| TypeError | ValueError | IndexError | KeyError | AttributeError
| RuntimeError | StopIterationE | AssertionError | UnboundLocalError
| NameError | UnicodeDecodeError | ControlError | MessageHeaderParseError
| SyntaxError | ZeroDivisionError | NotImplementedError
| UserExn (tag : nat).

(** Result of running a piece of Python code that may raise. *)
Inductive outcome (A : Type) : Type :=
| Ok (a : A)
| Raise (e : exn).
Arguments Ok {A} a.
Arguments Raise {A} e.

Definition obind {A B} (x : outcome A) (f : A -> outcome B) : outcome B :=
  match x with Ok a => f a | Raise e => Raise e end.
Definition omap {A B} (f : A -> B) (x : outcome A) : outcome B :=
  match x with Ok a => Ok (f a) | Raise e => Raise e end.

Notation "'do' x <- a ; b" := (obind a (fun x => b))
  (at level 200, x pattern, a at level 100, b at level 200).

(** Length of a list as a Python int. *)
Definition zlen {A} (l : list A) : Z := Z.of_nat (length l).

(** [l[i]] for an index already known to be counted from the front. *)
Definition znth {A} (l : list A) (i : Z) : option A :=
  if i <? 0 then None else nth_error l (Z.to_nat i).

(** [l[i] = x] for an index counted from the front; no effect out of range. *)
Fixpoint upd {A} (l : list A) (n : nat) (x : A) : list A :=
  match l, n with
  | [], _ => []
  | _ :: l', O => x :: l'
  | y :: l', S n' => y :: upd l' n' x
  end.
Definition zupd {A} (l : list A) (i : Z) (x : A) : list A :=
  if i <? 0 then l else upd l (Z.to_nat i) x.

(** Python [slice(start, stop, step)]; [None] components allowed. *)
Record pyslice : Type := mkslice { sl_start : option Z; sl_stop : option Z; sl_step : option Z }.
Definition slice_all : pyslice := mkslice None None None.

(** [slice.indices(n)] (language reference; PySlice_Unpack + PySlice_AdjustIndices). *)
Definition clamp_index (lower upper n k : Z) : Z :=
  if k <? 0 then Z.max (k + n) lower else Z.min k upper.
Definition slice_indices (s : pyslice) (n : Z) : outcome (Z * Z * Z) :=
  let step := match sl_step s with None => 1 | Some k => k end in
  if step =? 0 then Raise ValueError
  else
    let lower := if step <? 0 then -1 else 0 in
    let upper := if step <? 0 then n - 1 else n in
    let start := match sl_start s with
                 | None => if step <? 0 then upper else lower
                 | Some k => clamp_index lower upper n k end in
    let stop := match sl_stop s with
                | None => if step <? 0 then lower else upper
                | Some k => clamp_index lower upper n k end in
    Ok (start, stop, step).

(** Python [range(start, stop, step)] with nonzero step. *)
Record pyrange : Type := mkrange { r_start : Z; r_stop : Z; r_step : Z }.
Definition range_len (r : pyrange) : Z :=
  if 0 <? r_step r
  then if r_start r <? r_stop r then (r_stop r - r_start r - 1) / r_step r + 1 else 0
  else if r_stop r <? r_start r then (r_start r - r_stop r - 1) / (- r_step r) + 1 else 0.
Definition range_item (r : pyrange) (i : Z) : Z := r_start r + i * r_step r.
Definition range_list (r : pyrange) : list Z :=
  map (fun i => range_item r (Z.of_nat i)) (seq 0 (Z.to_nat (range_len r))).
(** [range(n)] *)
Definition range0 (n : Z) : pyrange := mkrange 0 n 1.
(** [r[s]] for a range [r] and a slice [s] (Objects/rangeobject.c, compute_slice). *)
Definition range_slice (r : pyrange) (s : pyslice) : outcome pyrange :=
  do (start, stop, step) <- slice_indices s (range_len r);
  Ok (mkrange (range_item r start) (range_item r stop) (r_step r * step)).

(** [l[s]] for a list or tuple. *)
Definition somes {A} (l : list (option A)) : list A :=
  flat_map (fun o => match o with Some a => [a] | None => [] end) l.
Definition py_slice {A} (l : list A) (s : pyslice) : outcome (list A) :=
  do (start, stop, step) <- slice_indices s (zlen l);
  Ok (somes (map (znth l) (range_list (mkrange start stop step)))).
(** [l[k]] for a list or tuple and an int (negative counts from the end). *)
Definition py_index {A} (l : list A) (k : Z) : outcome A :=
  let j := if k <? 0 then k + zlen l else k in
  match znth l j with Some a => Ok a | None => Raise IndexError end.
