(** Specification vocabulary for [s] (C63). *)
From Verif Require Import Base SeqModel.
From Coq Require Import List QArith Qabs.
Import ListNotations.
Open Scope Q_scope.

(** The [j]-th item of an arithmetic and of a geometric sequence. *)
Definition arith_item (a0 d : Q) (j : nat) : Q := a0 + inject_Z (Z.of_nat j) * d.
Fixpoint geom_item (a0 r : Q) (j : nat) : Q :=
  match j with O => a0 | S j' => geom_item a0 r j' * r end.
(** The numbers in [l] are the first items of the sequence [f]. *)
Definition begins (l : list Q) (f : nat -> Q) : Prop :=
  forall j q, nth_error l j = Some q -> q == f j.
(** The generated items are the numbers [f 0], [f 1], ... without end. *)
Definition yields (g : nat -> option elt) (f : nat -> Q) : Prop :=
  forall j, exists q, g j = Some (Num q) /\ q == f j.
(** ... ending with item [m]. *)
Definition yields_upto (g : nat -> option elt) (f : nat -> Q) (m : nat) : Prop :=
  (forall j, (j <= m)%nat -> exists q, g j = Some (Num q) /\ q == f j) /\ (forall j, (m < j)%nat -> g j = None).
(** The numbers of the specification are integers of at most four digits, below 5000. *)
Definition small_int (q : Q) : Prop := exists z : Z, q == inject_Z z /\ (-5000 < z < 5000)%Z.
(** Two items, and two results of [s], are the same up to the representation of fractions. *)
Definition same_elt (x y : elt) : Prop := match x, y with Num p, Num q => p == q | x, y => x = y end.
Definition same_item (x y : option elt) : Prop :=
  match x, y with Some x, Some y => same_elt x y | None, None => True | _, _ => False end.
Definition same_result (x y : res (nat -> option elt)) : Prop :=
  match x, y with
  | Done (Ok g), Done (Ok h) => forall j, same_item (g j) (h j)
  | Done (Raise e), Done (Raise e') => e = e'
  | Unmodelled, Unmodelled => True
  | _, _ => False
  end.
(** Within the relative tolerance of [almosteq] *)
Definition close (a b : Q) : Prop := Qabs (a - b) < (1 # 100000000) * (Qabs a + Qabs b).
