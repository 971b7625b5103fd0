(** Specification of functional update: pointwise replacement. *)
From Verif Require Import Base SliceModel ViewModel ViewSpec FupModel.
From Coq Require Import ZArith List.
Import ListNotations.
Open Scope Z_scope.

(** A slice bound that [fupdate] accepts for a sequence of length [n]. *)
Definition in_bounds (n : Z) (k : option Z) : Prop :=
  match k with None => True | Some k => - n <= k <= n end.
(** The slice start that the code mishandles (see C07). *)
Definition bad_start (n : Z) (s : pyslice) : Prop :=
  (exists c, sl_step s = Some c /\ c < 0) /\ sl_start s = Some n.

(** What a fresh replacement supplies for [m] positions to be filled: its first
    [m] items.  A plain iterator can be read forwards only. *)
Definition supplies {A} (v : repl A) (forward : Prop) (m : nat) (xs : list A) : Prop :=
  length xs = m /\
  match v with
  | VSeq ys => exists rest, ys = xs ++ rest
  | VIter it memo cnt =>
      cnt = 0 /\ (forall i, (i < m)%nat -> it i = nth_error xs i) /\
      (memo = true \/ forward \/ (m <= 1)%nat)
  end.

(** [l'] is [l] updated at one index or slice. *)
Definition updated {A} (l : list A) (u : shadow A) (l' : list A) : Prop :=
  match u with
  | ShInt k x =>
      - zlen l <= k < zlen l /\
      l' = upd l (Z.to_nat (if k <? 0 then k + zlen l else k)) x
  | ShSlice s v =>
      in_bounds (zlen l) (sl_start s) /\ in_bounds (zlen l) (sl_stop s) /\
      ~ bad_start (zlen l) s /\
      exists ps xs,
        selected (length l) [s] = Ok ps /\
        supplies v (match sl_step s with Some c => 0 < c | None => True end) (length ps) xs /\
        assigned l ps xs l'
  end.

(** Several updates, one after the other, left to right. *)
Inductive updated_all {A} : list A -> list (shadow A) -> list A -> Prop :=
| updated_nil l : updated_all l [] l
| updated_cons l u l1 us l2 : updated l u l1 -> updated_all l1 us l2 -> updated_all l (u :: us) l2.
