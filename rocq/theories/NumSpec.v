(** Specification vocabulary for number utilities (C26, C68). *)
From Coq Require Import ZArith List.
Open Scope Z_scope.

Definition zsum (l : list Z) : Z := fold_right Z.add 0 l.
(** Items [k] and [k+1] of [l] differ by at most [tol]. *)
Definition close (tol : Z) (l : list Z) (k : nat) : Prop :=
  exists x y, nth_error l k = Some x /\ nth_error l (S k) = Some y /\ Z.abs (x - y) <= tol.
