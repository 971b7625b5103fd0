(** Binary64 numbers, their units in the last place, and what is expected of log2 (C117). *)
From Coq Require Import ZArith QArith Qabs.
Open Scope Q_scope.

Definition isfloat (q : Q) : Prop :=
  exists m e, (Z.abs m < 2 ^ 53)%Z /\ (-1074 <= e <= 971)%Z /\ q == inject_Z m * 2 ^ e.
(** [u] is the value of the last bit of the normal float [x], whose mantissa is the integer [m]
    of 53 bits. *)
Definition normal (x : Q) (m : Z) (u : Q) : Prop :=
  exists e, (2 ^ 52 <= m < 2 ^ 53)%Z /\ (-1074 <= e <= 971)%Z /\ Qabs x == inject_Z m * 2 ^ e /\ u == 2 ^ e.

(** [h <= log2 x] and [log2 x <= h], for a rational number [h]. *)
Definition le_log2 (h x : Q) : Prop := 2 ^ Qnum h <= x ^ Zpos (Qden h).
Definition log2_le (x h : Q) : Prop := x ^ Zpos (Qden h) <= 2 ^ Qnum h.
(** [y] is the logarithm of [x] or next to it: no other float is between them. *)
Definition faithful (x y : Q) : Prop :=
  isfloat y /\ forall z, isfloat z -> ~ (y < z /\ le_log2 z x) /\ ~ (z < y /\ log2_le x z).
(** [y] is a float nearest to the logarithm. *)
Definition nearest (x y : Q) : Prop :=
  isfloat y /\ forall z, isfloat z -> (z < y -> le_log2 ((z + y) / 2) x) /\ (y < z -> log2_le x ((z + y) / 2)).
