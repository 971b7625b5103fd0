(** C121: almost equal floats. *)
From Coq Require Import ZArith QArith Qabs Floats.SpecFloat.
From Verif Require Import Base AeqModel AeqSpec AeqProofs.
Open Scope Q_scope.

(** [almosteq] of floats never raises an exception ... *)
Theorem C121_total : forall a b tol, isfloat a -> isfloat b -> exists r, almosteq a b tol = Ok r.
Proof. exact almosteq_total. Qed.
Print Assumptions C121_total.
(** ... is symmetric ... *)
Theorem C121_symmetric : forall a b tol, almosteq a b tol = almosteq b a tol.
Proof. exact almosteq_sym. Qed.
Print Assumptions C121_symmetric.
(** ... true of equal numbers (0.0 and -0.0, too) ... *)
Theorem C121_equal : forall a b tol, isfloat a -> isfloat b -> finite a -> finite b -> val a == val b -> almosteq a b tol = Ok true.
Proof. exact almosteq_eq. Qed.
Print Assumptions C121_equal.
(** ... of an infinity and itself, not of an infinity and anything else, and not of nan and anything. *)
Theorem C121_special : (forall s tol, almosteq (S754_infinity s) (S754_infinity s) tol = Ok true) /\
  (forall s b tol, isfloat b -> finite tol -> b <> S754_infinity s -> almosteq (S754_infinity s) b tol = Ok false) /\
  (forall b tol, almosteq S754_nan b tol = Ok false).
Proof. exact (conj (fun s tol => almosteq_same (S754_infinity s) tol ltac:(discriminate)) (conj almosteq_inf almosteq_nan)). Qed.
Print Assumptions C121_special.
(** For numbers that are not 0 and not closer than the smallest normal float, the relative distance decides, whatever the
    rounding of the five operations does: unless the distance is within 2^-50 of the tolerance, relative to it. *)
Theorem C121_relative : forall a b tol, isfloat a -> isfloat b -> isfloat tol -> finite a -> finite b -> finite tol ->
  2 ^ (-1000) <= val tol -> val tol <= 1 -> ~ val a == 0 -> ~ val b == 0 -> MIN <= Qabs (val a - val b) ->
  (relative (val a) (val b) <= val tol * (1 - EPS) -> almosteq a b tol = Ok true) /\
  (val tol * (1 + EPS) <= relative (val a) (val b) -> almosteq a b tol = Ok false).
Proof. exact almosteq_large. Qed.
Print Assumptions C121_relative.
(** Else, for different numbers, the distance itself decides: it must be less than the tolerance times the smallest normal
    float, to within half of the smallest positive float. *)
Theorem C121_absolute : forall a b tol, isfloat a -> isfloat b -> isfloat tol -> finite a -> finite b -> finite tol ->
  0 < val tol -> val tol <= 1 -> ~ val a == val b -> val a == 0 \/ val b == 0 \/ Qabs (val a - val b) < MIN ->
  (Qabs (val a - val b) + TINY < val tol * MIN -> almosteq a b tol = Ok true) /\
  (val tol * MIN < Qabs (val a - val b) + TINY -> almosteq a b tol = Ok false).
Proof. exact almosteq_small. Qed.
Print Assumptions C121_absolute.
(** The comparison is strict: with tolerance 0, only equal numbers are almost equal. *)
Theorem C121_exact : forall a b s, isfloat a -> isfloat b -> finite a -> finite b ->
  (almosteq a b (S754_zero s) = Ok true <-> val a == val b).
Proof. exact almosteq_exact. Qed.
Print Assumptions C121_exact.
(** So numbers of different signs are not almost equal, unless they are tiny. *)
Theorem C121_signs : forall a b tol, isfloat a -> isfloat b -> isfloat tol -> finite a -> finite b -> finite tol ->
  2 ^ (-1000) <= val tol -> val tol <= 1 # 2 -> val a < 0 -> 0 < val b -> MIN <= Qabs (val a - val b) -> almosteq a b tol = Ok false.
Proof. exact almosteq_signs. Qed.
Print Assumptions C121_signs.
(** It is not transitive: 1.0, 1.000000015 and 1.00000003. *)
Theorem C121_transitive_refuted : almosteq one_ near_ default_tol = Ok true /\ almosteq near_ near2_ default_tol = Ok true /\
  almosteq one_ near2_ default_tol = Ok false.
Proof. exact not_transitive. Qed.
Print Assumptions C121_transitive_refuted.

(** Two ints: the same, for a tolerance of at most 1 (an int is almost equal to 0 only if it is 0), if their sizes add up to no
    more than the largest float. *)
Theorem C121_int_partial : forall a b tol, isfloat tol -> finite tol -> 2 ^ (-1000) <= val tol -> val tol <= 1 -> a <> 0%Z -> b <> 0%Z ->
  inject_Z (Z.abs a + Z.abs b) <= MAX ->
  let r := inject_Z (Z.abs (a - b)) / inject_Z (Z.abs a + Z.abs b) in
  (r <= val tol * (1 - EPS) -> almosteq_int a b tol = Ok true) /\ (val tol * (1 + EPS) <= r -> almosteq_int a b tol = Ok false).
Proof. exact int_relative. Qed.
Print Assumptions C121_int_partial.
Theorem C121_int_zero : forall b tol, isfloat tol -> finite tol -> 0 <= val tol -> val tol <= 1 -> b <> 0%Z ->
  almosteq_int 0 b tol = Ok false /\ almosteq_int b 0 tol = Ok false.
Proof. exact int_zero. Qed.
Print Assumptions C121_int_zero.
(** Ints far apart raise OverflowError instead. *)
Theorem C121_int_refuted : forall a b tol, a <> 0%Z -> b <> 0%Z -> (2 ^ 1024 <= Z.abs (a - b))%Z -> almosteq_int a b tol = Raise OverflowError.
Proof. exact int_overflow. Qed.
Print Assumptions C121_int_refuted.

(** The default tolerance is as the theorems require, and so are the numbers above. *)
Example C121_ex_tol : isfloat default_tol /\ finite default_tol /\ 2 ^ (-1000) <= val default_tol /\ val default_tol <= 1 # 2 /\
  Qabs (val default_tol - (1 # 100000000)) <= 2 ^ (-80).
Proof. repeat split; vm_compute; intros; discriminate. Qed.
Example C121_ex_relative : isfloat one_ /\ isfloat near_ /\ MIN <= Qabs (val one_ - val near_) /\
  relative (val one_) (val near_) <= val default_tol * (1 - EPS) /\ val default_tol * (1 + EPS) <= relative (val one_) (val near2_).
Proof. repeat split; vm_compute; intros; discriminate. Qed.
(** 1e-316 and -1e-316, about. *)
Example C121_ex_absolute : let a := S754_finite false 20240225 (-1074) in let b := S754_finite true 20240225 (-1074) in
  isfloat a /\ isfloat b /\ Qabs (val a - val b) < MIN /\ Qabs (val a - val b) + TINY < val default_tol * MIN /\ almosteq a b default_tol = Ok true.
Proof. repeat split; vm_compute; reflexivity. Qed.
(** The smallest float is not almost equal to 0 with a tolerance of 1e-17, but is with the default. *)
Example C121_ex_zero : let a := S754_finite false 1 (-1074) in let t := S754_finite false 6646139978924579 (-109) in
  isfloat a /\ isfloat t /\ 0 < val t /\ val t * MIN < Qabs (val a - val zero) + TINY /\
  almosteq a zero t = Ok false /\ almosteq a zero default_tol = Ok true.
Proof. repeat split; vm_compute; reflexivity. Qed.
(** 10^9 and 10^9 + 1; 10^9 and 10^9 + 100; 10^400 and 1; 10^400 and 10^400 + 1. *)
Example C121_ex_int : almosteq_int (10 ^ 9) (10 ^ 9 + 1) default_tol = Ok true /\ almosteq_int (10 ^ 9) (10 ^ 9 + 100) default_tol = Ok false /\
  almosteq_int (10 ^ 400) 1 default_tol = Raise OverflowError /\ almosteq_int (10 ^ 400) (10 ^ 400 + 1) default_tol = Ok true /\
  inject_Z (Z.abs (10 ^ 9) + Z.abs (10 ^ 9 + 1)) <= MAX.
Proof. repeat split; vm_compute; intros; try discriminate; reflexivity. Qed.
