(** The numbers that binary64 floats are (C121). *)
From Coq Require Import ZArith QArith Qabs Floats.SpecFloat.
Open Scope Q_scope.

(** A float as the hardware has it: a mantissa of at most 53 bits, normalised, and an exponent in range. *)
Definition isfloat (f : spec_float) : Prop := valid_binary 53 1024 f = true.
Definition finite (f : spec_float) : Prop := match f with S754_zero _ | S754_finite _ _ _ => True | _ => False end.
(** its value; 0 if it has none *)
Definition val (f : spec_float) : Q :=
  match f with
  | S754_finite s m e => inject_Z (if s then Zneg m else Zpos m) * 2 ^ e
  | _ => 0
  end.
(** the smallest normal and the largest float *)
Definition MIN : Q := 2 ^ (-1022).
Definition MAX : Q := inject_Z (2 ^ 53 - 1) * 2 ^ 971.
(** half of the smallest positive float *)
Definition TINY : Q := 2 ^ (-1075).
(** the distance of two numbers, relative to the sum of their sizes (or to the largest float if this is less) *)
Definition relative (x y : Q) : Q :=
  Qabs (x - y) / (if Qlt_le_dec MAX (Qabs x + Qabs y) then MAX else Qabs x + Qabs y).
(** how exact the test is *)
Definition EPS : Q := 2 ^ (-50).
(** 1.0, 1.000000015 and 1.00000003 *)
Definition one_ : spec_float := S754_finite false 4503599627370496 (-52).
Definition near_ : spec_float := S754_finite false (4503599627370496 + 67553994) (-52).
Definition near2_ : spec_float := S754_finite false (4503599627370496 + 135107988) (-52).
