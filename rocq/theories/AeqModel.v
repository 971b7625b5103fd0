(** Model of [almosteq], unpythonic/numutil.py 35-66, for two arguments that are floats (binary64).
    The arithmetic is that of Coq.Floats.SpecFloat: correctly rounded, ties to even.  At the end, for two ints.  Not
    modelled here: a float and an int, mpf, and other types, which are compared by [==] alone (49-59). *)
From Coq Require Import ZArith Floats.SpecFloat.
From Verif Require Import Base.

Notation float := spec_float.
(** Python's float operations, IEEE 754 binary64 as in Coq's SpecFloat (no code in /repo). *)
Definition fadd : float -> float -> float := SFadd 53 1024.
(** See fadd. *)
Definition fsub : float -> float -> float := SFsub 53 1024.
(** See fadd. *)
Definition fmul : float -> float -> float := SFmul 53 1024.
(** The float 0.0 (no code in /repo). *)
Definition zero : float := S754_zero false.
(** sys.float_info: numutil.py 60-61 *)
Definition min_normal : float := S754_finite false 4503599627370496 (-1074).
(** sys.float_info.max, which numutil.py 60-61 use. *)
Definition max_float : float := S754_finite false 9007199254740991 971.
(** the builtin min, of two numbers *)
Definition pymin (x y : float) : float := if SFltb y x then y else x.
(** the operator [/] *)
Definition truediv (x y : float) : outcome float :=
  if SFeqb y zero then Raise ZeroDivisionError else Ok (SFdiv 53 1024 x y).
(** numutil.py 35-66 *)
Definition almosteq (a b tol : float) : outcome bool :=
  if SFeqb a b then Ok true                                                          (* 48-49 *)
  else
    let d := SFabs (fsub a b) in                                                     (* 63 *)
    if (SFeqb a zero || SFeqb b zero || SFltb d min_normal)%bool then
      Ok (SFltb d (fmul tol min_normal))                                             (* 64-65 *)
    else
      do q <- truediv d (pymin (fadd (SFabs a) (SFabs b)) max_float);                (* 66 *)
      Ok (SFltb q tol).
(** the default of [tol], the float nearest to 1e-8 *)
Definition default_tol : float := S754_finite false 6044629098073146 (-79).

(** * Two ints.  Their difference and sum are exact. *)
Definition OverflowError : exn := UserExn 34.
(** the conversion of an int to float: "int too large to convert to float" *)
Definition to_float (n : Z) : outcome float :=
  match binary_normalize 53 1024 n 0 false with S754_infinity _ => Raise OverflowError | f => Ok f end.
(** [n / m] of ints, not negative: the quotient, correctly rounded (Objects/longobject.c, long_true_divide); it is not too
    large here, as [n <= m] *)
Definition int_div (n m : Z) : outcome float :=
  if (m =? 0)%Z then Raise ZeroDivisionError
  else let '(q, e, l) := SFdiv_core_binary 53 1024 n 0 m 0 in Ok (binary_round_aux 53 1024 false q e l).
(** [n < x] of an int, not negative, and a float is exact *)
Definition int_lt (n : Z) (x : float) : bool :=
  match x with
  | S754_finite false m e => if (0 <=? e)%Z then (n <? Zpos m * 2 ^ e)%Z else (n * 2 ^ (- e) <? Zpos m)%Z
  | S754_infinity false => true
  | _ => false
  end.
(** The same number as an int: OverflowError arises above it (numutil.py 60-61). *)
Definition max_int : Z := (9007199254740991 * 2 ^ 971)%Z.
(** numutil.py 35-66 *)
Definition almosteq_int (a b : Z) (tol : float) : outcome bool :=
  if (a =? b)%Z then Ok true
  else
    let d := Z.abs (a - b) in
    if ((a =? 0)%Z || (b =? 0)%Z || int_lt d min_normal)%bool then Ok (int_lt d (fmul tol min_normal))
    else
      let s := (Z.abs a + Z.abs b)%Z in
      do q <- (if (max_int <? s)%Z then do x <- to_float d; truediv x max_float else int_div d s);
      Ok (SFltb q tol).
