(** Model of [ulp], unpythonic/numutil.py 69-81, on binary64 numbers.  A finite float is the
    rational number that it is. *)
From Coq Require Import ZArith QArith Qabs Qround.
Open Scope Q_scope.

(** Python's floats as rationals; no negative zero (no code in /repo). *)
Inductive pyfloat := Fin (q : Q) | Inf | NaN.
(** What a call or step can end with (no code in /repo). *)
Inductive result := Val (q : Q) | ValueError_ | OverflowError_.

Section Ulp.
(** the C library's log2, on positive finite floats *)
Variable log2 : Q -> Q.

(** [2**n * eps]: [2**n] is an int for [n >= 0], which the multiplication converts to a float;
    otherwise a float.  A product of powers of two is exact, or underflows to 0. *)
Definition scaled_eps (n : Z) : result :=
  if (1024 <=? n)%Z then OverflowError_
  else if (n - 52 <? -1074)%Z then Val 0
  else Val (2 ^ (n - 52)).

(** numutil.py 69-81.  math.log2 of 0 is a ValueError ("math domain error"), of inf is inf and
    of nan is nan; math.floor of inf is an OverflowError, of nan a ValueError. *)
Definition ulp (x : pyfloat) : result :=
  match x with
  | NaN => ValueError_
  | Inf => OverflowError_
  | Fin q => if Qeq_bool q 0 then ValueError_ else scaled_eps (Qfloor (log2 (Qabs q)))
  end.
End Ulp.
