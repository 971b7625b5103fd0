(** C117: units in the last place. *)
From Verif Require Import UlpModel UlpSpec UlpProofs.
From Coq Require Import ZArith QArith Qabs.
Open Scope Q_scope.

(** What the unit in the last place of a normal float is for: adding it gives the next float. *)
Theorem C117_next_float : forall x m u, normal x m u ->
  (forall z, isfloat z -> Qabs x < z -> Qabs x + u <= z) /\
  ((m < 2 ^ 53 - 1)%Z \/ u < 2 ^ 971 -> isfloat (Qabs x + u)).
Proof. exact (fun x m u N => conj (fun z => ulp_next x m u z N) (ulp_next_float x m u N)). Qed.
Print Assumptions C117_next_float.
(** [ulp] of a normal float is right unless the float is one of the last 1023 below a power of two,
    if log2 returns one of the two floats around the logarithm ... *)
Theorem C117_ulp_partial : forall log2 x m u, normal x m u -> faithful (Qabs x) (log2 (Qabs x)) ->
  (m <= 2 ^ 53 - 2 ^ 10)%Z -> exists r, ulp log2 (Fin x) = Val r /\ r == u.
Proof. exact ulp_right. Qed.
Print Assumptions C117_ulp_partial.
(** ... and else it is right, or twice what it should be, or an OverflowError for the largest floats. *)
Theorem C117_ulp_bounds : forall log2 x m u, normal x m u -> faithful (Qabs x) (log2 (Qabs x)) ->
  (exists r, ulp log2 (Fin x) = Val r /\ (r == u \/ r == 2 * u)) \/ (ulp log2 (Fin x) = OverflowError_ /\ u == 2 ^ 971).
Proof. exact ulp_near. Qed.
Print Assumptions C117_ulp_bounds.
(** It is wrong for the float just below each power of two from 8 on, also if log2 is always the nearest float:
    the logarithm is rounded up to an integer.  For the largest float it is an OverflowError. *)
Theorem C117_below_powers_refuted : forall log2 k, let x := 2 ^ k * (1 - 1 / 2 ^ 53) in
  (3 <= k <= 1024)%Z -> nearest x (log2 (Qabs x)) ->
  normal x (2 ^ 53 - 1) (2 ^ (k - 53)) /\
  ((k < 1024)%Z -> exists r, ulp log2 (Fin x) = Val r /\ r == 2 * 2 ^ (k - 53)) /\
  (k = 1024%Z -> ulp log2 (Fin x) = OverflowError_).
Proof. exact ulp_below. Qed.
Print Assumptions C117_below_powers_refuted.
(** For small subnormal floats it is 0. *)
Theorem C117_subnormal_refuted : forall log2 x, isfloat x -> ~ x == 0 -> Qabs x < 2 ^ (-1023) ->
  faithful (Qabs x) (log2 (Qabs x)) -> exists r, ulp log2 (Fin x) = Val r /\ r == 0.
Proof. exact ulp_tiny. Qed.
Print Assumptions C117_subnormal_refuted.
(** Numbers that are not floats with a last place. *)
Theorem C117_special : forall log2, ulp log2 (Fin 0) = ValueError_ /\ ulp log2 NaN = ValueError_ /\ ulp log2 Inf = OverflowError_.
Proof. exact ulp_special. Qed.
Print Assumptions C117_special.

(** The nearest float is one of the two around the logarithm. *)
Example C117_ex_nearest : forall x y, 0 < x -> nearest x y -> faithful x y.
Proof. exact nearest_faithful. Qed.
(** log2(7.999999999999999) is 3.0. *)
Example C117_ex_8 : nearest (2 ^ 3 * (1 - 1 / 2 ^ 53)) 3.
Proof. exact (below_nearest 3 ltac:(split; discriminate)). Qed.
(** log2(4.0) is 2.0, and the unit in the last place of 4.0 is 2^-50. *)
Example C117_ex_4 : faithful 4 2 /\ normal 4 (2 ^ 52) (2 ^ (-50)) /\ ulp (fun _ => 2) (Fin 4) = Val (2 ^ (-50)).
Proof. exact four. Qed.
(** log2(2^-1074) is -1074.0. *)
Example C117_ex_tiny : faithful (2 ^ (-1074)) (inject_Z (-1074)) /\ isfloat (2 ^ (-1074)).
Proof. exact tiny. Qed.
