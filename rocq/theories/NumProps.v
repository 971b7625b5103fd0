(** Property theorems: integer partitioning (C26), fixpoint and within (C68). *)
From Verif Require Import Base ItrModel NumModel NumSpec NumProofs.
From Coq Require Import ZArith List Bool.
Import ListNotations.
Open Scope Z_scope.

(** The output consists of exactly the tuples of components that sum to n; if the
    components are distinct, each comes out once. *)
Theorem C26_partition_int_custom :
  forall n comps, 1 <= n -> (forall x, In x comps -> 1 <= x <= n) ->
    exists ts, partition_int_custom n comps = Ok ts /\
      (forall t, In t ts <-> (forall x, In x t -> In x comps) /\ zsum t = n) /\
      (NoDup comps -> NoDup ts).
Proof. exact pic_spec. Qed.
Print Assumptions C26_partition_int_custom.
Theorem C26_partition_int_custom_rejected :
  forall n comps, n < 1 \/ (exists x, In x comps /\ ~ 1 <= x <= n) ->
    partition_int_custom n comps = Raise ValueError.
Proof. exact pic_reject. Qed.
Print Assumptions C26_partition_int_custom_rejected.
Theorem C26_partition_int :
  forall n lower upper, 1 <= lower <= upper -> upper <= n ->
    exists ts, partition_int n lower (Some upper) = Ok ts /\ NoDup ts /\
      forall t, In t ts <-> (forall x, In x t -> lower <= x <= upper) /\ zsum t = n.
Proof. exact partition_int_spec. Qed.
Print Assumptions C26_partition_int.
(** x is triangular when 2x = k(k+1) for some k >= 1. *)
Theorem C26_partition_int_triangular :
  forall n lower upper, 1 <= lower <= upper -> upper <= n ->
    exists ts, partition_int_triangular n lower (Some upper) = Ok ts /\ NoDup ts /\
      forall t, In t ts <->
        (forall x, In x t -> lower <= x <= upper /\ exists k, 1 <= k /\ 2 * x = k * (k + 1)) /\ zsum t = n.
Proof. exact partition_int_triangular_spec. Qed.
Print Assumptions C26_partition_int_triangular.
Theorem C26_bounds_rejected :
  forall n lower upper, n < 1 \/ ~ (1 <= lower <= upper /\ upper <= n) ->
    partition_int n lower (Some upper) = Raise ValueError /\
    partition_int_triangular n lower (Some upper) = Raise ValueError.
Proof. exact partition_int_reject. Qed.
Print Assumptions C26_bounds_rejected.
Theorem C26_default_upper :
  forall n lower, partition_int n lower None = partition_int n lower (Some n) /\
    partition_int_triangular n lower None = partition_int_triangular n lower (Some n).
Proof. exact partition_int_default. Qed.
Print Assumptions C26_default_upper.
Example C26_ex :
  partition_int 4 1 None = Ok [[4]; [3; 1]; [2; 2]; [2; 1; 1]; [1; 3]; [1; 2; 1]; [1; 1; 2]; [1; 1; 1; 1]] /\
  partition_int 5 2 (Some 3) = Ok [[3; 2]; [2; 3]] /\
  partition_int_triangular 4 1 None = Ok [[3; 1]; [1; 3]; [1; 1; 1; 1]].
Proof. repeat split. Qed.

(** fixpoint returns the first iterate that is within [tol] of its predecessor. *)
Theorem C68_fixpoint :
  forall f tol fuel x0 r, fixpoint f x0 tol fuel = Some r ->
    exists k, r = Nat.iter (S k) f x0 /\ Z.abs (Nat.iter k f x0 - r) <= tol /\
      forall j, (j < k)%nat -> tol < Z.abs (Nat.iter j f x0 - Nat.iter (S j) f x0).
Proof. exact fixpoint_spec. Qed.
Print Assumptions C68_fixpoint.
(** It returns whenever such a pair of iterates exists. *)
Theorem C68_fixpoint_terminates :
  forall f tol k fuel x0, (k < fuel)%nat ->
    Z.abs (Nat.iter k f x0 - Nat.iter (S k) f x0) <= tol -> exists r, fixpoint f x0 tol fuel = Some r.
Proof. exact fixpoint_terminates. Qed.
Print Assumptions C68_fixpoint_terminates.
(** With tol = 0 the result is a fixed point. *)
Theorem C68_fixpoint_exact :
  forall f fuel x0 r, fixpoint f x0 0 fuel = Some r -> f r = r.
Proof. exact fixpoint_exact. Qed.
Print Assumptions C68_fixpoint_exact.
(** within: the items up to and including the first close pair; if there is none,
    all items but the last. *)
Theorem C68_within :
  forall tol l, exists out, within tol l = Ok out /\
    ((exists k, close tol l k /\ (forall j, (j < k)%nat -> ~ close tol l j) /\ out = firstn (k + 2) l) \/
     ((forall k, ~ close tol l k) /\ out = firstn (length l - 1) l)).
Proof. exact within_spec. Qed.
Print Assumptions C68_within.
Example C68_ex :
  fixpoint (fun x => x / 2) 100 0 20 = Some 0 /\ fixpoint (fun x => x / 2) 100 10 20 = Some 6 /\
  within 1 [10; 7; 5; 4; 1; 1] = Ok [10; 7; 5; 4] /\ within 0 [1; 2; 3] = Ok [1; 2].
Proof. repeat split. Qed.
