(** C101: cond, aif and multilambda. *)
From Coq Require Import String List Bool Arith ZArith.
From Verif Require Import Base EnvModel MletModel MletSpec MletProps IfeModel IfeSpec IfeProofs.
Import ListNotations.
Open Scope string_scope.
Open Scope list_scope.
Open Scope nat_scope.

(** A program that is accepted does, when all macros are expanded, what it says, for any builtin functions
    and global variables and after the same number of nested calls: a cond evaluates its tests in order up to
    the first that is true, and only the branch of this one; an aif evaluates its test once, and `it` is its
    value in the branch; brackets around a part of them, and in `with multilambda` around the body of a
    lambda, are multiple expressions. *)
Theorem C101_meaning_partial multi W prim globals t s k n t' n' fuel w :
  lower multi false false t = Ok s -> scoped false [] s = true -> expand k n s = Some (Ok (t', n')) ->
  trun W prim globals fuel t' w = xrun multi W prim globals fuel t w.
Proof. exact (expanded multi W prim globals t s k n t' n' fuel w). Qed.
Print Assumptions C101_meaning_partial.

(** Also before let and do are expanded; then there are no conditions on the program *)
Theorem C101_lowered multi W prim globals t s fuel w :
  lower multi false false t = Ok s -> srun W prim globals fuel s w = xrun multi W prim globals fuel t w.
Proof. exact (meaning multi W prim globals t s fuel w). Qed.
Print Assumptions C101_lowered.

(** A program is rejected exactly if there is an `it` outside of the branches of an aif (or a variable with
    this name), or a cond without an otherwise part; what is not rejected is a program with let and do. *)
Theorem C101_accepts multi t :
  (exists s, lower multi false false t = Ok s /\ written s = true) /\ proper false t = true \/
  lower multi false false t = Raise SyntaxError /\ proper false t = false.
Proof. exact (accepts multi t). Qed.
Print Assumptions C101_accepts.

Definition i (z : Z) : sx := SConst (VInt z).
Definition sprint (t : sx) : sx := SPrim 3 [t].
Definition splus (a b : sx) : sx := SPrim 0 [a; b].
Definition fully (multi : bool) (t : sx) : option (option (outcome value * list value)) :=
  match lower multi false false t with
  | Ok s => if scoped false [] s then after s else None
  | Raise _ => None
  end.
(** cond[print(1), print(2), [print(3), 0 + 5], print(4), print(5), print(6), print(7)]: the test in brackets is true *)
Example C101_ex_cond : fully false (SCond (sprint (i 1)) (sprint (i 2))
    [SBr [sprint (i 3); splus (i 0) (i 5)]; sprint (i 4); sprint (i 5); sprint (i 6); sprint (i 7)]) =
  Some (Some (Ok VNone, [VInt 1; VInt 3; VInt 4])).
Proof. vm_compute. reflexivity. Qed.
(** aif[[print(1), 2 + 3], aif[it + 1, [print(it), local[y := it + it], print(y), y], 0] + it, 0]: the test of
    the inner aif sees the outer `it` *)
Example C101_ex_aif : fully false (SAif (SBr [sprint (i 1); splus (i 2) (i 3)])
    (splus (SAif (splus (SVar "it") (i 1))
              (SBr [sprint (SVar "it"); SLocal (SAsgn "y" (splus (SVar "it") (SVar "it"))); sprint (SVar "y"); SVar "y"]) (i 0))
       (SVar "it"))
    (i 0)) = Some (Some (Ok (VInt 17), [VInt 1; VInt 6; VInt 12])).
Proof. vm_compute. reflexivity. Qed.
(** with multilambda: let[x := 0][let[count := lambda: [x := x + 1, print(x), x]][count() + count()]] *)
Example C101_ex_multilambda : fully true (SLet MLet [SAsgn "x" (i 0)]
    (SLet MLet [SAsgn "count" (SLam [] (SBr [SAsgn "x" (splus (SVar "x") (i 1)); sprint (SVar "x"); SVar "x"]))]
       (splus (SCall (SVar "count") []) (SCall (SVar "count") [])))) =
  Some (Some (Ok (VInt 3), [VInt 1; VInt 2])).
Proof. vm_compute. reflexivity. Qed.
(** rejected: `it` in the test; cond[1, 2, 3, 4] *)
Example C101_ex_rejected :
  proper false (SAif (SVar "it") (i 1) (i 2)) = false /\ proper false (SCond (i 1) (i 2) [i 3; i 4]) = false.
Proof. vm_compute. split; reflexivity. Qed.

(** By the documentation the brackets make a do, where local[] declares a variable; not in an item of a do[],
    where this is a SyntaxError.  with multilambda: do[(lambda: [local[y := 1], y])()] *)
Theorem C101_multilambda_refuted : exists t s,
  lower true false false t = Ok s /\ scoped false [] s = true /\
  xrun true _ pr glob 20 t [] = Some (Ok (VInt 1), []) /\ expand 60 0 s = Some (Raise SyntaxError).
Proof.
  exists (SDo [SCall (SLam [] (SBr [SLocal (SAsgn "y" (i 1)); SVar "y"])) []]). eexists. split; [reflexivity|].
  vm_compute. repeat split.
Qed.
Print Assumptions C101_multilambda_refuted.
(** do[cond[1, [local[y := 1], y], 0]] *)
Theorem C101_cond_refuted : exists t s,
  lower false false false t = Ok s /\ scoped false [] s = true /\
  xrun false _ pr glob 20 t [] = Some (Ok (VInt 1), []) /\ expand 60 0 s = Some (Raise SyntaxError).
Proof.
  exists (SDo [SCond (i 1) (SBr [SLocal (SAsgn "y" (i 1)); SVar "y"]) [i 0]]). eexists. split; [reflexivity|].
  vm_compute. repeat split.
Qed.
Print Assumptions C101_cond_refuted.
