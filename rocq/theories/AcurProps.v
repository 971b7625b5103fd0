(** C94: [with autocurry].  C95: regrouping arguments under [with autocurry]. *)
From Coq Require Import String List Bool Arith Permutation.
From Verif Require Import Base AcurModel AcurSpec AcurProofs AcurPlain AcurGroup.
Import ListNotations.
Open Scope string_scope.
Open Scope list_scope.
Open Scope nat_scope.

(** C94.  The module [before; with autocurry: block; after] computes what curried evaluation
    computes: the same effects in the same order, the same exception if it is not a TypeError,
    and the same global variables with the same data.  (The argument [true]: with the limit on
    partial application, see C94_third_step_refuted.)

    Partial: a lambda below a manual curry() must be written curry(lambda ...: body) with no
    lambda in the body (see C94_nested_lambda_refuted, C94_argument_lambda_refuted), and nothing
    is said where curried evaluation raises TypeError (C94_call_data_refuted,
    C94_left_over_refuted). *)
Theorem C94_curried_partial : forall n before block after l o,
  source before -> block_ok block -> source after ->
  hrun true n before block after = Some (l, o) -> o <> Raise TypeError ->
  forall k, 2 * n <= k ->
  match o with
  | Ok g => exists g', run k before block after = Some (l, Ok g') /\
      forall x, option_map see (get g' x) = option_map hsee (get g x)
  | Raise e => run k before block after = Some (l, Raise e)
  end.
Proof. exact curried_run. Qed.
Print Assumptions C94_curried_partial.

(** A program that runs in plain Python without a TypeError runs the same when part of it is
    put in [with autocurry]: same effects, same exception, same data in the same variables. *)
Theorem C94_plain : forall n before block after l o,
  source before -> source block -> source after ->
  exec n [] (before ++ block ++ after) = Some (l, o) -> o <> Raise TypeError ->
  forall k, 2 * n <= k ->
  match o with
  | Ok g => exists g', run k before block after = Some (l, Ok g') /\
      forall x, option_map see (get g' x) = option_map see (get g x)
  | Raise e => run k before block after = Some (l, Raise e)
  end.
Proof. exact plain_run. Qed.
Print Assumptions C94_plain.

(** The docstring: add3(1)(2)(3), add3(1, 2)(3), add3(1)(2, 3) and add3(1, 2, 3) in the block;
    a function apply1 from outside calls a lambda of the block with one argument of two; after
    the block add3 is still curried. *)
Definition sum3 := EAdd (EAdd (EVar "a") (EVar "b")) (EVar "c").
Definition ex_before := [SDef false "apply1" ["f"] (ECall (EVar "f") [ENum 1])].
Definition ex_block :=
  [SDef false "add3" ["a"; "b"; "c"] sum3;
   SAssign "r1" (ECall (ECall (ECall (EVar "add3") [ENum 1]) [ENum 2]) [ENum 3]);
   SAssign "r2" (ECall (ECall (EVar "add3") [ENum 1; ENum 2]) [ENum 3]);
   SAssign "r3" (ECall (ECall (EVar "add3") [ENum 1]) [ENum 2; ENum 3]);
   SAssign "r4" (ECall (EVar "add3") [ENum 1; ENum 2; ENum 3]);
   SAssign "k" (ELam ["x"] (ELam ["y"] (EAdd (EVar "x") (EVar "y"))));
   SAssign "r5" (ECall (EVar "k") [ENum 4; ENum 5]);
   SAssign "r6" (ECall (ECall (EVar "apply1") [ELam ["x"; "y"] (EAdd (EVar "x") (EVar "y"))]) [ENum 7]);
   SAssign "h" (EUCurry (ELam ["x"; "y"] (EAdd (EVar "x") (EVar "y"))) [])].
Definition ex_after :=
  [SAssign "r7" (ECall (ECall (EVar "add3") [ENum 1]) [ENum 2; ENum 3]);
   SAssign "r8" (ECall (ECall (EVar "h") [ENum 1]) [ENum 2])].
Definition watch {A B} (f : A -> B) (r : res (list (string * A))) (xs : list string) :=
  match r with
  | Some (l, Ok g) => Some (l, Ok (map (fun x => option_map f (get g x)) xs))
  | Some (l, Raise e) => Some (l, Raise e)
  | None => None
  end.
Ltac okay := repeat first
  [ apply Forall_nil | apply Forall_cons | exact I | progress cbn [src plain_curry stmt_term fold_right]
  | left; reflexivity | right; do 2 eexists; split; reflexivity | reflexivity | split ].
Example C94_ex :
  source ex_before /\ block_ok ex_block /\ source ex_after /\
  watch hsee (hrun true 12 ex_before ex_block ex_after) ["r1"; "r2"; "r3"; "r4"; "r5"; "r6"; "r7"; "r8"] =
    Some ([], Ok (map (fun k => Some (SData k)) [6; 6; 6; 6; 9; 8; 6; 3])) /\
  watch see (run 24 ex_before ex_block ex_after) ["r1"; "r2"; "r3"; "r4"; "r5"; "r6"; "r7"; "r8"] =
    Some ([], Ok (map (fun k => Some (SData k)) [6; 6; 6; 6; 9; 8; 6; 3])).
Proof.
  split; [okay|]. split; [okay|]. split; [okay|]. split; reflexivity.
Qed.
(** a plain program with an effect and an exception that is not a TypeError *)
Example C94_plain_ex :
  let p := [SDef false "f" ["x"; "y"] (EAdd (EVar "x") (EVar "y"));
            SAssign "r" (ECall (EVar "f") [ETick 1; ENum 3]);
            SExpr (ECall (EVar "f") [ETick 2; EVar "nothing"])] in
  source p /\ exec 9 [] ([] ++ p ++ []) = Some ([1; 2], Raise NameError) /\
  run 18 [] p [] = Some ([1; 2], Raise NameError).
Proof. cbn zeta. split; [repeat constructor|]. split; reflexivity. Qed.

(** Refuted: without the limit on partial application.  For def add4(a, b, c, d) in the block,
    add4(1)(2)(3)(4) is not 10 but a TypeError. *)
Theorem C94_third_step_refuted :
  let p := [SDef false "add4" ["a"; "b"; "c"; "d"] (EAdd sum3 (EVar "d"));
            SAssign "r" (ECall (ECall (ECall (ECall (EVar "add4") [ENum 1]) [ENum 2]) [ENum 3])
                           [ENum 4])] in
  block_ok p /\
  watch hsee (hrun false 12 [] p []) ["r"] = Some ([], Ok [Some (SData 10)]) /\
  run 24 [] p [] = Some ([], Raise TypeError).
Proof. cbn zeta. split; [okay|]. repeat split. Qed.
Print Assumptions C94_third_step_refuted.

(** Refuted: calling something that is not callable.  In plain Python, and by the rule that
    arguments left over for something that is not a function are an error, 5(1) is a TypeError.
    In the block the call returns 5 and drops the argument.  So does curry(5, 1). *)
Theorem C94_call_data_refuted :
  let p e := [SAssign "r" e] in
  let e1 := ECall (ENum 5) [ETick 1] in
  let e2 := EUCurry (ENum 5) [ENum 1] in
  block_ok (p e1) /\ block_ok (p e2) /\
  exec 9 [] (p e1) = Some ([1], Raise TypeError) /\
  hrun true 9 [] (p e1) [] = Some ([1], Raise TypeError) /\
  watch see (run 18 [] (p e1) []) ["r"] = Some ([1], Ok [Some (SData 5)]) /\
  hrun true 9 [] (p e2) [] = Some ([], Raise TypeError) /\
  watch see (run 18 [] (p e2) []) ["r"] = Some ([], Ok [Some (SData 5)]).
Proof.
  cbn zeta. split; [okay|]. split; [okay|]. repeat split.
Qed.
Print Assumptions C94_call_data_refuted.

(** Refuted: arguments left over.  At the top level of the block, f(1, 2) for def f(x): return x
    is a TypeError.  The same call in the body of a function returns a [Values] object with
    both numbers, which becomes the result of the function, at the top level too. *)
Theorem C94_left_over_refuted :
  let f := SDef false "f" ["x"] (EVar "x") in
  let call := ECall (EVar "f") [ENum 1; ENum 2] in
  let p1 := [f; SAssign "r" call] in
  let p2 := [f; SDef false "h" ["y"] call; SAssign "r" (ECall (EVar "h") [ENum 0])] in
  block_ok p1 /\ block_ok p2 /\
  run 18 [] p1 [] = Some ([], Raise TypeError) /\
  hrun true 9 [] p2 [] = Some ([], Raise TypeError) /\
  watch see (run 18 [] p2 []) ["r"] = Some ([], Ok [Some (SVals 2)]).
Proof.
  cbn zeta. split; [okay|]. split; [okay|]. repeat split.
Qed.
Print Assumptions C94_left_over_refuted.

(** Refuted: "all function definitions lexically inside the block are automatically curried".
    In g = curry(lambda x: lambda y, z: y + z), the inner lambda is not curried: after the
    block, g(1)(2)(3) is a TypeError.  Without the manual curry it is 5. *)
Theorem C94_nested_lambda_refuted :
  let lam := ELam ["x"] (ELam ["y"; "z"] (EAdd (EVar "y") (EVar "z"))) in
  let after := [SAssign "r" (ECall (ECall (ECall (EVar "g") [ENum 1]) [ENum 2]) [ENum 3])] in
  let manual := [SAssign "g" (EUCurry lam [])] in
  let auto := [SAssign "g" lam] in
  source manual /\ source after /\
  watch hsee (hrun true 9 [] manual after) ["r"] = Some ([], Ok [Some (SData 5)]) /\
  run 18 [] manual after = Some ([], Raise TypeError) /\
  watch see (run 18 [] auto after) ["r"] = Some ([], Ok [Some (SData 5)]).
Proof. cbn zeta. split; [okay|]. split; [okay|]. repeat split. Qed.
Print Assumptions C94_nested_lambda_refuted.

(** Refuted: a lambda passed to a manually curried function is taken for a decorated lambda and
    is not curried.  With def apply1(f): return f(1) from outside the block,
    curry(apply1)(lambda x, y: x + y)(2) in the block is a TypeError; apply1(lambda x, y: x + y)(2)
    is 3. *)
Theorem C94_argument_lambda_refuted :
  let lam := ELam ["x"; "y"] (EAdd (EVar "x") (EVar "y")) in
  let p f := [SAssign "r" (ECall (ECall f [lam]) [ENum 2])] in
  source (p (EUCurry (EVar "apply1") [])) /\
  watch hsee (hrun true 9 ex_before (p (EUCurry (EVar "apply1") [])) []) ["r"] =
    Some ([], Ok [Some (SData 3)]) /\
  run 18 ex_before (p (EUCurry (EVar "apply1") [])) [] = Some ([], Raise TypeError) /\
  watch see (run 18 ex_before (p (EVar "apply1")) []) ["r"] = Some ([], Ok [Some (SData 3)]).
Proof. cbn zeta. split; [okay|]. repeat split. Qed.
Print Assumptions C94_argument_lambda_refuted.

(** C95.  In the block, f(a...)(b...) and f(a..., b...) are interchangeable, anywhere and any
    number of times: both versions of the program finish, with the same data in the same
    variables and the same effects, though perhaps in another order.

    Partial: at least one argument must be left in the second group, the program must run
    without error under curried evaluation, its new version without TypeError (splitting may
    run into the limit on partial application), and the order of the effects may change (see
    the refutations below). *)
Theorem C95_regroup_partial : forall n before block block' after l h m l' o,
  source before -> source after -> block_ok block -> block_ok block' ->
  Forall2 regroup_stmt block block' ->
  hrun true n before block after = Some (l, Ok h) ->
  hrun true m before block' after = Some (l', o) -> o <> Raise TypeError ->
  exists k0, forall k, k0 <= k -> exists g g',
    run k before block after = Some (l, Ok g) /\
    run k before block' after = Some (l', Ok g') /\
    Permutation l l' /\
    forall x, option_map see (get g' x) = option_map see (get g x).
Proof. exact regrouping. Qed.
Print Assumptions C95_regroup_partial.

(** k = lambda x: lambda y, z: x + y + z; k(1)(2)(3) regrouped as k(1, 2, 3), and
    k(4, 5)(6) as k(4)(5, 6) inside an argument *)
Definition kdef := SAssign "k"
  (ELam ["x"] (ELam ["y"; "z"] (EAdd (EVar "x") (EAdd (EVar "y") (EVar "z"))))).
Definition grp1 :=
  [kdef; SAssign "r" (EAdd (ECall (ECall (ECall (EVar "k") [ENum 1]) [ENum 2]) [ENum 3])
                           (ECall (EVar "k") [ENum 4; ENum 5; ENum 6]))].
Definition grp2 :=
  [kdef; SAssign "r" (EAdd (ECall (ECall (EVar "k") [ENum 1; ENum 2]) [ENum 3])
                           (ECall (ECall (EVar "k") [ENum 4]) [ENum 5; ENum 6]))].
Example C95_ex :
  block_ok grp1 /\ block_ok grp2 /\ Forall2 regroup_stmt grp1 grp2 /\
  watch hsee (hrun true 12 [] grp1 []) ["r"] = Some ([], Ok [Some (SData 21)]) /\
  watch hsee (hrun true 12 [] grp2 []) ["r"] = Some ([], Ok [Some (SData 21)]) /\
  watch see (run 24 [] grp2 []) ["r"] = Some ([], Ok [Some (SData 21)]).
Proof.
  split; [okay|]. split; [okay|]. split; [|split; [|split]; reflexivity].
  repeat first [apply Forall2_cons | apply Forall2_nil | apply rgt_assign].
  - repeat constructor.
  - apply rg_add.
    + apply rg_call; [|repeat constructor].
      apply (rg_merge (EVar "k") (EVar "k") [ENum 1] [ENum 1] [ENum 2] [ENum 2]);
        [repeat constructor|repeat constructor|repeat constructor|discriminate].
    + apply (rg_split (EVar "k") (EVar "k") [ENum 4] [ENum 4] [ENum 5; ENum 6] [ENum 5; ENum 6]);
        [repeat constructor|repeat constructor|repeat constructor|discriminate].
Qed.

(** The order of effects may change: in f(a)(b) the function runs before b is computed if it
    takes one parameter, in f(a, b) after. *)
Theorem C95_order_refuted :
  let f := SAssign "f" (ELam ["x"] (ECall (ELam ["u"; "v"] (EVar "v"))
                                      [ETick 1; ELam ["y"] (EVar "y")])) in
  let p1 := [f; SExpr (ECall (ECall (EVar "f") [ENum 0]) [ETick 2])] in
  let p2 := [f; SExpr (ECall (EVar "f") [ENum 0; ETick 2])] in
  block_ok p1 /\ block_ok p2 /\ Forall2 regroup_stmt p1 p2 /\
  watch see (run 20 [] p1 []) [] = Some ([1; 2], Ok []) /\
  watch see (run 20 [] p2 []) [] = Some ([2; 1], Ok []).
Proof.
  cbn zeta. split; [okay|]. split; [okay|].
  split; [|split; reflexivity].
  repeat first [apply Forall2_cons | apply Forall2_nil | apply rgt_assign | apply rgt_expr].
  - repeat constructor.
  - apply (rg_merge (EVar "f") (EVar "f") [ENum 0] [ENum 0] [ETick 2] [ETick 2]);
      [repeat constructor|repeat constructor|repeat constructor|discriminate].
Qed.
Print Assumptions C95_order_refuted.

(** Without the hypothesis that curried evaluation succeeds: for f = lambda x: x, f(1)(2) is 1
    and f(1, 2) is a TypeError. *)
Theorem C95_surplus_refuted :
  let f := SAssign "f" (ELam ["x"] (EVar "x")) in
  let p1 := [f; SAssign "r" (ECall (ECall (EVar "f") [ENum 1]) [ENum 2])] in
  let p2 := [f; SAssign "r" (ECall (EVar "f") [ENum 1; ENum 2])] in
  block_ok p1 /\ block_ok p2 /\ Forall2 regroup_stmt p1 p2 /\
  watch see (run 20 [] p1 []) ["r"] = Some ([], Ok [Some (SData 1)]) /\
  run 20 [] p2 [] = Some ([], Raise TypeError).
Proof.
  cbn zeta. split; [okay|]. split; [okay|].
  split; [|split; reflexivity].
  repeat first [apply Forall2_cons | apply Forall2_nil | apply rgt_assign | apply rgt_expr].
  - repeat constructor.
  - apply (rg_merge (EVar "f") (EVar "f") [ENum 1] [ENum 1] [ENum 2] [ENum 2]);
      [repeat constructor|repeat constructor|repeat constructor|discriminate].
Qed.
Print Assumptions C95_surplus_refuted.

(** Splitting may run into the limit: add4(1, 2, 3, 4) and add4(1)(2)(3)(4). *)
Theorem C95_third_step_refuted :
  let f := SDef false "add4" ["a"; "b"; "c"; "d"] (EAdd sum3 (EVar "d")) in
  let p1 := [f; SAssign "r" (ECall (ECall (EVar "add4") [ENum 1; ENum 2]) [ENum 3; ENum 4])] in
  let p2 := [f; SAssign "r" (ECall (ECall (ECall (EVar "add4") [ENum 1]) [ENum 2])
                               [ENum 3; ENum 4])] in
  let p3 := [f; SAssign "r" (ECall (ECall (ECall (ECall (EVar "add4") [ENum 1]) [ENum 2]) [ENum 3])
                               [ENum 4])] in
  block_ok p1 /\ block_ok p2 /\ block_ok p3 /\
  Forall2 regroup_stmt p1 p2 /\ Forall2 regroup_stmt p2 p3 /\
  watch see (run 24 [] p1 []) ["r"] = Some ([], Ok [Some (SData 10)]) /\
  watch see (run 24 [] p2 []) ["r"] = Some ([], Ok [Some (SData 10)]) /\
  run 24 [] p3 [] = Some ([], Raise TypeError).
Proof.
  cbn zeta. split; [okay|]. split; [okay|]. split; [okay|].
  split; [|split; [|repeat split]];
    repeat first [apply Forall2_cons | apply Forall2_nil | apply rgt_assign | apply rgt_expr];
    try solve [repeat constructor].
  - apply rg_call; [|repeat constructor].
    apply (rg_split (EVar "add4") (EVar "add4") [ENum 1] [ENum 1] [ENum 2] [ENum 2]);
      [repeat constructor|repeat constructor|repeat constructor|discriminate].
  - apply (rg_split (ECall (ECall (EVar "add4") [ENum 1]) [ENum 2])
             (ECall (ECall (EVar "add4") [ENum 1]) [ENum 2]) [ENum 3] [ENum 3] [ENum 4] [ENum 4]);
      [|repeat constructor|repeat constructor|discriminate].
    apply rg_call; [|repeat constructor]. apply rg_call; repeat constructor.
Qed.
Print Assumptions C95_third_step_refuted.

(** With no argument in the second group: f()() is not f(), for f = lambda: lambda: 7. *)
Theorem C95_empty_refuted :
  let f := SAssign "f" (ELam [] (ELam [] (ENum 7))) in
  watch see (run 20 [] [f; SAssign "r" (ECall (ECall (EVar "f") []) [])] []) ["r"] =
    Some ([], Ok [Some (SData 7)]) /\
  watch see (run 20 [] [f; SAssign "r" (ECall (EVar "f") ([] ++ []))] []) ["r"] =
    Some ([], Ok [Some SFun]).
Proof. split; reflexivity. Qed.
Print Assumptions C95_empty_refuted.
