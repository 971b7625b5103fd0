(** C98: what a bare name means in a [with autoref] block. *)
From Coq Require Import String List Bool Arith.
From Verif Require Import Base ArefModel ArefSpec ArefProofs.
Import ListNotations.
Open Scope string_scope.
Open Scope list_scope.
Open Scope nat_scope.

(** A program with [with autoref] blocks, nested in each other and in functions and loops in
    any way, does once expanded what it means as written: it ends the same way, prints the
    same, and leaves the same objects and variables, where a bare name is the attribute of the
    object of the innermost block around it that has one at that moment, and else the variable.
    The names in the target of an assignment are always variables, and the object of an inner
    block does not mention the [as] name of that block. *)
Theorem C98_meaning_partial n p :
  program p -> seen (run n (expand_all p)) = seen (srun false n p).
Proof. exact (expand_correct n p). Qed.
Print Assumptions C98_meaning_partial.

(** The specification, in words. *)
Theorem C98_first_object (w : world sclo) ch bs x before o after v :
  ~ exempt bs x -> reads w ch bs = ret (before ++ o :: after) w ->
  (forall o', In o' before -> attr w o' x = None) -> attr w o x = Some v ->
  name w ch bs x = ret v w.
Proof. exact (name_first w ch bs x before o after v). Qed.
Print Assumptions C98_first_object.
Theorem C98_variable (w : world sclo) ch bs x os :
  exempt bs x \/ (reads w ch bs = ret os w /\ forall o, In o os -> attr w o x = None) ->
  name w ch bs x = read w ch (U x).
Proof. exact (name_variable w ch bs x os). Qed.
Print Assumptions C98_variable.

(** A nested example with closures, late changes of attributes and both kinds of blocks.
<<
    a = {x: 1, y: 2}
    z = 9
    with autoref[a]:
        def f(): return x
        with autoref[{y: 3}] as b:
            print(x); print(y); print(z)
            b.x = 4
            print(x); print(f()); print(b)
        print(y)
    print(f())
>> *)
Definition ex_prog : list stmt :=
  [SAssign "a" (EObj [("x", ENum 1); ("y", ENum 2)]);
   SAssign "z" (ENum 9);
   SWith 0 None (EName "a")
     [SDef "f" [] [SReturn (EName "x")];
      SWith 1 (Some "b") (EObj [("y", ENum 3)])
        [SExpr (EPrint (EName "x")); SExpr (EPrint (EName "y")); SExpr (EPrint (EName "z"));
         SSetAttr (EName "b") "x" (ENum 4);
         SExpr (EPrint (EName "x")); SExpr (EPrint (ECall (EName "f") []));
         SExpr (EPrint (EName "b"))];
      SExpr (EPrint (EName "y"))];
   SExpr (EPrint (ECall (EName "f") []))].
Example C98_program : program ex_prog.
Proof.
  intros s H. cbn in H.
  repeat destruct H as [<-|H]; try (cbn; intuition congruence); try contradiction.
Qed.


Example C98_runs :
  printed (run 40 (expand_all ex_prog)) =
  Some (Ok Next, [VNum 1; VNum 3; VNum 9; VNum 4; VNum 1; VObj 1; VNum 2; VNum 1]).
Proof. reflexivity. Qed.
(** A parameter is a bare name like any other. *)
Example C98_parameter :
  printed (run 40 (expand_all
    [SWith 0 None (EObj [("x", ENum 1)])
       [SExpr (EPrint (ECall (ELam ["x"] (EName "x")) [ENum 2]))]])) =
  Some (Ok Next, [VNum 1]).
Proof. reflexivity. Qed.

(** The names in the target of an assignment are read too, but they are not looked up in the
    objects.
<<
    o = {x: {}}
    with autoref[o]:
        x.y = 1      # NameError
>> *)
Theorem C98_target_refuted : exists p n,
  program p /\
  printed (run n (expand_all p)) = Some (Raise NameError, []) /\
  printed (srun true n p) = Some (Ok Next, []).
Proof. exact target_refuted. Qed.
Print Assumptions C98_target_refuted.

(** In the object of an inner block, the [as] name of that block is not looked up in the objects
    of the blocks around it.
<<
    with autoref[{b: {y: 1}}]:
        with autoref[b] as b:    # NameError
            print(y)
>> *)
Theorem C98_as_name_refuted : exists p n,
  printed (run n (expand_all p)) = Some (Raise NameError, []) /\
  printed (srun false n p) = Some (Ok Next, [VNum 1]).
Proof. exact as_name_refuted. Qed.
Print Assumptions C98_as_name_refuted.

(** An attribute whose name some macro uses is never found: with any of the reserved names as
    x, this prints 1.
<<
    x = 1
    with autoref[{x: 2}]: print(x)
>> *)
Theorem C98_reserved_refuted x :
  printed (run 9 (expand_all
    [SAssign x (ENum 1); SWith 0 None (EObj [(x, ENum 2)]) [SExpr (EPrint (EName x))]])) =
  Some (Ok Next, [VNum (if existsb (String.eqb x) reserved then 1 else 2)]).
Proof. exact (reserved_refuted x). Qed.
Print Assumptions C98_reserved_refuted.

(** The [as] name is a variable like any other: where a parameter hides it, the names are looked
    up in that parameter.
<<
    with autoref[{y: 1}] as b:
        print((lambda b: y)({y: 2}))   # 2
>> *)
Theorem C98_shadow_refuted : exists p n,
  program p /\ printed (run n (expand_all p)) = Some (Ok Next, [VNum 2]) /\
  p = [SWith 0 (Some "b") (EObj [("y", ENum 1)])
         [SExpr (EPrint (ECall (ELam ["b"] (EName "y")) [EObj [("y", ENum 2)]]))]].
Proof. exact shadow_refuted. Qed.
Print Assumptions C98_shadow_refuted.

(** A block in a loop has one variable for all its runs, so a function made in an earlier run
    looks its names up in the object of the last one.
<<
    keep = {}
    l = {v: 1, next: {v: 2, next: 0}}
    first = 1
    while l:
        with autoref[{x: l.v}]:
            if first: keep.f = lambda: x
        first = 0
        l = l.next
    print(keep.f())   # 2
>> *)
Theorem C98_loop_refuted : exists p n,
  program p /\ printed (run n (expand_all p)) = Some (Ok Next, [VNum 2]) /\
  p = [SAssign "keep" (EObj []);
       SAssign "l" (EObj [("v", ENum 1); ("next", EObj [("v", ENum 2); ("next", ENum 0)])]);
       SAssign "first" (ENum 1);
       SWhile (EName "l")
         [SWith 0 None (EObj [("x", EAttr (EName "l") "v")])
            [SIf (EName "first") [SSetAttr (EName "keep") "f" (ELam [] (EName "x"))] []];
          SAssign "first" (ENum 0);
          SAssign "l" (EAttr (EName "l") "next")];
       SExpr (EPrint (ECall (EAttr (EName "keep") "f") []))].
Proof. exact loop_refuted. Qed.
Print Assumptions C98_loop_refuted.
