(** C106: the test macros and the[] *)
From Coq Require Import String List ZArith Bool.
From Verif Require Import Base EnvModel TmsModel TmsSpec TmsProofs.
Import ListNotations.
Open Scope string_scope.
Open Scope list_scope.
Open Scope nat_scope.

(** The expanded program gives the same result, reports (with the values recorded, their sources and their order) and
    effects as the documented meaning.  Partial: no the[] in another the[], no the[] in a test block in a test block
    (see the refutations). *)
Theorem C106_captures_partial : forall W prim compare fuel globals p (w : W), forallb (simples Outside) p = true ->
  run W prim compare fuel globals (expand_program p) w = run W prim compare fuel globals p w.
Proof. exact captures. Qed.
Print Assumptions C106_captures_partial.

(** Marks change only what is recorded. *)
Theorem C106_transparent : forall W prim compare fuel globals p (w : W), forallb (placeds false) p = true ->
  same_run (run W prim compare fuel globals (expand_program p) w) (run W prim compare fuel globals (expand_program (map unmarks p)) w).
Proof. exact transparent. Qed.
Print Assumptions C106_transparent.

(** One report if the expression of the test is false, raises or asks for one; the message comes first; the test itself
    gives None, and nothing else changes. *)
Theorem C106_verdict : forall W prim compare ap n e m c cs (s s1 s2 : st W) w r l,
  eval W prim compare ap false m c cs s = Some (Ok w, s1) ->
  eval W prim compare ap false e c ((n, length (caps s1)) :: cs)
    (mkS (frames s1) (funs s1) (caps s1 ++ [[]]) (reports s1) (world s1)) = Some (r, s2) ->
  nth_error (caps s2) (length (caps s1)) = Some l ->
  eval W prim compare ap false (Assert n e m) c cs s = Some (Ok None_, add_reports s2 (reported r l w)).
Proof. exact verdict. Qed.
Print Assumptions C106_verdict.

Theorem C106_raises : forall W prim compare ap x e m c cs (s s1 s2 : st W) w r,
  eval W prim compare ap false m c cs s = Some (Ok w, s1) ->
  eval W prim compare ap false e c cs s1 = Some (r, s2) ->
  exists l, reported_raises x r w l /\ eval W prim compare ap false (AssertR x e m) c cs s = Some (Ok None_, add_reports s2 l).
Proof. exact verdict_raises. Qed.
Print Assumptions C106_raises.

(** The same for test blocks, which have their own local variables: the value is what the block returns. *)
Theorem C106_block_verdict : forall W prim compare ap n m b c cs (s s1 s2 : st W) w r l,
  eval W prim compare ap false m c cs s = Some (Ok w, s1) ->
  execs W prim compare ap false b (length (frames s1) :: c) ((n, length (caps s1)) :: cs)
    (mkS (frames s1 ++ [mkF (flat_map stored b) []]) (funs s1) (caps s1 ++ [[]]) (reports s1) (world s1)) = Some (r, s2) ->
  nth_error (caps s2) (length (caps s1)) = Some l ->
  exec W prim compare ap false (AssertB n m b) c cs s = Some (Ok None, add_reports s2 (reported (block_value r) l w)).
Proof. exact verdict_block. Qed.
Print Assumptions C106_block_verdict.

(** with test_raises[x, m]: b *)
Theorem C106_block_raises : forall W prim compare ap x m b c cs (s s1 s2 : st W) w r,
  eval W prim compare ap false m c cs s = Some (Ok w, s1) ->
  execs W prim compare ap false b (length (frames s1) :: c) cs
    (mkS (frames s1 ++ [mkF (flat_map stored b) []]) (funs s1) (caps s1) (reports s1) (world s1)) = Some (r, s2) ->
  exists l, reported_raises x (block_value r) w l /\ exec W prim compare ap false (AssertRB x m b) c cs s = Some (Ok None, add_reports s2 l).
Proof. exact verdict_raises_block. Qed.
Print Assumptions C106_block_raises.

(** The world counts the operations.  0: +, 1: fails *)
Definition prim0 (o : nat) (l : list con) (w : nat) : outcome con * nat :=
  match o, l with
  | 0, [CInt a; CInt b] => (Ok (CInt (a + b)), S w)
  | 1, _ => (Raise ZeroDivisionError, S w)
  | _, _ => (Raise TypeError, w)
  end.
(** 0: ==, 1: < *)
Definition cmp0 (o : nat) (a b : con) (w : nat) : outcome con * nat :=
  match o, a, b with
  | 0, CInt a, CInt b => (Ok (CBool (Z.eqb a b)), w)
  | 1, CInt a, CInt b => (Ok (CBool (Z.ltb a b)), w)
  | _, _, _ => (Raise TypeError, w)
  end.
Notation num z := (Con (CInt z)).
Notation vnum z := (VCon (CInt z)).

(** def f(x): return x + 1
    test[f(1) == the[f(2)], "m"]          (3 is recorded)
    test[f(1) + 1 < 2]                    (3 is recorded, for the left)
    test[f(1) == 2]
    with test:
      y = the[f(5)]
      test[y == 7]                        (6 is recorded, for this test)
      return the[y] < 0                   (6 and 6 are recorded, for the block)
    test_raises[ZeroDivisionError, 1 / 0]
    fail["no"] *)
Example C106_ex_program : list stm :=
  let f e := Call (Var "f") [e] in
  [Def "f" ["x"] [Return (Some (Prim 0 [Var "x"; num 1]))];
   Expr (Test (Cmp (f (num 1)) [(0, The (f (num 2)))]) (Some (Con (CStr "m"))));
   Expr (Test (Cmp (Prim 0 [f (num 1); num 1]) [(1, num 2)]) None);
   Expr (Test (Cmp (f (num 1)) [(0, num 2)]) None);
   TestB None [Assign "y" (The (f (num 5))); Expr (Test (Cmp (Var "y") [(0, num 7)]) None); Return (Some (Cmp (The (Var "y")) [(1, num 0)]))];
   Expr (Raises ZeroDivisionError (Prim 1 []) None);
   Expr (Uncond UFail (Con (CStr "no")))].
Example C106_ex : forallb (simples Outside) C106_ex_program = true /\ forallb (placeds false) C106_ex_program = true /\
  run nat prim0 cmp0 9 [("f", CNone)] (expand_program C106_ex_program) 0 =
  Some (Ok None,
    [mkR Failed [(Call (Var "f") [num 2], vnum 3)] (VCon (CStr "m"));
     mkR Failed [(Prim 0 [Call (Var "f") [num 1]; num 1], vnum 3)] None_;
     mkR Failed [(Var "y", vnum 6)] None_;
     mkR Failed [(Call (Var "f") [num 5], vnum 6); (Var "y", vnum 6)] None_;
     mkR (Requested UFail) [] (VCon (CStr "no"))], 7).
Proof. repeat split; vm_compute; reflexivity. Qed.
Example C106_verdict_ex :
  let s := mkS [mkF [] []] [] [] [] 0 in
  eval nat prim0 cmp0 (call nat prim0 cmp0 0) false (Assert 0 (Cmp (Rec 0 (num 1) (num 1)) [(1, num 0)]) (Con CNone)) [] [] s =
  Some (Ok None_, mkS [mkF [] []] [] [[(num 1, vnum 1)]] [mkR Failed [(num 1, vnum 1)] None_] 0).
Proof. vm_compute. reflexivity. Qed.

(** z = 1
    with test_raises[TypeError, "m"]:
      z = 2                               (a variable of the block)
      test[z == 3]                        (2 is recorded, for this test)
      1 / 0
    with test:
      with test_raises[ZeroDivisionError]:
        with test:
          return z == 2                   (1 is recorded, for this block)
      return the[z] < 0                   (1 is recorded, for the outer block) *)
Example C106_raises_ex :
  let p := [Assign "z" (num 1);
            RaisesB TypeError (Some (Con (CStr "m"))) [Assign "z" (num 2); Expr (Test (Cmp (Var "z") [(0, num 3)]) None); Expr (Prim 1 [])];
            TestB None [RaisesB ZeroDivisionError None [TestB None [Return (Some (Cmp (Var "z") [(0, num 2)]))]];
                        Return (Some (Cmp (The (Var "z")) [(1, num 0)]))]] in
  forallb (simples Outside) p = true /\ forallb (placeds false) p = true /\
  run nat prim0 cmp0 9 [("z", CNone)] (expand_program p) 0 =
  Some (Ok None,
    [mkR Failed [(Var "z", vnum 2)] None_; mkR (WrongRaise ZeroDivisionError) [] (VCon (CStr "m"));
     mkR Failed [(Var "z", vnum 1)] None_; mkR NoRaise [] None_; mkR Failed [(Var "z", vnum 1)] None_], 1).
Proof. repeat split; vm_compute; reflexivity. Qed.
Example C106_block_verdict_ex :
  let s := mkS [mkF [] []] [] [] [] 0 in
  exec nat prim0 cmp0 (call nat prim0 cmp0 0) false (AssertB 0 (Con CNone) [Assign "x" (num 1); Return (Some (Cmp (Rec 0 (Var "x") (Var "x")) [(1, num 0)]))]) [] [] s =
  Some (Ok None, mkS [mkF [] []; mkF ["x"] [("x", vnum 1)]] [] [[(Var "x", vnum 1)]] [mkR Failed [(Var "x", vnum 1)] None_] 0) /\
  exec nat prim0 cmp0 (call nat prim0 cmp0 0) false (AssertRB ZeroDivisionError (Con CNone) [Assign "x" (num 1); Expr (Prim 1 [])]) [] [] s =
  Some (Ok None, mkS [mkF [] []; mkF ["x"] [("x", vnum 1)]] [] [] [] 1).
Proof. split; vm_compute; reflexivity. Qed.

(** The documentation allows a the[] in another, and says that the source is the code as written.  For the outer
    the[], it is the code with the inner one replaced by a call of the recorder:
      test[the[1 + the[2]] < 0] *)
Theorem C106_nested_refuted : exists p,
  forallb (placeds false) p = true /\
  run nat prim0 cmp0 9 [] p 0 = Some (Ok None, [mkR Failed [(num 2, vnum 2); (Prim 0 [num 1; The (num 2)], vnum 3)] None_], 1) /\
  run nat prim0 cmp0 9 [] (expand_program p) 0 =
    Some (Ok None, [mkR Failed [(num 2, vnum 2); (Prim 0 [num 1; Rec 0 (num 2) (num 2)], vnum 3)] None_], 1).
Proof. exists [Expr (Test (Cmp (The (Prim 0 [num 1; The (num 2)])) [(1, num 0)]) None)]. repeat split; vm_compute; reflexivity. Qed.
Print Assumptions C106_nested_refuted.

(** The documentation says that a the[] belongs to the innermost test around it.  In a test block in a test block, it
    belongs to the outer one:
      with test:
        with test:
          return the[1] + 1 < 0
        return the[2] < 0 *)
Theorem C106_block_refuted : exists p,
  forallb (placeds false) p = true /\
  run nat prim0 cmp0 9 [] p 0 = Some (Ok None, [mkR Failed [(num 1, vnum 1)] None_; mkR Failed [(num 2, vnum 2)] None_], 1) /\
  run nat prim0 cmp0 9 [] (expand_program p) 0 =
    Some (Ok None, [mkR Failed [(Prim 0 [Rec 0 (num 1) (num 1); num 1], vnum 2)] None_; mkR Failed [(num 1, vnum 1); (num 2, vnum 2)] None_], 1).
Proof.
  exists [TestB None [TestB None [Return (Some (Cmp (Prim 0 [The (num 1); num 1]) [(1, num 0)]))]; Return (Some (Cmp (The (num 2)) [(1, num 0)]))]].
  repeat split; vm_compute; reflexivity.
Qed.
Print Assumptions C106_block_refuted.

(** The documentation says that trivialities such as "4 = 4" are not shown.  They are, for every literal. *)
Theorem C106_trivial_refuted : forall v, shown [(repr v, v)] = [(repr v ++ " = " ++ repr v)%string].
Proof. exact trivial. Qed.
Print Assumptions C106_trivial_refuted.
Example C106_trivial_ex : shown [("4", LNat 4)] = ["4 = 4"] /\ shown [("x", LNat 4)] = ["x = 4"] /\ shown [("'a'", LWord "a")] = ["'a' = 'a'"].
Proof. repeat split; vm_compute; reflexivity. Qed.
