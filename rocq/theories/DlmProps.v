(** dlet, dletrec, blet, bletrec, dletseq and bletseq (C113). *)
From Coq Require Import String List ZArith Bool Arith.
From Verif Require Import Base CollModel EnvModel DlmModel DlmSpec DlmProofs DlmSimProofs.
Import ListNotations.
Open Scope string_scope.
Open Scope list_scope.
Open Scope nat_scope.

(** For every program that keeps to the conditions of [fine], every meaning of its builtin functions and every state of
    the world: the expanded program does what the source program does, where a let is an env around the function, made
    once when the function is defined. *)
Theorem C113_dlet_partial : forall W prim inner fuel globals p (w : W),
  forallb (fine []) p = true -> run W prim fuel globals (expand_program inner p) w = run W prim fuel globals p w.
Proof. exact run_fine. Qed.
Print Assumptions C113_dlet_partial.
(** dletseq and bletseq: as if nested functions with one dlet or blet each had been written. *)
Theorem C113_seq_partial : forall W prim inner fuel globals p (w : W),
  forallb seq_ok p = true -> (forall x n, In x (flat_map let_names p) -> x <> inner n) -> forallb (fine []) (map (unnest inner 0) p) = true ->
  run W prim fuel globals (expand_program inner p) w = run W prim fuel globals (map (unnest inner 0) p) w.
Proof. exact run_seq. Qed.
Print Assumptions C113_seq_partial.
(** The expansion of a dletseq is that of the nested functions, also where the program is not fine. *)
Theorem C113_seq_nested : forall inner p,
  forallb seq_ok p = true -> (forall x n, In x (flat_map let_names p) -> x <> inner n) ->
  expand_program inner p = expand_program inner (map (unnest inner 0) p).
Proof. exact program_nested. Qed.
Print Assumptions C113_seq_nested.
(** Nothing of the macros is left, and a program without lets is not changed. *)
Theorem C113_all_expanded : forall inner p, forallb no_let (expand_program inner p) = true.
Proof. exact expanded_no_let. Qed.
Print Assumptions C113_all_expanded.
Theorem C113_unchanged : forall inner p, forallb no_let p = true -> expand_program inner p = p.
Proof. exact no_let_same. Qed.
Print Assumptions C113_unchanged.

(** * A world to run programs in: prim 0 adds, prim 1 prints, prim 2 is x == 0, prim 3 subtracts *)
Definition prims (o : nat) (l : list value) (w : list value) : outcome value * list value :=
  match o, l with
  | 0, [VInt a; VInt b] => (Ok (VInt (a + b)), w)
  | 1, [v] => (Ok VNone, w ++ [v])
  | 2, [VInt a] => (Ok (VInt (if Z.eqb a 0 then 1 else 0)), w)
  | 3, [VInt a; VInt b] => (Ok (VInt (a - b)), w)
  | _, _ => (Raise TypeError, w)
  end.
Definition inn (n : nat) : string := match n with 0 => "g0" | 1 => "g1" | 2 => "g2" | _ => "g3" end.
Notation go := (run (list value) prims 20 [("x", VInt 10); ("id", VNone)]).
Definition print (e : ex) : stm := Expr (Prim 1 [e]).
Definition plus (a b : ex) : ex := Prim 0 [a; b].

(** ** The cases the conditions leave out *)
(** The documentation: a local variable shadows the variable of the let in the whole function.  The macro lets it do so
    only from the next statement on:
      @dlet[x := 1]
      def f():
          print(x)
          x = 2
    prints 1 instead of raising UnboundLocalError. *)
Definition prog_local := [Dlet false Let [("x", Num 1)] "f" [] [] [] [print (Var "x"); Assign "x" (Num 2)]; Expr (Call (Var "f") [])].
Theorem C113_local_shadows_refuted : exists p, go (expand_program inn p) [] = Some (Ok None, [VInt 1]) /\ go p [] = Some (Raise UnboundLocalError, []).
Proof. exists prog_local. split; vm_compute; reflexivity. Qed.
Print Assumptions C113_local_shadows_refuted.
(** Also within an if, where Python's rules are not in doubt:
      @dlet[x := 1]
      def f():
          if 1:
              x = 2
              print(x)
    prints 1. *)
Definition prog_if := [Dlet false Let [("x", Num 1)] "f" [] [] [] [If (Num 1) [Assign "x" (Num 2); print (Var "x")] []]; Expr (Call (Var "f") [])].
Theorem C113_local_in_if_refuted : exists p, go (expand_program inn p) [] = Some (Ok None, [VInt 1]) /\ go p [] = Some (Ok None, [VInt 2]).
Proof. exists prog_if. split; vm_compute; reflexivity. Qed.
Print Assumptions C113_local_in_if_refuted.
(** A default value of the function mentions a variable with a name that the let also has:
      @dlet[x := 1]
      def f(a=x): return a
      print(f())
    The name of the env is not known there. *)
Definition prog_default := [Dlet false Let [("x", Num 1)] "f" [] ["a"] [Var "x"] [Return (Var "a")]; print (Call (Var "f") [])].
Theorem C113_default_refuted : exists p, go (expand_program inn p) [] = Some (Raise NameError, []) /\ go p [] = Some (Ok None, [VInt 10]).
Proof. exists prog_default. split; vm_compute; reflexivity. Qed.
Print Assumptions C113_default_refuted.
(** The same in a decorator: @deco(x) @dlet[x := 1] def f(): ... *)
Definition prog_deco :=
  [Def "deco" [] None ["n"] [] [Return (Lam ["f"] (Var "f"))];
   Dlet false Let [("x", Num 1)] "f" [Call (Var "deco") [Var "x"]] [] [] [Return (Var "x")]; print (Call (Var "f") [])].
Theorem C113_decorator_refuted : exists p, go (expand_program inn p) [] = Some (Raise NameError, []) /\ go p [] = Some (Ok None, [VInt 1]).
Proof. exists prog_deco. split; vm_compute; reflexivity. Qed.
Print Assumptions C113_decorator_refuted.
(** A default value inside the let that has the name of a parameter, def h(x=x):
      @dlet[x := 1]
      def f():
          def h(x=x): return x
          return h()
    The default value is taken for the parameter, and so for a variable from outside the let. *)
Definition prog_hidden :=
  [Dlet false Let [("x", Num 1)] "f" [] [] [] [Def "h" [] None ["x"] [Var "x"] [Return (Var "x")]; Return (Call (Var "h") [])]; print (Call (Var "f") [])].
Theorem C113_hidden_default_refuted : exists p, go (expand_program inn p) [] = Some (Ok None, [VInt 10]) /\ go p [] = Some (Ok None, [VInt 1]).
Proof. exists prog_hidden. split; vm_compute; reflexivity. Qed.
Print Assumptions C113_hidden_default_refuted.
(** dletseq with a parameter that has the name of the (first) variable: a parameter should hide the variable, as in the
    nested functions.
      @dletseq[x := 1]
      def g(x): return x
      print(g(5)) *)
Definition prog_seq_param := [Dlet false Letseq [("x", Num 1)] "g" [] ["x"] [] [Return (Var "x")]; print (Call (Var "g") [Num 5])].
Theorem C113_seq_param_refuted : exists p,
  go (expand_program inn p) [] = Some (Ok None, [VInt 1]) /\ go (map (unnest inn 0) p) [] = Some (Ok None, [VInt 5]).
Proof. exists prog_seq_param. split; vm_compute; reflexivity. Qed.
Print Assumptions C113_seq_param_refuted.
(** The variables of a dletseq, other than the first, are made anew by each call, so that unlike those of dlet they do
    not keep what is assigned to them. *)
Definition count (m : mode) := 
  [Dlet false m [("a", Num 0); ("n", Num 0)] "f" [] [] [] [Expr (Wal "n" (plus (Var "n") (Num 1))); Return (Var "n")];
   print (Call (Var "f") []); print (Call (Var "f") [])].
Theorem C113_seq_state_refuted :
  go (expand_program inn (count Let)) [] = Some (Ok None, [VInt 1; VInt 2]) /\
  go (expand_program inn (count Letseq)) [] = Some (Ok None, [VInt 1; VInt 1]).
Proof. split; vm_compute; reflexivity. Qed.
Print Assumptions C113_seq_state_refuted.
(** A parameter cannot be assigned to under dletseq with two variables or more: the body is in a function of its own. *)
Definition assigns (m : mode) :=
  [Dlet false m [("a", Num 0); ("b", Num 0)] "f" [] ["n"] [] [Assign "n" (plus (Var "n") (Num 1)); Return (Var "n")]; print (Call (Var "f") [Num 1])].
Theorem C113_seq_assign_refuted :
  go (expand_program inn (assigns Let)) [] = Some (Ok None, [VInt 2]) /\
  go (expand_program inn (assigns Letseq)) [] = Some (Raise UnboundLocalError, []).
Proof. split; vm_compute; reflexivity. Qed.
Print Assumptions C113_seq_assign_refuted.
(** Decorators of such a function go to the innermost one: they are applied in each call, and get a function without
    parameters. *)
Definition decorated (m : mode) :=
  [Def "deco" [] None ["f"] [] [print (Num 7); Return (Var "f")];
   Dlet false m [("a", Num 1); ("b", Num 2)] "f" [Var "deco"] ["n"] [] [Return (Var "n")];
   print (Call (Var "f") [Num 5]); print (Call (Var "f") [Num 6])].
Theorem C113_seq_decorator_refuted :
  go (expand_program inn (decorated Let)) [] = Some (Ok None, [VInt 7; VInt 5; VInt 6]) /\
  go (expand_program inn (decorated Letseq)) [] = Some (Ok None, [VInt 7; VInt 5; VInt 7; VInt 6]).
Proof. split; vm_compute; reflexivity. Qed.
Print Assumptions C113_seq_decorator_refuted.

(** * Examples: programs that meet the conditions *)
(** the examples of the documentation (letdo.py 216-222, 264-269, 282-285) *)
Definition ex_count := [Dlet false Let [("x", Num 0)] "count" [] [] [] [Expr (Wal "x" (plus (Var "x") (Num 1))); Return (Var "x")];
   print (Call (Var "count") []); print (Call (Var "count") []); print (Var "x")].
Example C113_ex_count : forallb (fine []) ex_count = true /\ go (expand_program inn ex_count) [] = Some (Ok None, [VInt 1; VInt 2; VInt 10]).
Proof. split; vm_compute; reflexivity. Qed.
Definition ex_blet := [Dlet true Let [("x", Num 21)] "result" [] [] [] [Return (plus (Var "x") (Var "x"))]; print (Var "result")].
Example C113_ex_blet : forallb (fine []) ex_blet = true /\ go (expand_program inn ex_blet) [] = Some (Ok None, [VInt 42]).
Proof. split; vm_compute; reflexivity. Qed.
(** dletrec: a function of the let calls itself; nested lets with the same name; a parameter that hides a variable; a
    decorator; assignment from an inner function *)
Definition ex_rec :=
  [Dlet false Letrec [("y", Num 5); ("z", plus (Var "y") (Num 1)); ("k", Lam ["n"] (Prim 0 [Var "n"; Var "z"]))] "f" [] ["n"] [Var "x"]
     [Return (Call (Var "k") [Var "n"])]; print (Call (Var "f") []); print (Call (Var "f") [Num 1])].
Example C113_ex_rec : forallb (fine []) ex_rec = true /\ go (expand_program inn ex_rec) [] = Some (Ok None, [VInt 16; VInt 7]).
Proof. split; vm_compute; reflexivity. Qed.
Definition ex_nest :=
  [Def "deco" [] None ["f"] [] [print (Num 7); Return (Var "f")];
   Dlet false Let [("y", Num 23)] "outer" [Var "deco"] [] []
     [Dlet false Let [("y", plus (Var "y") (Num 19)); ("z", Num 1)] "inner" [] [] [] [Expr (Wal "y" (plus (Var "y") (Var "z"))); Return (Var "y")];
      If (Num 1) [print (Call (Var "inner") [])] []; print (Call (Lam ["y"] (Var "y")) [Num 3]);
      Expr (Wal "y" (plus (Var "y") (Num 100))); Return (Var "y")];
   print (Call (Var "outer") []); print (Call (Var "outer") [])].
Example C113_ex_nest : forallb (fine []) ex_nest = true /\
  go (expand_program inn ex_nest) [] = Some (Ok None, map VInt [7; 43; 3; 123; 143; 3; 223]%Z).
Proof. split; vm_compute; reflexivity. Qed.
(** a local variable hides a variable of the let *)
Definition ex_local :=
  [Dlet false Let [("y", Num 1); ("z", Num 2)] "f" [] ["n"] [] [If (Var "n") [Assign "y" (Var "z")] []; Def "g" [] None [] [] [Return (Var "y")]; Return (plus (Var "y") (Call (Var "g") []))];
   print (Call (Var "f") [Num 1]); print (Call (Var "f") [Num 0])].
Example C113_ex_local : forallb (fine []) ex_local = true /\ go (expand_program inn ex_local) [] = Some (Raise UnboundLocalError, [VInt 4]).
Proof. split; vm_compute; reflexivity. Qed.
Definition ex_seq (now : bool) := [Dlet now Letseq [("y", Num 1); ("y", plus (Var "y") (Num 1)); ("y", plus (Var "y") (Num 2))] "g" [] (if now then [] else ["a"]) []
    [Return (if now then Var "y" else plus (Var "a") (Var "y"))]; print (if now then Var "g" else Call (Var "g") [Num 10])].
Example C113_ex_seq : forall now, forallb seq_ok (ex_seq now) = true /\ forallb (fine []) (map (unnest inn 0) (ex_seq now)) = true /\
  (forall x n, In x (flat_map let_names (ex_seq now)) -> x <> inn n) /\
  go (expand_program inn (ex_seq now)) [] = Some (Ok None, [VInt (if now then 4 else 14)]).
Proof.
  intros now. repeat split; try (destruct now; vm_compute; reflexivity).
  intros x n H. assert (x = "y") by (destruct now; cbn in H; intuition). subst. destruct n as [|[|[|n]]]; discriminate.
Qed.
Example C113_ex_no_let : forallb no_let [Def "f" [] None ["x"] [] [Return (Var "x")]; If (Num 1) [print (Num 2)] []] = true.
Proof. reflexivity. Qed.
