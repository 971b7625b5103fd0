(** C104: envify. *)
From Coq Require Import String List ZArith Bool Arith.
From Verif Require Import Base CollModel EnvModel EvfModel EvfSpec EvfProofs.
Import ListNotations.
Open Scope string_scope.
Open Scope list_scope.

(** A program in a [with envify] block does what it does as it is written, where `n << e` assigns to the
    parameter n of a function around and has the value of e: the same effects on the world, the same
    exceptions, the same data returned; and if it does not end (runs out of any amount of nested calls), it
    does not end.  [user]: the names that can occur in programs; [fresh]: those made by gensym.

    Partial: the program is [fines], see EvfSpec; each of these conditions is needed, see the refutations. *)
Theorem C104_meaning_partial : forall (W : Type) (prim : nat -> list data -> W -> outcome data * W) (user : string -> bool) (fresh : nat -> string),
  (forall n, user (fresh n) = false) -> (forall m n, fresh m = fresh n -> m = n) ->
  forall fuel globals p w, forallb (fines user []) p = true ->
  match run W prim true fuel globals p w, run W prim false fuel globals (envify fresh p) w with
  | Some (Ok a, w1), Some (Ok b, w2) => option_map seen a = option_map seen b /\ w1 = w2
  | Some (Raise x, w1), Some (Raise y, w2) => x = y /\ w1 = w2
  | None, None => True
  | _, _ => False
  end.
Proof. exact run_sim. Qed.
Print Assumptions C104_meaning_partial.

(** For examples: shift, addition, printing (the world is what was printed), making lists. *)
Definition prims (o : nat) (l : list data) (w : list data) : outcome data * list data :=
  match o, l with
  | 0, [DInt a; DInt b] => (Ok (DInt (Z.shiftl a b)), w)
  | 1, [DInt a; DInt b] => (Ok (DInt (a + b)), w)
  | 2, [d] => (Ok DNone, w ++ [d])
  | 3, l => (Ok (DList l), w)
  | _, _ => (Raise TypeError, w)
  end.
Definition add a b := Prim 1 [a; b].
Definition print e := Expr (Prim 2 [e]).
Fixpoint stars (n : nat) : string := match n with 0 => "" | S n => ("*" ++ stars n)%string end.
Definition gensym (n : nat) : string := ("*e" ++ stars n)%string.
Definition word (s : string) : bool := negb (String.prefix "*" s).
Lemma gensym_word n : word (gensym n) = false.
Proof. reflexivity. Qed.
Lemma gensym_inj m n : gensym m = gensym n -> m = n.
Proof.
  unfold gensym. cbn. intros H. injection H as H. revert n H. induction m as [|m IH]; intros [|n] H; cbn in H; try discriminate; [reflexivity|].
  injection H as H. f_equal. auto.
Qed.
Definition run_src p := run (list data) prims true 9 [("g", DInt 3)] p [].
Definition run_env p := run (list data) prims false 9 [("g", DInt 3)] (envify gensym p) [].
Definition before p := run (list data) prims false 9 [("g", DInt 3)] p [].

(** The accumulator of Paul Graham, as in the docstring: `def foo(n): return lambda i: n << n + i`; and a
    function that assigns to a parameter of the function around it, a lambda in a default value, a
    comprehension and a loop over a parameter. *)
Definition ex_acc : list stm :=
  [Def "foo" [] ["n"] [] [Return (Lam ["i"] [] (Asg "n" (add (Var "n") (Var "i"))))];
   Assign "f" (Call (Var "foo") [Num 10]);
   print (Call (Var "f") [Num 1]); print (Call (Var "f") [Num 1]);
   Assign "h" (Call (Var "foo") [Num 10]);
   print (Call (Var "h") [Num 1]);
   Def "count" [] ["a"; "b"] [Lam ["x"] [Num 5] (add (Var "x") (Var "g"))]
     [Def "step" [] ["k"] [] [Nonlocal ["a"]; Assign "a" (add (Var "a") (Var "k")); Return (Var "a")];
      Assign "l" (Comp (Call (Var "step") [Var "v"]) "v" (Prim 3 [Num 1; Num 2; Num 3]));
      For "a" (Prim 3 [Num 70; Num 80]) [print (Var "a")];
      Return (Prim 3 [Var "l"; Var "a"; Call (Var "b") []; Call (Var "b") [Num 1]])];
   Return (Call (Var "count") [Num 100])].
Example C104_ex : forallb (fines word []) ex_acc = true /\ run_env ex_acc = run_src ex_acc /\
  run_env ex_acc = Some (Ok (Some (VList [VList [VInt 101; VInt 103; VInt 106]; VInt 80; VInt 8; VInt 4])),
    [DInt 11; DInt 12; DInt 11; DInt 70; DInt 80]) /\
  envify gensym (firstn 1 ex_acc) =
    [Def "foo" [] ["n"] [] [EInit "*e" ["n"]; Return (Lam ["i"] [] (EDo "*e*" ["i"] (ESet "*e" "n" (add (EGet "*e" "n") (EGet "*e*" "i")))))]] /\
  (* without envify, n << n + i shifts *)
  before (firstn 3 ex_acc) = Some (Ok None, [DInt 20480]).
Proof. repeat split; vm_compute; reflexivity. Qed.

(** * What [fines] excludes *)
(** A local variable of an inner function with the name of a parameter of an outer one: the assignment changes
    the parameter.
<<
    def f(n):
        def h(): n = 1; return n
        h(); return n
>> *)
Theorem C104_local_refuted : exists p, run_src p <> run_env p /\ run_env p = Some (Ok (Some (VInt 1)), []) /\ before p = Some (Ok (Some (VInt 5)), []).
Proof.
  exists [Def "f" [] ["n"] [] [Def "h" [] [] [] [Assign "n" (Num 1); Return (Var "n")]; Expr (Call (Var "h") []); Return (Var "n")];
          Return (Call (Var "f") [Num 5])].
  split; [vm_compute; discriminate|]. split; vm_compute; reflexivity.
Qed.
Print Assumptions C104_local_refuted.
(** A default value that mentions a name of a parameter of the same function: `lambda x=x: x` *)
Theorem C104_default_refuted : exists p, run_src p <> run_env p /\ run_env p = Some (Raise NameError, []) /\ before p = Some (Ok (Some (VInt 3)), []).
Proof.
  exists [Return (Call (Lam ["g"] [Var "g"] (Var "g")) [])].
  split; [vm_compute; discriminate|]. split; vm_compute; reflexivity.
Qed.
Print Assumptions C104_default_refuted.
(** A decorator that has the name of a parameter: `@g def f(g): ...` *)
Theorem C104_decorator_refuted : exists p, run_src p <> run_env p /\ run_env p = Some (Raise NameError, []) /\ before p = Some (Ok (Some (VInt 7)), []).
Proof.
  exists [Def "d" [] ["x"] [] [Return (Var "x")]; Def "f" [Var "d"] ["d"] [] [Return (Var "d")]; Return (Call (Var "f") [Num 7])].
  split; [vm_compute; discriminate|]. split; vm_compute; reflexivity.
Qed.
Print Assumptions C104_decorator_refuted.
(** The variable of a comprehension with the name of a parameter: the parameter is overwritten *)
Theorem C104_comprehension_refuted : exists p, run_src p <> run_env p /\ run_env p = Some (Ok (Some (VInt 2)), []) /\ before p = Some (Ok (Some (VInt 5)), []).
Proof.
  exists [Def "f" [] ["n"] [] [Assign "l" (Comp (Var "n") "n" (Prim 3 [Num 1; Num 2])); Return (Var "n")];
          Return (Call (Var "f") [Num 5])].
  split; [vm_compute; discriminate|]. split; vm_compute; reflexivity.
Qed.
Print Assumptions C104_comprehension_refuted.
(** An inner function with the name of a parameter: the name still means the parameter *)
Theorem C104_function_refuted : exists p, run_src p <> run_env p /\ run_env p = Some (Raise TypeError, []) /\ before p = Some (Ok (Some (VInt 1)), []).
Proof.
  exists [Def "f" [] ["n"] [] [Def "n" [] [] [] [Return (Num 1)]; Return (Call (Var "n") [])];
          Return (Call (Var "f") [Num 5])].
  split; [vm_compute; discriminate|]. split; vm_compute; reflexivity.
Qed.
Print Assumptions C104_function_refuted.
(** A parameter called as a method of env: it reads as the method; and called as one of the three reserved
    methods: the function cannot be called *)
Theorem C104_method_refuted :
  (exists p, run_src p <> run_env p /\ run_env p = Some (Ok (Some (VMeth "items")), []) /\ before p = Some (Ok (Some (VInt 5)), [])) /\
  (exists p, run_src p <> run_env p /\ run_env p = Some (Raise AttributeError, []) /\ before p = Some (Ok (Some (VInt 5)), [])).
Proof.
  split.
  - exists [Def "f" [] ["items"] [] [Return (Var "items")]; Return (Call (Var "f") [Num 5])].
    split; [vm_compute; discriminate|]. split; vm_compute; reflexivity.
  - exists [Def "f" [] ["set"] [] [Return (Var "set")]; Return (Call (Var "f") [Num 5])].
    split; [vm_compute; discriminate|]. split; vm_compute; reflexivity.
Qed.
Print Assumptions C104_method_refuted.
(** A parameter called self, as in every method of a class: the function cannot be called *)
Theorem C104_self_refuted : exists p, run_src p <> run_env p /\ run_env p = Some (Raise TypeError, []) /\ before p = Some (Ok (Some (VInt 5)), []).
Proof.
  exists [Def "f" [] ["self"] [] [Return (Var "self")]; Return (Call (Var "f") [Num 5])].
  split; [vm_compute; discriminate|]. split; vm_compute; reflexivity.
Qed.
Print Assumptions C104_self_refuted.
