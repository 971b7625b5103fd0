(** C99: which identifiers refer to the variables of a let. *)
From Coq Require Import String List Bool Arith.
From Verif Require Import ScpModel ScpSpec ScpProofs.
Import ListNotations.
Open Scope string_scope.
Open Scope list_scope.

(** In a function decorated with @dlet or @dletrec, and in the body of a let, exactly the
    identifiers that the documentation says refer to the variables of the let; the rest of the
    code stays as it is.  The conditions ([regular_def], [regular_e]) exclude the places where
    the analysis is known to go wrong. *)
Theorem C99_dlet_partial L s : regular_def L s -> dlet L s = fst (ref_s L top s).
Proof. exact (letlike_ok L s). Qed.
Print Assumptions C99_dlet_partial.
Theorem C99_let_partial L e : regular_e L e -> letlike_e L e = ref_e L top e.
Proof. exact (letlike_e_ok L e). Qed.
Print Assumptions C99_let_partial.

(** Code that does not mention the variables stays as it is, without any condition. *)
Theorem C99_rest L s : (forall x, In x L -> ~ In x (mentions s)) -> dlet L s = s.
Proof. exact (untouched L s). Qed.
Print Assumptions C99_rest.

(** An example:
<<
    def f(a):
        use(x)               # the let's
        def g(y=x):          # the let's
            use(x); use(y)   # the let's; the parameter
            (x := y)         # the let's
            z = 1
            use(z)           # the variable of g
            del z
            use(z)           # the let's
        x = [x for y in x]   # the let's
        def h(): use(x)      # the variable of f
        if x: use(y)         # the variable of f; the let's
        with x as y: pass
        use(y)               # the variable of f
        lambda x: x
>> *)
Definition ex_f : st :=
  Def "f" [] ["a"] []
    [use "x";
     Def "g" [] ["y"] [Name "x"]
       [use "x"; use "y"; Simple [] [Walrus "x" (Name "y")]; bindto "z"; use "z"; Delete ["z"];
        use "z"];
     Simple ["x"] [Comp [Name "x"] ["y"] (Name "x") []];
     Def "h" [] [] [] [use "x"];
     Block [] [Name "x"] [use "y"];
     Block ["y"] [Name "x"] [];
     use "y";
     Simple [] [Lam ["x"] [] (Name "x")]].
Example C99_regular : regular_def ["x"; "y"; "z"] ex_f.
Proof. regular_tac. Qed.
Example C99_result :
  dlet ["x"; "y"; "z"] ex_f =
  Def "f" [] ["a"] []
    [Simple [] [EnvGet "x"];
     Def "g" [] ["y"] [EnvGet "x"]
       [Simple [] [EnvGet "x"]; use "y"; Simple [] [EnvSet "x" (Name "y")]; bindto "z"; use "z";
        Delete ["z"]; Simple [] [EnvGet "z"]];
     Simple ["x"] [Comp [EnvGet "x"] ["y"] (EnvGet "x") []];
     Def "h" [] [] [] [use "x"];
     Block [] [Name "x"] [Simple [] [EnvGet "y"]];
     Block ["y"] [Name "x"] [];
     use "y";
     Simple [] [Lam ["x"] [] (Name "x")]].
Proof. reflexivity. Qed.
Example C99_regular_let :
  regular_e ["x"] (Op [Walrus "x" (Name "y"); Lam ["x"] [] (Name "x"); Name "x"]).
Proof. regular_tac. Qed.

(** ** Where the analysis differs from the documentation *)
(** A variable created in a compound statement is seen only after all of that statement: in
    [for x in xs: use(x)], and in [if c: x = 1; use(x)], use(x) reads the let's x. *)
Theorem C99_loop_refuted : exists s,
  s = fn [Block ["x"] [Name "xs"] [use "x"]] /\
  dlet ["x"] s = fn [Block ["x"] [Name "xs"] [Simple [] [EnvGet "x"]]] /\
  fst (ref_s ["x"] top s) = s.
Proof. exact loop_case. Qed.
Print Assumptions C99_loop_refuted.
Theorem C99_branch_refuted : exists s,
  s = fn [Block [] [Name "c"] [bindto "x"; use "x"]] /\
  dlet ["x"] s = fn [Block [] [Name "c"] [bindto "x"; Simple [] [EnvGet "x"]]] /\
  fst (ref_s ["x"] top s) = s.
Proof. exact branch_case. Qed.
Print Assumptions C99_branch_refuted.
(** A name declared nonlocal in a function is not shadowed in the functions inside it:
    [nonlocal x; def g(): use(x)]. *)
Theorem C99_nonlocal_refuted : exists s,
  s = fn [Decl ["x"]; Def "g" [] [] [] [use "x"]] /\
  dlet ["x"] s = fn [Decl ["x"]; Def "g" [] [] [] [Simple [] [EnvGet "x"]]] /\
  fst (ref_s ["x"] top s) = s.
Proof. exact nonlocal_case. Qed.
Print Assumptions C99_nonlocal_refuted.
(** Deleting a local variable of an inner function uncovers the let's variable, although the
    outer function has a variable of that name: [x = 1; def g(): x = 2; del x; use(x)]. *)
Theorem C99_delete_refuted : exists s,
  s = fn [bindto "x"; Def "g" [] [] [] [bindto "x"; Delete ["x"]; use "x"]] /\
  dlet ["x"] s =
    fn [bindto "x"; Def "g" [] [] [] [bindto "x"; Delete ["x"]; Simple [] [EnvGet "x"]]] /\
  fst (ref_s ["x"] top s) = s.
Proof. exact delete_case. Qed.
Print Assumptions C99_delete_refuted.
(** The default of a parameter, and the first iterable of a comprehension, with the same name:
    [def g(x=x)], [lambda x=x: x], [[x for x in x]]. *)
Theorem C99_default_refuted : exists s,
  s = fn [Def "g" [] ["x"] [Name "x"] []; Simple [] [Lam ["x"] [Name "x"] (Name "x")];
          Simple [] [Comp [Name "x"] ["x"] (Name "x") []]] /\
  dlet ["x"] s = s /\
  fst (ref_s ["x"] top s) =
    fn [Def "g" [] ["x"] [EnvGet "x"] []; Simple [] [Lam ["x"] [EnvGet "x"] (Name "x")];
        Simple [] [Comp [Name "x"] ["x"] (EnvGet "x") []]].
Proof. exact default_case. Qed.
Print Assumptions C99_default_refuted.
(** The parameters of a function decorated with @dletseq do not shadow the variables of the
    let: [@dletseq[x := 1] def g(x): return x]. *)
Theorem C99_dletseq_refuted :
  let g := Def "g" [] ["x"] [] [use "x"] in
  dletseq1 "tmp" "x" g = Def "g" [] ["x"] [] [Simple [] [EnvGet "x"]] /\
  fst (ref_s ["x"] top g) = g /\ dlet ["x"] g = g.
Proof. exact dletseq_param. Qed.
Print Assumptions C99_dletseq_refuted.
