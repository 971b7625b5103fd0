(** C86-C88: let_syntax, abbrev. *)
From Coq Require Import String List Bool Arith.
From Verif Require Import Base LsynModel LsynSpec LsynProofs.
Import ListNotations.
Open Scope string_scope.
Open Scope list_scope.
Open Scope nat_scope.

(** C86: let_syntax[x << w][e] puts w for x, everywhere and at once. *)
Theorem C86_name_partial : forall x w e, inside x w = false ->
  ends (fun n => let_syntax_expr n [(Name x, w)] e) (Done (inst [(x, w)] e)).
Proof. exact name1_ok. Qed.
Print Assumptions C86_name_partial.
Example C86_case :                     (* let_syntax[f << g][f(f.f)] --> g(g.g) *)
  inside "f" (Name "g") = false /\
  let_syntax_expr 9 [(Name "f", Name "g")] (Call (Name "f") [Node "attribute" ["f"] [Name "f"]]) =
  Done (Call (Name "g") [Node "attribute" ["g"] [Name "g"]]).
Proof. split; reflexivity. Qed.

(** What is missing: when w has x in it, the expansion does not come to an end. *)
Theorem C86_self_refuted : forall x w e, inside x w = true -> occurs x e = true ->
  forall n, let_syntax_expr n [(Name x, w)] e = OutOfFuel.
Proof. exact name1_out. Qed.
Print Assumptions C86_self_refuted.
Example C86_self_case :                (* let_syntax[x << g(x)][x] *)
  inside "x" (Call (Name "g") [Name "x"]) = true /\ occurs "x" (Name "x") = true.
Proof. split; reflexivity. Qed.

(** Several bindings: first the templates, then the names, each in the order they are written. *)
Theorem C86_order : forall bs e, NoDup (map bound_name bs) -> all_usable bs e ->
  ends (fun n => let_syntax_expr n (map written bs) e) (Done (by_names bs (by_templates bs e))).
Proof. exact expr_ok. Qed.
Print Assumptions C86_order.
Example C86_order_case :
  let xy := [BName "x" (Name "y"); BName "y" (Name "z")] in
  let yx := [BName "y" (Name "z"); BName "x" (Name "y")] in
  let ft := [BName "c" (Name "d"); BTemp "f" ["a"] (Call (Name "c") [Name "a"])] in
  NoDup (map bound_name ft) /\ all_usable ft (Sub (Name "f") [Name "u"]) /\
  let_syntax_expr 9 (map written xy) (Name "x") = Done (Name "z") /\
  let_syntax_expr 9 (map written yx) (Name "x") = Done (Name "y") /\
  let_syntax_expr 9 (map written ft) (Sub (Name "f") [Name "u"]) = Done (Call (Name "d") [Name "u"]).
Proof.
  split; [|split; [|repeat split]].
  - repeat constructor; cbn; intuition discriminate.
  - cbn. split; [reflexivity|]. split; [|exact I]. repeat split; try discriminate.
    + repeat constructor; cbn; intuition discriminate.
    + intros p [<-|[]]. reflexivity.
Qed.
Theorem C86_duplicate : forall bs1 bs2 bs3 k k' w w' e x ps ps' n,
  analyze_lhs k = Done (x, ps) -> analyze_lhs k' = Done (x, ps') ->
  (forall kw, In kw (bs1 ++ bs2) -> exists xp, analyze_lhs (fst kw) = Done xp) ->
  let_syntax_expr n (bs1 ++ (k, w) :: bs2 ++ (k', w') :: bs3) e = Err SyntaxError.
Proof. exact expr_dup. Qed.
Print Assumptions C86_duplicate.
Example C86_duplicate_case :
  analyze_lhs (Name "x") = Done ("x", []) /\ analyze_lhs (Sub (Name "x") [Name "a"]) = Done ("x", ["a"]).
Proof. split; reflexivity. Qed.

(** C87: a template puts, for each parameter, the argument in that place, in every use. *)
Theorem C87_template_partial : forall f ps w e, usable f ps w e ->
  ends (fun n => let_syntax_expr n [(Sub (Name f) (map Name ps), w)] e) (Done (texp f ps w e)).
Proof. exact temp1_ok. Qed.
Print Assumptions C87_template_partial.
Example C87_case :                     (* let_syntax[f[a, b] << a - b][f[f[x, y], z]] --> (x - y) - z *)
  let w := Node "-" [] [Name "a"; Name "b"] in
  let e := Sub (Name "f") [Sub (Name "f") [Name "x"; Name "y"]; Name "z"] in
  usable "f" ["a"; "b"] w e /\
  let_syntax_expr 9 [(Sub (Name "f") [Name "a"; Name "b"], w)] e =
  Done (Node "-" [] [Node "-" [] [Name "x"; Name "y"]; Name "z"]).
Proof.
  cbn zeta. split; [|reflexivity]. repeat split; try discriminate.
  - repeat constructor; cbn; intuition discriminate.
  - intros p [<-|[<-|[]]]; reflexivity.
Qed.
(** The same in one use, for any right hand side, also of a block: the arguments go in at once if they do not
    clash. *)
Theorem C87_use_partial : forall ps args v, length args = length ps -> noclash ps args ->
  ends (fun n => subst n ps v args) (Done (inst_v (combine ps args) v)).
Proof. exact subst_ok. Qed.
Print Assumptions C87_use_partial.
Example C87_use_case : noclash ["a"; "b"] [Name "a"; Call (Name "a") []].
Proof.
  cbn. split; [reflexivity|]. split.
  - intros q [<-|[]]. split; [reflexivity|discriminate].
  - split; [reflexivity|]. split; [|exact I]. intros q [].
Qed.
(** What is missing: an argument that has the name of a later parameter in it: f[a, b] << a - b makes
    f[b, c] into c - c; *)
Theorem C87_later_refuted : exists f ps w args,
  ends (fun n => let_syntax_expr n [(Sub (Name f) (map Name ps), w)] (Sub (Name f) args))
    (Done (Node "-" [] [Name "c"; Name "c"])) /\
  inst (combine ps args) w = Node "-" [] [Name "b"; Name "c"].
Proof. exact later_case. Qed.
Print Assumptions C87_later_refuted.
(** an argument that has the name of its own parameter in it: f[a] << g(a) on f[h(a)] never ends; *)
Theorem C87_own_refuted : exists f ps w args,
  length args = length ps /\
  (forall n, let_syntax_expr n [(Sub (Name f) (map Name ps), w)] (Sub (Name f) args) = OutOfFuel) /\
  inst (combine ps args) w = Call (Name "g") [Call (Name "h") [Name "a"]].
Proof. exact own_case. Qed.
Print Assumptions C87_own_refuted.
(** and a template that is just its parameter leaves a use in its argument as it is: f[a] << a makes f[f[x]]
    into f[x]. *)
Theorem C87_nested_refuted : exists f ps w e,
  ends (fun n => let_syntax_expr n [(Sub (Name f) (map Name ps), w)] e) (Done (Sub (Name "f") [Name "x"])) /\
  texp f ps w e = Name "x".
Proof. exact nested_case. Qed.
Print Assumptions C87_nested_refuted.
Theorem C87_count : forall n f ps w l, length l <> length ps ->
  splice_temp (S n) (f, ps, VExpr w) (Sub (Name f) l) = Err SyntaxError.
Proof. exact count_bad. Qed.
Print Assumptions C87_count.
Example C87_count_case : length [Name "x"] <> length ["a"; "b"].
Proof. discriminate. Qed.

(** C88: with let_syntax: definitions hold from the next statement on, blocks go where their names stand. *)
Theorem C88_block : forall body, tidy body ->
  ends (fun n => let_syntax_block n body)
    (match eliminate_ifones (blocks [] body) with [] => Err SyntaxError | l => Done l end).
Proof. exact block_ok. Qed.
Print Assumptions C88_block.
Definition append (x : string) : stmt := SSimple "+=" [] [Name "lst"; Name x].
Example C88_case :
  let body := [SExpr (Name "x");
               SDecl false None (Some (Name "x")) [SExpr (Name "u")];
               SDecl true None (Some (Name "twice")) [append "v"; append "v"];
               SComp "while" [] [Name "x"] [SExpr (Name "twice"); append "x"] []] in
  tidy body /\
  let_syntax_block 9 body =
  Done [SExpr (Name "x"); SComp "while" [] [Name "u"] [append "v"; append "v"; append "u"] []].
Proof.
  cbn zeta. split; [|reflexivity]. split; [|split].
  - repeat constructor; cbn; intuition discriminate.
  - intros t [<-|[<-|[<-|[<-|[]]]]]; cbn; intros H; try discriminate; reflexivity.
  - cbn. intros x v [E|[E|[]]]; injection E as <- <-; split; try reflexivity; try exact I;
      intros y [<-|[<-|[]]]; reflexivity.
Qed.
(** Constant tests are gone from the result, and code without them stays as it is. *)
Theorem C88_tests : forall l,
  forallb no_ifone (eliminate_ifones l) = true /\
  ((forall t, In t l -> no_ifone t = true) -> eliminate_ifones l = l).
Proof. exact (fun l => conj (ifones_gone l) (ifones_none l)). Qed.
Print Assumptions C88_tests.
Example C88_tests_case : no_ifone (SComp "if" [] [Name "x"] [append "x"] []) = true.
Proof. reflexivity. Qed.
(** Which branch is kept. *)
Theorem C88_branch : forall c i b o,
  (In c ["1"; "True"] -> eliminate_ifones [SComp "if" i [constant c] b o] = eliminate_ifones b) /\
  (In c ["0"; "False"; "None"] -> eliminate_ifones [SComp "if" i [constant c] b o] = eliminate_ifones o).
Proof. exact ifone_branch. Qed.
Print Assumptions C88_branch.
(** The body of [with expr] is one expression. *)
Theorem C88_expr_body : forall n ps x b rest, (forall e, b <> [SExpr e]) ->
  forall l, let_syntax_block n (SDecl false ps x b :: rest) <> Done l.
Proof. exact expr_body. Qed.
Print Assumptions C88_expr_body.
Example C88_expr_body_case : forall e, [SExpr (Name "x"); SExpr (Name "y")] <> [SExpr e].
Proof. discriminate. Qed.
(** The user's own code is not spared, so not all of it stays as it is: a def whose body is `if 0: yield`
    is left without a body. *)
Theorem C88_user_code_refuted : exists body,
  definitions body = [] /\ tidy body /\
  body = [SComp "def" ["f"] [] [SComp "if" [] [constant "0"] [SSimple "yield" [] []] []] []] /\
  ends (fun n => let_syntax_block n body) (Done [SComp "def" ["f"] [] [] []]).
Proof. exact user_code_case. Qed.
Print Assumptions C88_user_code_refuted.
