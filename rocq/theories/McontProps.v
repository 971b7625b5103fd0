(** C83, C84, C85: the macro `with continuations`. *)
From Coq Require Import String List Bool Arith ZArith.
From Verif Require Import Base McontModel McontSpec McontProofs McontArgs.
Import ListNotations.
Open Scope string_scope.
Open Scope list_scope.
Open Scope nat_scope.

(** * C83: the expanded program does what the documentation says *)
(** If the machine of McontSpec comes to no point where the implementation is known to be odd, then the
    expanded program has the result of the machine, with the same output. *)
Theorem C83_meaning_partial b t n r :
  expand b = Ok t -> tres (option_map tact) (srun true n b) = Some r ->
  run n t = r /\ srun false n b = srun true n b.
Proof. exact (meaning b t n r). Qed.
Print Assumptions C83_meaning_partial.

(** The bound on the steps does not matter. *)
Theorem C83_steps b n m : run n b <> NoFuel -> n <= m -> run m b = run n b.
Proof. exact (run_fuel b n m). Qed.
Print Assumptions C83_steps.

(** The values given to a continuation: the targets get them in order, the starred target the
    rest; too few or too many are an error. *)
Theorem C83_targets (ts : list string) star loc (args : list value) cc :
  NoDup (ts ++ starl star ++ ["cc"]) ->
  (match star with None => length args = length ts | Some _ => length ts <= length args end ->
   exists fr, newframe VTuple ts star false loc args cc = Some fr /\
     (forall i t a, nth_error ts i = Some t -> nth_error args i = Some a ->
        assoc t (vals fr) = Some a) /\
     (forall x front rest, star = Some x -> args = front ++ rest -> length front = length ts ->
        assoc x (vals fr) = Some (VTuple rest)) /\
     assoc "cc" (vals fr) = Some cc) /\
  (~ match star with None => length args = length ts | Some _ => length ts <= length args end ->
   newframe VTuple ts star false loc args cc = None).
Proof. exact (newframe_ok VTuple ts star loc args cc). Qed.
Print Assumptions C83_targets.
(** call_cc[None] gives None to all the targets, however many there are. *)
Theorem C83_none (ts : list string) star loc cc :
  NoDup (ts ++ starl star ++ ["cc"]) ->
  exists fr,
    newframe VTuple ts star (ignores ts star) loc (repeat VNone (arity ts star)) cc = Some fr /\
    (forall t, In t ts -> assoc t (vals fr) = Some VNone) /\
    (forall x, star = Some x -> assoc x (vals fr) = Some (VTuple [])).
Proof. exact (none_fits VTuple ts star loc VNone cc). Qed.
Print Assumptions C83_none.
Example C83_ex_targets : NoDup (["x"; "y"] ++ starl (Some "rest") ++ ["cc"]).
Proof. repeat constructor; cbn; intuition discriminate. Qed.

(** Examples.  [doc]: what the documentation says is printed; [got]: what is printed. *)
Fixpoint blk (l : list stmt) : block := match l with [] => BNil | s :: l => BCons s (blk l) end.
Definition def (f : string) (l : list stmt) : stmt := SDef f [] None (blk l).
Definition c0 (f : string) : expr := ECall (EVar f) [] None.
Definition c1 (f : string) (e : expr) : expr := ECall (EVar f) [e] None.
Definition cc0 (f : string) : stmt := SCallcc [] None (One (CCall (EVar f) [])).
Definition xcc0 (x f : string) : stmt := SCallcc [x] None (One (CCall (EVar f) [])).
Definition i (z : Z) : expr := EInt z.
Definition say (z : Z) : stmt := SPrint (EInt z).
Definition doc (strict : bool) (l : list stmt) : option (option exn * list sval) :=
  match srun strict 100 (blk l) with
  | SDone _ s => Some (None, out s) | SErr e s => Some (Some e, out s) | _ => None end.
Definition got (l : list stmt) : option (option exn * list value) :=
  match expand (blk l) with
  | Ok t => match run 100 t with Done _ s => Some (None, out s) | Err e s => Some (Some e, out s) | NoFuel => None end
  | Raise _ => None
  end.
Definition says (l : list Z) : option (option exn * list value) := Some (None, map VInt l).

(** unpythonic/syntax/tests/test_conts_topo.py 143-205 "confetti 2a": the saved continuation k3 is q_cont,
    p_cont, which ends in a tail call of k2: s_cont, r_cont; then f2 follows. *)
Definition confetti : list stmt :=
  [ SAssign "k2" ENone; SAssign "k3" ENone;
    def "t" [SNonlocal "k2" (EVar "cc"); say 1]; def "s" [say 2; cc0 "t"; say 3]; def "r" [say 4; cc0 "s"; say 5];
    SExpr (c0 "r");
    def "qq" [SNonlocal "k3" (EVar "cc"); say 6]; def "q" [say 7; cc0 "qq"; say 8];
    def "p" [say 9; cc0 "q"; say 10; SReturn (c0 "k2")];
    SExpr (c0 "p");
    SDef "f2" ["dummy"] None (blk [say 11]);
    def "f1" [say 12; SReturn (ECall (EVar "k3") [] (Some (EVar "f2")))];
    SExpr (c0 "f1") ].
Example C83_ex_confetti :
  (exists r, tres (option_map tact) (srun true 100 (blk confetti)) = Some r) /\
  got confetti = says [4; 2; 1; 3; 5; 9; 7; 6; 8; 10; 3; 5;  12; 8; 10; 3; 5; 11]%Z.
Proof. split; [eexists; vm_compute; reflexivity|vm_compute; reflexivity]. Qed.
(** A continuation is used more than once: k, n = call_cc[get_cc(1)] in a function, with a variable of the
    function that the rest changes. *)
Definition again : list stmt :=
  [ def "f" [ SAssign "total" (i 100);
              SCallcc ["k"; "n"] None (One (CCall EGetcc [i 1]));
              SNonlocal "total" (EAdd (EVar "total") (EVar "n"));
              SPrint (EVar "total"); SPrint (EIsCont (EVar "k"));
              SReturn (EVar "k") ];
    SAssign "k" (c0 "f");
    SExpr (ECall (EVar "k") [ENone; i 10] None);
    SExpr (ECall (EVar "k") [ENone; i 20] None);
    SExpr (ECall (EVar "k") [i 1] None) ].
Example C83_ex_again :
  (exists r, tres (option_map tact) (srun true 100 (blk again)) = Some r) /\
  got again = Some (Some TypeError,
    [VInt 101; VBool true; VInt 111; VBool false; VInt 131; VBool false]%Z).
Proof. split; [eexists; vm_compute; reflexivity|vm_compute; reflexivity]. Qed.
(** At the top level, with Values, a starred target, a condition, and cc overridden. *)
Definition top : list stmt :=
  [ def "two" [SReturn (EValues [i 1; i 2; i 3])];
    SDef "stop" ["x"] None (blk [SAssign "cc" EIdent; SReturn (EVar "x")]);
    SDef "f" ["p"] None (blk [ SCallcc ["x"] (Some "rest") (Cond (EVar "p") (CCall (EVar "two") []) (CCall (EVar "stop") [i 7]));
                 SPrint (EVar "x"); SReturn (EIf (EVar "rest") (EAdd (EVar "x") (i 40)) (i 0)) ]);
    SPrint (c1 "f" (EBool true)); SPrint (c1 "f" (EBool false));
    SAssign "y" (i 5);
    SCallcc ["z"] None (One (CCall (EVar "f") [EBool true]));
    SPrint (EVar "z"); SPrint (EVar "y") ].
Example C83_ex_top :
  (exists r, tres (option_map tact) (srun true 100 (blk top)) = Some r) /\
  got top = says [1; 41; 7; 1; 41; 5]%Z.
Proof. split; [eexists; vm_compute; reflexivity|vm_compute; reflexivity]. Qed.

(** Lambdas, loops, exceptions, `and` and `or`: the continuation is taken by a lambda, in a loop of the caller; a
    continuation is called with `or` in tail position; an exception in the rest of a function is caught where the
    continuation was called. *)
Definition more : list stmt :=
  [ SAssign "k" ENone;
    def "save" [SNonlocal "k" (EVar "cc"); SReturn (i 1)];
    SAssign "get" (ELam [] None (ECall (EVar "save") [] None));
    SDef "f" ["a"] None (blk [ xcc0 "x" "get"; SIf (ELt (EVar "x") (i 0)) (blk [SRaise 7]) BNil;
                 SReturn (EOr (ELt (i 2) (EVar "x")) (EAdd (EVar "x") (EVar "a"))) ]);
    SAssign "n" (i 0);
    SWhile (ELt (EVar "n") (i 3)) (blk [SAssign "n" (EAdd (EVar "n") (i 1)); SPrint (c1 "f" (EVar "n"))]);
    SPrint (c1 "k" (i 3));
    STry (blk [SPrint (c1 "k" (EInt (-1)))]) (blk [say 99]);
    SDef "g" ["y"] None (blk [SReturn (EOr (EVar "y") (c1 "k" (i 2)))]);
    SPrint (c1 "g" (i 0)); SPrint (c1 "g" (i 8));
    SPrint (ECall (ELam ["z"] None (EAnd (ELt (EVar "z") (i 0)) (c1 "g" (EVar "z")))) [i 5] None) ].
Example C83_ex_more :
  (exists r, tres (option_map tact) (srun true 100 (blk more)) = Some r) /\
  got more = Some (None, [VInt 2; VInt 3; VInt 4; VBool true; VInt 99; VInt 5; VInt 8; VBool false]%Z).
Proof. split; [eexists; vm_compute; reflexivity|vm_compute; reflexivity]. Qed.

(** ** Where the implementation differs *)
(** Each of the six oddities changes the result of some program. *)
Definition loses : list stmt :=
  [ def "g" [SReturn (i 1)]; def "f" [cc0 "g"; cc0 "g"; SReturn (i 2)];
    def "h" [xcc0 "x" "f"; SPrint (EVar "x"); SReturn (i 3)]; SPrint (c0 "h") ].
Definition twice : list stmt :=
  [ def "f" [SCallcc [] None (One CNone); SReturn (i 2)];
    def "h" [xcc0 "x" "f"; SPrint (EVar "x"); SReturn (i 3)]; SPrint (c0 "h") ].
Definition composed : list stmt :=
  [ def "b" [SReturn (i 1)]; def "g" [xcc0 "x" "b"; SReturn (EVar "x")]; def "f" [cc0 "b"; SReturn (c0 "g")];
    def "h" [xcc0 "x" "f"; SPrint (EVar "x"); SReturn (i 3)]; SPrint (c0 "h") ].
Definition ident : list stmt := [ def "f" [SReturn (c1 "cc" (i 5))]; SPrint (c0 "f") ].
Definition falseand : list stmt :=
  [ def "g" [SReturn (i 1)]; def "f" [SReturn (EAnd (i 0) (c0 "g"))]; SPrint (c0 "f") ].
Definition intry : list stmt :=
  [ def "g" [SRaise 1]; def "f" [STry (blk [SReturn (c0 "g")]) (blk [SReturn (i 5)])]; SPrint (c0 "f") ].
Definition oddity (o : odd) : list stmt :=
  match o with LosesTail => loses | NoneBranch => twice | CallsSeq => composed | CallsIdent => ident
  | FalseAnd => falseand | TailInTry => intry end.
Theorem C83_odd_refuted o : exists b t r,
  expand b = Ok t /\ srun true 100 b = SOdd o /\
  tres (option_map tact) (srun false 100 b) = Some r /\ r <> NoFuel /\ run 100 t <> NoFuel /\ run 100 t <> r.
Proof.
  exists (blk (oddity o)).
  destruct o; (eexists; eexists; split; [vm_compute; reflexivity|]; split; [vm_compute; reflexivity|];
    split; [vm_compute; reflexivity|]; split; [vm_compute; discriminate|]; split; vm_compute; discriminate).
Qed.
Print Assumptions C83_odd_refuted.
(** The documented and the actual output: the second call_cc[] in f forgets that f was called by call_cc[],
    and the rest of h never runs; call_cc[None] makes the rest of h run twice; a function that is called
    in tail position after a call_cc[], and that uses call_cc[] itself, cannot return; and calling the default
    continuation in tail position gives a Values object with the continuation as a named value; `0 and g()` is
    False; and an exception in a function that is called in tail position is not caught by the try around it. *)
Example C83_ex_odd :
  doc false loses = Some (None, [SVInt 2; SVInt 3]%Z) /\ got loses = says [2]%Z /\
  doc false twice = Some (None, [SVInt 2; SVInt 3]%Z) /\ got twice = says [2; 3; 3]%Z /\
  doc false composed = Some (None, [SVInt 1; SVInt 3]%Z) /\ got composed = Some (Some TypeError, []) /\
  doc false ident = Some (None, [SVInt 5]) /\ got ident = Some (None, [VValues [VInt 5] (Some VIdent)]) /\
  doc false falseand = Some (None, [SVInt 0]) /\ got falseand = Some (None, [VBool false]) /\
  doc false intry = Some (None, [SVInt 5]) /\ got intry = Some (Some (UserExn 1), []).
Proof. vm_compute. repeat split. Qed.
(** A composed continuation that is called by hand, not in tail position, only gives a jump object. *)
Definition byhand : list stmt :=
  [ SAssign "k" ENone; def "b" [SReturn (i 1)];
    def "a" [SNonlocal "k" (EVar "cc"); SReturn (i 1)]; def "f" [cc0 "b"; SReturn (c0 "a")];
    def "h" [xcc0 "x" "f"; SPrint (EVar "x"); SReturn (i 3)]; SPrint (c0 "h"); SPrint (c1 "k" (i 5)) ].
Example C83_ex_byhand :
  doc false byhand = Some (None, [SVInt 1; SVInt 3; SVInt 5; SVInt 3]%Z) /\
  exists f, got byhand = Some (None, [VInt 1; VInt 3; VJump f [VInt 5] (Some VIdent)]%Z).
Proof. split; [vm_compute; reflexivity|eexists; vm_compute; reflexivity]. Qed.

(** * C84: which blocks are accepted *)
Theorem C84_accepts b : (allowed b /\ exists t, expand b = Ok t) \/ (~ allowed b /\ expand b = Raise SyntaxError).
Proof. exact (expand_accepts b). Qed.
Print Assumptions C84_accepts.
Example C84_ex :
  (exists t, expand (blk confetti) = Ok t) /\ (exists t, expand (blk top) = Ok t) /\
  expand (blk [def "f" [SIf (i 1) (blk [cc0 "f"]) BNil]]) = Raise SyntaxError /\
  expand (blk [def "f" []; cc0 "f"]) = Raise SyntaxError /\
  expand (blk [def "f" []; cc0 "f"; SReturn (i 1)]) = Raise SyntaxError /\
  expand (blk [SIf (i 1) (blk [SReturn (i 1)]) BNil]) = Raise SyntaxError /\
  expand (blk [def "f" [SWhile (i 1) (blk [cc0 "f"])]]) = Raise SyntaxError /\
  expand (blk [def "f" [STry (blk [cc0 "f"]) BNil]]) = Raise SyntaxError.
Proof. split; [|split]; try (eexists; reflexivity). repeat split. Qed.

(** * C85: programs that are treated as documented *)
(** If no function has, after a call_cc[], another call_cc[] or a tail call, no try statement has a tail call in
    its body, and there is no call_cc[None] and no return of `a and b` with a call as b, then the expanded program does what the documentation says, unless identity is called with a
    continuation. *)
Theorem C85_plain b t n :
  fine_b b = true -> expand b = Ok t ->
  srun true n b = SOdd CallsIdent \/
  (tres (option_map tact) (srun false n b) = Some (run n t) /\ srun true n b = srun false n b).
Proof. exact (fragment_meaning b t n). Qed.
Print Assumptions C85_plain.
(** test_conts.py: the continuation of a function is stashed and resumed, in its own and in another context *)
Definition plain : list stmt :=
  [ SAssign "k" ENone;
    SDef "setk" ["x"] None (blk [SNonlocal "k" (EVar "cc"); SReturn (EVar "x")]);
    def "do" [say 1; SCallcc ["x"] None (One (CCall (EVar "setk") [i 2])); SPrint (EVar "x"); SReturn (EAdd (EVar "x") (i 1))];
    def "outer" [SCallcc ["y"] None (One (CCall (EVar "do") [])); SPrint (EVar "y"); SReturn (i 9)];
    SPrint (c0 "outer");
    SPrint (c1 "k" (i 20));
    def "other" [SReturn (c1 "k" (i 30))];
    SPrint (c0 "other") ].
Example C85_ex : fine_b (blk plain) = true /\ srun true 100 (blk plain) <> SOdd CallsIdent /\
  got plain = says [1; 2; 3; 9; 20; 21; 9; 30; 31; 9]%Z.
Proof. split; [reflexivity|]. split; [vm_compute; discriminate|vm_compute; reflexivity]. Qed.
