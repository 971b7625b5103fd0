(** C81, C82: the macros let, letseq, letrec and do. *)
From Coq Require Import String List Bool Arith ZArith.
From Verif Require Import Base EnvModel MletModel MletSpec MletProofs.
Import ListNotations.
Open Scope string_scope.
Open Scope list_scope.
Open Scope nat_scope.

(** * C81: the expanded program does what the source says, with lexical scoping *)
(** If the macros expand a program, then the result, which works with env objects, has for any builtin
    functions and global variables the outcome and the effects of the source, after the same number of
    nested calls. *)
Theorem C81_meaning_partial W prim globals k n t t' n' fuel w :
  scoped false [] t = true -> expand k n t = Some (Ok (t', n')) ->
  trun W prim globals fuel t' w = srun W prim globals fuel t w.
Proof. exact (expand_sound W prim globals k n t t' n' fuel w). Qed.
Print Assumptions C81_meaning_partial.

(** Examples: builtin functions add, multiply and compare with zero, and one that prints. *)
Definition pr (o : nat) (l : list value) (w : list value) : outcome value * list value :=
  match o, l with
  | 0, [VInt a; VInt b] => (Ok (VInt (a + b)%Z), w)
  | 1, [VInt a; VInt b] => (Ok (VInt (a * b)%Z), w)
  | 2, [VInt a] => (Ok (VBool (Z.eqb a 0)), w)
  | 3, [v] => (Ok VNone, w ++ [v])
  | _, _ => (Raise TypeError, w)
  end.
Definition glob (x : string) : option value := if String.eqb x "g" then Some (VInt 100) else None.
Definition c (z : Z) : ex := XConst (VInt z).
Definition v (x : string) : ex := XVar x.
Definition print (t : ex) : ex := XPrim 3 [t].
Definition after (t : ex) : option (option (outcome value * list value)) :=
  match expand 60 0 t with Some (Ok (t', _)) => Some (trun _ pr glob 20 t' []) | _ => None end.
Definition plus (a b : ex) := XPrim 0 [a; b].

(** letrec[f := lambda n: 1 if n is zero else n * f(n + -1)][f(5)] *)
Definition factorial : ex :=
  XLet MLetrec [XAsgn "f" (XLam ["n"] (XIf (XPrim 2 [v "n"]) (c 1) (XPrim 1 [v "n"; XCall (v "f") [plus (v "n") (c (-1))]])))]
    (XCall (v "f") [c 5]).
Example C81_ex_letrec : scoped false [] factorial = true /\ accepted false [] factorial = true /\
  after factorial = Some (Some (Ok (VInt 120), [])).
Proof. vm_compute. repeat split. Qed.
(** do[local[x := 1],
       local[inc := lambda: x := x + g],
       inc(), inc(), print(x),
       let[y := x, z := 3][y := y + z, print(y), x := y],
       letseq[y := x, y := y + 1, u := y + y][u],
       delete[x]] *)
Definition counter : ex :=
  XDo false
   [ XLocal (XAsgn "x" (c 1));
     XLocal (XAsgn "inc" (XLam [] (XAsgn "x" (plus (v "x") (v "g")))));
     XCall (v "inc") []; XCall (v "inc") []; print (v "x");
     XLet MLet [XAsgn "y" (v "x"); XAsgn "z" (c 3)] (XDo true [XAsgn "y" (plus (v "y") (v "z")); print (v "y"); XAsgn "x" (v "y")]);
     print (XLet MLetseq [XAsgn "y" (v "x"); XAsgn "y" (plus (v "y") (c 1)); XAsgn "u" (plus (v "y") (v "y"))] (v "u"));
     XDelete (v "x") ].
Example C81_ex_do : scoped false [] counter = true /\ accepted false [] counter = true /\
  after counter = Some (Some (Ok (VInt 204), [VInt 201; VInt 204; VInt 410])).
Proof. vm_compute. repeat split. Qed.
(** let[x := 1][do[print(x), local[x := x + 1], print(x), delete[x], print(x)]] *)
Definition declared_later : ex :=
  XLet MLet [XAsgn "x" (c 1)]
    (XDo false [print (v "x"); XLocal (XAsgn "x" (plus (v "x") (c 1))); print (v "x"); XDelete (v "x"); print (v "x")]).
Example C81_ex_later : scoped false [] declared_later = true /\
  after declared_later = Some (Some (Ok VNone, [VInt 1; VInt 2; VInt 1])).
Proof. vm_compute. repeat split. Qed.

(** Not so for an assignment in the value of a local[], to the variable that it declares: by the
    documentation "the old bindings are still in effect", but the new variable is assigned.
    let[x := 1][do[local[x := (x := 5)], 0] + x] *)
Definition assign_in_local : ex :=
  XLet MLet [XAsgn "x" (c 1)] (plus (XDo false [XLocal (XAsgn "x" (XAsgn "x" (c 5))); c 0]) (v "x")).
Theorem C81_pending_refuted : exists t t' n',
  expand 60 0 t = Some (Ok (t', n')) /\
  srun _ pr glob 20 t [] = Some (Ok (VInt 5), []) /\
  trun _ pr glob 20 t' [] = Some (Ok (VInt 1), []).
Proof.
  exists assign_in_local. destruct (expand 60 0 assign_in_local) as [[[t' n']|]|] eqn:E; try (vm_compute in E; discriminate E).
  exists t', n'. split; [reflexivity|]. vm_compute in E. inversion E; subst. split; vm_compute; reflexivity.
Qed.
Print Assumptions C81_pending_refuted.

(** * C82: the expansion ends, and either succeeds or is a SyntaxError; which of them *)
Theorem C82_accepts t : written t = true -> exists k0, forall k n, k0 <= k ->
  if accepted false [] t then exists t' n', expand k n t = Some (Ok (t', n')) else expand k n t = Some (Raise SyntaxError).
Proof. exact (expand_accepts t). Qed.
Print Assumptions C82_accepts.

(** a local[] in an argument; a name declared twice; delete[] of something else than a name *)
Example C82_ex_rejected :
  forallb (fun t => written t && negb (accepted false [] t))
    [ XDo false [print (XLocal (XAsgn "x" (c 1)))];
      XDo false [XLocal (XAsgn "x" (c 1)); XLocal (XAsgn "x" (c 2))];
      XDo false [XDelete (c 1)]; XLocal (XAsgn "x" (c 1)) ] = true.
Proof. reflexivity. Qed.

(** The documentation says that a let inside a do can have a variable of the same name, which "will (inside
    the let) shadow those of the do - as expected of lexical scoping"; this is a SyntaxError.
    do[local[x := 17], let[x := 23][x]] *)
Definition shadow : ex := XDo false [XLocal (XAsgn "x" (c 17)); XLet MLet [XAsgn "x" (c 23)] (v "x")].
Theorem C82_shadow_refuted : exists t,
  scoped false [] t = true /\ srun _ pr glob 20 t [] = Some (Ok (VInt 23), []) /\
  expand 60 0 t = Some (Raise SyntaxError).
Proof. exists shadow. vm_compute. repeat split. Qed.
Print Assumptions C82_shadow_refuted.
(** also for a do inside a do: do[local[x := 17], do[local[x := 23], x]] *)
Definition shadow_do : ex := XDo false [XLocal (XAsgn "x" (c 17)); XDo false [XLocal (XAsgn "x" (c 23)); v "x"]].
Theorem C82_shadow_do_refuted : exists t,
  scoped false [] t = true /\ srun _ pr glob 20 t [] = Some (Ok (VInt 23), []) /\
  expand 60 0 t = Some (Raise SyntaxError).
Proof. exists shadow_do. vm_compute. repeat split. Qed.
Print Assumptions C82_shadow_do_refuted.
(** By the documentation local[] can be used at the top level of the body of a let with extra brackets; not
    if this let is inside a do: do[let[y := 1][[local[z := y + 2], z]]] *)
Definition brackets : ex :=
  XDo false [XLet MLet [XAsgn "y" (c 1)] (XDo true [XLocal (XAsgn "z" (plus (v "y") (c 2))); v "z"])].
Theorem C82_brackets_refuted : exists t,
  scoped false [] t = true /\ srun _ pr glob 20 t [] = Some (Ok (VInt 3), []) /\
  expand 60 0 t = Some (Raise SyntaxError).
Proof. exists brackets. vm_compute. repeat split. Qed.
Print Assumptions C82_brackets_refuted.
