(** C78: `with autoreturn`. *)
From Coq Require Import String List ZArith Bool.
From Verif Require Import Base PyModel AretModel AretSpec AretProofs.
Import ListNotations.
Open Scope string_scope.
Open Scope list_scope.

(** Whatever the program, what builtin functions do, and the state it starts in: the rewritten program
    prints, computes and raises what the program would if functions returned the value they end in; also
    with the same number of steps (calls in calls, rounds of loops) and under the same limit on the depth
    of recursion. *)
Theorem C78_autoreturn : forall (W : Type) (prim : nat -> list value -> W -> outcome value * W) fuel depth (prog : list stmt) fs (w : W),
  same_run (module W prim true py_uncallable fuel depth prog (mkHeap fs [] [] w))
           (module W prim false py_uncallable fuel depth (autoreturn prog) (mkHeap fs [] [] w)).
Proof. exact (fun W prim => autoreturn_same W prim py_uncallable). Qed.
Print Assumptions C78_autoreturn.

(** A program.  The world is the list of what has been printed; primitive 0 prints, 1 adds. *)
Definition pr (o : nat) (l : list value) (w : list value) : outcome value * list value :=
  match o, l with
  | 0, [v] => (Ok VNone, w ++ [v])
  | 1, [VInt a; VInt b] => (Ok (VInt (a + b)), w)
  | _, _ => (Raise TypeError, w)
  end.
Definition c (z : Z) : expr := EConst (VInt z).
(** def f(x):
        if x: [def g(y): 1 + y]   (g is returned)
        else:
            try: raise KeyError
            except KeyError: print(5); x
            finally: 77
    h = f(1); print(h(41)); print(f(0)); *)
Definition prog : list stmt :=
  [ SDef false "f" ["x"]
      [ SIf (EVar "x") [ SDef false "g" ["y"] [ SExpr (EPrim 1 [c 1; EVar "y"]) ] ]
          [ STry [ SRaise (EConst (VExn KeyError)) ]
                 [ (fun e => match e with KeyError => true | _ => false end, [ SExpr (EPrim 0 [c 5]); SExpr (EVar "x") ]) ]
                 [] [ SExpr (c 77) ] ] ];
    SAssign "h" (ECall (EVar "f") [c 1]);
    SExpr (EPrim 0 [ECall (EVar "h") [c 41]]);
    SExpr (EPrim 0 [ECall (EVar "f") [c 0]]) ].
Definition start : heap (list value) := mkHeap [mkFrame [] None false] [] [] [].
Definition printed (r : option (comp * heap (list value))) : option (comp * list value) :=
  match r with Some (c, h) => Some (c, world h) | None => None end.
(** as it is, it fails, for f returns None; rewritten, it prints 42, 5 and 0 *)
Example C78_ex :
  printed (module _ pr false py_uncallable 5 None prog start) = Some (CRaise TypeError, []) /\
  printed (module _ pr false py_uncallable 5 None (autoreturn prog) start) = Some (CNormal VNone, [VInt 42; VInt 5; VInt 0]) /\
  printed (module _ pr true py_uncallable 5 None prog start) = Some (CNormal VNone, [VInt 42; VInt 5; VInt 0]).
Proof. vm_compute. repeat split. Qed.
