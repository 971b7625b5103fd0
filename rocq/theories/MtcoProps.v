(** C79-C80: `with tco`. *)
From Coq Require Import String List ZArith Bool.
From Verif Require Import Base PyModel AretModel MtcoModel MtcoSpec MtcoProofs.
From Verif Require PtcSpec.
Import ListNotations.
Open Scope string_scope.
Open Scope list_scope.

(** * C79 *)
(** For programs in which no tail call is inside a try or with that is still active, and no `and` that may
    have a false value other than False is in tail position ([good_s]): a program that finishes, and does
    not call anything but functions, does the same under `with tco`: the same ending, effects and
    contents of variables.  [ecs]: the names taken for escape continuations; [isb]: operators that give
    True or False. *)
Theorem C79_tco_partial : forall ecs isb (W : Type) (prim : nat -> list value -> W -> outcome value * W) fuel (prog : list stmt) fs (w : W) c h,
  no_jumps prim fs -> bool_ops isb prim -> Forall (good_s ecs isb true) prog ->
  module W prim false (fun _ => None) fuel None prog (mkHeap fs [] [] w) = Some (c, h) ->
  module W prim false py_uncallable fuel None prog (mkHeap fs [] [] w) = Some (c, h) /\
  exists h', module W prim false py_uncallable fuel None (tco ecs prog) (mkHeap fs [] [] w) = Some (c, h') /\ same_state h h'.
Proof. exact tco_same. Qed.
Print Assumptions C79_tco_partial.

(** And it finishes under `with tco` only if it does by itself: step by step the two do the same, until
    something other than a function is called (and after that, they are given no result here). *)
Theorem C79_lockstep_partial : forall ecs isb (W : Type) (prim : nat -> list value -> W -> outcome value * W) fuel (prog : list stmt) fs (w : W),
  no_jumps prim fs -> bool_ops isb prim -> Forall (good_s ecs isb true) prog ->
  same_end (module W prim false (fun _ => None) fuel None prog (mkHeap fs [] [] w))
           (module W prim false (fun _ => None) fuel None (tco ecs prog) (mkHeap fs [] [] w)).
Proof. exact tco_lockstep. Qed.
Print Assumptions C79_lockstep_partial.

(** `with autoreturn, tco`: the tail calls need no `return`. *)
Theorem C79_autoreturn_tco_partial : forall ecs isb (W : Type) (prim : nat -> list value -> W -> outcome value * W) fuel (prog : list stmt) fs (w : W),
  no_jumps prim fs -> bool_ops isb prim -> Forall (good_s ecs isb true) (autoreturn prog) ->
  same_end (module W prim true (fun _ => None) fuel None prog (mkHeap fs [] [] w))
           (module W prim false (fun _ => None) fuel None (tco ecs (autoreturn prog)) (mkHeap fs [] [] w)).
Proof. exact autoreturn_tco. Qed.
Print Assumptions C79_autoreturn_tco_partial.

(** * C80 *)
(** If, besides, functions call functions only in tail position, then nothing is ever nested: a limit of
    one call in progress is as good as no limit, for any number of calls. *)
Theorem C80_no_stack : forall ecs isb (W : Type) (prim : nat -> list value -> W -> outcome value * W) uncallable fuel (prog : list stmt) fs (w : W),
  Forall (good_s ecs isb true) prog -> Forall (calls_s true) prog ->
  module W prim false uncallable fuel (Some 1) (tco ecs prog) (mkHeap fs [] [] w) =
  module W prim false uncallable fuel None (tco ecs prog) (mkHeap fs [] [] w).
Proof. exact tco_depth. Qed.
Print Assumptions C80_no_stack.

(** Any program that C79 speaks of, with whatever other calls its functions make, and any limit on the
    number of calls in progress: under `with tco` the program does what it does in a Python in which a tail
    call takes the place of the call that ends with it (PtcSpec); where that one raises RecursionError, too. *)
Theorem C80_room : forall ecs isb (W : Type) (prim : nat -> list value -> W -> outcome value * W) fuel limit (prog : list stmt) fs (w : W),
  no_jumps prim fs -> bool_ops isb prim -> Forall (good_s ecs isb true) prog ->
  same_end (PtcSpec.module W prim fuel limit prog (mkHeap fs [] [] w))
           (module W prim false (fun _ => None) fuel limit (tco ecs prog) (mkHeap fs [] [] w)).
Proof. exact tco_room. Qed.
Print Assumptions C80_room.
(** That Python differs from Python in nothing else: without a limit, programs do the same in both. *)
Theorem C80_proper : forall ecs isb (W : Type) (prim : nat -> list value -> W -> outcome value * W) fuel (prog : list stmt) fs (w : W),
  no_jumps prim fs -> bool_ops isb prim -> Forall (good_s ecs isb true) prog ->
  same_end (module W prim false (fun _ => None) fuel None prog (mkHeap fs [] [] w))
           (PtcSpec.module W prim fuel None prog (mkHeap fs [] [] w)).
Proof. exact ptc_same. Qed.
Print Assumptions C80_proper.

(** The world is the list of what has been printed; primitive 0 prints, 1 subtracts, 2 is `==`. *)
Definition pr (o : nat) (l : list value) (w : list value) : outcome value * list value :=
  match o, l with
  | 0, [v] => (Ok VNone, w ++ [v])
  | 1, [VInt a; VInt b] => (Ok (VInt (a - b)), w)
  | 2, [VInt a; VInt b] => (Ok (VBool (Z.eqb a b)), w)
  | _, _ => (Raise TypeError, w)
  end.
Definition names : list string := ["ec"; "brk"; "throw"].     (* syntax/util.py 66 *)
Definition isb (o : nat) : bool := Nat.eqb o 2.
Definition top : list frame := [mkFrame [] None false].
Definition start : heap (list value) := mkHeap top [] [] [].
Definition printed (r : option (comp * heap (list value))) : option (comp * list value) :=
  match r with Some (c, h) => Some (c, world h) | None => None end.
Definition c (z : Z) : expr := EConst (VInt z).
Definition print (e : expr) : stmt := SExpr (ECall (EConst (VPrim 0)) [e]).
Definition ret (e : expr) : stmt := SReturn e.

(** The hypotheses about primitives and variables hold. *)
Example C79_prims : no_jumps pr top /\ bool_ops isb pr.
Proof.
  split; [split|].
  - intros o l w v w' E F. destruct o as [|[|[|o]]]; cbn in E.
    + destruct l as [|x [|]]; inversion E; reflexivity.
    + destruct l as [|[] [|[] [|]]]; inversion E; reflexivity.
    + destruct l as [|[] [|[] [|]]]; inversion E; reflexivity.
    + inversion E.
  - repeat constructor. intros x v [].
  - intros o l w v w' B E. destruct o as [|[|[|o]]]; try discriminate B. cbn in E.
    destruct l as [|[] [|[] [|]]]; inversion E; eauto.
Qed.

(** evenp = lambda x: x == 0 or oddp(x - 1)
    def oddp(x):
        if x == 0: return False
        return evenp(x - 1)
    print(evenp(n)) *)
Definition evens (n : Z) : list stmt :=
  [ SAssign "evenp" (ELam false ["x"] (EBool false [EPrim 2 [EVar "x"; c 0]; ECall (EVar "oddp") [EPrim 1 [EVar "x"; c 1]]]));
    SDef false "oddp" ["x"]
      [ SIf (EPrim 2 [EVar "x"; c 0]) [ret (EConst (VBool false))] [];
        ret (ECall (EVar "evenp") [EPrim 1 [EVar "x"; c 1]]) ];
    print (ECall (EVar "evenp") [c n]) ].
Ltac not_and := let X := fresh in intros X; inversion X as [l e A B E|t a b A E|t a b A E|i l e A E]; subst;
  try match goal with H : ?l ++ [_] = [_; _] |- _ => destruct l as [|? [|? [|? ?]]]; inversion H; subst; inversion A end.
Ltac good := repeat match goal with
  | |- Forall _ _ => constructor
  | |- good_s _ _ _ _ => constructor
  | |- good_e _ _ _ => constructor
  | |- _ <= _ => repeat constructor
  | |- not_jump _ = true => reflexivity
  | |- forall x, _ = EVar x -> _ => let x := fresh in let E := fresh in intros x E; (discriminate E || (injection E as <-; cbn; intuition discriminate))
  | |- false = true -> _ => discriminate
  end.
Example C79_evens_good n : Forall (good_s names isb true) (evens n).
Proof. unfold evens, print, ret, c, names. good; not_and. Qed.
Example C80_evens_calls n : Forall (calls_s true) (evens n).
Proof.
  unfold evens, print, ret, c. constructor; [|repeat constructor]. constructor. constructor.
  apply (te_bool false [EPrim 2 [EVar "x"; EConst (VInt 0)]]); repeat constructor.
Qed.
(** As it is, evens(30) needs a stack of 31 calls; under tco, of one. *)
Example C79_ex :
  printed (module _ pr false (fun _ => None) 40 None (evens 30) start) = Some (CNormal VNone, [VBool true]) /\
  printed (module _ pr false py_uncallable 40 None (tco names (evens 30)) start) = Some (CNormal VNone, [VBool true]).
Proof. vm_compute. repeat split. Qed.
Example C80_ex :
  printed (module _ pr false py_uncallable 40 (Some 30) (evens 30) start) = Some (CRaise RecursionError, []) /\
  printed (module _ pr false py_uncallable 40 (Some 31) (evens 30) start) = Some (CNormal VNone, [VBool true]) /\
  printed (module _ pr false py_uncallable 40 (Some 1) (tco names (evens 30)) start) = Some (CNormal VNone, [VBool true]).
Proof. vm_compute. repeat split. Qed.

(** def less(x): return x - 1
    def loop(x):
        if x == 0: return 7
        return loop(less(x))
    print(loop(30)) *)
Definition helped : list stmt :=
  [ SDef false "less" ["x"] [ret (EPrim 1 [EVar "x"; c 1])];
    SDef false "loop" ["x"]
      [ SIf (EPrim 2 [EVar "x"; c 0]) [ret (c 7)] [];
        ret (ECall (EVar "loop") [ECall (EVar "less") [EVar "x"]]) ];
    print (ECall (EVar "loop") [c 30]) ].
Example C80_helped_good : Forall (good_s names isb true) helped.
Proof. unfold helped, print, ret, c, names. good; not_and. Qed.
(** a stack of two calls is enough, and of one is not; without tco it takes 31 *)
Example C80_helped :
  printed (module _ pr false py_uncallable 40 (Some 30) helped start) = Some (CRaise RecursionError, []) /\
  printed (PtcSpec.module _ pr 40 (Some 2) helped start) = Some (CNormal VNone, [VInt 7]) /\
  printed (module _ pr false py_uncallable 40 (Some 2) (tco names helped) start) = Some (CNormal VNone, [VInt 7]) /\
  printed (PtcSpec.module _ pr 40 (Some 1) helped start) = Some (CRaise RecursionError, []).
Proof. vm_compute. repeat split. Qed.

(** def f(x):
        if x == 0: 7
        else: f(x - 1)
    print(f(30)) *)
Definition counts : list stmt :=
  [ SDef false "f" ["x"]
      [ SIf (EPrim 2 [EVar "x"; c 0]) [SExpr (c 7)] [SExpr (ECall (EVar "f") [EPrim 1 [EVar "x"; c 1]])] ];
    print (ECall (EVar "f") [c 30]) ].
Example C79_counts_good : Forall (good_s names isb true) (autoreturn counts).
Proof. unfold counts, print, c, names. cbn [autoreturn map visit tail_block tail]. good; not_and. Qed.
Example C79_counts :
  printed (module _ pr false py_uncallable 40 (Some 1) (tco names (autoreturn counts)) start) = Some (CNormal VNone, [VInt 7]).
Proof. vm_compute. reflexivity. Qed.

(** * What `with tco` does change *)
(** A tail call in a try: its exceptions are no longer caught.
    def bad(): raise KeyError
    def f():
        try: return bad()
        except KeyError: return 5
    print(f()) *)
Definition in_try : list stmt :=
  [ SDef false "bad" [] [SRaise (EConst (VExn KeyError))];
    SDef false "f" []
      [ STry [ret (ECall (EVar "bad") [])] [(fun e => match e with KeyError => true | _ => false end, [ret (c 5)])] [] [] ];
    print (ECall (EVar "f") []) ].
Theorem C79_try_refuted : exists prog,
  printed (module _ pr false py_uncallable 9 None prog start) = Some (CNormal VNone, [VInt 5]) /\
  printed (module _ pr false py_uncallable 9 None (tco names prog) start) = Some (CRaise KeyError, []).
Proof. exists in_try. vm_compute. split; reflexivity. Qed.
Print Assumptions C79_try_refuted.
(** A tail call in a try with a finally: the finally clause is run before it.
    def f(): print(1); return 2
    def g():
        try: return f()
        finally: print(3)
    g() *)
Definition in_finally : list stmt :=
  [ SDef false "f" [] [print (c 1); ret (c 2)];
    SDef false "g" [] [ STry [ret (ECall (EVar "f") [])] [] [] [print (c 3)] ];
    SExpr (ECall (EVar "g") []) ].
Theorem C79_finally_refuted : exists prog,
  printed (module _ pr false py_uncallable 9 None prog start) = Some (CNormal (VInt 2), [VInt 1; VInt 3]) /\
  printed (module _ pr false py_uncallable 9 None (tco names prog) start) = Some (CNormal (VInt 2), [VInt 3; VInt 1]).
Proof. exists in_finally. vm_compute. split; reflexivity. Qed.
Print Assumptions C79_finally_refuted.
(** def f(): return 1
    def g(x): return x and f()
    print(g(0))           (False, not 0) *)
Definition falsy_and : list stmt :=
  [ SDef false "f" [] [ret (c 1)];
    SDef false "g" ["x"] [ret (EBool true [EVar "x"; ECall (EVar "f") []])];
    print (ECall (EVar "g") [c 0]) ].
Theorem C79_and_refuted : exists prog,
  printed (module _ pr false py_uncallable 9 None prog start) = Some (CNormal VNone, [VInt 0]) /\
  printed (module _ pr false py_uncallable 9 None (tco names prog) start) = Some (CNormal VNone, [VBool false]).
Proof. exists falsy_and. vm_compute. split; reflexivity. Qed.
Print Assumptions C79_and_refuted.
(** A tail call of something that is not a function: RuntimeError instead of TypeError. *)
Definition uncallable : list stmt := [ SDef false "f" [] [ret (ECall (c 1) [])]; SExpr (ECall (EVar "f") []) ].
Theorem C79_uncallable_refuted : exists prog,
  printed (module _ pr false py_uncallable 9 None prog start) = Some (CRaise TypeError, []) /\
  printed (module _ pr false py_uncallable 9 None (tco names prog) start) = Some (CRaise RuntimeError, []).
Proof. exists uncallable. vm_compute. split; reflexivity. Qed.
Print Assumptions C79_uncallable_refuted.
(** A function that is called ec, but is not an escape continuation: its value is not returned.
    def ec(x): return x
    def f(): return ec(7)
    print(f()) *)
Definition named_ec : list stmt :=
  [ SDef false "ec" ["x"] [ret (EVar "x")];
    SDef false "f" [] [ret (ECall (EVar "ec") [c 7])];
    print (ECall (EVar "f") []) ].
Theorem C79_ec_refuted : exists prog,
  printed (module _ pr false py_uncallable 9 None prog start) = Some (CNormal VNone, [VInt 7]) /\
  printed (module _ pr false py_uncallable 9 None (tco names prog) start) = Some (CNormal VNone, [VNone]).
Proof. exists named_ec. vm_compute. split; reflexivity. Qed.
Print Assumptions C79_ec_refuted.
