(** C137: let and letseq of simplelet.py. *)
From Coq Require Import List Bool String Arith Lia.
From Verif Require Import Base SlmModel SlmSpec SlmProofs.
Import ListNotations.
Open Scope string_scope.
Open Scope list_scope.

(** The expanded program gives the values, exceptions, variables and output that the program with let and letseq
    means, and it ends exactly when that does. *)
Theorem C137_meaning : forall e t, expand e = Ok t ->
  (forall r w, means e r w ->
     exists n r' w', prun n t = Some (r', w') /\ same_res r r' /\ same_world w w') /\
  (forall n r' w', prun n t = Some (r', w') ->
     exists r w, means e r w /\ same_res r r' /\ same_world w w').
Proof. exact meaning. Qed.
Print Assumptions C137_meaning.

(** The same in any scopes and any world. *)
Theorem C137_anywhere : forall e t, expand e = Ok t -> forall env w w', same_world w w' ->
  (forall r w1, ev env e w r w1 ->
     exists n r' w1', peval n env t w' = Some (r', w1') /\ same_res r r' /\ same_world w1 w1') /\
  (forall n r' w1', peval n env t w' = Some (r', w1') ->
     exists r w1, ev env e w r w1 /\ same_res r r' /\ same_world w1 w1').
Proof. exact anywhere. Qed.
Print Assumptions C137_anywhere.

(** let[[x, say(1)], [y, say(2)]][let[[x, y], [y, x]][say(x)]] prints 1, 2, 2. *)
Definition swap : src :=
  SLet [("x", SSay (SConst 1)); ("y", SSay (SConst 2))]
       (SLet [("x", SName "y"); ("y", SName "x")] (SSay (SName "x"))).
(** letseq[[x, 1], [x, (lambda y: x)], [z, x(0)]][say(z)] prints 1. *)
Definition chain : src :=
  SSeq [("x", SConst 1); ("x", SLam ["y"] (SName "x")); ("z", SApp (SName "x") [SConst 0])] (SSay (SName "z")).
(** What a program prints and gives. *)
Definition seen (e : src) : option (outcome (val py) * list shown) :=
  match expand e with
  | Ok t => match prun 20 t with Some (r, w) => Some (r, out w) | None => None end
  | Raise _ => None
  end.
Example C137_swap_ex : seen swap = Some (Ok (VNum 2), [ShNum 1; ShNum 2; ShNum 2]).
Proof. vm_compute. reflexivity. Qed.
Example C137_chain_ex : seen chain = Some (Ok (VNum 1), [ShNum 1]).
Proof. vm_compute. reflexivity. Qed.
Example C137_raise_ex :
  seen (SLet [("x", SSay (SConst 1)); ("y", SFail KeyError); ("z", SSay (SConst 2))] (SSay (SConst 3)))
  = Some (Raise KeyError, [ShNum 1]).
Proof. vm_compute. reflexivity. Qed.

(** A letseq is a let of its first binding around a letseq of the others. *)
Theorem C137_nested : forall env x e rest b w r w1,
  ev env (SSeq ((x, e) :: rest) b) w r w1 <-> ev env (SLet [(x, e)] (SSeq rest b)) w r w1.
Proof. exact nested. Qed.
Print Assumptions C137_nested.
Example C137_nested_ex : exists w1,
  ev [0] (SSeq [("x", SConst 1)] (SName "x")) (mkw [[]] []) (Ok (VNum 1)) w1.
Proof.
  eexists. eapply ev_seq; [apply ev_const|]. apply ev_seq_nil. apply ev_name.
Qed.

(** Expansion is refused exactly if somewhere in the program there is a let without bindings or one that binds a
    name twice.  A letseq may bind a name more than once, or nothing. *)
Theorem C137_errors : forall e,
  (bad e -> expand e = Raise SyntaxError) /\ (~ bad e -> exists t, expand e = Ok t).
Proof. exact errors. Qed.
Print Assumptions C137_errors.
Example C137_errors_ex : bad (SLam ["a"] (SSeq [("b", SLet [("x", SConst 1); ("x", SConst 2)] (SName "x"))] (SName "b"))).
Proof.
  apply bad_lam. eapply bad_seq_value; [left; reflexivity|]. apply bad_let. right. intro H. inversion H as [|a l N _ X].
  apply N. left. reflexivity.
Qed.
Example C137_empty_ex : expand (SSeq [] (SConst 1)) = Ok (PConst 1) /\ expand (SLet [] (SConst 1)) = Raise SyntaxError.
Proof. split; reflexivity. Qed.

(** After a let, whether it gives a value or raises, a variable of any function that was running is as before,
    unless the value of a binding assigns to it: nothing that the body does changes one. *)
Theorem C137_outside : forall bs b t n env w r w1 i x,
  expand (SLet bs b) = Ok t -> peval n env t w = Some (r, w1) -> i < List.length (frames w) ->
  (forall y e, In (y, e) bs -> ~ In x (sassigned e)) ->
  cell (nth i (frames w1) []) x = cell (nth i (frames w) []) x.
Proof. exact outside. Qed.
Print Assumptions C137_outside.

(** Of a letseq, only the value of the first binding can assign to one. *)
Theorem C137_outside_seq : forall x1 e1 bs b t n env w r w1 i x,
  expand (SSeq ((x1, e1) :: bs) b) = Ok t -> peval n env t w = Some (r, w1) -> i < List.length (frames w) ->
  ~ In x (sassigned e1) ->
  cell (nth i (frames w1) []) x = cell (nth i (frames w) []) x.
Proof. exact outside_seq. Qed.
Print Assumptions C137_outside_seq.
Example C137_outside_ex : exists t w1,
  expand (SLet [("y", SConst 2)] (SAssign "x" (SName "y"))) = Ok t /\
  peval 9 [0] t (mkw [[("x", Some (VNum 1))]] []) = Some (Ok (VNum 2), w1) /\
  nth 0 (frames w1) [] = [("x", Some (VNum 1))] /\ nth 1 (frames w1) [] = [("y", Some (VNum 2)); ("x", Some (VNum 2))].
Proof. eexists. eexists. split; [reflexivity|]. split; [vm_compute; reflexivity|]. split; reflexivity. Qed.

(** Not true: that an assignment in the body reaches the variable of the function around.
    `(x := n)`, then `let[[y, m]][(x := y)]`, then `x` gives n. *)
Theorem C137_assign_refuted : forall n m,
  seen (SThen (SAssign "x" (SConst n)) (SThen (SLet [("y", SConst m)] (SAssign "x" (SName "y"))) (SName "x")))
  = Some (Ok (VNum n), []).
Proof. intros n m. vm_compute. reflexivity. Qed.
Print Assumptions C137_assign_refuted.

(** Not true: that the body can read a variable of the function around and assign to it.
    `(x := n)`, then `let[[y, m]][(x, (x := y))[1]]` raises UnboundLocalError. *)
Theorem C137_read_refuted : forall n m,
  seen (SThen (SAssign "x" (SConst n)) (SLet [("y", SConst m)] (SThen (SName "x") (SAssign "x" (SName "y")))))
  = Some (Raise UnboundLocalError, []).
Proof. intros n m. vm_compute. reflexivity. Qed.
Print Assumptions C137_read_refuted.
