(** C93: the macro fn *)
From Coq Require Import String List Bool Arith ZArith.
From Verif Require Import Base FnlModel FnlSpec FnlProofs.
Import ListNotations.
Open Scope string_scope.
Open Scope list_scope.
Open Scope nat_scope.

(** The expanded program has the outcome and effects of the source, where an fn[...] is a function of as many
    arguments as it has underscores, which stand for them from left to right. *)
Theorem C93_fn_partial W prim mkdict globals k n t t' n' fuel w :
  plain false t = true -> expand k n t = Some (t', n') ->
  run W prim mkdict globals fuel t' w = srun W prim mkdict globals fuel t w.
Proof. exact (run_sim W prim mkdict globals k n t t' n' fuel w). Qed.
Print Assumptions C93_fn_partial.
(** The expansion ends *)
Theorem C93_ends t : exists k0, forall k n, k0 <= k -> exists t' n', expand k n t = Some (t', n').
Proof. exact (expand_ends t). Qed.
Print Assumptions C93_ends.

(** Examples: operators add, subtract, and one that prints; `_` outside of fn is a variable. *)
Definition pr (o : nat) (l : list value) (w : list value) : outcome value * list value :=
  match o, l with
  | 0, [VInt a; VInt b] => (Ok (VInt (a + b)%Z), w)
  | 1, [VInt a; VInt b] => (Ok (VInt (a - b)%Z), w)
  | 2, [v] => (Ok v, w ++ [v])
  | _, _ => (Raise TypeError, w)
  end.
(** a dictionary is its value for the key 1 *)
Definition mk (l : list (value * value)) (w : list value) : outcome value * list value :=
  (Ok (fold_left (fun r kv => match fst kv with VInt 1%Z => snd kv | _ => r end) l VNone), w).
Definition glob (x : string) : option value := if String.eqb x "_" then Some (VInt 1000) else None.
Definition c (z : Z) := FConst (VInt z).
Definition x_ := FName (User "_").
Definition after (t : ex) := match expand 60 0 t with Some (t', _) => run _ pr mk glob 20 t' [] | None => None end.
Definition source (t : ex) := srun _ pr mk glob 20 t [].
(** fn[print(_) - fn[_ - _](_, (lambda y: y - _)(50))](1, 2, 3) + _, where print returns its argument *)
Definition nested : ex :=
  FPrim 0 [FCall (FFn (FPrim 1 [FPrim 2 [x_]; FCall (FFn (FPrim 1 [x_; x_])) [x_; FCall (FLam [User "y"] (FPrim 1 [FName (User "y"); x_])) [c 50]]]))
             [c 1; c 2; c 3]; x_].
Example C93_ex : plain false nested = true /\ after nested = Some (Ok (VInt (1 - (2 - (50 - 3)) + 1000)), [VInt 1]).
Proof. vm_compute. repeat split. Qed.
(** too few arguments *)
Example C93_ex_arity : after (FCall (FFn (FPrim 0 [x_; x_])) [c 1]) = Some (Raise TypeError, []).
Proof. vm_compute. reflexivity. Qed.
(** {1: _, 2: _} and (_ if 0 else _) are fine *)
Example C93_ex_order : plain true (FDict [(c 1, x_); (c 2, x_)]) = true /\ plain true (FIf x_ (c 0) x_) = true.
Proof. split; reflexivity. Qed.

(** Refuted: in fn[_ if _ else _] the first argument goes to the test.  fn[_ if _ else _](10, 0, 30) *)
Definition cond : ex := FCall (FFn (FIf x_ x_ x_)) [c 10; c 0; c 30].
Theorem C93_if_refuted : source cond = Some (Ok (VInt 30), []) /\ after cond = Some (Ok (VInt 0), []).
Proof. vm_compute. split; reflexivity. Qed.
Print Assumptions C93_if_refuted.
(** Refuted: in fn[{_: _, _: _}] the keys come first.  fn[{_: _, _: _}](1, 2, 3, 4) *)
Definition dict : ex := FCall (FFn (FDict [(x_, x_); (x_, x_)])) [c 1; c 2; c 3; c 4].
Theorem C93_dict_refuted : source dict = Some (Ok (VInt 2), []) /\ after dict = Some (Ok (VInt 3), []).
Proof. vm_compute. split; reflexivity. Qed.
Print Assumptions C93_dict_refuted.
(** Refuted: a parameter `_` of a lambda is not respected; each `_` in its body is a parameter of the fn[...].
    fn[(lambda _: _)(7)](5): by Python's scoping `_` is the parameter, so that fn[...] takes no argument. *)
Definition lam : ex := FCall (FFn (FCall (FLam [User "_"] x_) [c 7])) [c 5].
Theorem C93_lambda_refuted : after lam = Some (Ok (VInt 5), []).
Proof. vm_compute. reflexivity. Qed.
Print Assumptions C93_lambda_refuted.
