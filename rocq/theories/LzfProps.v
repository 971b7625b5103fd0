(** C90, C91: lazy programs (syntax/lazify.py). *)
From Coq Require Import String List ZArith Bool Arith.
From Verif Require Import Base LzfModel LzfSpec LzfProofs LzfSim.
Import ListNotations.
Open Scope string_scope.
Open Scope list_scope.
Open Scope nat_scope.

(** *** C90: arguments are evaluated where they are used, if they are *)
Theorem C90_call_by_name_partial : forall prim globals builtins,
  (forall x ps b, globals x = Some (ps, b) -> fine b = true) -> forall e, fine e = true -> forall o,
  (exists k, run prim globals builtins k e = Some o) <-> (exists k, by_name prim globals builtins k e = Some o).
Proof. exact run_name. Qed.
Print Assumptions C90_call_by_name_partial.

(** and at most once *)
Theorem C90_once_partial : forall prim globals builtins,
  (forall x ps b, globals x = Some (ps, b) -> fine b = true) -> forall e, fine e = true ->
  forall k l, evaluations prim globals builtins k e = Some l -> forall n, In n l -> n <= 1.
Proof. exact run_once. Qed.
Print Assumptions C90_once_partial.

(** *** C91: where Python gets a value, the lazy program gets the same *)
Theorem C91_same_value_partial : forall prim globals builtins,
  (forall x ps b, globals x = Some (ps, b) -> fine b = true) -> forall e, fine e = true ->
  forall k v, strict prim globals builtins k [] e = Some (Ok v) -> exists k', run prim globals builtins k' e = Some (Ok (sdata v)).
Proof. exact run_strict. Qed.
Print Assumptions C91_same_value_partial.

(** 0: +, 1: //, 2: ==; no builtins *)
Definition op (o : nat) (l : list data) : outcome data :=
  match o, l with
  | 0, [DC (CInt a); DC (CInt b)] => Ok (DC (CInt (a + b)))
  | 1, [DC (CInt a); DC (CInt b)] => if Z.eqb b 0 then Raise ZeroDivisionError else Ok (DC (CInt (a / b)))
  | 2, [DT [DC (CInt a)]; DT [DC (CInt b)]] => Ok (DC (CBool (Z.eqb a b)))
  | 2, [DT [DOther]; DT [DC (CInt b)]] => Ok (DC (CBool false))
  | _, _ => Raise TypeError
  end.
Definition int z := EConst (CInt z).
Definition fail := EPrim 1 [int 1; int 0].
Definition defs (x : string) : option (list string * ex) :=
  if String.eqb x "my_if" then Some (["p"; "a"; "b"], EIf (EName "p") (EName "a") (EName "b"))
  else if String.eqb x "const" then Some (["a"; "b"], EName "a")
  else if String.eqb x "id" then Some (["a"], EName "a")
  else if String.eqb x "fst" then Some (["t"], ESub (EName "t") (int 0))
  else if String.eqb x "loop" then Some (["a"], ECall (EName "loop") [(false, EName "a")])
  else None.
Lemma fine_defs x ps b : defs x = Some (ps, b) -> fine b = true.
Proof.
  unfold defs. do 5 match goal with |- context [if ?c then _ else _] => destruct c; [intros [= <- <-]; reflexivity|] end. discriminate.
Qed.
Definition rund k e := run op defs (fun _ => None) k e.
Definition strictd k e := strict op defs (fun _ => None) k [] e.
Definition call f l := ECall (EName f) (map (pair false) l).

(** the container of a subscript that is not a name, a subscript or a call of such: the promises in it leak *)
Theorem C91_leak_refuted : exists e, e = ECall (ELam ["x"] (ESub (EIf (EPrim 2 [EName "x"; ETup [int 3]]) (ETup [int 1]) (ETup [int 2])) (int 0))) [(false, ETup [EPrim 0 [int 1; int 2]])] /\
  (exists v, strictd 10 e = Some (Ok v) /\ sdata v = DC (CInt 1)) /\ rund 10 e = Some (Ok (DC (CInt 2))).
Proof. eexists. split; [reflexivity|]. vm_compute. repeat split. eexists. split; reflexivity. Qed.
Print Assumptions C91_leak_refuted.

(** a starred argument that is the name of an argument: TypeError *)
Theorem C91_starred_refuted : exists e, e = ECall (ELam ["x"] (ECall (EName "id") [(true, EName "x")])) [(false, call "id" [ETup [int 1]])] /\
  (exists v, strictd 10 e = Some (Ok v) /\ sdata v = DC (CInt 1)) /\ rund 10 e = Some (Raise TypeError).
Proof. eexists. split; [reflexivity|]. vm_compute. repeat split. eexists. split; reflexivity. Qed.
Print Assumptions C91_starred_refuted.

(** an argument that is a subscript is looked up at once, used or not *)
Theorem C90_unused_refuted : exists e, e = ECall (ELam ["x"] (call "const" [int 1; ESub (EName "x") fail])) [(false, ETup [int 2])] /\
  fine e = true /\ rund 10 e = Some (Raise ZeroDivisionError).
Proof. eexists. split; [reflexivity|]. vm_compute. repeat split. Qed.
Print Assumptions C90_unused_refuted.

Example C90_ex :
  (forall x ps b, defs x = Some (ps, b) -> fine b = true) /\
  fine (call "my_if" [EConst (CBool true); int 1; fail]) = true /\
  rund 10 (call "my_if" [EConst (CBool true); int 1; fail]) = Some (Ok (DC (CInt 1))) /\
  strictd 10 (call "my_if" [EConst (CBool true); int 1; fail]) = Some (Raise ZeroDivisionError) /\
  rund 10 (call "my_if" [EConst (CBool false); int 1; fail]) = Some (Raise ZeroDivisionError) /\
  rund 10 (call "fst" [ETup [int 1; fail]]) = Some (Ok (DC (CInt 1))) /\
  rund 10 (call "const" [int 1; call "loop" [int 2]]) = Some (Ok (DC (CInt 1))) /\
  rund 10 (ELet "y" fail (call "const" [int 3; EName "y"])) = Some (Ok (DC (CInt 3))) /\
  evaluations op defs (fun _ => None) 10 (ECall (ELam ["x"; "y"] (EPrim 0 [EName "x"; EName "x"])) [(false, call "id" [EPrim 0 [int 1; int 2]]); (false, fail)]) =
    Some [1; 0; 1].
Proof. split; [exact fine_defs|]. vm_compute. repeat split. Qed.
Example C91_ex :
  let e := call "fst" [ETup [EPrim 0 [int 1; call "id" [int 2]]; int 5]] in
  fine e = true /\ (exists v, strictd 10 e = Some (Ok v) /\ sdata v = DC (CInt 3)) /\ rund 10 e = Some (Ok (DC (CInt 3))).
Proof. vm_compute. repeat split. eexists. split; reflexivity. Qed.
