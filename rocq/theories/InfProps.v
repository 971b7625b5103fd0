(** Infix arithmetic on mathematical sequences (C111). *)
From Coq Require Import List Bool Arith ZArith.
From Verif Require Import Base CollModel InfModel InfSpec InfProofs.
Import ListNotations.

(** An infix expression over numbers, tuples, generators and sequences made anew by calls, in which no generator occurs
    twice, gives when iterated its terms in order: each is the expression applied to the terms at that index.  It ends
    with the first operand that ends, and raises what the operation at an index raises. *)
Theorem C111_termwise_partial : forall N (prim2 : binop -> N -> N -> outcome N) prim1 pow3, mirrored prim2 ->
  forall gens e h n t, (forall i, In i (gens_of e) -> yields h gens i) -> NoDup (gens_of e) ->
  scalars_ok prim2 prim1 pow3 gens e -> infixable prim2 prim1 pow3 gens e ->
  means prim2 prim1 pow3 gens e = Seq t -> run prim2 prim1 pow3 n h e = Ok (upto n t).
Proof. exact @run_ok. Qed.
Print Assumptions C111_termwise_partial.
(** With numbers only it is ordinary arithmetic. *)
Theorem C111_scalar : forall N (prim2 : binop -> N -> N -> outcome N) prim1 pow3, mirrored prim2 ->
  forall gens e h z, (forall i, In i (gens_of e) -> yields h gens i) -> NoDup (gens_of e) ->
  scalars_ok prim2 prim1 pow3 gens e -> infixable prim2 prim1 pow3 gens e ->
  means prim2 prim1 pow3 gens e = Scalar (Ok z) -> exists h', eval prim2 prim1 pow3 h e = Ok (Num z, h').
Proof. exact @scalar_ok. Qed.
Print Assumptions C111_scalar.
(** Building the sequence takes nothing from any generator. *)
Theorem C111_lazy : forall N (prim2 : binop -> N -> N -> outcome N) prim1 pow3, mirrored prim2 ->
  forall gens e h, (forall i, In i (gens_of e) -> yields h gens i) -> NoDup (gens_of e) ->
  scalars_ok prim2 prim1 pow3 gens e -> infixable prim2 prim1 pow3 gens e ->
  exists v new, eval prim2 prim1 pow3 h e = Ok (v, h ++ new).
Proof. exact @eval_lazy. Qed.
Print Assumptions C111_lazy.

(** Numbers: integers. *)
Definition of_bool (b : bool) : Z := if b then 1%Z else 0%Z.
Definition zprim2 (o : binop) (x y : Z) : outcome Z :=
  match o with
  | Add => Ok (x + y)%Z | Sub => Ok (x - y)%Z | Mul => Ok (x * y)%Z
  | FloorDiv => if Z.eqb y 0 then Raise ZeroDivisionError else Ok (x / y)%Z
  | Mod => if Z.eqb y 0 then Raise ZeroDivisionError else Ok (x mod y)%Z
  | Pow => Ok (x ^ y)%Z
  | Lt => Ok (of_bool (Z.ltb x y)) | Le => Ok (of_bool (Z.leb x y)) | Gt => Ok (of_bool (Z.ltb y x)) | Ge => Ok (of_bool (Z.leb y x))
  | Eq => Ok (of_bool (Z.eqb x y)) | Ne => Ok (of_bool (negb (Z.eqb x y)))
  | _ => Raise TypeError
  end.
Definition zprim1 (o : @unop Z) (x : Z) : outcome Z := match o with Neg => Ok (- x)%Z | Abs => Ok (Z.abs x) | Pos => Ok x | _ => Raise TypeError end.
Definition zpow3 (x y m : Z) : outcome Z := Ok ((x ^ y) mod m)%Z.
Definition nats : nat -> option Z := fun k => Some (Z.of_nat k).
(** a + a, with a an imathified generator, adds each number to the next one, not to itself. *)
Theorem C111_shared_refuted : let a := Leaf (M (Gen 0)) in let h := [Src nats 0] in
  run zprim2 zprim1 zpow3 3 h (Bin Add a a) = Ok ([1; 5; 9]%Z, None) /\
  means zprim2 zprim1 zpow3 (fun _ => nats) (Bin Add a a) = Seq (fun k => Ok (Some (Z.of_nat k + Z.of_nat k)%Z)) /\
  run zprim2 zprim1 zpow3 3 h (Bin Add (Call nats) (Call nats)) = Ok ([0; 2; 4]%Z, None).
Proof. repeat split. Qed.
Print Assumptions C111_shared_refuted.
(** pow(2, a, 5) is not termwise: it raises TypeError.  pow(a, 2, 5) is. *)
Theorem C111_pow3_refuted : let a := Leaf (M (Tup [1; 2; 3]%Z)) in
  run zprim2 zprim1 zpow3 3 [] (Pow3 (Leaf (Num 2%Z)) a 5%Z) = Raise TypeError /\
  run zprim2 zprim1 zpow3 3 [] (Pow3 a (Leaf (Num 2%Z)) 5%Z) = Ok ([1; 4; 4]%Z, None).
Proof. split; reflexivity. Qed.
Print Assumptions C111_pow3_refuted.
Example C111_mirrored : mirrored zprim2.
Proof. intros x y. cbn. rewrite (Z.eqb_sym x y). auto. Qed.
(** 10 - (12 // a + b * 2) with a the generator 1, 2, 3, ..., and b = (5, 6, 7, 8) *)
Definition ex_e : @expr Z :=
  Bin Sub (Leaf (Num 10%Z)) (Bin Add (Bin FloorDiv (Leaf (Num 12%Z)) (Leaf (M (Gen 0)))) (Bin Mul (Leaf (M (Tup [5; 6; 7; 8]%Z))) (Leaf (Num 2%Z)))).
Example C111_ex : let h := [Src nats 1] in let gens := fun (_ k : nat) => nats (1 + k) in
  (forall i, In i (gens_of ex_e) -> yields h gens i) /\ NoDup (gens_of ex_e) /\ scalars_ok zprim2 zprim1 zpow3 gens ex_e /\
  infixable zprim2 zprim1 zpow3 gens ex_e /\ run zprim2 zprim1 zpow3 9 h ex_e = Ok ([-12; -8; -8; -9]%Z, None).
Proof.
  cbv zeta. split; [|split; [|split; [|split]]].
  - intros i [<-|[]]. exists nats, 1. split; reflexivity.
  - repeat constructor. intros [].
  - cbn. tauto.
  - cbn. intuition discriminate.
  - reflexivity.
Qed.
(** an exception at one index *)
Example C111_ex_raise : run zprim2 zprim1 zpow3 9 [] (Bin FloorDiv (Leaf (Num 6%Z)) (Leaf (M (Tup [3; 2; 0; 1]%Z)))) = Ok ([2; 3]%Z, Some ZeroDivisionError).
Proof. reflexivity. Qed.
