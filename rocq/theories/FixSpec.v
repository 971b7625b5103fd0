(** Specification vocabulary for C39 and C40. *)
From Coq Require Import List Arith.
From Verif Require Import Base FixModel.
Import ListNotations.
Open Scope list_scope.
Section FixSpec.
Context {A V St : Type}.
Variable body : nat -> A -> prog A V St.
Variable bottom : nat -> nat -> A -> outcome V.

(** The undecorated program, effects excluded: [plain n p o] says that [p] ends with [o] (in [n]
    steps) when calls and jumps are plain calls. *)
Inductive plain : nat -> prog A V St -> outcome V -> Prop :=
| PRet v : plain 1 (Ret v) (Ok v)
| PRaise e : plain 1 (RaiseP e) (Raise e)
| PCall j b k n1 o1 n2 o : plain n1 (body j b) o1 -> plain n2 (k o1) o -> plain (S (n1 + n2)) (CallP j b k) o
| PJump j b n o : plain n (body j b) o -> plain (S n) (JumpTo j b) o.
(** The undecorated function [f_i(a)] returns or raises [o]. *)
Definition computes (i : nat) (a : A) (o : outcome V) : Prop := exists n, plain n (body i a) o.

(** What the decorated program is to compute (memo off).  [path]: the calls in progress and, for
    fixtco, the jumps taken; [ow] and [a]: the function that was called and the arguments of the
    part of its chain of jumps that is running. *)
Inductive cycles : list (key A) -> nat -> A -> prog A V St -> St -> outcome V -> St -> Prop :=
| CyRet path ow a v u : cycles path ow a (Ret v) u (Ok v) u
| CyRaise path ow a e u : cycles path ow a (RaiseP e) u (Raise e) u
| CyEff path ow a g k u o u' : cycles path ow a (k (g u)) (g u) o u' -> cycles path ow a (Eff g k) u o u'
| CyCall path ow a j b k u o1 u1 o u' :
    ~ In (KFix j b) path -> cycles (KFix j b :: path) j b (body j b) u o1 u1 ->
    cycles path ow a (k o1) u1 o u' -> cycles path ow a (CallP j b k) u o u'
| CyCycle path ow a j b k u o u' :
    In (KFix j b) path -> cycles path ow a (k (bottom j j b)) u o u' -> cycles path ow a (CallP j b k) u o u'
| CyJump path ow a j b u o u' :
    ~ In (KEntry j b) path -> cycles (KEntry j b :: path) ow b (body j b) u o u' ->
    cycles path ow a (JumpTo j b) u o u'
| CyJumpCycle path ow a j b u :
    In (KEntry j b) path -> cycles path ow a (JumpTo j b) u (bottom ow j a) u.

(** No exception is raised in this body. *)
Inductive no_raise : prog A V St -> Prop :=
| NrRet v : no_raise (Ret v)
| NrEff g k : (forall u, no_raise (k u)) -> no_raise (Eff g k)
| NrCall j b k : (forall v, no_raise (k (Ok v))) -> no_raise (CallP j b k)
| NrJump j b : no_raise (JumpTo j b).
(** No jump in this body. *)
Inductive no_jump : prog A V St -> Prop :=
| NjRet v : no_jump (Ret v)
| NjRaise e : no_jump (RaiseP e)
| NjEff g k : (forall u, no_jump (k u)) -> no_jump (Eff g k)
| NjCall j b k : (forall o, no_jump (k o)) -> no_jump (CallP j b k).
(** All calls and jumps of this body are to the calls listed in [space]. *)
Inductive calls_in (space : list (nat * A)) : prog A V St -> Prop :=
| CiRet v : calls_in space (Ret v)
| CiRaise e : calls_in space (RaiseP e)
| CiEff g k : (forall u, calls_in space (k u)) -> calls_in space (Eff g k)
| CiCall j b k : In (j, b) space -> (forall o, calls_in space (k o)) -> calls_in space (CallP j b k)
| CiJump j b : In (j, b) space -> calls_in space (JumpTo j b).

(** fix on programs without jumps; fixtco on programs that raise no exception. *)
Definition usable (tco : bool) : Prop :=
  if tco then (forall i a, no_raise (body i a)) /\ (forall ow j a, exists v, bottom ow j a = Ok v)
  else forall i a, no_jump (body i a).

(** The states between outermost calls *)
Variable eqA : forall x y : A, {x = y} + {x <> y}.
Inductive reachable (tco memo : bool) : st A V St -> Prop :=
| RInit u : reachable tco memo (mkSt [] [] [] u)
| RCall s fuel i a r s' : reachable tco memo s ->
    exec eqA body bottom tco memo fuel (CallFix i a) s = Some (r, s') -> reachable tco memo s'
| RUser s u : reachable tco memo s -> reachable tco memo (mkSt (visited s) (stack s) (memos s) u).
End FixSpec.
