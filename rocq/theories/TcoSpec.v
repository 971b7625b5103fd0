(** Specification vocabulary for C37: the program with direct calls. *)
From Coq Require Import List Arith.
From Verif Require Import Base TcoModel.
Import ListNotations.
Open Scope list_scope.

Section TcoSpec.
Context {D St : Type}.
Variable body : nat -> list (val D) -> cmd D St.
Definition number (f : callable) : nat := match f with Tramp i | Plain i => i end.

(** [direct c s o s' n]: the body [c] ends with [o], every [jump(f, args)] being read as a call
    [f(args)] whose result is returned; [n] is the depth of nested calls, where a call in tail
    position replaces its caller. *)
Inductive direct : cmd D St -> St -> outcome (val D) -> St -> nat -> Prop :=
| DRet v s : direct (Ret v) s (Ok v) s 1
| DRaise e s : direct (RaiseExc e) s (Raise e) s 1
| DEff g k s s1 v o s2 n : g s = (s1, v) -> direct (k v) s1 o s2 n -> direct (Eff g k) s o s2 n
| DCall f args k s o1 s1 n1 o s2 n2 :
    direct (body (number f) args) s o1 s1 n1 -> direct (k o1) s1 o s2 n2 ->
    direct (Call (Fn f) args k) s o s2 (max (S n1) n2)
| DCallData d args k s o s2 n :
    direct (k (Raise TypeError)) s o s2 n -> direct (Call (Data d) args k) s o s2 n
| DTail f args s o s1 n :
    direct (body (number f) args) s o s1 n -> direct (Jump (Fn f) args) s o s1 n.

(** No jump in this body *)
Inductive no_jump : cmd D St -> Prop :=
| NRet v : no_jump (Ret v)
| NRaise e : no_jump (RaiseExc e)
| NEff g k : (forall v, no_jump (k v)) -> no_jump (Eff g k)
| NCall t args k : (forall o, no_jump (k o)) -> no_jump (Call t args k).
(** Functions that jump are decorated, unless they are only jumped to; jumps are to functions. *)
Inductive disciplined : cmd D St -> Prop :=
| OkRet v : disciplined (Ret v)
| OkRaise e : disciplined (RaiseExc e)
| OkEff g k : (forall v, disciplined (k v)) -> disciplined (Eff g k)
| OkCallT i args k : (forall o, disciplined (k o)) -> disciplined (Call (Fn (Tramp i)) args k)
| OkCallP i args k : (forall a, no_jump (body i a)) -> (forall o, disciplined (k o)) ->
    disciplined (Call (Fn (Plain i)) args k)
| OkCallD d args k : (forall o, disciplined (k o)) -> disciplined (Call (Data d) args k)
| OkJump f args : disciplined (Jump (Fn f) args).
(** No call except in tail position *)
Inductive no_call : cmd D St -> Prop :=
| CRet v : no_call (Ret v)
| CRaise e : no_call (RaiseExc e)
| CEff g k : (forall v, no_call (k v)) -> no_call (Eff g k)
| CJump t args : no_call (Jump t args).
Definition result_of (o : outcome (val D)) : result D :=
  match o with Ok v => RVal v | Raise e => RExc e end.
End TcoSpec.
