(** Model of the macros cond and aif (unpythonic/syntax/ifexprs.py 22-143), of multiple expressions in
    brackets (letdo.py 939-956) and of multilambda (lambdatools.py 246-257), as what they make of a program:
    a program with let and do only, in the language of MletModel, where `XDo true` is the do of
    [_implicit_do].
    Simplified: the expander expands these macros one by one, and let and do in between; here all of these
    are expanded before any let and do.  This makes no difference as long as no variable of a let or do is
    called `it`: the brackets are lists of expressions for the macros that see them unexpanded (do and let
    around them), just like the arguments of a do.  Programs that assign to `it`, or declare it, are rejected
    here. *)
From Coq Require Import String List ZArith Bool Arith.
From Verif Require Import Base MletModel.
Import ListNotations.
Open Scope string_scope.
Open Scope list_scope.
Open Scope nat_scope.

(** The source language: expressions with let, do, cond and aif (those that the macros can occur in). *)
Inductive sx :=
| SConst (v : value)
| SVar (x : string)                           (* also `it` *)
| SPrim (o : nat) (l : list sx)
| SCall (f : sx) (l : list sx)
| SIf (t a b : sx)
| SLam (ps : list string) (b : sx)
| SAsgn (x : string) (v : sx)
| SLocal (a : sx)
| SDelete (a : sx)
| SLet (m : mode) (bs : list sx) (b : sx)
| SDo (l : list sx)                           (* do[l] *)
| SBr (l : list sx)                           (* [l], a list or multiple expressions *)
| SCond (t a : sx) (l : list sx)              (* cond[t, a, ...l]; a cond of just an otherwise part is left out *)
| SAif (t a b : sx).                          (* aif[t, a, b] *)

(** the operator that makes a list of its arguments *)
Definition oplist : nat := 9.
(** The name that aif binds: ifexprs.py 60-81 *)
Definition is_it (x : string) : bool := String.eqb x "it".

(** [multi]: is this inside `with multilambda`?  [inside]: is this in the then or otherwise part of an aif?
    (ifexprs.py 60-75: the expansion of the `it`s there; 95-96: elsewhere it is an error.)  [seq]: does
    [_implicit_do] see this (letdo.py 956)? *)
Fixpoint lower (multi inside seq : bool) (t : sx) {struct t} : outcome ex :=
  let go := lower multi inside in
  let lowers := fix lowers (l : list sx) : outcome (list ex) :=
    match l with
    | [] => Ok []
    | t :: l => do t' <- go false t ; do l' <- lowers l ; Ok (t' :: l')
    end in
  match t with
  | SConst v => Ok (XConst v)
  | SVar x => if is_it x && negb inside then Raise SyntaxError else Ok (XVar x)
  | SPrim o l => do l' <- lowers l ; Ok (XPrim o l')
  | SCall f l => do f' <- go false f ; do l' <- lowers l ; Ok (XCall f' l')
  | SIf a b c => do a' <- go false a ; do b' <- go false b ; do c' <- go false c ; Ok (XIf a' b' c')
  | SLam ps b => do b' <- go multi b ; Ok (XLam ps b')            (* lambdatools.py 251-253 *)
  | SAsgn x v => if is_it x then Raise SyntaxError else do v' <- go false v ; Ok (XAsgn x v')
  | SLocal a => do a' <- go false a ; Ok (XLocal a')
  | SDelete a => do a' <- go false a ; Ok (XDelete a')
  | SLet m bs b => do bs' <- lowers bs ; do b' <- go true b ; Ok (XLet m bs' b')   (* letdo.py 383 *)
  | SDo l => do l' <- lowers l ; Ok (XDo false l')
  | SBr l => do l' <- lowers l ; Ok (if seq then XDo true l' else XPrim oplist l')
  | SCond t a l =>                                                (* ifexprs.py 131-143 *)
      do t' <- go true t ;
      do a' <- go true a ;
      do m <- (fix build (l : list sx) : outcome ex :=
         match l with
         | [] => Raise SyntaxError
         | [t] => go true t
         | t :: a :: more => do t' <- go true t ; do a' <- go true a ; do m <- build more ; Ok (XIf t' a' m)
         end) l ;
      Ok (XIf t' a' m)
  | SAif t a b =>                                                 (* ifexprs.py 60-81 *)
      do t' <- go true t ;
      do a' <- lower multi true true a ;
      do b' <- lower multi true true b ;
      Ok (XLet MLet [XAsgn "it" t'] (XIf (XVar "it") a' b'))
  end.
