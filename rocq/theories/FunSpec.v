(** Specification vocabulary for C48-C51. *)
From Coq Require Import String List Bool ZArith.
From Verif Require Import Base CollModel BindModel FunModel.
Import ListNotations.
Open Scope list_scope.

Section FunSpec.
Context {D S : Type}.
Implicit Types (f g : func D S) (v : val D).

(** An ordinary function is not curried, so what it does depends on dyn.curry_context only as
    far as it passes it on. *)
Definition plain f : Prop := curried f = false.
(** Calling [f], then each of [fs] on the result of the one before: a [Values] is unpacked to
    positional and named arguments, any other result is one positional argument. *)
Fixpoint chain (ctx : nat) f (fs : list (func D S)) (args : list (val D)) (kw : kwvals D) (s : S)
  : outcome (val D) * S :=
  match code f ctx args kw s with
  | (Raise e, s') => (Raise e, s')
  | (Ok v, s') =>
      match fs with
      | [] => (Ok v, s')
      | g :: fs' => match v with
                    | Vals a k => chain ctx g fs' a k s'
                    | Obj _ => chain ctx g fs' [v] [] s'
                    end
      end
  end.
(** The same without unpacking. *)
Fixpoint chain1 (ctx : nat) (fs : list (func D S)) v (s : S) : outcome (val D) * S :=
  match fs with
  | [] => (Ok v, s)
  | f :: fs' => match code f ctx [v] [] s with
                | (Ok v', s') => chain1 ctx fs' v' s'
                | (Raise e, s') => (Raise e, s')
                end
  end.
(** At its exit a pipe replaces a [Values] with one positional value by this value; it cannot
    do this for an empty [Values]. *)
Definition at_exit (r : outcome (val D) * S) : outcome (val D) * S :=
  match r with
  | (Ok (Vals [] []), s) => (Raise IndexError, s)
  | (Ok (Vals [x] []), s) => (Ok x, s)
  | _ => r
  end.
(** Not a [Values] with at most one value in it. *)
Definition several v : Prop :=
  match v with Vals [] [] | Vals [_] [] => False | _ => True end.

(** The behaviour of a curried function depends on dyn.curry_context only in whether it is
    empty (as that of [curry] does, fun.py 425). *)
Definition ctx_blind f : Prop :=
  forall c c' args kw s, code f (Datatypes.S c) args kw s = code f (Datatypes.S c') args kw s.

(** Two functions do the same. *)
Definition same f g : Prop := forall ctx args kw s, code f ctx args kw s = code g ctx args kw s.

(** [l] is [args] shifted cyclically by [k] places. *)
Definition shifted {A} (k : Z) (args l : list A) : Prop :=
  length l = length args /\
  forall i, (0 <= i < zlen args)%Z -> znth l i = znth args ((i + k) mod zlen args)%Z.

(** The functions of [fs] are called in order up to the first result satisfying [stop]. *)
Fixpoint call_until (stop : val D -> bool) (ctx : nat) args kw (fs : list (func D S)) (s : S)
  : outcome (list (val D)) * S :=
  match fs with
  | [] => (Ok [], s)
  | f :: fs' =>
      match code f ctx args kw s with
      | (Raise e, s') => (Raise e, s')
      | (Ok v, s') =>
          if stop v then (Ok [v], s')
          else match call_until stop ctx args kw fs' s' with
               | (Ok vs, s'') => (Ok (v :: vs), s'')
               | (Raise e, s'') => (Raise e, s'')
               end
      end
  end.

(** Two tables with the same names, and values under each name related by [R]. *)
Definition same_named (R : val D -> val D -> Prop) (k k' : kwvals D) : Prop :=
  forall n, match kget k n, kget k' n with
            | Some x, Some y => R x y
            | None, None => True
            | _, _ => False
            end.
End FunSpec.
