(** Model of unpythonic/excutil.py: raisef, tryf, reraise_in, reraise (30-55, 57-148, 319-416). *)
From Coq Require Import List Bool.
From Verif Require Import Base.
Import ListNotations.
Open Scope list_scope.

(** An exception instance: its type and __cause__ *)
Inductive exc := mkExc { etype : nat; ecause : option exc }.
(** A value, or an exception. *)
Inductive result (V : Type) := Val (v : V) | Exc (e : exc).
Arguments Val {V} v.
Arguments Exc {V} e.

(** Builtin exception types, by number (no code in /repo). *)
Definition TypeErrorT := 0.
(** See TypeErrorT. *)
Definition StopIterationT := 1.
(** See TypeErrorT. *)
Definition RuntimeErrorT := 2.

Section Exc.
Context {V St : Type}.
Variable none : V.
(** issubclass *)
Variable sub : nat -> nat -> bool.
(** A call of a thunk or handler: changes the state, returns or raises *)
Definition comp := St -> result V * St.

(** excutil.py 30-55: raisef(exc, cause=None) *)
Definition raisef (e : exc) (cause : option exc) : comp :=
  fun s => (Exc (match cause with Some c => mkExc (etype e) (Some c) | None => e end), s).

(** What an excspec, or an element of a tuple, may be: an exception type or something else *)
Inductive tyobj := ExcType (t : nat) | NotExcType.
(** The first item of a clause of tryf: a type or a tuple of types: excutil.py 57-148 *)
Inductive excspec := One (t : tyobj) | Tup (ts : list tyobj).
(** A handler that takes the exception, or none (excutil.py 94-100) *)
Inductive handler := H1 (h : exc -> comp) | H0 (h : comp).

(** issubclass(t, BaseException) for a type, False for other objects (Python's own). *)
Definition isexceptiontype (t : tyobj) : bool := match t with ExcType _ => true | NotExcType => false end.
(** isinstance of an exception (Python's own).  In a mapping of reraise, NotExcType stands for a class that
    is not an exception type; an object that is not a class, for which isinstance raises TypeError, is not
    modelled there. *)
Definition issub (e : exc) (t : tyobj) : bool := match t with ExcType t => sub (etype e) t | NotExcType => false end.
(** excutil.py 111-116 *)
Definition valid (sp : excspec) : bool := match sp with One t => isexceptiontype t | Tup ts => forallb isexceptiontype ts end.
(** excutil.py 128-141 *)
Definition matches (e : exc) (sp : excspec) : bool := match sp with One t => issub e t | Tup ts => existsb (issub e) ts end.
(** Calling a handler with or without the exception: excutil.py 57-148 *)
Definition call_handler (h : handler) (e : exc) : comp := match h with H1 h => h e | H0 h => h end.
(** The search for a clause that matches: excutil.py 57-148 *)
Fixpoint handle (hs : list (excspec * handler)) (e : exc) (s : St) : result V * St :=
  match hs with
  | [] => (Val none, s)                       (* the except clause ends *)
  | (sp, h) :: hs => if matches e sp then call_handler h e s else handle hs e s
  end.
(** excutil.py 118-148 *)
Definition tryf (body : comp) (hs : list (excspec * handler)) (elsef finallyf : option comp) : comp := fun s =>
  if negb (forallb (fun h => valid (fst h)) hs) then (Exc (mkExc TypeErrorT None), s)
  else
    let (r, s1) := body s in
    let (r, s2) := match r with
                   | Exc e => handle hs e s1
                   | Val v => match elsef with Some f => f s1 | None => (Val v, s1) end
                   end in
    match finallyf with
    | None => (r, s2)
    | Some f => match f s2 with
                | (Val _, s3) => (r, s3)
                | (Exc e, s3) => (Exc e, s3)
                end
    end.

(** excutil.py 396-416; the mapping's values are exception types, of which [raise] makes an instance *)
Fixpoint reraise_handler (mapping : list (excspec * nat)) (e : exc) : exc :=
  match mapping with
  | [] => e
  | (lib, app) :: mapping => if matches e lib then mkExc app (Some e) else reraise_handler mapping e
  end.
(** excutil.py 353-356 *)
Definition reraise_in (body : comp) (mapping : list (excspec * nat)) : comp := fun s =>
  match body s with
  | (Val v, s1) => (Val v, s1)
  | (Exc e, s1) => (Exc (reraise_handler mapping e), s1)
  end.
(** excutil.py 391-394, as a with block.  The handler runs in a generator: Python turns a StopIteration that
    leaves a generator into a RuntimeError, which contextlib turns back only if it is the exception
    that was thrown in. *)
Definition reraise (mapping : list (excspec * nat)) (body : comp) : comp := fun s =>
  match body s with
  | (Val v, s1) => (Val v, s1)
  | (Exc e, s1) =>
      if existsb (fun m => matches e (fst m)) mapping then
        let e' := reraise_handler mapping e in
        if sub (etype e') StopIterationT then (Exc (mkExc RuntimeErrorT (Some e')), s1) else (Exc e', s1)
      else (Exc e, s1)
  end.
End Exc.
Arguments comp : clear implicits.
Arguments handler : clear implicits.
