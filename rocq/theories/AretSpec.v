(** What `with autoreturn` is to do, said without reference to how it is done.  A program is run in two
    ways: as it stands, by a Python in which a function whose body is completed without a `return`
    returns the value that the body ended in ([module] with [implicit] = true), and rewritten, by Python
    as it is ([implicit] = false). *)
From Coq Require Import String List.
From Verif Require Import Base PyModel.
Import ListNotations.
Open Scope list_scope.

(** Two heaps that agree in everything but the code of the functions *)
Definition same_but_code {W} (h h' : heap W) : Prop :=
  frames h = frames h' /\ objs h = objs h' /\ world h = world h' /\
  map (fun f => (ftramp f, fparams f, fenv f)) (funs h) = map (fun f => (ftramp f, fparams f, fenv f)) (funs h').
(** Two runs that do the same: both end, in the same way, or neither does within the fuel *)
Definition same_run {W A} (r r' : option (A * heap W)) : Prop :=
  match r, r' with
  | Some (a, h), Some (a', h') => a = a' /\ same_but_code h h'
  | None, None => True
  | _, _ => False
  end.
