(** Specification vocabulary for C41-C45 and C72. *)
From Coq Require Import String List Arith.
From Verif Require Import Base CondModel.
Import ListNotations.
Open Scope list_scope.

Section CondSpec.
Context {V St : Type}.
Variable none : V.
Variable sub : nat -> nat -> bool.
Variable print_warning : cond -> St -> St.

(** The program ends with this result in this state. *)
Definition runs (p : prog V St) (s : st V St) (r : res V) (s' : st V St) : Prop :=
  exists fuel, exec none sub fuel (Run p) s = Some (r, s').

(** The handlers that match a condition, innermost block first, in a block in the order given *)
Definition matching (c : cond) (blocks : list (hblock V St)) : list (cond -> prog V St) :=
  map snd (filter (fun th => existsb (sub (ctype c)) (fst th)) (concat blocks)).
Definition is_value (r : res V) : Prop := exists v, r = RVal v.

(** [offers c l s r s']: the handlers [l] are called one after the other with [c], the first in the
    state of the signaller, until one does not return; [r] is how that one left, or the plain
    return of signal() if all return. *)
Inductive offers (c : cond) : list (cond -> prog V St) -> st V St -> res V -> st V St -> Prop :=
| OfNone s : offers c [] s (RVal none) s
| OfDecline h l s v s1 r s' : runs (h c) s (RVal v) s1 -> offers c l s1 r s' -> offers c (h :: l) s r s'
| OfTake h l s r s' : runs (h c) s r s' -> ~ is_value r -> offers c (h :: l) s r s'.

(** Programs that do not use the condition system's handlers: no [with handlers], no signal *)
Inductive quiet : prog V St -> Prop :=
| QRet v : quiet (Ret v)
| QRaise e : quiet (RaiseP e)
| QEff g : quiet (Eff g)
| QBound b n a : quiet (InvokeBound b n a)
| QFind n k : (forall x, quiet (k x)) -> quiet (FindRestart n k)
| QTry p h : quiet p -> (forall e, quiet (h e)) -> quiet (Try p h)
| QFinally p q : quiet p -> quiet q -> quiet (Finally p q)
| QBind p k : quiet p -> (forall v, quiet (k v)) -> quiet (Bind p k).

(** The blocks around a point of a program *)
Inductive frame :=
| FHandlers (b : hblock V St)
| FRestarts (b : rblock V St)
| FTry (h : exn -> prog V St)
| FBind (k : V -> prog V St).
Definition wrap (f : frame) (p : prog V St) : prog V St :=
  match f with
  | FHandlers b => WithHandlers b p
  | FRestarts b => WithRestarts b p
  | FTry h => Try p h
  | FBind k => Bind p k
  end.
(** [inside k p]: the blocks [k], outermost first, around [p] *)
Definition inside (k : list frame) (p : prog V St) : prog V St := fold_right wrap p k.
(** The state in which [p] starts when [inside k p] starts in [s] *)
Definition enter1 (s : st V St) (f : frame) : st V St :=
  match f with FHandlers b => push_h b s | FRestarts b => push_r b s | _ => s end.
Definition enter (k : list frame) (s : st V St) : st V St := fold_left enter1 k s.
Definition handler_blocks (k : list frame) : nat :=
  length (filter (fun f => match f with FHandlers _ => true | _ => false end) k).
(** How a restarts block ends, if the restart's function ends so: just like that, but for StopIteration *)
Definition restart_result (r r' : res V) : Prop := (r = RExc StopIterationE /\ r' = RExc RuntimeError) \/ (r <> RExc StopIterationE /\ r' = r).
(** Everything but the two stacks *)
Definition same_rest (s s' : st V St) : Prop := blocks s' = blocks s /\ usr s' = usr s.
End CondSpec.
Arguments frame : clear implicits.
