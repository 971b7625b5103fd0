(** Specification for C56, C57. *)
From Coq Require Import List.
From Verif Require Import Base ExcModel.
Import ListNotations.
Open Scope list_scope.

Section ExcSpec.
Context {V St : Type}.
Variable sub : nat -> nat -> bool.

(** The exception types of an excspec *)
Definition types (sp : excspec) : list tyobj := match sp with One t => [t] | Tup ts => ts end.
Definition catches (sp : excspec) (e : exc) : Prop := exists t, In (ExcType t) (types sp) /\ sub (etype e) t = true.
Definition all_types (sp : excspec) : Prop := forall t, In t (types sp) -> t <> NotExcType.

(** [first_catch l e x]: [x] belongs to the first entry that catches [e] *)
Definition first_catch {X} (l : list (excspec * X)) (e : exc) (x : X) : Prop :=
  exists l1 sp l2, l = l1 ++ (sp, x) :: l2 /\ catches sp e /\ Forall (fun y => ~ catches (fst y) e) l1.
Definition uncaught {X} (l : list (excspec * X)) (e : exc) : Prop := Forall (fun y => ~ catches (fst y) e) l.

(** Python's statement: try: body  except specs: handlers  else: elsef  finally: finallyf *)
Inductive try_part (body : comp V St) (hs : list (excspec * handler V St)) (elsef : option (comp V St)) (s : St) : result V -> St -> Prop :=
| TryReturns v s1 : body s = (Val v, s1) -> elsef = None -> try_part body hs elsef s (Val v) s1
| TryElse v s1 f r s2 : body s = (Val v, s1) -> elsef = Some f -> f s1 = (r, s2) -> try_part body hs elsef s r s2
| TryExcept e s1 h r s2 : body s = (Exc e, s1) -> first_catch hs e h -> call_handler h e s1 = (r, s2) ->
    try_part body hs elsef s r s2
| TryPropagates e s1 : body s = (Exc e, s1) -> uncaught hs e -> try_part body hs elsef s (Exc e) s1.
Definition finally_part (finallyf : option (comp V St)) (r : result V) (s : St) (r' : result V) (s' : St) : Prop :=
  match finallyf with
  | None => r' = r /\ s' = s
  | Some f => exists x, f s = (x, s') /\ r' = match x with Val _ => r | Exc e => Exc e end
  end.
End ExcSpec.
