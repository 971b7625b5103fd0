From Coq Require Import String List Bool.
From Verif Require Import Base CollModel BindModel TypeModel TypeSpec DispModel DispSpec LmtModel.
Import ListNotations.
Open Scope list_scope.

(** The decorator can be applied: the definition is annotated, nothing with that name was made by @typed before (with success), and @augment is
    given a generic function. *)
Definition acceptable (ops : list op) (o : op) : Prop :=
  annotated (op_fun o) = true /\
  (forall f, In (Typed f) ops -> fullname f = op_target o -> annotated f = false) /\
  match o with Augment n _ => exists f, fullname f = n /\ (In (Generic f) ops \/ In (Typed f) ops) | _ => True end.
(** The first parameter of the function that made the dispatcher is named like self. *)
Definition takes_self (d : dispatcher) : Prop := exists n, first_positional (params (wrapped d)) = Some n /\ like_self n = true.
(** How a handle is to be used: bound methods have a self parameter, functions do not. *)
Definition fits (d : dispatcher) (h : handle) : Prop := match h with Plain _ => ~ takes_self d | Bound _ _ => takes_self d end.
