(** Specification of currying. *)
From Coq Require Import String List Bool.
From Verif Require Import Base CollModel BindModel BindSpec CurryModel.
Import ListNotations.
Open Scope list_scope.

Section Spec.
Context {D : Type}.
(** All the positional and all the named arguments of a sequence of steps. *)
Definition all_args (ss : list (step D)) : list (val D) := flat_map fst ss.
Definition all_kws (ss : list (step D)) : list (pname * val D) := flat_map snd ss.

(** [f] called with the positional arguments [vs], one for each parameter *)
Definition given (ps : signature (val D)) (vs : list (val D)) : bindings (val D) :=
  combine (map p_name ps) (map BV vs).
End Spec.
