(** Specification vocabulary for the type-checking partial and for currying generic functions. *)
From Coq Require Import String List Bool.
From Verif Require Import Base CollModel BindModel BindSpec TypeModel TypeSpec DispModel DispSpec.
Import ListNotations.
Open Scope list_scope.

(** No *args and no **kwargs *)
Definition no_varargs (ps : signature value) : Prop :=
  forall p, In p ps -> p_kind p <> VarPos /\ p_kind p <> VarKw.
(** Only parameters that can be passed by position *)
Definition all_positional (ps : signature value) : Prop :=
  forall p, In p ps -> p_kind p = PosOnly \/ p_kind p = PosOrKw.

(** A call of [f] can begin with these arguments: with some more arguments, Python accepts them. *)
Definition can_begin (f : fundef) (args : list value) (kw : dict pname value) : Prop :=
  exists args' kw' b, is_dict (kw ++ kw') /\
    py_call_bind (params f) (args ++ args') (kw ++ kw') = Ok b.
(** The arguments give parameter [n] the value [v], by position or by name. *)
Definition given (f : fundef) (args : list value) (kw : dict pname value) (n : pname) (v : value) : Prop :=
  (exists i p, nth_error (params f) i = Some p /\ nth_error args i = Some v /\ p_name p = n) \/
  kget kw n = Some v.

Section PartSpec.
Variable usub : nat -> cls -> bool.
Variable has_reversed : cls -> bool.
(** A type-correct beginning: moreover, each value has the type of the annotation, if any. *)
Definition good_start (f : fundef) (args : list value) (kw : dict pname value) : Prop :=
  can_begin f args kw /\
  forall n v T, given f args kw n v -> hint (fhints f) n = Some T -> of_type usub has_reversed T v.
(** The defaults have the types of the annotations. *)
Definition defaults_ok (f : fundef) : Prop :=
  forall p v T, In p (params f) -> p_default p = Some v -> hint (fhints f) (p_name p) = Some T ->
  of_type usub has_reversed T v.
(** The functions considered: Python's rules for signatures, no *args or **kwargs, annotations
    that isoftype supports, defaults of the right types. *)
Definition regular (f : fundef) : Prop :=
  wf_sig (params f) /\ no_varargs (params f) /\ checkable usub f /\ defaults_ok f.
(** [f] accepts the first of these arguments, as many as it has parameters, and there are more. *)
Definition takes_some (kwname : pname -> value) (f : fundef) (args : list value) : Prop :=
  length (params f) < length args /\ applies usub has_reversed kwname f (firstn (length (params f)) args) [].
(** The first in the list of which this is so *)
Definition first_taker (kwname : pname -> value) (l : list fundef) (args : list value) (f : fundef) : Prop :=
  exists l1 l2, l = l1 ++ f :: l2 /\ takes_some kwname f args /\ forall g, In g l1 -> ~ takes_some kwname g args.
End PartSpec.
