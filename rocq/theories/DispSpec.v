(** Specification vocabulary for C52. *)
From Coq Require Import String List Bool.
From Verif Require Import Base CollModel BindModel TypeModel TypeSpec DispModel.
Import ListNotations.
Open Scope list_scope.

(** The definitions that a history of decorators has registered under a name, oldest first: those
    that are fully annotated (a first parameter named like self needs no annotation), up to and
    including the first that is registered by @typed. *)
Definition op_target (o : op) : string := match o with Generic f | Typed f => fullname f | Augment n _ => n end.
Definition op_fun (o : op) : fundef := match o with Generic f | Typed f | Augment _ f => f end.
Definition is_typed (o : op) : bool := match o with Typed _ => true | _ => false end.
Definition like_self (n : string) : bool :=
  existsb (String.eqb n) ["self"%string; "this"%string; "cls"%string; "klass"%string].
Definition annotated (f : fundef) : bool :=
  forallb (fun p => match hint (fhints f) (p_name p) with Some _ => true | None => false end
                    || match params f with p0 :: _ => String.eqb (p_name p0) (p_name p) && like_self (p_name p0) | [] => false end) (params f).
(** [known]: some decorator has already been applied to the name, so that @augment can be used *)
Fixpoint registered (n : string) (known closed : bool) (ops : list op) : list fundef :=
  match ops with
  | [] => []
  | o :: ops =>
      if String.eqb (op_target o) n then
        let usable := known || match o with Augment _ _ => false | _ => true end in
        if usable && negb closed && annotated (op_fun o)
        then op_fun o :: registered n true (is_typed o) ops
        else registered n usable closed ops
      else registered n known closed ops
  end.

Section DispSpec.
Variable usub : nat -> cls -> bool.
Variable has_reversed : cls -> bool.
Variable kwname : pname -> value.
(** A definition accepts a call: Python can bind the arguments to its parameters, and the value
    each parameter gets (also by default) has the type of its annotation. *)
Definition annotation (f : fundef) (n : pname) : typ :=
  match hint (fhints f) n with Some T => T | None => TAny end.
Definition applies (f : fundef) (args : list value) (kw : dict pname value) : Prop :=
  exists b, py_call_bind (params f) args kw = Ok b /\
    Forall (fun nv => of_type usub has_reversed (annotation f (fst nv)) (bound_value kwname (snd nv))) b.
(** The first of [l] that accepts *)
Definition first_applicable (l : list fundef) args kw (f : fundef) : Prop :=
  exists l1 l2, l = l1 ++ f :: l2 /\ applies f args kw /\ Forall (fun g => ~ applies g args kw) l1.
(** All annotations are within what isoftype supports *)
Definition checkable (f : fundef) : Prop := forall n T, hint (fhints f) n = Some T -> supported usub T.
Definition all_checkable (ops : list op) : Prop := forall o, In o ops -> checkable (op_fun o).

(** The definitions that the classes themselves have under a name, class by class in the order
    given, in each class the most recent first *)
Variable mro : cls -> list cls.
Variable own : cls -> string -> option (option string).
Definition in_mro_order (ops : list op) (name : string) (l : list cls) : list fundef :=
  flat_map (fun c => match own c name with Some (Some fn) => rev (registered fn false false ops) | _ => [] end) l.
(** What a base class inherits under a name, if anything, is the next definition in the MRO of the
    class.  This is so with single inheritance, and with mixins that do not inherit the method. *)
Definition inherits_next (c : cls) (name : string) : Prop :=
  forall l1 b l2, mro c = l1 ++ b :: l2 ->
    (exists l, mro b = b :: l) /\
    (lookup own name (mro b) = None \/ lookup own name (mro b) = lookup own name (b :: l2)).
End DispSpec.
