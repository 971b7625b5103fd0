(** Model of unpythonic's type-checking partial (unpythonic/fun.py 110-176) and of how curry
    decides what to do with a generic function (fun.py 522-576), on top of the models of
    argument binding, isoftype and multiple dispatch. *)
From Coq Require Import String List Bool.
From Verif Require Import Base CollModel BindModel TypeModel DispModel.
Import ListNotations.
Open Scope list_scope.

(** What is applied: a function that may have annotations, or a generic function. *)
Inductive callee := Plain (f : fundef) | Gen (d : dispatcher).
(** A callable.  [Par c a k] is a functools.partial object; a partial of a partial is merged
    into one, which is what functools does for partial objects without attributes of their own
    (those inside curried functions are different, see CurryModel). *)
Inductive callable := Fun (c : callee) | Par (c : callee) (a : list value) (k : dict pname value).
(** Named arguments given later replace those of the same name (functools.partial; fun.py 110-176). *)
Definition merge (k1 k2 : dict pname value) : dict pname value := dict_update String.eqb k1 k2.

Section Partial.
Variable usub : nat -> cls -> bool.
Variable has_reversed : cls -> bool.
Variable truthy : value -> bool.
Variable self_class : value -> cls.
Variable mro : cls -> list cls.
Variable own : cls -> string -> option (option string).
Variable kwname : pname -> value.
Variable r : registry.

(** _get_argument_type_mismatches with skip_unannotated=True: dispatch.py 560-570; whether there
    are no mismatches *)
Fixpoint no_mismatch_skip (ts : list (pname * typ)) (b : bindings value) : outcome bool :=
  match b with
  | [] => Ok true
  | (n, v) :: b =>
      match hint ts n with
      | None => no_mismatch_skip ts b
      | Some T =>
          do x <- isoftype usub has_reversed T (bound_value kwname v);
          do y <- no_mismatch_skip ts b; Ok (x && y)
      end
  end.
(** _resolve_multimethod with _partial=True: dispatch.py 522-530 *)
Fixpoint resolve_partial (l : list mm) (args : list value) (kw : dict pname value) : outcome (option mm) :=
  match l with
  | [] => Ok None
  | m :: l =>
      match (do b <- resolve_bindings_partial (params (mm_fun m)) args kw;
             no_mismatch usub has_reversed kwname (mm_hints m) b) with
      | Ok true => Ok (Some m)
      | Ok false => resolve_partial l args kw
      | Raise TypeError => resolve_partial l args kw
      | Raise e => Raise e
      end
  end.
(** fun.py 138-145.  This is also what functools.partial.__call__ does: calling [p] with [args] and
    [kw] calls the callee with the collected arguments. *)
Definition collected (p : callable) (args : list value) (kw : dict pname value)
  : callee * list value * dict pname value :=
  match p with
  | Fun c => (c, args, kw)
  | Par c a k => (c, a ++ args, merge k kw)
  end.
(** inspect.signature of [func], for the functions that are not generic *)
Definition func_signature (f : fundef) (p : callable) : outcome (signature value) :=
  match p with
  | Fun _ => Ok (params f)
  | Par _ a k => partial_signature (params f) a k
  end.
(** fun.py 110-176.  [fhints] is what typing.get_type_hints returns.  That composing the error
    messages may itself raise (when the source code is not available) is not modelled; for a
    partial object, [inspect.getsourcefile] raises TypeError instead. *)
Definition partial (p : callable) (args : list value) (kw : dict pname value) : outcome callable :=
  let '(c, ca, ck) := collected p args kw in
  do _ <- match c with
          | Gen d =>                                                  (* 147-155 *)
              do self <- extract_self d ca;
              do x <- resolve_partial (list_multimethods truthy self_class mro own r d self) ca ck;
              match x with Some _ => Ok tt | None => Raise TypeError end
          | Plain f =>                                                (* 156-173 *)
              match fhints f with
              | [] => Ok tt
              | _ :: _ =>
                  do ps <- func_signature f p;
                  do b <- resolve_bindings_partial ps ca ck;
                  do ok <- no_mismatch_skip (fhints f) b;
                  if ok then Ok tt else Raise TypeError
              end
          end;
  Ok (Par c ca ck).                                                   (* 176 *)

(** What curry does with a generic function: fun.py 466-468 *)
Inductive gaction := GCall | GPass (later_args : list value) (later_kwargs : dict pname value) | GKeep.
(** One pass over the multimethods (fun.py 551-571): the first whose analysis satisfies [cond] and whose
    bound arguments have the right types. *)
Fixpoint first_match (cond : analysis value -> bool) (l : list mm) (args : list value) (kw : dict pname value)
  : outcome (option (analysis value)) :=
  match l with
  | [] => Ok None
  | m :: l =>
      do an <- ubind (params (mm_fun m)) args kw;
      if cond an then
        do ok <- no_mismatch usub has_reversed kwname (mm_hints m) (bound_arguments an);
        if ok then Ok (Some an) else first_match cond l args kw
      else first_match cond l args kw
  end.
(** Whether a list is empty. *)
Definition nil_b {X} (l : list X) : bool := match l with [] => true | _ :: _ => false end.
(** The arguments are exactly what the definition takes: fun.py 544-576 *)
Definition exact (an : analysis value) : bool :=
  nil_b (unbound_parameters an) && (nil_b (extra_args an) && nil_b (extra_kwargs an)).
(** There are more arguments than the definition takes: fun.py 544-576 *)
Definition surplus (an : analysis value) : bool :=
  nil_b (unbound_parameters an) && (negb (nil_b (extra_args an)) || negb (nil_b (extra_kwargs an))).
(** Some parameters are left: fun.py 544-576 *)
Definition missing (an : analysis value) : bool := negb (nil_b (unbound_parameters an)).
(** fun.py 544-576, [args] and [kw] being the collected ones *)
Definition decide_generic (d : dispatcher) (args : list value) (kw : dict pname value) : outcome gaction :=
  do self <- extract_self d args;
  let l := list_multimethods truthy self_class mro own r d self in
  do x <- first_match exact l args kw;
  match x with
  | Some _ => Ok GCall
  | None =>
      do y <- first_match surplus l args kw;
      match y with
      | Some an => Ok (GPass (extra_args an) (extra_kwargs an))
      | None =>
          do z <- first_match missing l args kw;
          match z with
          | Some _ => Ok GKeep
          | None => Raise TypeError
          end
      end
  end.
End Partial.
