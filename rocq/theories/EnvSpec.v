(** Specification side for env, let, do: which operations concern which names. *)
From Coq Require Import List Bool String.
From Verif Require Import Base CollModel EnvModel.
Import ListNotations.
Open Scope string_scope.

(** The two internal attributes of env objects, and the names that users cannot assign to (features.md, env). *)
Definition internal : list name := ["_env"; "_finalized"].
Definition reserved : list name :=
  ["set"; "clear"; "finalize"; "_env"; "_finalized"; "_direct_write"; "_reserved_names"].

Section Spec.
Context {V : Type}.
(** The value bound to a name. *)
Definition bound (e : envst V) (n : name) : option V := dict_get String.eqb (binds e) n.
Definition names (e : envst V) : list name := map fst (binds e).
(** The operation does not write the two internal attributes. *)
Definition public (o : eop V) : Prop :=
  match o with ESetattr n _ | ESet n _ => ~ In n internal | _ => True end.
Definition is_exit (o : eop V) : bool := match o with EExit => true | _ => false end.
(** The operation may change or remove the binding of [n]. *)
Definition touches (n : name) (o : eop V) : Prop :=
  match o with
  | ESetattr n' _ | EDel n' | EPop n' _ | ESetdefault n' _ | ESet n' _ => n' = n
  | EUpdate ms b => In n (map fst (flat_map pairs_of ms ++ b))
  | EPopitem | EClear | EExit => True
  | EGet _ | EGetDefault _ _ | EContains _ | EFinalize => False
  end.
(** For assignonce: explicit rebinding or removal of [n], or a bulk update of it. *)
Definition touches_once (n : name) (o : eop V) : Prop :=
  match o with
  | EDel n' | EPop n' _ | ESet n' _ => n' = n
  | EUpdate ms b => In n (map fst (flat_map pairs_of ms ++ b))
  | EPopitem | EClear | EExit => True
  | ESetattr _ _ | ESetdefault _ _ | EGet _ | EGetDefault _ _ | EContains _ | EFinalize => False
  end.
(** [e.n = v] is acceptable: not reserved, an identifier, and not new if e is finalized. *)
Definition can_assign (isid : name -> bool) (e : envst V) (n : name) : Prop :=
  ~ In n reserved /\ isid n = true /\ (finalized e = false \/ bound e n <> None).
Definition validname (isid : name -> bool) (n : name) : Prop := isid n = true /\ ~ In n reserved.
(** Everything except update and setdefault. *)
Definition checked (o : eop V) : Prop := match o with EUpdate _ _ | ESetdefault _ _ => False | _ => public o end.
(** An initializer that only reads the env. *)
Definition reads_only (i : init V) : Prop :=
  match callable i with Some (_, f) => forall e, snd (f e) = e | None => True end.
(** An item of a do that neither fails nor touches the env's name [n]. *)
Definition leaves_alone (isid : name -> bool) (de : envst V -> name -> V -> envst V) (n : name) (it : item V) : Prop :=
  forall e, (exists v, fst (do_item isid de e it) = Ok v) /\ bound (snd (do_item isid de e it)) n = bound e n.
End Spec.

(** Bodies run one after the other; stops at the first exception. *)
Fixpoint sequence {V S} (s : S) (bs : list (S -> outcome V * S)) : outcome (list V) * S :=
  match bs with
  | [] => (Ok [], s)
  | b :: bs' => match b s with
                | (Ok v, s1) => match sequence s1 bs' with
                                | (Ok vs, s2) => (Ok (v :: vs), s2)
                                | r => r
                                end
                | (Raise x, s1) => (Raise x, s1)
                end
  end.
