(** Specification of argument binding. *)
From Coq Require Import String List Bool.
From Verif Require Import Base CollModel BindModel.
Import ListNotations.
Open Scope list_scope.

Section Spec.
Context {V : Type}.
Notation signature := (signature V).
Notation param := (param V).

(** A signature Python can have: positional-only parameters, then ordinary ones, then at
    most one *args, then keyword-only ones, then at most one **kwargs; among the positional
    ones, no parameter without default follows one with a default; *args and **kwargs have
    no default; the names are distinct. *)
Fixpoint ordered (stage : nat) (opt : bool) (ps : signature) : bool :=
  match ps with
  | [] => true
  | p :: ps' =>
      match p_kind p with
      | PosOnly => Nat.eqb stage 0 && (negb opt || has_default p)
                   && ordered 0 (has_default p) ps'
      | PosOrKw => Nat.leb stage 1 && (negb opt || has_default p)
                   && ordered 1 (has_default p) ps'
      | VarPos => Nat.leb stage 1 && negb (has_default p) && ordered 2 false ps'
      | KwOnly => ordered 2 false ps'
      | VarKw => negb (has_default p) && match ps' with [] => true | _ :: _ => false end
      end
  end.
Definition wf_sig (ps : signature) : Prop :=
  ordered 0 false ps = true /\ NoDup (map p_name ps).

(** A dict has distinct keys. *)
Definition is_dict {A} (kw : list (pname * A)) : Prop := NoDup (map fst kw).

(** What the body of a function sees of a call: the positional arguments fill the positional
    parameters from the left, the surplus ones are *args, the other parameters have the
    argument of that name or the default, and **kwargs holds the names that no ordinary or
    keyword-only parameter has.  ([None]: the parameter has no value.) *)
Definition by_name (p : param) (kw : dict pname V) : option (bval V) :=
  match kget kw (p_name p) with
  | Some v => Some (BV v)
  | None => option_map BV (p_default p)
  end.
Definition named_params (ps : signature) : list pname :=
  map p_name (filter (fun p => kind_eqb (p_kind p) PosOrKw || kind_eqb (p_kind p) KwOnly) ps).
Fixpoint sees (all : list pname) (ps : signature) (args : list V) (kw : dict pname V)
  : list (pname * option (bval V)) :=
  match ps with
  | [] => []
  | p :: ps' =>
      match p_kind p with
      | PosOnly | PosOrKw =>
          match args with
          | a :: args' => (p_name p, Some (BV a)) :: sees all ps' args' kw
          | [] => (p_name p, by_name p kw) :: sees all ps' [] kw
          end
      | VarPos => (p_name p, Some (BTup args)) :: sees all ps' [] kw
      | KwOnly => (p_name p, by_name p kw) :: sees all ps' [] kw
      | VarKw =>
          (p_name p,
           Some (BDict (filter (fun kv => negb (existsb (String.eqb (fst kv)) all)) kw)))
          :: sees all ps' [] kw
      end
  end.
Definition body_sees (ps : signature) (args : list V) (kw : dict pname V) :=
  sees (named_params ps) ps args kw.

(** Two calls are seen alike: the same parameters have the same values, where two dicts are
    the same if they have the same items, in whatever order. *)
Definition same_value (x y : option (bval V)) : Prop :=
  match x, y with
  | Some (BDict d), Some (BDict e) => forall n, kget d n = kget e n
  | _, _ => x = y
  end.
Definition seen_alike (ps : signature) (a1 : list V) (k1 : dict pname V)
                      (a2 : list V) (k2 : dict pname V) : Prop :=
  Forall2 (fun x y => fst x = fst y /\ same_value (snd x) (snd y))
          (body_sees ps a1 k1) (body_sees ps a2 k2).

(** [f] can be called with these positional arguments. *)
Definition accepts (ps : signature) (args : list V) : Prop :=
  exists b, py_call_bind ps args [] = Ok b.
Definition no_required_kwonly (ps : signature) : Prop :=
  forall p, In p ps -> p_kind p = KwOnly -> p_default p <> None.

Definition no_var_kw (ps : signature) : Prop := forall p, In p ps -> p_kind p <> VarKw.

(** All parameters are fixed: no *args, no **kwargs, no defaults. *)
Definition fixed (ps : signature) : Prop :=
  forall p, In p ps -> p_default p = None /\
    (p_kind p = PosOnly \/ p_kind p = PosOrKw \/ p_kind p = KwOnly).
(** All parameters are positional and have no default. *)
Definition positional (ps : signature) : Prop :=
  forall p, In p ps -> p_default p = None /\ (p_kind p = PosOnly \/ p_kind p = PosOrKw).
End Spec.
