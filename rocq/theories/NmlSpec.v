(** What the namedlambda macro promises. *)
From Coq Require Import String List ZArith Bool Arith.
From Verif Require Import Base EnvModel NmlModel.
Import ListNotations.
Open Scope string_scope.
Open Scope list_scope.
Open Scope nat_scope.

(** Some expression in e satisfies P. *)
Section Some_in.
Variable P : ex -> bool.
Fixpoint some_in (e : ex) : bool :=
  P e ||
  match e with
  | Con _ | Var _ => false
  | Prim _ l => existsb some_in l
  | NameOf e => some_in e
  | Item e k => some_in e || some_in k
  | Lam _ ds _ b => existsb some_in ds || some_in b
  | Call f args kws => some_in f || existsb some_in args || existsb (fun kw => some_in (snd kw)) kws
  | Shl _ e | Wal _ e | NameCall _ e => some_in e
  | Let bs b => existsb (fun xe => some_in (snd xe)) bs || some_in b
  | Dict l => existsb (fun kv => match fst kv with Some k => some_in k | None => false end || some_in (snd kv)) l
  end.
Fixpoint some_ins (s : stm) : bool :=
  match s with
  | Expr e | Assign _ e | Return e => some_in e
  | If e a b => some_in e || existsb some_ins a || existsb some_ins b
  | Def _ decos _ ds b => existsb some_in decos || existsb some_in ds || existsb some_ins b
  end.
End Some_in.

(** The program does not look at the names of functions. *)
Definition is_nameof (e : ex) : bool := match e with NameOf _ => true | _ => false end.
Definition looks (p : list stm) : bool := existsb (some_ins is_nameof) p.

(** A lambda, or a call with such an argument *)
Fixpoint ends_in_lambda (t : ex) : bool :=
  match t with
  | Lam _ _ _ _ => true
  | NameCall _ a => ends_in_lambda a
  | Call _ args _ => existsb ends_in_lambda args
  | _ => false
  end.
(** A dictionary display with a lambda at a constant key that is not a string *)
Definition bad_entry (kv : option ex * ex) : bool :=
  match kv with
  | (Some (Con (CStr _)), _) => false
  | (Some (Con _), v) => ends_in_lambda v
  | _ => false
  end.
Definition bad_dict (e : ex) : bool := match e with Dict l => existsb bad_entry l | _ => false end.
Definition bad_key (p : list stm) : bool := existsb (some_ins bad_dict) p.

(** Every lambda has a name: that of the variable, argument or key that gets it, or else its place in the file. *)
Section Ideal.
Variable loc : nat -> string.
Fixpoint ideal (t : ex) : ex :=
  let named (x : string) (t : ex) :=
    match t with
    | Lam ps ds l b => NameCall (CStr x) (Lam ps (map ideal ds) l (ideal b))
    | _ => ideal t
    end in
  match t with
  | Con k => Con k
  | Var x => Var x
  | Prim o l => Prim o (map ideal l)
  | NameOf e => NameOf (ideal e)
  | Item e k => Item (ideal e) (ideal k)
  | Lam ps ds l b => NameCall (CStr (loc l)) (Lam ps (map ideal ds) l (ideal b))
  | Call f args kws =>
      Call (ideal f) (map ideal args)
        (map (fun kw => match kw with (Some x, e) => (Some x, named x e) | (None, e) => (None, ideal e) end) kws)
  | Shl x e => Shl x (named x e)
  | Wal x e => Wal x (named x e)
  | Let bs b => Let (map (fun xe => match xe with (x, e) => (x, named x e) end) bs) (ideal b)
  | Dict l =>
      Dict (map (fun kv => match kv with
                           | (Some (Con (CStr x)), e) => (Some (Con (CStr x)), named x e)
                           | (Some k, e) => (Some (ideal k), ideal e)
                           | (None, e) => (None, ideal e)
                           end) l)
  | NameCall n e => NameCall n (ideal e)
  end.
Definition named (x : string) (t : ex) : ex :=
  match t with
  | Lam ps ds l b => NameCall (CStr x) (Lam ps (map ideal ds) l (ideal b))
  | _ => ideal t
  end.
Fixpoint ideals (s : stm) : stm :=
  match s with
  | Expr e => Expr (ideal e)
  | Assign x e => Assign x (named x e)
  | Return e => Return (ideal e)
  | If e a b => If (ideal e) (map ideals a) (map ideals b)
  | Def f decos ps ds b => Def f (map ideal decos) ps (map ideal ds) (map ideals b)
  end.
End Ideal.

(** The programs whose lambdas get these names: *)
Definition is_lam (e : ex) : bool := match e with Lam _ _ _ _ => true | _ => false end.
Definition has_lambda (e : ex) : bool := some_in is_lam e.
(** what gets a name is a lambda, not a call of something with a lambda *)
Definition decorated_value (e : ex) : bool := negb (is_lam e) && ends_in_lambda e.
Definition unusual (e : ex) : bool :=
  match e with
  | NameCall _ _ => true                                            (* no names are given by hand *)
  | Var x => String.eqb x "namelambda"
  | Lam _ ds _ _ => existsb has_lambda ds                           (* no lambdas in default values *)
  | Call f _ kws => match kws with [] => false | _ => has_lambda f end  (* f(a=...): no lambdas in f *)
                    || existsb (fun kw => match fst kw with Some _ => decorated_value (snd kw) | None => false end) kws
  | Shl _ e | Wal _ e => decorated_value e
  | Let bs _ => existsb (fun xe => decorated_value (snd xe)) bs
  | Dict l => existsb (fun kv => match kv with
                                 | (Some (Con (CStr _)), e) => decorated_value e
                                 | (Some (Con _), e) => ends_in_lambda e
                                 | _ => false
                                 end) l
  | _ => false
  end.
Fixpoint unusual_value (s : stm) : bool :=
  match s with
  | Assign _ e => decorated_value e
  | If _ a b => existsb unusual_value a || existsb unusual_value b
  | Def _ _ _ _ b => existsb unusual_value b
  | _ => false
  end.
Definition usual (p : list stm) : bool := negb (existsb (fun s => some_ins unusual s || unusual_value s) p).
