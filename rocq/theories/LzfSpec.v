(** What programs under lazify should compute: call by name, and what Python itself computes. *)
From Coq Require Import String List ZArith Bool Arith.
From Verif Require Import Base LzfModel.
Import ListNotations.
Open Scope string_scope.
Open Scope list_scope.
Open Scope nat_scope.

Definition O (A : Type) := option (outcome A).
Definition obind {A B} (m : O A) (f : A -> O B) : O B :=
  match m with None => None | Some (Raise x) => Some (Raise x) | Some (Ok a) => f a end.
Definition pure {A} (a : A) : O A := Some (Ok a).
Fixpoint mapE {A B} (f : A -> O B) (l : list A) : O (list B) :=
  match l with [] => pure [] | a :: l => obind (f a) (fun b => obind (mapE f l) (fun bs => pure (b :: bs))) end.

(** Names and subscripts. *)
Definition reference (e : ex) : bool := match e with EName _ => true | ESub _ _ => true | _ => false end.
Section Spec.
Variable prim : nat -> list data -> outcome data.
Variable globals : string -> option (list string * ex).
Variable builtins : string -> option nat.

(** * Python *)
Inductive sval := SC (c : const) | ST (l : list sval) | SClo (ps : list string) (b : ex) (env : list (string * sval))
  | SBuiltin (o : nat).
Fixpoint sdata (v : sval) : data := match v with SC c => DC c | ST l => DT (map sdata l) | _ => DOther end.
Definition sname (env : list (string * sval)) (x : string) : outcome sval :=
  match assoc x env with
  | Some v => Ok v
  | None =>
      match globals x with
      | Some (ps, b) => Ok (SClo ps b [])
      | None => match builtins x with Some o => Ok (SBuiltin o) | None => Raise NameError end
      end
  end.
Fixpoint strict (k : nat) (env : list (string * sval)) (e : ex) : O sval :=
  match k with
  | 0 => None
  | S k =>
      match e with
      | EConst c => pure (SC c)
      | EName x => Some (sname env x)
      | EPrim o l => obind (mapE (strict k env) l) (fun vs => Some (apply_prim prim SC ST o (map sdata vs)))
      | EIf t a b => obind (strict k env t) (fun v => if truthy (sdata v) then strict k env a else strict k env b)
      | ELam ps b => pure (SClo ps b env)
      | ETup l => obind (mapE (strict k env) l) (fun vs => pure (ST vs))
      | ESub v i =>
          obind (strict k env v) (fun v => obind (strict k env i) (fun i =>
            match v with ST l => Some (item l (sdata i)) | _ => Some (Raise TypeError) end))
      | ELet x v b => obind (strict k env v) (fun v => strict k ((x, v) :: env) b)
      | ECall f l =>
          obind (strict k env f) (fun f =>
          obind (mapE (fun se : bool * ex =>
                   obind (strict k env (snd se)) (fun v =>
                     if fst se then match v with ST l => pure l | _ => Some (Raise TypeError) end else pure [v])) l) (fun vss =>
          let vs := concat vss in
          match f with
          | SClo ps b env' => if Nat.eqb (length ps) (length vs) then strict k (combine ps vs ++ env') b else Some (Raise TypeError)
          | SBuiltin o => Some (apply_prim prim SC ST o (map sdata vs))
          | _ => Some (Raise TypeError)
          end))
      end
  end.

(** * Call by name: an argument is an expression with its scope, evaluated where it is used *)
Inductive nval := NC (c : const) | NT (l : list susp) | NClo (ps : list string) (b : ex) (env : list (string * susp))
  | NBuiltin (o : nat)
with susp := Later (env : list (string * susp)) (e : ex) | Now (v : nval).
Definition nenv := list (string * susp).
Fixpoint ndata (v : nval) : data :=
  match v with
  | NC c => DC c
  | NT l => DT (map (fun s => match s with Now v => ndata v | Later _ _ => DOther end) l)
  | _ => DOther
  end.
Definition nname (env : nenv) (x : string) : outcome susp :=
  match assoc x env with
  | Some s => Ok s
  | None =>
      match globals x with
      | Some (ps, b) => Ok (Now (NClo ps b []))
      | None => match builtins x with Some o => Ok (Now (NBuiltin o)) | None => Raise NameError end
      end
  end.
(** An argument that is not a reference: the items of a tuple literal are arguments themselves *)
Fixpoint delay (env : nenv) (e : ex) : susp :=
  match e with ETup l => Now (NT (map (delay env) l)) | _ => Later env e end.
Inductive use := Whole | Head | Ref.
(** [Whole]: the value with all its items (the value of a name or subscript that appears by itself).
    [Head]: as much of it as is needed to look up items (the container in a subscript).
    [Ref]: what a reference (a name or a subscript) refers to, not evaluated (an argument). *)
Fixpoint name (k : nat) (u : use) (env : nenv) (e : ex) {struct k} : O susp :=
  match k with
  | 0 => None
  | S k =>
      let whole (e : ex) : O nval := obind (name k Whole env e) (fun s => match s with Now v => pure v | Later _ _ => None end) in
      let head (e : ex) : O nval := obind (name k Head env e) (fun s => match s with Now v => pure v | Later _ _ => None end) in
      let used (s : susp) : O susp :=
        match u with
        | Ref => pure s
        | Head => demand k s
        | Whole => obind (demand k s) (deep k)
        end in
      let argument (e : ex) : O susp := if reference e then name k Ref env e else pure (delay env e) in
      match e with
      | EName x => obind (Some (nname env x)) used
      | ESub v i =>
          obind (head v) (fun v => obind (whole i) (fun i =>
            match v with NT l => obind (Some (item l (ndata i))) used | _ => Some (Raise TypeError) end))
      | EConst c => pure (Now (NC c))
      | EPrim o l => obind (mapE whole l) (fun vs => obind (Some (apply_prim prim (fun c => NC c) (fun l => NT (map Now l)) o (map ndata vs))) (fun v => pure (Now v)))
      | EIf t a b => obind (whole t) (fun v => if truthy (ndata v) then name k Whole env a else name k Whole env b)
      | ELam ps b => pure (Now (NClo ps b env))
      | ETup l => obind (mapE whole l) (fun vs => pure (Now (NT (map Now vs))))
      | ELet x v b => obind (argument v) (fun s => name k Whole ((x, s) :: env) b)
      | ECall f l =>
          obind (match u with Head => head f | _ => whole f end) (fun f =>
          obind (mapE (fun se : bool * ex =>
                   let (star, e) := se in
                   if star then
                     match e with
                     | ETup l => pure (map (delay env) l)
                     | _ => obind (if reference e then head e else whole e) (fun v => match v with NT l => pure l | _ => Some (Raise TypeError) end)
                     end
                   else obind (argument e) (fun s => pure [s])) l) (fun ss =>
          let ss := concat ss in
          let values := mapE (fun s => obind (demand k s) (deep k)) ss in
          match f with
          | NClo ps b env' =>
              if Nat.eqb (length ps) (length ss) then name k Whole (combine ps ss ++ env') b else Some (Raise TypeError)
          | NBuiltin o =>                                (* strict code gets all its arguments evaluated *)
              obind values (fun vs => obind (Some (apply_prim prim (fun c => NC c) (fun l => NT (map Now l)) o
                (map (fun s => match s with Now v => ndata v | Later _ _ => DOther end) vs))) (fun v => pure (Now v)))
          | _ => obind values (fun _ => Some (Raise TypeError))
          end))
      end
  end
with demand (k : nat) (s : susp) {struct k} : O susp :=
  match k with
  | 0 => None
  | S k => match s with Now v => pure s | Later env e => name k Whole env e end
  end
with deep (k : nat) (s : susp) {struct k} : O susp :=
  match k with
  | 0 => None
  | S k =>
      match s with
      | Now (NT l) => obind (mapE (fun s => obind (demand k s) (deep k)) l) (fun l => pure (Now (NT l)))
      | _ => pure s
      end
  end.
(** The data of the value *)
Definition by_name (k : nat) (e : ex) : O data :=
  match name k Whole [] e with
  | Some (Ok (Now v)) => Some (Ok (ndata v))
  | Some (Ok (Later _ _)) => None
  | Some (Raise x) => Some (Raise x)
  | None => None
  end.
End Spec.

(** The code to which lazify gives this meaning: the container in a subscript is a name, a subscript, or a call
    of such; and a starred argument is not a name or a subscript. *)
Fixpoint container (e : ex) : bool :=
  match e with EName _ => true | ESub v _ => container v | ECall f _ => container f | _ => false end.
Fixpoint fine (e : ex) : bool :=
  match e with
  | EConst _ | EName _ => true
  | EPrim _ l | ETup l => forallb fine l
  | EIf t a b => fine t && fine a && fine b
  | ELam _ b => fine b
  | ESub v i => container v && fine v && fine i
  | ECall f l => fine f && forallb (fun se : bool * ex => (if fst se then negb (reference (snd se)) else true) && fine (snd se)) l
  | ELet _ v b => fine v && fine b
  end.
