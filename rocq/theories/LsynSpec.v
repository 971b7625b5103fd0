(** What let_syntax is to do: put things in place of names, all at once, and once. *)
From Coq Require Import String List Bool Arith.
From Verif Require Import Base LsynModel.
Import ListNotations.
Open Scope string_scope.
Open Scope list_scope.
Open Scope nat_scope.

Fixpoint assoc {A} (x : string) (s : list (string * A)) : option A :=
  match s with [] => None | (y, a) :: s => if String.eqb y x then Some a else assoc x s end.

(** Simultaneous substitution.  What stands for another name also renames identifiers ("renaming via
    let_syntax also affects attributes", "names of class and function definitions"). *)
Definition ren (s : list (string * expr)) (i : string) : string :=
  match assoc i s with Some (Name y) => y | _ => i end.
Fixpoint inst (s : list (string * expr)) (e : expr) : expr :=
  match e with
  | Name y => match assoc y s with Some w => w | None => e end
  | Call g l => Call (inst s g) (map (inst s) l)
  | Sub g l => Sub (inst s g) (map (inst s) l)
  | Node k i l => Node k (map (ren s) i) (map (inst s) l)
  end.
Fixpoint inst_s (s : list (string * expr)) (t : stmt) : stmt :=
  match t with
  | SExpr e => SExpr (inst s e)
  | SSimple k i l => SSimple k (map (ren s) i) (map (inst s) l)
  | SComp k i l b o => SComp k (map (ren s) i) (map (inst s) l) (map (inst_s s) b) (map (inst_s s) o)
  | SDecl m ps x b => SDecl m (option_map (map (inst s)) ps) (option_map (inst s) x) (map (inst_s s) b)
  end.
Definition inst_v (s : list (string * expr)) (v : value) : value :=
  match v with VExpr e => VExpr (inst s e) | VBlock b => VBlock (map (inst_s s) b) end.

(** [x] is the name of a variable in [e] *)
Fixpoint occurs (x : string) (e : expr) : bool :=
  match e with
  | Name y => String.eqb y x
  | Call g l | Sub g l => occurs x g || existsb (occurs x) l
  | Node _ _ l => existsb (occurs x) l
  end.
(** ... or any identifier *)
Fixpoint mentions (x : string) (e : expr) : bool :=
  match e with
  | Name y => String.eqb y x
  | Call g l | Sub g l => mentions x g || existsb (mentions x) l
  | Node _ i l => mems x i || existsb (mentions x) l
  end.
(** [x] is the name of a variable in a proper part of [e] *)
Definition inside (x : string) (e : expr) : bool := match e with Name _ => false | _ => occurs x e end.
Fixpoint mentions_s (x : string) (t : stmt) : bool :=
  match t with
  | SExpr e => mentions x e
  | SSimple _ i l => mems x i || existsb (mentions x) l
  | SComp _ i l b o => mems x i || existsb (mentions x) l || existsb (mentions_s x) b || existsb (mentions_s x) o
  | SDecl _ ps n b =>
      match ps with Some l => existsb (mentions x) l | None => false end ||
      match n with Some e => mentions x e | None => false end ||
      existsb (mentions_s x) b
  end.
Definition mentions_v (x : string) (v : value) : bool :=
  match v with VExpr e => mentions x e | VBlock b => existsb (mentions_s x) b end.

(** The arguments of a template do not get in each other's way: a parameter is not part of its argument,
    and the later parameters have other names and are not mentioned in it. *)
Fixpoint noclash (ps : list string) (args : list expr) : Prop :=
  match ps, args with
  | p :: ps, a :: args =>
      inside p a = false /\ (forall q, In q ps -> mentions q a = false /\ q <> p) /\ noclash ps args
  | _, _ => True
  end.

(** [m] ends with [r], and with nothing else, however long it may run *)
Definition ends {A} (m : nat -> res A) (r : res A) : Prop := exists N, forall n, N <= n -> m n = r.

(** A template: every use is replaced, also those in the arguments of others. *)
Fixpoint texp (f : string) (ps : list string) (w : expr) (e : expr) : expr :=
  match e with
  | Name _ => e
  | Sub (Name g) l =>
      let l := map (texp f ps w) l in
      if String.eqb g f then inst (combine ps l) w else Sub (Name g) l
  | Call (Name g) l =>
      let l := map (texp f ps w) l in
      if String.eqb g f then inst (combine ps l) w else Call (Name g) l
  | Sub g l => Sub (texp f ps w g) (map (texp f ps w) l)
  | Call g l => Call (texp f ps w g) (map (texp f ps w) l)
  | Node k i l => Node k i (map (texp f ps w) l)
  end.
(** [f] is only used as f[...] or f(...), with [n] arguments *)
Fixpoint proper (f : string) (n : nat) (e : expr) : bool :=
  match e with
  | Name y => negb (String.eqb y f)
  | Sub (Name g) l | Call (Name g) l =>
      (if String.eqb g f then length l =? n else true) && forallb (proper f n) l
  | Sub g l | Call g l => proper f n g && forallb (proper f n) l
  | Node _ _ l => forallb (proper f n) l
  end.

(** Expression mode: first the templates, then the names, each in the order they are written *)
Inductive binding := BName (x : string) (w : expr) | BTemp (f : string) (ps : list string) (w : expr).
Definition written (b : binding) : expr * expr :=        (* lhs << rhs *)
  match b with BName x w => (Name x, w) | BTemp f ps w => (Sub (Name f) (map Name ps), w) end.
Definition bound_name (b : binding) : string := match b with BName x _ => x | BTemp f _ _ => f end.
Fixpoint by_templates (bs : list binding) (e : expr) : expr :=
  match bs with
  | [] => e
  | BTemp f ps w :: bs => by_templates bs (texp f ps w e)
  | BName _ _ :: bs => by_templates bs e
  end.
Fixpoint by_names (bs : list binding) (e : expr) : expr :=
  match bs with
  | [] => e
  | BName x w :: bs => by_names bs (inst [(x, w)] e)
  | BTemp _ _ _ :: bs => by_names bs e
  end.
(** A template that can be used on [e]: it has parameters, and is used with that many arguments; it is not
    recursive, and not just one of its parameters; the parameters have names that are not in [e] *)
Definition usable (f : string) (ps : list string) (w e : expr) : Prop :=
  ps <> [] /\ NoDup ps /\ occurs f w = false /\ (forall p, In p ps -> w <> Name p) /\
  proper f (length ps) e = true /\ (forall p, In p ps -> mentions p e = false).
Fixpoint all_usable (bs : list binding) (e : expr) : Prop :=
  match bs with
  | [] => True
  | BTemp f ps w :: bs => usable f ps w e /\ all_usable bs (texp f ps w e)
  | BName x w :: bs => inside x w = false /\ all_usable bs e
  end.

(** Block mode, with definitions of expressions and blocks without parameters.  A definition holds from the
    next statement on.  A block's statements come where its name stands. *)
Definition exprs (s : list (string * value)) : list (string * expr) :=
  flat_map (fun xv => match snd xv with VExpr e => [(fst xv, e)] | VBlock _ => [] end) s.
Fixpoint place (s : list (string * value)) (t : stmt) : list stmt :=
  match t with
  | SExpr (Name y) =>
      match assoc y s with
      | Some (VBlock b) => b
      | Some (VExpr w) => [SExpr w]
      | None => [t]
      end
  | SExpr e => [SExpr (inst (exprs s) e)]
  | SSimple k i l => [SSimple k (map (ren (exprs s)) i) (map (inst (exprs s)) l)]
  | SComp k i l b o =>
      [SComp k (map (ren (exprs s)) i) (map (inst (exprs s)) l) (flat_map (place s) b) (flat_map (place s) o)]
  | SDecl _ _ _ _ => []
  end.
Definition defines (t : stmt) : option (string * value) :=
  match t with
  | SDecl true None (Some (Name x)) b => Some (x, VBlock b)
  | SDecl false None (Some (Name x)) [SExpr e] => Some (x, VExpr e)
  | _ => None
  end.
Fixpoint blocks (s : list (string * value)) (body : list stmt) : list stmt :=
  match body with
  | [] => []
  | t :: body =>
      match defines t with
      | Some d => blocks (s ++ [d]) body
      | None => place s t ++ blocks s body
      end
  end.

(** Code as the theorem about block mode wants it: no definitions inside statements, and the names of blocks,
    [bn], stand only as statements. *)
Definition no_block (bn : list string) (e : expr) : bool := forallb (fun x => negb (occurs x e)) bn.
Fixpoint plain (bn : list string) (t : stmt) : bool :=
  match t with
  | SExpr (Name _) => true
  | SExpr e => no_block bn e
  | SSimple _ _ l => forallb (no_block bn) l
  | SComp _ _ l b o => forallb (no_block bn) l && forallb (plain bn) b && forallb (plain bn) o
  | SDecl _ _ _ _ => false
  end.
Definition names_of (l : list (string * value)) : list string := map fst l.
Definition definitions (body : list stmt) : list (string * value) :=
  flat_map (fun t => match defines t with Some d => [d] | None => [] end) body.
Definition block_names (l : list (string * value)) : list string :=
  flat_map (fun xv => match snd xv with VBlock _ => [fst xv] | VExpr _ => [] end) l.
(** every statement is a definition or plain; no defined name is defined twice or mentioned in a definition;
    what is defined is plain, too *)
Definition tidy (body : list stmt) : Prop :=
  let ds := definitions body in
  NoDup (names_of ds) /\
  (forall t, In t body -> defines t = None -> plain (block_names ds) t = true) /\
  (forall x v, In (x, v) ds ->
     (forall y, In y (names_of ds) -> mentions_v y v = false) /\
     match v with VBlock b => forallb (plain (block_names ds)) b = true | VExpr _ => True end).

(** no test of an if is one of the constants 1, True, 0, False, None *)
Definition constant_test (k : string) (l : list expr) : bool :=
  String.eqb k "if" &&
  match l with
  | [Node c [] []] => existsb (String.eqb c) ["1"; "True"; "0"; "False"; "None"]
  | _ => false
  end.
Fixpoint no_ifone (t : stmt) : bool :=
  match t with
  | SComp k _ l b o =>
      negb (constant_test k l) && forallb no_ifone b && forallb no_ifone o
  | SDecl _ _ _ b => forallb no_ifone b
  | _ => true
  end.
