(** Which programs envify is right about. *)
From Coq Require Import String List Bool Arith.
From Verif Require Import Base CollModel EnvModel EvfModel.
Import ListNotations.
Open Scope string_scope.
Open Scope list_scope.

(** Does x occur in e, other than as a parameter of a lambda in it? *)
Fixpoint uses (x : string) (e : ex) : bool :=
  match e with
  | Num _ => false
  | Var y => String.eqb y x
  | Prim _ l => existsb (uses x) l
  | Call f l => uses x f || existsb (uses x) l
  | Lam ps ds b => existsb (uses x) ds || negb (mem x ps) && uses x b
  | Asg y e => String.eqb y x || uses x e
  | Comp b y l => uses x b || String.eqb y x || uses x l
  | _ => true
  end.
Fixpoint distinct (l : list string) : bool := match l with [] => true | x :: l => negb (mem x l) && distinct l end.

Section Fine.
(** the names that programs use; the macro invents others *)
Variable user : string -> bool.
(** [p] can be the name of a parameter: env has no method of this name, and none of its methods has a
    parameter of this name *)
Definition plain (p : string) : bool :=
  user p && negb (mem p class_attrs) && negb (mem p reserved_names) && negb (mem p direct_write) && negb (mem p ["self"; "cls"]).
(** [vis]: the parameters of the functions around.  A comprehension does not use such a name for its variable;
    a default value and a decorator do not mention the parameters of their function. *)
Fixpoint fine (vis : list string) (e : ex) : bool :=
  match e with
  | Num _ => true
  | Var x => user x
  | Prim _ l => forallb (fine vis) l
  | Call f l => fine vis f && forallb (fine vis) l
  | Lam ps ds b =>
      forallb plain ps && distinct ps &&
      forallb (fine (ps ++ vis)) ds && forallb (fun p => negb (existsb (uses p) ds)) ps && fine (ps ++ vis) b
  | Asg x e => user x && fine vis e
  | Comp b x l => user x && negb (mem x vis) && fine vis b && fine vis l
  | _ => false
  end.
(** A function does not have a local variable, or define a function, with the name of a parameter of a function
    around it; it may assign to such a parameter if it declares it nonlocal.  It does not define a function
    with the name of a parameter of its own. *)
Fixpoint fines (vis : list string) (s : stm) : bool :=
  match s with
  | Expr e | Return e => fine vis e
  | Assign x e => user x && fine vis e
  | If e a b => fine vis e && forallb (fines vis) a && forallb (fines vis) b
  | For x e b => user x && fine vis e && forallb (fines vis) b
  | Def f decos ps ds b =>
      user f && negb (mem f vis) && forallb plain ps && distinct ps &&
      forallb (fine (ps ++ vis)) decos && forallb (fine (ps ++ vis)) ds &&
      forallb (fun p => negb (existsb (uses p) (decos ++ ds))) ps &&
      forallb (fun x => mem x ps || negb (mem x vis)) (minus (flat_map stored b) (flat_map declared b)) &&
      forallb (fines (ps ++ vis)) b
  | Nonlocal xs => forallb user xs
  | _ => false
  end.
End Fine.
(** the returned value, for comparing: functions are opaque *)
Fixpoint seen (v : value) : value :=
  match v with VList l => VList (map seen l) | VFun _ _ _ _ => VNone | _ => v end.
