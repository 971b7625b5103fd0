(** Which names a statement binds, deletes and declares in the scope it is in: the Python reference,
    sections 4.2.1, 6.2.4, 6.12, 7.11, 8.4, 8.6. *)
From Coq Require Import String Ascii List Bool Arith.
From Verif Require Import Base StoModel.
Import ListNotations.
Open Scope string_scope.
Open Scope list_scope.

(** The part of a dotted name before the first dot *)
Fixpoint before_dot (x : string) : string :=
  match x with
  | EmptyString => EmptyString
  | String c x => if Ascii.eqb c "." then EmptyString else String c (before_dot x)
  end.
(** import a.b binds a; import a.b as c binds c; from m import x as y binds y.  (from m import [*] is left
    out: it binds no name that can be seen in the program.) *)
Definition imported (from : bool) (n : string * option string) : string :=
  match n with
  | (_, Some a) => a
  | (x, None) => if from then x else before_dot x
  end.
(** The parts of a tree that are evaluated in the scope around it *)
Definition parts (t : tree) : list tree :=
  match t with
  | Node _ l => l
  | Lam _ o _ => o
  | Def _ _ o _ => o
  | Class _ bs o _ => bs ++ o
  | Comp _ f _ => [f]
  end.
(** x := v in a comprehension binds x in the scope around the comprehension: [walrus x t], x := v is in [t],
    in comprehensions or not, but not in a lambda. *)
Inductive walrus (x : string) : tree -> Prop :=
| w_here l v : walrus x (Node KWalrus (Node (KName Store x) l :: v))
| w_part t u : In u (parts t) -> walrus x u -> walrus x t
| w_comp ts f r u : In u r -> walrus x u -> walrus x (Comp ts f r).
Inductive binds (x : string) : tree -> Prop :=
| b_name l : binds x (Node (KName Store x) l)
| b_import from ns n l : In n ns -> x = imported from n -> binds x (Node (KImport from ns) l)
| b_except hs l : In (Some x) hs -> binds x (Node (KTry hs) l)
| b_as l : binds x (Node (KMatchAs (Some x)) l)
| b_star l : binds x (Node (KMatchStar (Some x)) l)
| b_rest l : binds x (Node (KMatchMapping (Some x)) l)
| b_def a o b : binds x (Def x a o b)
| b_class bs o b : binds x (Class x bs o b)
| b_part t u : In u (parts t) -> binds x u -> binds x t
| b_comp ts f r u : In u r -> walrus x u -> binds x (Comp ts f r).
Inductive deletes (x : string) : tree -> Prop :=
| d_name l : deletes x (Node (KName Del x) l)
| d_except hs l : In (Some x) hs -> deletes x (Node (KTry hs) l)     (* at the end of the handler *)
| d_part t u : In u (parts t) -> deletes x u -> deletes x t.
Inductive declares (x : string) : tree -> Prop :=
| g_global ns l : In x ns -> declares x (Node (KGlobal ns) l)
| g_nonlocal ns l : In x ns -> declares x (Node (KNonlocal ns) l)
| g_part k l u : In u l -> declares x u -> declares x (Node k l).
Definition parameter (x : string) (a : arguments) : Prop :=
  In x (posonly a) \/ In x (plain a) \/ In x (kwonly a) \/ vararg a = Some x \/ kwarg a = Some x.

(** [within P t]: P for all the nodes of [t] that are not inside a scope of its own *)
Inductive within (P : tree -> Prop) : tree -> Prop :=
| at_node k l : P (Node k l) -> Forall (within P) l -> within P (Node k l)
| at_scope t : (forall k l, t <> Node k l) -> P t -> within P t.
(** Names are imported without dots *)
Definition no_dots (t : tree) : Prop :=
  match t with
  | Node (KImport false ns) _ => forall n, In n ns -> snd n = None -> before_dot (fst n) = fst n
  | _ => True
  end.
(** No patterns for mappings or classes *)
Definition no_patterns (t : tree) : Prop :=
  match t with Node (KMatchMapping _) _ | Node KMatchClass _ => False | _ => True end.
(** No names are bound in what belongs to a scope but is evaluated around it, or by := in a comprehension *)
Definition no_outer (t : tree) : Prop :=
  match t with
  | Node _ _ => True
  | Comp _ f r => forall x u, (u = f -> ~ binds x u) /\ (In u r -> ~ walrus x u)
  | _ => forall x u, In u (parts t) -> ~ binds x u
  end.
Definition ordinary (t : tree) : Prop := within (fun t => no_dots t /\ no_patterns t /\ no_outer t) t.
(** del is a statement, so that it is not in an expression; and there is no handler with a name *)
Definition no_handlers (t : tree) : Prop :=
  match t with
  | Node (KTry hs) _ => forall x, ~ In (Some x) hs
  | Node _ _ => True
  | t => forall x u, In u (parts t) -> ~ deletes x u
  end.
(** A target of a comprehension made of names, tuples, lists and stars *)
Inductive simple_target : tree -> Prop :=
| s_name x : simple_target (Node (KName Store x) [])
| s_nest k l : k = KTuple \/ k = KOther -> Forall simple_target l -> simple_target (Node k l).
