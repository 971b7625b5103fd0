(** What the traversals should find *)
From Coq Require Import String List Bool Arith.
From Verif Require Import Base UtlModel.
Import ListNotations.
Open Scope string_scope.
Open Scope list_scope.
Open Scope nat_scope.

(** The children of a node *)
Definition children (t : tree) : list tree :=
  match t with
  | Name _ | Cap _ => []
  | Attr t _ | Done t => [t]
  | Call f args kws => f :: args ++ kws
  | Lam _ _ ds b => ds ++ [b]
  | Fun _ _ ds body decos => ds ++ body ++ decos
  | Do items => items
  | Node _ _ fields => concat fields
  end.
(** A part of a tree, or the tree *)
Inductive part (s : tree) : tree -> Prop :=
| part_self : part s s
| part_child t c : In c (children t) -> part s c -> part s t.

(** An expression that refers to x: a name, a captured name, an attribute *)
Inductive refers (x : string) : tree -> Prop :=
| r_name : refers x (Name x)
| r_cap : refers x (Cap x)
| r_attr t : refers x (Attr t x)
| r_done t : refers x t -> refers x (Done t).
(** f1(f2(...(lambda ps: ...))), each with one positional argument: the functions, and the parameters *)
Inductive decorated : tree -> list tree -> list string -> Prop :=
| dec_last f i ps ds b kws : decorated (Call f [Lam i ps ds b] kws) [f] ps
| dec_more f t fs ps kws : decorated t fs ps -> decorated (Call f [t] kws) (f :: fs) ps.
(** A function that call_ec is applied to, where it is made, with these parameters *)
Inductive escapes : tree -> list string -> Prop :=
| esc_def n ps ds body decos d : In d decos -> refers "call_ec" d -> escapes (Fun n ps ds body decos) ps
| esc_lam t fs ps f : decorated t fs ps -> In f fs -> refers "call_ec" f -> escapes t ps.

(** The lambdas of a tree, from left to right, outermost first *)
Fixpoint lambdas (t : tree) : list nat :=
  match t with
  | Name _ | Cap _ => []
  | Attr t _ | Done t => lambdas t
  | Call f args kws => lambdas f ++ flat_map lambdas args ++ flat_map lambdas kws
  | Lam i _ ds b => i :: flat_map lambdas ds ++ lambdas b
  | Fun _ _ ds body decos => flat_map lambdas ds ++ flat_map lambdas body ++ flat_map lambdas decos
  | Do items => flat_map lambdas items
  | Node _ _ fields => flat_map (flat_map lambdas) fields
  end.
(** namelambda(label)(lam); currycall(currycall(namelambda, label), curryf(lam)) *)
Definition wrapped (c : bool) (label lam : tree) : tree :=
  if c then Call (Cap "currycall") [Call (Cap "currycall") [Cap "namelambda"; label] []; Call (Cap "curryf") [lam] []] []
  else Call (Call (Cap "namelambda") [label] []) [lam] [].
(** dof(lines); currycall(dof, lines) *)
Definition do_call (c : bool) (lines : list tree) : tree :=
  if c then Call (Cap "currycall") (Cap "dof" :: lines) [] else Call (Cap "dof") lines [].
(** The do forms in the tree have been expanded, each line with a lambda of its own, some of them inside of autocurry *)
Inductive expanded : tree -> tree -> Prop :=
| x_name x : expanded (Name x) (Name x)
| x_cap x : expanded (Cap x) (Cap x)
| x_attr t t' x : expanded t t' -> expanded (Attr t x) (Attr t' x)
| x_done t t' : expanded t t' -> expanded (Done t) (Done t')
| x_call f f' args args' kws kws' : expanded f f' -> all_expanded args args' -> all_expanded kws kws' -> expanded (Call f args kws) (Call f' args' kws')
| x_lam i ps ds ds' b b' : all_expanded ds ds' -> expanded b b' -> expanded (Lam i ps ds b) (Lam i ps ds' b')
| x_fun n ps ds ds' body body' decos decos' : all_expanded ds ds' -> all_expanded body body' -> all_expanded decos decos' ->
    expanded (Fun n ps ds body decos) (Fun n ps ds' body' decos')
| x_node s n fields fields' : fields_expanded fields fields' -> expanded (Node s n fields) (Node s n fields')
| x_undone items items' : all_expanded items items' -> expanded (Do items) (Do items')
| x_do c items lines : lines_expanded c items lines -> expanded (Do items) (do_call c lines)
with all_expanded : list tree -> list tree -> Prop :=
| xl_nil : all_expanded [] []
| xl_cons t t' l l' : expanded t t' -> all_expanded l l' -> all_expanded (t :: l) (t' :: l')
with fields_expanded : list (list tree) -> list (list tree) -> Prop :=
| xf_nil : fields_expanded [] []
| xf_cons l l' ls ls' : all_expanded l l' -> fields_expanded ls ls' -> fields_expanded (l :: ls) (l' :: ls')
with lines_expanded : bool -> list tree -> list tree -> Prop :=
| xn_nil c : lines_expanded c [] []
| xn_cons c t t' label i e l l' : expanded t t' -> lines_expanded c l l' ->
    lines_expanded c (t :: l) (wrapped c label (Lam i [e] [] t') :: l').
(** Nothing calls a function with a name that the expansions use *)
Definition plain (t : tree) : Prop :=
  forall f args kws, part (Call f args kws) t -> ~ refers "dof" f /\ ~ refers "currycall" f.

(** Statements *)
Definition is_stmt (t : tree) : bool := match t with Fun _ _ _ _ _ => true | Node s _ _ => s | _ => false end.
(** There is no statement in the place of an expression: those are in lists only, and not in calls and lambdas *)
Inductive wf : tree -> Prop :=
| w_name x : wf (Name x)
| w_cap x : wf (Cap x)
| w_attr t x : wf t -> is_stmt t = false -> wf (Attr t x)
| w_done t : wf t -> is_stmt t = false -> wf (Done t)
| w_call f args kws : wf f -> is_stmt f = false -> Forall wf args -> Forall wf kws -> wf (Call f args kws)
| w_lam i ps ds b : Forall wf ds -> wf b -> is_stmt b = false -> wf (Lam i ps ds b)
| w_fun n ps ds body decos : Forall wf ds -> Forall wf body -> Forall wf decos -> wf (Fun n ps ds body decos)
| w_do items : Forall wf items -> wf (Do items)
| w_node s n fields : Forall (Forall wf) fields -> wf (Node s n fields).
(** The number of a statement; and those of all statements in a tree, inner ones first, from left to right *)
Definition number (t : tree) : nat := match t with Fun n _ _ _ _ | Node _ n _ => n | _ => 0 end.
Fixpoint postorder (t : tree) : list nat :=
  match t with
  | Name _ | Cap _ => []
  | Attr t _ | Done t => postorder t
  | Call f args kws => postorder f ++ flat_map postorder args ++ flat_map postorder kws
  | Lam _ _ ds b => flat_map postorder ds ++ postorder b
  | Fun n _ ds body decos => flat_map postorder ds ++ flat_map postorder body ++ flat_map postorder decos ++ [n]
  | Do items => flat_map postorder items
  | Node s n fields => flat_map (flat_map postorder) fields ++ (if s then [n] else [])
  end.
(** [f] that also writes down which statements it is given *)
Definition noting {W} (f : tree -> W -> list tree * W) (t : tree) (w : W * list nat) : list tree * (W * list nat) :=
  let (l, w1) := f t (fst w) in (l, (w1, snd w ++ [number t])).
(** A bare name, perhaps captured or inside of Done *)
Inductive bare (x : string) : tree -> Prop :=
| b_name : bare x (Name x)
| b_cap : bare x (Cap x)
| b_done t : bare x t -> bare x (Done t).
