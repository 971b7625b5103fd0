(** Model of the traversals of unpythonic/syntax/util.py: isec, detect_callec, detect_lambda, transform_statements.
    mcpyrate's ASTVisitor and ASTTransformer, which these use, are modelled after Python's own: the fields of a node in their
    order; a list returned for a statement is spliced in its place.
    Simplified: trees have the nodes that matter here and [Node] for the rest; parameters are the plain positional ones
    (`args.args`), the other ones and annotations are left out. *)
From Coq Require Import String List Bool Arith.
From Verif Require Import Base.
Import ListNotations.
Open Scope string_scope.
Open Scope list_scope.
Open Scope nat_scope.

(** Syntax trees (no code in /repo).  The number of a lambda is its id(). *)
Inductive tree :=
| Name (x : string)
| Cap (x : string)                                                            (* a hygienic capture *)
| Attr (t : tree) (x : string)
| Done (t : tree)
| Call (f : tree) (args kws : list tree)
| Lam (i : nat) (ps : list string) (defaults : list tree) (b : tree)
| Fun (n : nat) (ps : list string) (defaults body decos : list tree)          (* def, async def *)
| Do (items : list tree)                                                      (* do[...], not expanded *)
| Node (s : bool) (n : nat) (fields : list (list tree)).                      (* s: it is a statement *)
(** getname: nameutil.py 79-96 *)
Fixpoint getname (attr : bool) (t : tree) : option string :=
  match t with
  | Done t => getname attr t
  | Name x | Cap x => Some x
  | Attr _ x => if attr then Some x else None
  | _ => None
  end.
(** isx: nameutil.py 52-77 *)
Definition isx (t : tree) (x : string) : bool := match getname true t with Some y => String.eqb y x | None => false end.
(** isec: syntax/util.py 32-39 *)
Definition isec (t : tree) (known : list string) : bool :=
  match t with
  | Call f _ _ => match getname false f with Some x => existsb (String.eqb x) known | None => false end
  | _ => false
  end.
(** What is collected, in order; the first exception ends it.  (ASTVisitor of mcpyrate, as used in syntax/util.py 69-86, 108-119) *)
Fixpoint collect {A} (l : list (outcome (list A))) : outcome (list A) :=
  match l with [] => Ok [] | r :: l => do a <- r ; do b <- collect l ; Ok (a ++ b) end.

(** is_decorated_lambda with mode="any": syntax/util.py 159-187, 139-157 *)
Fixpoint is_decorated_lambda (t : tree) : bool :=
  match t with
  | Call _ [a] _ => match a with Lam _ _ _ _ => true | _ => is_decorated_lambda a end
  | _ => false
  end.
(** destructure_decorated_lambda: syntax/util.py 189-203: the functions of the calls, and the parameters of the lambda *)
Fixpoint destructure (t : tree) : outcome (list tree * list string) :=
  match t with
  | Call f args _ => match args with a :: _ => do r <- destructure a ; Ok (f :: fst r, snd r) | [] => Raise IndexError end
  | Lam _ ps _ _ => Ok ([], ps)
  | _ => Raise SyntaxError
  end.
(** args.args[0].arg: syntax/util.py 76, 81 *)
Definition first (ps : list string) : outcome (list string) := match ps with p :: _ => Ok [p] | [] => Raise IndexError end.
(** examine of detect_callec: syntax/util.py 71-81, without the recursion *)
Definition examine_callec (t : tree) : outcome (list string) :=
  match t with
  | Fun _ ps _ _ decos => if existsb (fun d => isx d "call_ec") decos then first ps else Ok []
  | _ =>
      if is_decorated_lambda t then
        do r <- destructure t ;
        if existsb (fun f => isx f "call_ec") (fst r) then first (snd r) else Ok []
      else Ok []
  end.
(** Detector: syntax/util.py 70-85 *)
Fixpoint visit_callec (t : tree) : outcome (list string) :=
  do a <- examine_callec t ;
  do b <- match t with
          | Name _ | Cap _ => Ok []
          | Attr t _ | Done t => visit_callec t
          | Call f args kws => collect [visit_callec f; collect (map visit_callec args); collect (map visit_callec kws)]
          | Lam _ _ ds b => collect [collect (map visit_callec ds); visit_callec b]
          | Fun _ _ ds body decos =>
              collect [collect (map visit_callec ds); collect (map visit_callec body); collect (map visit_callec decos)]
          | Do items => collect (map visit_callec items)
          | Node _ _ fields => collect (map (fun l => collect (map visit_callec l)) fields)
          end ;
  Ok (a ++ b).
(** detect_callec: syntax/util.py 41-87 *)
Definition detect_callec (t : tree) : outcome (list string) :=
  do l <- visit_callec t ; Ok (["ec"; "brk"; "throw"] ++ l).

(** isdo with expanded=True: letdoutil.py 296-304.  Whether it is curried. *)
Definition isdo (f : tree) (args : list tree) : outcome (option bool) :=
  do c <- (if isx f "currycall" then match args with [] => Raise IndexError | a :: _ => Ok (isx a "dof") end else Ok false) ;
  if negb c && negb (isx f "dof") then Ok None else Ok (Some c).
(** [t.args[i]]: letdoutil.py 857, 860 *)
Definition arg (i : nat) (t : tree) : outcome tree :=
  match t with
  | Call _ args _ => match nth_error args i with Some a => Ok a | None => Raise IndexError end
  | _ => Raise AttributeError
  end.
(** The lambda of an item of a do: letdoutil.py 850-860 *)
Definition item_lambda (c : bool) (t : tree) : outcome tree := if c then do x <- arg 1 t ; arg 0 x else arg 0 t.
(** Outcomes of a list, from the left (no code in /repo) *)
Fixpoint each {A B} (f : A -> outcome B) (l : list A) : outcome (list B) :=
  match l with [] => Ok [] | a :: l => do b <- f a ; do r <- each f l ; Ok (b :: r) end.
(** Making an ExpandedDoView and its body: letdoutil.py 828-860.  Exceptions of _deduce_envname other than IndexError are
    caught there; those of body then come again. *)
Definition do_view (c : bool) (items : list tree) : outcome (list tree) :=
  do l <- each (item_lambda c) items ;
  match l with Lam _ [] _ _ :: _ => Raise IndexError | _ => Ok l end.
(** LambdaDetector: syntax/util.py 108-117 *)
Fixpoint detect_lambda (t : tree) : outcome (list nat) :=
  match t with
  | Name _ | Cap _ => Ok []
  | Attr t _ | Done t => detect_lambda t
  | Call f args kws =>
      do d <- isdo f args ;
      match d with
      | None => collect [detect_lambda f; collect (map detect_lambda args); collect (map detect_lambda kws)]
      | Some false =>
          do _ <- do_view false args ;
          collect (map (fun item =>
            match item with
            | Call _ (l :: _) _ => match l with Lam _ _ _ b | Done b => detect_lambda b | _ => Raise AttributeError end
            | _ => Raise AttributeError
            end) args)
      | Some true =>
          match args with
          | _ :: items =>
              do _ <- do_view true items ;
              collect (map (fun item =>
                match item with
                | Call _ (_ :: Call _ (l :: _) _ :: _) _ =>
                    match l with Lam _ _ _ b | Done b => detect_lambda b | _ => Raise AttributeError end
                | _ => Raise AttributeError
                end) items)
          | [] => Raise IndexError
          end
      end
  | Lam i _ ds b => do r <- collect [collect (map detect_lambda ds); detect_lambda b] ; Ok (i :: r)
  | Fun _ _ ds body decos =>
      collect [collect (map detect_lambda ds); collect (map detect_lambda body); collect (map detect_lambda decos)]
  | Do items => collect (map detect_lambda items)
  | Node _ _ fields => collect (map (fun l => collect (map detect_lambda l)) fields)
  end.

(** transform_statements: syntax/util.py 377-409.  [f] may have a state. *)
Section Transform.
Context {W : Type}.
Variable f : tree -> W -> list tree * W.
(** A list field: the results are spliced.  (ASTTransformer of mcpyrate, as used in syntax/util.py 403-409) *)
Definition splice (g : tree -> W -> list tree * W) := fix splice (l : list tree) (w : W) : list tree * W :=
  match l with
  | [] => ([], w)
  | t :: l => let (a, w1) := g t w in let (b, w2) := splice l w1 in (a ++ b, w2)
  end.
(** A field that is one node, an expression; there are no statements in its place *)
Definition single (g : tree -> W -> list tree * W) (t : tree) (w : W) : tree * W :=
  let (a, w1) := g t w in (match a with [x] => x | _ => t end, w1).
(** The fields of a node, in order: ASTTransformer of mcpyrate, as used in syntax/util.py 403-409 *)
Definition splices (g : tree -> W -> list tree * W) := fix splices (ls : list (list tree)) (w : W) : list (list tree) * W :=
  match ls with
  | [] => ([], w)
  | l :: ls => let (a, w1) := splice g l w in let (b, w2) := splices ls w1 in (a :: b, w2)
  end.
(** StatementTransformer: syntax/util.py 403-408.  Expressions have no statements in them. *)
Fixpoint transform (t : tree) (w : W) : list tree * W :=
  match t with
  | Fun n ps ds body decos =>
      let (ds', w1) := splice transform ds w in
      let (body', w2) := splice transform body w1 in
      let (decos', w3) := splice transform decos w2 in
      f (Fun n ps ds' body' decos') w3
  | Node s n fields =>
      let (fields', w1) := splices transform fields w in
      if s then f (Node s n fields') w1 else ([Node s n fields'], w1)
  | Attr t x => let (t', w1) := single transform t w in ([Attr t' x], w1)
  | Done t => let (t', w1) := single transform t w in ([Done t'], w1)
  | Call g args kws =>
      let (g', w1) := single transform g w in
      let (args', w2) := splice transform args w1 in
      let (kws', w3) := splice transform kws w2 in
      ([Call g' args' kws'], w3)
  | Lam i ps ds b =>
      let (ds', w1) := splice transform ds w in
      let (b', w2) := single transform b w1 in
      ([Lam i ps ds' b'], w2)
  | Do items => let (items', w1) := splice transform items w in ([Do items'], w1)
  | Name _ | Cap _ => ([t], w)
  end.
(** transform_statements on a list of statements: syntax/util.py 409 *)
Definition transform_statements (body : list tree) (w : W) : list tree * W := splice transform body w.
End Transform.
