(** Model of let_syntax and abbrev (unpythonic/syntax/letsyntax.py 219-485) and of eliminate_ifones
    (syntax/util.py 341-409) on abstract syntax.  Code is macro-free, so that expanding the macros in it does
    nothing, and let_syntax and abbrev are the same.  A call has positional arguments only; a template's
    parameters may be written f[x, ...] or f(x, ...).  Copies of a tree are the tree. *)
From Coq Require Import String List Bool Arith.
From Verif Require Import Base.
Import ListNotations.
Open Scope string_scope.
Open Scope list_scope.
Open Scope nat_scope.

(** Any node of an expression that is not listed has a kind, identifiers (of attributes, parameters of a
    lambda, named arguments, ...) and subexpressions. *)
Inductive expr :=
| Name (x : string)
| Call (f : expr) (args : list expr)
| Sub (f : expr) (args : list expr)
| Node (kind : string) (ids : list string) (kids : list expr).

(** A compound statement has up to two blocks (if/else, a def, a class, a while, a with). *)
Inductive stmt :=
| SExpr (e : expr)
| SSimple (kind : string) (ids : list string) (kids : list expr)
| SComp (kind : string) (ids : list string) (kids : list expr) (body orelse : list stmt)
| SDecl (isblock : bool) (params : option (list expr)) (asname : option expr) (body : list stmt).
                         (* with block as x:, with block[a, ...] as x:, with expr ... *)

(** Outcomes of the transformer: a value, an exception, or out of fuel (no code in /repo). *)
Inductive res (A : Type) := Done (a : A) | Err (e : exn) | OutOfFuel.
Arguments Done {A}. Arguments Err {A}. Arguments OutOfFuel {A}.
(** One computation after another; exceptions pass (language model, no code in /repo). *)
Definition bind {A B} (m : res A) (k : A -> res B) : res B :=
  match m with Done a => k a | Err e => Err e | OutOfFuel => OutOfFuel end.
Notation "'let*' x := a 'in' b" := (bind a (fun x => b)) (at level 200, x name, a at level 100, b at level 200).
(** Map with effects, left to right (no code in /repo). *)
Definition mapM {A B} (f : A -> res B) : list A -> res (list B) :=
  fix go (l : list A) : res (list B) :=
  match l with
  | [] => Done []
  | a :: l => let* b := f a in let* l := go l in Done (b :: l)
  end.

(** ASTTransformer.generic_visit (mcpyrate) on an expression *)
Definition kids_e (f : expr -> res expr) (e : expr) : res expr :=
  match e with
  | Name _ => Done e
  | Call g l => let* g := f g in let* l := mapM f l in Done (Call g l)
  | Sub g l => let* g := f g in let* l := mapM f l in Done (Sub g l)
  | Node k i l => let* l := mapM f l in Done (Node k i l)
  end.
(** mcpyrate visits a list of statements one by one; a statement can become several.  [fe]: what the visit
    does to an expression; [hit]: whether a statement, as a whole, is replaced. *)
Definition visit_b (vs : stmt -> res (list stmt)) : list stmt -> res (list stmt) :=
  fix go (l : list stmt) : res (list stmt) :=
  match l with
  | [] => Done []
  | s :: l => let* s := vs s in let* l := go l in Done (s ++ l)
  end.
(** The same for an optional part (mcpyrate's visitor). *)
Definition optM {A B} (f : A -> res B) (o : option A) : res (option B) :=
  match o with None => Done None | Some a => let* b := f a in Done (Some b) end.
(** A statement whose parts are visited (mcpyrate's visitor), as in letsyntax.py 404-436 *)
Fixpoint visit_s (fe : expr -> res expr) (hit : expr -> option (res (list stmt))) (s : stmt) : res (list stmt) :=
  match s with
  | SExpr e =>
      match hit e with
      | Some r => r
      | None => let* e := fe e in Done [SExpr e]
      end
  | SSimple k i l => let* l := mapM fe l in Done [SSimple k i l]
  | SComp k i l b o =>
      let* l := mapM fe l in
      let* b := visit_b (visit_s fe hit) b in
      let* o := visit_b (visit_s fe hit) o in
      Done [SComp k i l b o]
  | SDecl m ps x b =>
      let* ps := optM (mapM fe) ps in
      let* x := optM fe x in
      let* b := visit_b (visit_s fe hit) b in
      Done [SDecl m ps x b]
  end.

(** A definition's right hand side. *)
Inductive value := VExpr (e : expr) | VBlock (b : list stmt).

(** mcpyrate.utils.rename, on the identifiers *)
Definition rename1 (x y i : string) : string := if String.eqb i x then y else i.
(** [mcpyrate.utils.rename] on an expression. *)
Fixpoint rename_e (x y : string) (e : expr) : expr :=
  match e with
  | Name z => Name (rename1 x y z)
  | Call g l => Call (rename_e x y g) (map (rename_e x y) l)
  | Sub g l => Sub (rename_e x y g) (map (rename_e x y) l)
  | Node k i l => Node k (map (rename1 x y) i) (map (rename_e x y) l)
  end.
(** [mcpyrate.utils.rename] on a statement. *)
Fixpoint rename_s (x y : string) (s : stmt) : stmt :=
  match s with
  | SExpr e => SExpr (rename_e x y e)
  | SSimple k i l => SSimple k (map (rename1 x y) i) (map (rename_e x y) l)
  | SComp k i l b o =>
      SComp k (map (rename1 x y) i) (map (rename_e x y) l) (map (rename_s x y) b) (map (rename_s x y) o)
  | SDecl m ps n b =>
      SDecl m (option_map (map (rename_e x y)) ps) (option_map (rename_e x y) n) (map (rename_s x y) b)
  end.

(** letsyntax.py 404-436, on an expression: the visit, then the renaming.  The replacement's parts are
    visited (line 425), so this need not end: [n] is the number of nested visits. *)
Fixpoint splice_name (n : nat) (x : string) (v : value) (e : expr) : res expr :=
  match n with
  | O => OutOfFuel
  | S n =>
      match e with
      | Name y =>
          if String.eqb y x then
            match v with
            | VBlock _ => Err SyntaxError
            | VExpr w => kids_e (splice_name n x v) w
            end
          else Done e
      | _ => kids_e (splice_name n x v) e
      end
  end.
(** The names in definitions and the like are renamed too: letsyntax.py 429-436, on an expression. *)
Definition post_e (x : string) (v : value) (e : expr) : expr :=
  match v with VExpr (Name y) => rename_e x y e | _ => e end.
(** The same on a statement: letsyntax.py 429-436 *)
Definition post_s (x : string) (v : value) (s : stmt) : stmt :=
  match v with VExpr (Name y) => rename_s x y s | _ => s end.
(** _substitute_barename on an expression: letsyntax.py 404-436 *)
Definition name_e (n : nat) (x : string) (v : value) (e : expr) : res expr :=
  let* e := splice_name n x v e in Done (post_e x v e).
(** letsyntax.py 418-420 *)
Definition hit_name (x : string) (v : value) (e : expr) : option (res (list stmt)) :=
  match v, e with
  | VBlock b, Name y => if String.eqb y x then Some (Done b) else None
  | _, _ => None
  end.
(** _substitute_barename on a statement: letsyntax.py 404-436 *)
Definition name_s (n : nat) (x : string) (v : value) (s : stmt) : res (list stmt) :=
  let* l := visit_s (splice_name n x v) (hit_name x v) s in Done (map (post_s x v) l).
(** _substitute_barename on a list of statements: letsyntax.py 404-436 *)
Definition name_b (n : nat) (x : string) (v : value) (l : list stmt) : res (list stmt) :=
  let* l := visit_b (visit_s (splice_name n x v) (hit_name x v)) l in Done (map (post_s x v) l).
(** _substitute_barename on the text of a definition: letsyntax.py 404-436 *)
Definition name_v (n : nat) (x : string) (w : expr) (v : value) : res value :=
  match v with
  | VExpr e => let* e := name_e n x (VExpr w) e in Done (VExpr e)
  | VBlock b => let* b := name_b n x (VExpr w) b in Done (VBlock b)
  end.

(** A definition: name, formal parameters (none: a bare name), right hand side. *)
Definition def := (string * list string * value)%type.

(** letsyntax.py 463-466 *)
Fixpoint fill (n : nat) (ps : list string) (args : list expr) (v : value) : res value :=
  match ps, args with
  | p :: ps, a :: args => let* v := name_v n p a v in fill n ps args v
  | _, _ => Done v
  end.
(** letsyntax.py 452-466 *)
Definition subst (n : nat) (ps : list string) (v : value) (args : list expr) : res value :=
  if negb (length args =? length ps) then Err SyntaxError else fill n ps args v.
(** letsyntax.py 445-451 *)
Definition uses (f : string) (e : expr) : option (list expr) :=
  match e with
  | Sub (Name g) l | Call (Name g) l => if String.eqb g f then Some l else None
  | _ => None
  end.
(** letsyntax.py 467-483 *)
Fixpoint splice_temp (n : nat) (d : def) (e : expr) : res expr :=
  match n with
  | O => OutOfFuel
  | S n =>
      let '(f, ps, v) := d in
      match uses f e with
      | Some args =>
          match v with
          | VBlock _ => Err SyntaxError
          | VExpr _ =>
              let* w := subst n ps v args in
              match w with
              | VExpr w => kids_e (splice_temp n d) w
              | VBlock _ => Err AssertionError      (* does not come up *)
              end
          end
      | None => kids_e (splice_temp n d) e
      end
  end.
(** letsyntax.py 474-476 *)
Definition hit_temp (n : nat) (d : def) (e : expr) : option (res (list stmt)) :=
  let '(f, ps, v) := d in
  match v with
  | VExpr _ => None
  | VBlock _ =>
      match uses f e with
      | None => None
      | Some args =>
          Some (let* w := subst n ps v args in
                match w with VBlock b => Done b | VExpr _ => Err AssertionError end)
      end
  end.

(** letsyntax.py 438-441, 443-485 on an expression *)
Fixpoint names_e (n : nat) (ds : list def) (e : expr) : res expr :=
  match ds with
  | [] => Done e
  | (x, _, v) :: ds => let* e := name_e n x v e in names_e n ds e
  end.
(** _substitute_templates on an expression: letsyntax.py 443-485 *)
Fixpoint temps_e (n : nat) (ds : list def) (e : expr) : res expr :=
  match ds with
  | [] => Done e
  | d :: ds => let* e := splice_temp n d e in temps_e n ds e
  end.
(** the same on a list of statements (a statement can have become several) *)
Fixpoint names_b (n : nat) (ds : list def) (l : list stmt) : res (list stmt) :=
  match ds with
  | [] => Done l
  | (x, _, v) :: ds => let* l := name_b n x v l in names_b n ds l
  end.
(** _substitute_templates on a list of statements: letsyntax.py 443-485 *)
Fixpoint temps_b (n : nat) (ds : list def) (l : list stmt) : res (list stmt) :=
  match ds with
  | [] => Done l
  | d :: ds => let* l := visit_b (visit_s (splice_temp n d) (hit_temp n d)) l in temps_b n ds l
  end.

(** letsyntax.py 385-402.  A parameter that is not a name has no `id`. *)
Definition ident (e : expr) : res string := match e with Name x => Done x | _ => Err AttributeError end.
(** _analyze_lhs: letsyntax.py 385-402 *)
Definition analyze_lhs (e : expr) : res (string * list string) :=
  match e with
  | Name x => Done (x, [])
  | Sub (Name f) l | Call (Name f) l => let* ps := mapM ident l in Done (f, ps)
  | _ => Err SyntaxError
  end.

(** letsyntax.py 224-235 *)
Definition mems (x : string) (l : list string) : bool := existsb (String.eqb x) l.
(** register_bindings: letsyntax.py 227-235 *)
Fixpoint register (seen : list string) (bs : list (expr * expr)) : res (list def * list def) :=
  match bs with
  | [] => Done ([], [])
  | (k, w) :: bs =>
      let* xp := analyze_lhs k in
      let '(x, ps) := xp in
      if mems x seen then Err SyntaxError else
      let* r := register (x :: seen) bs in
      let '(ts, ns) := r in
      match ps with
      | [] => Done (ts, (x, [], VExpr w) :: ns)
      | _ => Done ((x, ps, VExpr w) :: ts, ns)
      end
  end.
(** letsyntax.py 219-243: let_syntax[lhs << rhs, ...][body], without extra brackets *)
Definition let_syntax_expr (n : nat) (bs : list (expr * expr)) (body : expr) : res expr :=
  match bs with
  | [] => Done body
  | _ =>
      let* r := register [] bs in
      let '(ts, ns) := r in
      let* e := temps_e n ts body in
      names_e n ns e
  end.

(** syntax/util.py 355-373 *)
Definition constant (k : string) : expr := Node k [] [].
(** isifone: syntax/util.py 355-366 *)
Definition isifone (k : string) (l : list expr) : option bool :=
  match l with
  | [Node c [] []] =>
      if String.eqb k "if" then
        if mems c ["1"; "True"] then Some true
        else if mems c ["0"; "False"; "None"] then Some false
        else None
      else None
  | _ => None
  end.
(** syntax/util.py 368-375, 403-409: the statements inside first *)
Fixpoint ifones (s : stmt) : list stmt :=
  match s with
  | SComp k i l b o =>
      let b := flat_map ifones b in
      let o := flat_map ifones o in
      match isifone k l with
      | Some true => b
      | Some false => o
      | None => [SComp k i l b o]
      end
  | SDecl m ps x b => [SDecl m ps x (flat_map ifones b)]
  | _ => [s]
  end.
(** eliminate_ifones: syntax/util.py 341-375 *)
Definition eliminate_ifones (l : list stmt) : list stmt := flat_map ifones l.

(** letsyntax.py 266-282: a `with block` or `with expr` inside another statement *)
Fixpoint stray (s : stmt) : bool :=
  match s with
  | SComp _ _ _ b o => existsb stray b || existsb stray o
  | SDecl _ _ _ _ => true
  | _ => false
  end.
(** letsyntax.py 285-318 *)
Definition destructure (seen : list string) (isblock : bool) (params : option (list expr))
    (asname : option expr) (body : list stmt) : res def :=
  match asname with
  | Some (Name x) =>
      if mems x seen then Err SyntaxError else
      let* ps := match params with Some l => mapM ident l | None => Done [] end in
      if isblock then Done (x, ps, VBlock [SComp "if" [] [constant "1"] body []])
      else match body with
           | [SExpr e] => Done (x, ps, VExpr e)
           | _ => Err SyntaxError
           end
  | _ => Err SyntaxError
  end.
(** Whether a definition is left inside another one: letsyntax.py 285-318 *)
Definition stray_v (v : value) : bool := match v with VExpr _ => false | VBlock b => existsb stray b end.
(** A definition joins the templates or the names: letsyntax.py 285-318 *)
Definition app1 {A} (ts ns : list A) (istemp : bool) (a : A) : list A * list A :=
  if istemp then (ts ++ [a], ns) else (ts, ns ++ [a]).
(** letsyntax.py 336-363.  A use of a block at the top level of the block becomes a list of statements,
    which is no binding. *)
Fixpoint block_loop (n : nat) (seen : list string) (ts ns : list def) (body : list stmt) : res (list stmt) :=
  match body with
  | [] => Done []
  | s :: body =>
      let* l := temps_b n ts [s] in
      let* l := names_b n ns l in
      match l with
      | [SDecl m ps x b] =>
          let* d := destructure seen m ps x b in
          let '(y, qs, v) := d in
          if stray_v v then Err SyntaxError else
          let '(ts, ns) := app1 ts ns (match qs with [] => false | _ => true end) d in
          block_loop n (y :: seen) ts ns body
      | _ =>
          if existsb stray l then Err SyntaxError else
          let* r := block_loop n seen ts ns body in
          Done (l ++ r)
      end
  end.
(** letsyntax.py 260-367 *)
Definition let_syntax_block (n : nat) (body : list stmt) : res (list stmt) :=
  let* l := block_loop n [] [] [] body in
  match eliminate_ifones l with
  | [] => Err SyntaxError
  | l => Done l
  end.
