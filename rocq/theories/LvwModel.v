(** Model of the recognition and destructuring of let and do forms (unpythonic/syntax/letdoutil.py), of the
    part of the let macros that uses it (letdo.py 77-85), and of the trees that these macros make
    (letdo.py 399-417, 555-556, 913-919; in a `with autocurry` block autocurry.py 80-140).
    Simplified: trees have the nodes that matter here, and [TOther] for the rest; assigning to a view changes
    a tree in place, here the tree that results is returned.  The node that a hygienic capture is made of is
    [TCap]. *)
From Coq Require Import String List ZArith Bool Arith.
From Verif Require Import Base.
Import ListNotations.
Open Scope string_scope.
Open Scope list_scope.
Open Scope nat_scope.

(** Comparison operators of Python's ast (no code in /repo). *)
Inductive cop := OpIn | OtherCop (n : nat).
(** Syntax trees: the nodes that the recognizers look at, and other ones (no code in /repo). *)
Inductive tree :=
| TName (x : string)
| TDone (t : tree)                            (* around an expanded name macro *)
| TCap (x : string)
| TAttr (t : tree) (x : string)
| TSub (v s : tree)                           (* v[s] *)
| TCall (f : tree) (args : list tree) (kws : list (string * tree))
| TTup (l : list tree)
| TLst (l : list tree)
| TShl (a b : tree)                           (* a << b *)
| TWal (a b : tree)                           (* a := b *)
| TCmp (a : tree) (ops : list cop) (l : list tree)
| TStr (s : string)
| TConst (z : Z)
| TLam (ps : list string) (b : tree)
| TOther (n : nat) (l : list tree)            (* a node without a field called value *)
| TKnot.                                      (* a node that is its own field value *)

(** letdoutil.py 23-32.  [py39]: Python 3.9 or later.  In this case both assignments of _set_subscript_slice
    are done: the second is to the field value of the new node itself, if it has one. *)
Definition has_value_field (t : tree) : bool :=
  match t with TAttr _ _ | TSub _ _ | TWal _ _ | TStr _ | TConst _ => true | _ => false end.
(** _set_subscript_slice: letdoutil.py 28-32 *)
Definition set_slice (py39 : bool) (t new : tree) : outcome tree :=
  match t with
  | TSub v _ => Ok (TSub v (if py39 && has_value_field new then TKnot else new))
  | _ => Raise AssertionError
  end.
(** _get_subscript_slice: letdoutil.py 23-27 *)
Definition get_slice (t : tree) : outcome tree := match t with TSub _ s => Ok s | _ => Raise AssertionError end.
(** letdoutil.py 33-38 *)
Definition macroargs (t : tree) : list tree := match t with TLst l | TTup l => l | _ => [t] end.
(** letdoutil.py 41-59 *)
Fixpoint isname (t : tree) : bool := match t with TName _ => true | TDone t => isname t | _ => false end.
(** _isbindingtarget: letdoutil.py 50-59 *)
Definition isbindingtarget (t : tree) (ls : bool) : bool :=
  isname t || ls && match t with TCall f _ _ => isname f | TSub v _ => isname v | _ => false end.
(** letdoutil.py 111-135 *)
Inductive asg := ALShift | ANamedExpr.
(** isenvassign: letdoutil.py 111-135 *)
Definition isenvassign (t : tree) (ls : bool) : option asg :=
  match t with
  | TShl a _ => if isbindingtarget a ls then Some ALShift else None
  | TWal a _ => if isbindingtarget a ls then Some ANamedExpr else None
  | _ => None
  end.
(** Whether it is an assignment: letdoutil.py 111-135 *)
Definition isass (ls : bool) (t : tree) : bool := match isenvassign t ls with Some _ => true | None => false end.
(** An assignment as a pair: letdoutil.py 61-109 *)
Definition ass_pair (t : tree) : tree := match t with TShl a b | TWal a b => TTup [a; b] | _ => t end.
(** letdoutil.py 61-109 *)
Definition iskvpair (ls : bool) (l : list tree) : bool :=
  match l with [k; _] => isbindingtarget k ls | _ => false end.
(** canonize_bindings: letdoutil.py 61-109 *)
Definition canonize (ls : bool) (elts : list tree) : outcome (list tree) :=
  if match elts with [b] => isass ls b | _ => false end then Ok (map ass_pair elts)
  else if iskvpair ls elts then Ok [TTup elts]
  else if forallb (fun b => match b with TTup l => iskvpair ls l | _ => false end) elts then Ok elts
  else if forallb (fun b => match b with TLst l => iskvpair ls l | _ => false end) elts
       then Ok (map (fun b => match b with TLst l => TTup l | _ => b end) elts)
  else if forallb (isass ls) elts then Ok (map ass_pair elts)
  else Raise SyntaxError.

(** letdoutil.py 234-275 *)
Inductive kind := KDecorator | KLispy | KIn | KWhere.
(** _ishaskellylet: letdoutil.py 234-275 *)
Definition ishaskelly (t : tree) : option kind :=
  match t with
  | TCmp (TLst l) [OpIn] _ | TCmp (TTup l) [OpIn] _ =>
      match canonize true l with Ok _ => Some KIn | Raise _ => None end
  | TTup [_; TCall (TName w) _ _] => if String.eqb w "where" then Some KWhere else None
  | TTup [_; TSub (TName w) _] => if String.eqb w "where" then Some KWhere else None
  | _ => None
  end.
(** letdoutil.py 193-232: islet with expanded=False *)
Definition deconames : list string := ["dlet"; "dletseq"; "dletrec"; "blet"; "bletseq"; "bletrec"].
(** The names of the let expressions: letdoutil.py 139-232 *)
Definition exprnames : list string := ["let"; "letseq"; "letrec"; "let_syntax"; "abbrev"].
(** [s in l]. *)
Definition among (s : string) (l : list string) : bool := existsb (String.eqb s) l.
(** islet, with expanded=False: letdoutil.py 139-232 *)
Definition islet (t : tree) : option (kind * string) :=
  match t with
  | TSub (TName s) e =>
      if among s deconames then Some (KDecorator, s)
      else if among s exprnames then match ishaskelly e with Some h => Some (h, s) | None => None end
      else None
  | TCall (TName s) _ _ => if among s deconames then Some (KDecorator, s) else None
  | TSub (TSub (TName s) _) _ | TSub (TCall (TName s) _ _) _ => if among s exprnames then Some (KLispy, s) else None
  | _ => None
  end.

(** letdoutil.py 381-569: UnexpandedLetView *)
Record uview := mkU { vtree : tree; vkind : kind; vmode : option string; vcontainer : bool }.
(** Making an UnexpandedLetView: letdoutil.py 462-479 *)
Definition view (t : tree) : outcome uview :=
  match islet t with
  | Some (k, s) => Ok (mkU t k (Some s) true)
  | None => match ishaskelly t with Some h => Ok (mkU t h None false) | None => Raise TypeError end
  end.
(** What is inside of the brackets: letdoutil.py 482-485 *)
Definition theexpr (v : uview) : outcome tree := if vcontainer v then get_slice (vtree v) else Ok (vtree v).
(** letdoutil.py 500-504, 511-514: of `name[...]` or `name(...)` *)
Definition args_of (t : tree) : outcome (list tree) :=
  match t with
  | TCall _ args _ => Ok args
  | _ => do s <- get_slice t ; Ok (macroargs s)
  end.
(** The bindings in `name[...]` or `name(...)`: letdoutil.py 487-515 *)
Definition bindings_of (t : tree) : outcome (list tree) := do l <- args_of t ; canonize false l.
(** The bindings attribute: letdoutil.py 487-515 *)
Definition get_bindings (v : uview) : outcome (list tree) :=
  match vkind v with
  | KDecorator => bindings_of (vtree v)
  | KLispy => match vtree v with TSub m _ => bindings_of m | _ => Raise AttributeError end
  | KIn => do e <- theexpr v ; match e with TCmp l _ _ => canonize false (macroargs l) | _ => Raise AttributeError end
  | KWhere => do e <- theexpr v ; match e with TTup (_ :: w :: _) => bindings_of w | _ => Raise AttributeError end
  end.
(** letdoutil.py 516-543 *)
Definition set_args (py39 : bool) (t : tree) (new : list tree) : outcome tree :=
  match t with
  | TCall f _ kws => Ok (TCall f new kws)
  | _ => set_slice py39 t (TTup new)
  end.
(** The same place written: letdoutil.py 482-485 *)
Definition put_expr (v : uview) (e : tree) : outcome tree :=
  if vcontainer v then match vtree v with TSub m _ => Ok (TSub m e) | _ => Raise AssertionError end else Ok e.
(** Assigning to bindings: letdoutil.py 516-542 *)
Definition set_bindings (py39 : bool) (v : uview) (new : list tree) : outcome tree :=
  match vkind v with
  | KDecorator => set_args py39 (vtree v) new
  | KLispy => match vtree v with TSub m s => do m' <- set_args py39 m new ; Ok (TSub m' s) | _ => Raise AttributeError end
  | KIn => do e <- theexpr v ; match e with TCmp _ ops l => put_expr v (TCmp (TTup new) ops l) | _ => Raise AttributeError end
  | KWhere =>
      do e <- theexpr v ;
      match e with TTup (b :: w :: l) => do w' <- set_args py39 w new ; put_expr v (TTup (b :: w' :: l)) | _ => Raise AttributeError end
  end.
(** letdoutil.py 545-569 *)
Definition get_body (v : uview) : outcome tree :=
  match vkind v with
  | KDecorator => Raise TypeError
  | KLispy => get_slice (vtree v)
  | KIn => do e <- theexpr v ; match e with TCmp _ _ (b :: _) => Ok b | _ => Raise IndexError end
  | KWhere => do e <- theexpr v ; match e with TTup (b :: _) => Ok b | _ => Raise IndexError end
  end.
(** Assigning to body: letdoutil.py 557-568 *)
Definition set_body (py39 : bool) (v : uview) (new : tree) : outcome tree :=
  match vkind v with
  | KDecorator => Raise TypeError
  | KLispy => set_slice py39 (vtree v) new
  | KIn => do e <- theexpr v ; match e with TCmp a ops (_ :: l) => put_expr v (TCmp a ops (new :: l)) | _ => Raise IndexError end
  | KWhere => do e <- theexpr v ; match e with TTup (_ :: l) => put_expr v (TTup (new :: l)) | _ => Raise IndexError end
  end.

(** letdo.py 77-85, on the whole of a let expression, which the expander takes apart: `name[args][tree]`,
    `name(args)[tree]` or `name[tree]`.  The result: the bindings and the body that the let is made of. *)
Definition expander_args (t : tree) : list tree := match t with TTup l => l | _ => [t] end.
(** The let macro's own use of the view: letdo.py 77-85 *)
Definition apply_let (ls : bool) (t : tree) : outcome (list tree * tree) :=
  let haskelly := fun t => do v <- view t ; do bs <- get_bindings v ; do b <- get_body v ; Ok (bs, b) in
  match t with
  | TSub (TSub (TName _) s) body =>
      match expander_args s with [] => haskelly body | args => do bs <- canonize ls args ; Ok (bs, body) end
  | TSub (TCall (TName _) args _) body =>
      match args with [] => haskelly body | _ => do bs <- canonize ls args ; Ok (bs, body) end
  | TSub (TName _) t => haskelly t
  | _ => Raise TypeError
  end.

(** letdoutil.py 319-379: UnexpandedEnvAssignView; the target is a name, perhaps inside Done *)
Definition assign_parts (t : tree) : outcome (tree * tree) :=
  if isass false t then match t with TShl a b | TWal a b => Ok (a, b) | _ => Raise TypeError end else Raise TypeError.
(** The name of the target, perhaps inside of Done: letdoutil.py 350-354 *)
Fixpoint name_of (t : tree) : option string := match t with TName x => Some x | TDone t => name_of t | _ => None end.
(** The name attribute: letdoutil.py 350-354 *)
Definition assign_name (t : tree) : outcome (option string) := do p <- assign_parts t ; Ok (name_of (fst p)).
(** The value attribute: letdoutil.py 369-373 *)
Definition assign_value (t : tree) : outcome tree := do p <- assign_parts t ; Ok (snd p).
(** letdoutil.py 363-366: [targetnode.body.id]; for a Done in a Done this is an attribute of the inner Done *)
Definition rename (t : tree) (x : string) : tree :=
  match t with TDone (TName _) => TDone (TName x) | TName _ => TName x | _ => t end.
(** Assigning to name: letdoutil.py 355-366 *)
Definition set_assign_name (t : tree) (x : string) : outcome tree :=
  do _ <- assign_parts t ; match t with TShl a b => Ok (TShl (rename a x) b) | TWal a b => Ok (TWal (rename a x) b) | _ => Raise TypeError end.
(** Assigning to value: letdoutil.py 374-378 *)
Definition set_assign_value (t : tree) (v : tree) : outcome tree :=
  do _ <- assign_parts t ; match t with TShl a _ => Ok (TShl a v) | TWal a _ => Ok (TWal a v) | _ => Raise TypeError end.

(** letdoutil.py 279-315: isdo with expanded=False; 571-613: UnexpandedDoView *)
Definition isdo (t : tree) : option string :=
  match t with
  | TSub (TName s) (TTup _) => if among s ["do"; "do0"] then Some s else None
  | _ => None
  end.
(** The body attribute of a do: letdoutil.py 603-607 *)
Definition do_get (t : tree) : outcome (list tree) :=
  match isdo t with
  | Some _ => match t with TSub _ (TTup l) => Ok l | _ => Raise AttributeError end
  | None => match t with TLst l => Ok l | _ => Raise TypeError end
  end.
(** Assigning to the body of a do: letdoutil.py 608-612 *)
Definition do_set (py39 : bool) (t : tree) (new : list tree) : outcome tree :=
  match isdo t with
  | Some _ => set_slice py39 t (TTup new)
  | None => match t with TLst _ => Ok (TLst new) | _ => Raise TypeError end
  end.
