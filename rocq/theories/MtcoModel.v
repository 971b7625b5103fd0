(** Model of `with tco` (unpythonic/syntax/tailtools.py 723-748 and 1472-1644) on the fragment of Python of PyModel.
    The programs contain no expanded let[] or do[] (1575-1586), no Values(...) (1603-1604) and no macro
    invocations; escape continuations occur only in the form `return ec(...)` (the treatment of the
    arguments of other ec calls, 1509-1512, is left out); every lambda is one of the user's. *)
From Coq Require Import String List Bool.
From Verif Require Import Base PyModel.
Import ListNotations.
Open Scope string_scope.
Open Scope list_scope.

Section Tco.
Variable ecs : list string.      (* names of known escape continuations: syntax/util.py 38-86 *)

(** syntax/util.py 29-36 *)
Definition isec (e : expr) : bool :=
  match e with ECall (EVar x) _ => existsb (String.eqb x) ecs | _ => false end.
(** "must match above handlers" (tailtools.py 1618): Call, IfExp, BoolOp *)
Definition compound (e : expr) : bool :=
  match e with ECall _ _ | EJump _ _ | EIf _ _ _ | EBool _ _ => true | _ => false end.
(** tailtools.py 1620-1634, [init] being all items but the last, and [t] the last, transformed.  The anaphoric if
    aif[others, it, tail] is written here as [others or tail]: it binds the value of [others] to a name
    that is not in the user's program, and has that value if it is true, and else that of [tail]. *)
Definition bool_op (isand : bool) (init : list expr) (t : expr) : expr :=
  let others := match init with [e] => e | _ => EBool isand init end in
  if isand then EIf others t (EConst (VBool false)) else EBool false [others; t].
(** tailtools.py 1550-1644: _transform_retexpr *)
Fixpoint retexpr (e : expr) : expr :=
  match e with
  | ECall f args => if isec e then e else EJump f args
  | EIf t a b => EIf t (retexpr a) (retexpr b)
  | EBool isand l =>
      match (fix last (l : list expr) : option expr :=
               match l with [] => None | [e] => if compound e then Some (retexpr e) else None | _ :: l => last l end) l with
      | Some t => bool_op isand (removelast l) t
      | None => e
      end
  | _ => e
  end.

(** tailtools.py 1493-1514: _tco_transform_return *)
Fixpoint ret_s (s : stmt) : stmt :=
  let all := fix all (l : list stmt) : list stmt := match l with [] => [] | s :: l => ret_s s :: all l end in
  match s with
  | SReturn e => if isec e then SExpr e else SReturn (retexpr e)
  | SIf e a b => SIf e (all a) (all b)
  | SWhile e a b => SWhile e (all a) (all b)
  | STry a hs b c =>
      STry (all a) ((fix hl (hs : list ((exn -> bool) * list stmt)) :=
                       match hs with [] => [] | (m, l) :: hs => (m, all l) :: hl hs end) hs) (all b) (all c)
  | SWith e x a => SWith e x (all a)
  | SDef tr x ps b => SDef tr x ps (all b)
  | SClass x b => SClass x (all b)
  | SList l => SList (all l)
  | s => s
  end.
(** tailtools.py 1472-1488: _tco_transform_def.  (A function that has a trampoline keeps it, and gets no second one.) *)
Fixpoint def_s (s : stmt) : stmt :=
  let all := fix all (l : list stmt) : list stmt := match l with [] => [] | s :: l => def_s s :: all l end in
  match s with
  | SIf e a b => SIf e (all a) (all b)
  | SWhile e a b => SWhile e (all a) (all b)
  | STry a hs b c =>
      STry (all a) ((fix hl (hs : list ((exn -> bool) * list stmt)) :=
                       match hs with [] => [] | (m, l) :: hs => (m, all l) :: hl hs end) hs) (all b) (all c)
  | SWith e x a => SWith e x (all a)
  | SDef _ x ps b => SDef true x ps (all b)
  | SClass x b => SClass x (all b)
  | SList l => SList (all l)
  | s => s
  end.
(** tailtools.py 1517-1544: _tco_transform_lambda.  The code transforms the body and then visits what results; here
    this is done in the other order (see the lemma [lam_ret]). *)
Fixpoint lam_e (e : expr) : expr :=
  let all := fix all (l : list expr) : list expr := match l with [] => [] | e :: l => lam_e e :: all l end in
  match e with
  | EPrim o l => EPrim o (all l)
  | ECall f l => ECall (lam_e f) (all l)
  | EIf t a b => EIf (lam_e t) (lam_e a) (lam_e b)
  | EBool i l => EBool i (all l)
  | ELam _ ps b => ELam true ps (retexpr (lam_e b))
  | EJump f l => EJump (lam_e f) (all l)
  | e => e
  end.
(** _tco_transform_lambda on a statement: tailtools.py 1519-1544 *)
Fixpoint lam_s (s : stmt) : stmt :=
  let all := fix all (l : list stmt) : list stmt := match l with [] => [] | s :: l => lam_s s :: all l end in
  match s with
  | SExpr e => SExpr (lam_e e)
  | SAssign x e => SAssign x (lam_e e)
  | SReturn e => SReturn (lam_e e)
  | SRaise e => SRaise (lam_e e)
  | SIf e a b => SIf (lam_e e) (all a) (all b)
  | SWhile e a b => SWhile (lam_e e) (all a) (all b)
  | STry a hs b c =>
      STry (all a) ((fix hl (hs : list ((exn -> bool) * list stmt)) :=
                       match hs with [] => [] | (m, l) :: hs => (m, all l) :: hl hs end) hs) (all b) (all c)
  | SWith e x a => SWith (lam_e e) x (all a)
  | SDef tr x ps b => SDef tr x ps (all b)
  | SClass x b => SClass x (all b)
  | SList l => SList (all l)
  | s => s
  end.
(** tailtools.py 723-748: _tco *)
Definition tco (l : list stmt) : list stmt := map (fun s => lam_s (def_s (ret_s s))) l.
End Tco.
