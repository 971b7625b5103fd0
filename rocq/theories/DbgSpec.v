(** What the documentation says about nb and dbg (doc/macros.md, "nb: silly ultralight math notebook" and "dbg: debug-print
    expressions with source code") is part of the model of runs.  Here: on which programs. *)
From Coq Require Import String List ZArith Bool Arith.
From Verif Require Import Base CollModel EnvModel DbgModel.
Import ListNotations.
Open Scope string_scope.
Open Scope list_scope.
Open Scope nat_scope.

(** no dbg[] *)
Fixpoint nodbg (e : ex) : bool :=
  match e with
  | Con _ | Var _ | Texts _ | MkPrinter _ => true
  | Prim _ l => forallb nodbg l
  | IfE e a b => nodbg e && nodbg a && nodbg b
  | Lam _ b | DbgE _ _ b | NotNone b => nodbg b
  | Call _ f args kws => nodbg f && forallb (fun a => nodbg (snd a)) args && forallb (fun a => nodbg (snd a)) kws
  | Tup l => forallb (fun a => nodbg (snd a)) l
  | Dbg _ _ => false
  | DbgP _ ks vs kws => nodbg ks && nodbg vs && forallb (fun a => nodbg (snd a)) kws
  end.
(** Programs as written, that do not use the name theprint.  dbg[] is not in a dbg[] nor in an argument of a print in a dbg
    block, and no argument of such a print is starred.  [m]: in a dbg block, and its print function *)
Fixpoint fine (m : option (option string)) (e : ex) : bool :=
  match e with
  | Con _ => true
  | Var x => negb (String.eqb x "theprint")
  | Prim _ l => forallb (fine m) l
  | IfE e a b => fine m e && fine m a && fine m b
  | Lam ps b => negb (mem "theprint" ps) && fine m b
  | Call _ f args kws =>
      fine m f && forallb (fun a => fine m (snd a)) args && forallb (fun a => fine m (snd a)) kws &&
      match m with
      | Some p => if is_name (pname p) f then forallb (fun a => negb (fst a) && nodbg (snd a)) args else true
      | None => true
      end
  | Tup l => forallb (fun a => fine m (snd a)) l
  | Dbg _ e => fine m e && nodbg e
  | Texts _ | DbgE _ _ _ | DbgP _ _ _ _ | MkPrinter _ | NotNone _ => false
  end.
(** [inb]: in an nb block of the same function.  The print function of an nb block is not named value; there is no nb block
    in another one of the same function, and no dbg block in another one. *)
Fixpoint fines (m : option (option string)) (inb : bool) (s : stm) : bool :=
  match s with
  | Expr e => fine m e
  | Assign x e => negb (String.eqb x "theprint") && fine m e
  | Return None => true
  | Return (Some e) => fine m e
  | If e a b => fine m e && forallb (fines m inb) a && forallb (fines m inb) b
  | Def f ps b => negb (String.eqb f "theprint") && negb (mem "theprint" ps) && forallb (fines m false) b
  | WithDbg p b =>
      match m with Some _ => false | None => negb (String.eqb (pname p) "theprint") && forallb (fines (Some p) inb) b end
  | WithNb p b =>
      negb inb && negb (match p with Some x => String.eqb x "theprint" || String.eqb x "value" | None => false end) &&
      forallb (fines m true) b
  end.

(** Two runs are the same, but for the global variable theprint *)
Definition same_run {W : Type} (a b : option (outcome (option value) * list (string * value) * list event * W)) : Prop :=
  match a, b with
  | Some (r, g, o, w), Some (r', g', o', w') =>
      r = r' /\ o = o' /\ w = w' /\ forall x, x <> "theprint" -> dict_get String.eqb g' x = dict_get String.eqb g x
  | None, None => True
  | _, _ => False
  end.

(** The program without dbg *)
Fixpoint undbg (e : ex) : ex :=
  match e with
  | Con _ | Var _ | Texts _ | MkPrinter _ => e
  | Prim o l => Prim o (map undbg l)
  | IfE e a b => IfE (undbg e) (undbg a) (undbg b)
  | Lam ps b => Lam ps (undbg b)
  | Call line f args kws => Call line (undbg f) (map (fun a => (fst a, undbg (snd a))) args) (map (fun kw => (fst kw, undbg (snd kw))) kws)
  | Tup l => Tup (map (fun a => (fst a, undbg (snd a))) l)
  | Dbg _ e => undbg e
  | DbgE line t e => DbgE line t (undbg e)
  | DbgP line ks vs kws => DbgP line (undbg ks) (undbg vs) (map (fun kw => (fst kw, undbg (snd kw))) kws)
  | NotNone e => NotNone (undbg e)
  end.
Fixpoint undbgs (s : stm) : stm :=
  match s with
  | Expr e => Expr (undbg e)
  | Assign x e => Assign x (undbg e)
  | Return e => Return (option_map undbg e)
  | If e a b => If (undbg e) (map undbgs a) (map undbgs b)
  | Def f ps b => Def f ps (map undbgs b)
  | WithDbg p b => If (Con (CBool true)) (map undbgs b) []
  | WithNb p b => WithNb p (map undbgs b)
  end.
(** The program does not define another print, and there is no dbg block with another print function *)
Fixpoint noprint (e : ex) : bool :=
  match e with
  | Con _ | Var _ | Texts _ | MkPrinter _ => true
  | Prim _ l => forallb noprint l
  | IfE e a b => noprint e && noprint a && noprint b
  | Lam ps b => negb (mem "print" ps) && noprint b
  | Dbg _ b | DbgE _ _ b | NotNone b => noprint b
  | Call _ f args kws => noprint f && forallb (fun a => noprint (snd a)) args && forallb (fun a => noprint (snd a)) kws
  | Tup l => forallb (fun a => noprint (snd a)) l
  | DbgP _ ks vs kws => noprint ks && noprint vs && forallb (fun a => noprint (snd a)) kws
  end.
Fixpoint noprints (s : stm) : bool :=
  match s with
  | Expr e => noprint e
  | Assign x e => negb (String.eqb x "print") && noprint e
  | Return None => true
  | Return (Some e) => noprint e
  | If e a b => noprint e && forallb noprints a && forallb noprints b
  | Def f ps b => negb (String.eqb f "print") && negb (mem "print" ps) && forallb noprints b
  | WithDbg p b => match p with None => forallb noprints b | Some _ => false end
  | WithNb p b => forallb noprints b
  end.
(** What remains of the output: print prints the values only, and dbg[] nothing *)
Definition plain (v : event) : list event :=
  match v with
  | Printed _ _ => [v]
  | DbgOut _ l kws => [Printed (map snd l) kws]
  | DbgVal _ _ _ => []
  end.
