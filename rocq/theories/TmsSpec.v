(** What the documentation says about test[], the[] and their sisters (doc/macros.md, "the: capture the value of
    interesting subexpressions"; testingtools.py 39-190) *)
From Coq Require Import String List ZArith Bool Arith.
From Verif Require Import Base EnvModel TmsModel.
Import ListNotations.
Open Scope list_scope.
Open Scope nat_scope.

Definition opt_all (p : ex -> bool) (m : option ex) : bool := match m with Some m => p m | None => true end.
(** Programs as people write them, with the[] only in tests.  [t]: in a test *)
Fixpoint placed (t : bool) (e : ex) : bool :=
  match e with
  | Con _ | Var _ => true
  | Prim _ l => forallb (placed t) l
  | Cmp e l => placed t e && forallb (fun oe => placed t (snd oe)) l
  | IfE e a b => placed t e && placed t a && placed t b
  | Lam _ b => placed t b
  | Call f args => placed t f && forallb (placed t) args
  | The e => t && placed t e
  | Test e m => placed true e && opt_all (placed false) m
  | Uncond _ m => placed false m
  | Raises _ e m => placed false e && opt_all (placed false) m
  | Mark _ | Rec _ _ _ | Assert _ _ _ | AssertR _ _ _ => false
  end.
Fixpoint placeds (t : bool) (s : stm) : bool :=
  match s with
  | Expr e | Assign _ e => placed t e
  | Return e => opt_all (placed t) e
  | If e a b => placed t e && forallb (placeds t) a && forallb (placeds t) b
  | Def _ _ b => forallb (placeds t) b
  | TestB m b => opt_all (placed false) m && forallb (placeds true) b
  | RaisesB _ m b => opt_all (placed false) m && forallb (placeds false) b
  | AssertB _ _ _ | AssertRB _ _ _ => false
  end.

(** In addition, no the[] in another the[], and none in a test block that is in another test block, unless it is in a
    test[] in there *)
Inductive region := Outside | Marks | Inner.
Fixpoint simple (r : region) (e : ex) : bool :=
  match e with
  | Con _ | Var _ => true
  | Prim _ l => forallb (simple r) l
  | Cmp e l => simple r e && forallb (fun oe => simple r (snd oe)) l
  | IfE e a b => simple r e && simple r a && simple r b
  | Lam _ b => simple r b
  | Call f args => simple r f && forallb (simple r) args
  | The e => match r with Marks => negb (has_mark e) && simple r e | _ => false end
  | Test e m => simple Marks e && opt_all (simple Outside) m
  | Uncond _ m => simple Outside m
  | Raises _ e m => simple Outside e && opt_all (simple Outside) m
  | Mark _ | Rec _ _ _ | Assert _ _ _ | AssertR _ _ _ => false
  end.
Definition in_block (r : region) : region := match r with Outside => Marks | _ => Inner end.
(** No the[] of its own in `with test_raises` *)
Definition in_raises (r : region) : region := match r with Outside => Outside | _ => Inner end.
Fixpoint simples (r : region) (s : stm) : bool :=
  match s with
  | Expr e | Assign _ e => simple r e
  | Return e => opt_all (simple r) e
  | If e a b => simple r e && forallb (simples r) a && forallb (simples r) b
  | Def _ _ b => forallb (simples r) b
  | TestB m b => opt_all (simple Outside) m && forallb (simples (in_block r)) b
  | RaisesB _ m b => opt_all (simple Outside) m && forallb (simples (in_raises r)) b
  | AssertB _ _ _ | AssertRB _ _ _ => false
  end.

(** The same program without the[] *)
Fixpoint unmark (e : ex) : ex :=
  match e with
  | Con _ | Var _ | Mark _ => e
  | Prim o l => Prim o (map unmark l)
  | Cmp e l => Cmp (unmark e) (map (fun oe => (fst oe, unmark (snd oe))) l)
  | IfE e a b => IfE (unmark e) (unmark a) (unmark b)
  | Lam ps b => Lam ps (unmark b)
  | Call f args => Call (unmark f) (map unmark args)
  | The e => unmark e
  | Test e m => Test (unmark e) (option_map unmark m)
  | Uncond u m => Uncond u (unmark m)
  | Raises x e m => Raises x (unmark e) (option_map unmark m)
  | Rec n t e => Rec n t (unmark e)
  | Assert n e m => Assert n (unmark e) (unmark m)
  | AssertR x e m => AssertR x (unmark e) (unmark m)
  end.
Fixpoint unmarks (s : stm) : stm :=
  match s with
  | Expr e => Expr (unmark e)
  | Assign x e => Assign x (unmark e)
  | Return e => Return (option_map unmark e)
  | If e a b => If (unmark e) (map unmarks a) (map unmarks b)
  | Def f ps b => Def f ps (map unmarks b)
  | TestB m b => TestB (option_map unmark m) (map unmarks b)
  | AssertB n m b => AssertB n (unmark m) (map unmarks b)
  | RaisesB x m b => RaisesB x (option_map unmark m) (map unmarks b)
  | AssertRB x m b => AssertRB x (unmark m) (map unmarks b)
  end.

(** Two runs are the same, but for the values recorded *)
Definition same_report (a b : report) : Prop := how a = how b /\ message a = message b.
Definition same_run {W : Type} (a b : option (outcome (option value) * list report * W)) : Prop :=
  match a, b with
  | Some (r, l, w), Some (r', l', w') => r = r' /\ Forall2 same_report l l' /\ w = w'
  | None, None => True
  | _, _ => False
  end.

(** What test[] reports, for what its expression gave *)
Definition reported (r : outcome value) (l : list (ex * value)) (m : value) : list report :=
  match r with
  | Raise x => [mkR (Errored x) l m]
  | Ok (VMark u) => [mkR (Requested u) l m]
  | Ok (VCon (CInt 0%Z)) | Ok (VCon (CStr EmptyString)) | Ok (VCon (CBool false)) | Ok (VCon CNone) => [mkR Failed l m]
  | Ok _ => []
  end.
Definition reported_raises (x : exn) (r : outcome value) (m : value) (l : list report) : Prop :=
  match r with
  | Ok _ => l = [mkR NoRaise [] m]
  | Raise y => (x = y /\ l = []) \/ (x <> y /\ l = [mkR (WrongRaise y) [] m])
  end.
(** What a test block gives to the test: what it returns *)
Definition block_value (r : outcome (option value)) : outcome value :=
  match r with Ok (Some v) => Ok v | Ok None => Ok None_ | Raise x => Raise x end.
Definition add_reports {W} (s : st W) (l : list report) : st W := mkS (frames s) (funs s) (caps s) (reports s ++ l) (world s).
