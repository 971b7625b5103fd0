(** Model of the test macros and of the the[] mark (unpythonic/syntax/testingtools.py 785-1043) on programs of a
    part of Python, and of the asserters they call (503-711, 748-778) as far as these programs can tell: when a test
    fails, the handler of the testset reports it and the program goes on (see TsetModel for that part). *)
From Coq Require Import String Ascii List ZArith Bool Arith DecimalString.
From Verif Require Import Base CollModel EnvModel.
Import ListNotations.
Open Scope string_scope.
Open Scope list_scope.
Open Scope nat_scope.

(** Constants of the language model (no code in /repo). *)
Inductive con := CInt (z : Z) | CStr (s : string) | CBool (b : bool) | CNone.
(** fail[], error[] and warn[]: testingtools.py 785-788 *)
Inductive uncond := UFail | UError | UWarn.           (* fail[], error[], warn[] *)
Inductive ex :=
| Con (k : con)
| Var (x : string)
| Prim (o : nat) (l : list ex)                        (* builtin functions and operators, on data *)
| Cmp (e : ex) (l : list (nat * ex))                  (* e op e op ... *)
| IfE (e a b : ex)                                    (* a if e else b *)
| Lam (ps : list string) (b : ex)
| Call (f : ex) (args : list ex)
(* as written *)
| The (e : ex)                                        (* the[e] *)
| Test (e : ex) (m : option ex)                       (* test[e], test[e, m] *)
| Uncond (u : uncond) (m : ex)                        (* fail[m], error[m], warn[m] *)
| Raises (x : exn) (e : ex) (m : option ex)           (* test_raises[x, e], test_raises[x, e, m] *)
(* as expanded *)
| Mark (u : uncond)                                   (* _fail, _error, _warn *)
| Rec (n : nat) (text : ex) (e : ex)                  (* _record_value(e_n, "text", e) *)
| Assert (n : nat) (e : ex) (m : ex)                  (* unpythonic_assert(..., lambda e_n: e, ..., message=m) *)
| AssertR (x : exn) (e : ex) (m : ex).                (* unpythonic_assert_raises(x, ..., lambda: e, ..., message=m) *)
Inductive stm :=
| Expr (e : ex)
| Assign (x : string) (e : ex)
| Return (e : option ex)
| If (e : ex) (a b : list stm)
| Def (f : string) (ps : list string) (b : list stm)
| TestB (m : option ex) (b : list stm)                (* with test: b, with test[m]: b *)
| AssertB (n : nat) (m : ex) (b : list stm)           (* def _test_block(e_n): b; unpythonic_assert(..., _test_block, ..., message=m) *)
| RaisesB (x : exn) (m : option ex) (b : list stm)    (* with test_raises[x]: b, with test_raises[x, m]: b *)
| AssertRB (x : exn) (m : ex) (b : list stm).         (* def _test_block(): b; unpythonic_assert_raises(x, ..., _test_block, ..., message=m) *)
Inductive body := BE (b : ex) | BS (b : list stm).

(** Python values of the language model (no code in /repo). *)
Inductive value := VCon (k : con) | VFun (r : nat) | VMark (u : uncond).
Notation None_ := (VCon CNone).
Notation True_ := (VCon (CBool true)).
(** Python's bool() of a value (no code in /repo). *)
Definition truthy (v : value) : bool :=
  match v with
  | VCon (CInt z) => negb (Z.eqb z 0) | VCon (CStr s) => negb (String.eqb s "") | VCon (CBool b) => b | VCon CNone => false
  | _ => true
  end.
(** What is reported: a failed test, with the values recorded for it, or an unexpected exception; and the message *)
Inductive verdict := Failed | Errored (x : exn) | Requested (u : uncond) | NoRaise | WrongRaise (x : exn).
(** What is reported: testingtools.py 542-711 *)
Record report := mkR { how : verdict; captured : list (ex * value); message : value }.
(** [fcs]: the variables e_n that the function sees *)
Record fobj := mkfun { fps : list string; fbody : body; fc : list nat; fcs : list (nat * nat) }.
(** The variables of one call (no code in /repo). *)
Record frame := mkF { locals : list string; vars : list (string * value) }.
(** A value as a constant (no code in /repo). *)
Definition as_con (v : value) : option con := match v with VCon k => Some k | _ => None end.
(** All values as constants (no code in /repo). *)
Fixpoint cons_of (l : list value) : option (list con) :=
  match l with [] => Some [] | v :: l => match as_con v, cons_of l with Some k, Some r => Some (k :: r) | _, _ => None end end.

(** Local variables.  A test block is a function (testingtools.py 933-977, 1036-1043). *)
Fixpoint stored (s : stm) : list string :=
  match s with
  | Expr _ | Return _ | TestB _ _ | AssertB _ _ _ | RaisesB _ _ _ | AssertRB _ _ _ => []
  | Assign x _ => [x]
  | If _ a b => flat_map stored a ++ flat_map stored b
  | Def f _ _ => [f]
  end.
(** The local variables of a function (no code in /repo). *)
Definition locals_of (ps : list string) (b : body) : list string :=
  ps ++ match b with BE _ => [] | BS b => flat_map stored b end.

(** * The macros *)
(** Is there a the[] for this test?  testingtools.py 876-892; not in a nested test[] (880) *)
Fixpoint marked (e : ex) : bool :=
  match e with
  | Con _ | Var _ | Mark _ | Test _ _ | Uncond _ _ | Raises _ _ _ => false
  | Prim _ l => existsb marked l
  | Cmp e l => marked e || existsb (fun oe => marked (snd oe)) l
  | IfE e a b => marked e || marked a || marked b
  | Lam _ b => marked b
  | Call f args => marked f || existsb marked args
  | The _ => true
  | Rec _ _ e => marked e
  | Assert _ e m => marked e || marked m
  | AssertR _ e m => marked e || marked m
  end.
(** the message of `with test[m]` is inside test[...] *)
Fixpoint markeds (s : stm) : bool :=
  match s with
  | Expr e | Assign _ e | Return (Some e) => marked e
  | Return None => false
  | If e a b => marked e || existsb markeds a || existsb markeds b
  | Def _ _ b => existsb markeds b
  | TestB _ b => existsb markeds b
  | AssertB _ m b => marked m || existsb markeds b
  | RaisesB _ _ b => existsb markeds b
  | AssertRB _ m b => marked m || existsb markeds b
  end.
(** _transform_important_subexpr: testingtools.py 871-895.  Used here for the text only: the marks are replaced in [expand]. *)
Fixpoint transform (n : nat) (e : ex) : ex :=
  match e with
  | Con _ | Var _ | Mark _ | Test _ _ | Uncond _ _ | Raises _ _ _ => e
  | Prim o l => Prim o (map (transform n) l)
  | Cmp e l => Cmp (transform n e) (map (fun oe => (fst oe, transform n (snd oe))) l)
  | IfE e a b => IfE (transform n e) (transform n a) (transform n b)
  | Lam ps b => Lam ps (transform n b)
  | Call f args => Call (transform n f) (map (transform n) args)
  | The e => Rec n (transform n e) (transform n e)
  | Rec k t e => Rec k t (transform n e)
  | Assert k e m => Assert k (transform n e) (transform n m)
  | AssertR x e m => AssertR x (transform n e) (transform n m)
  end.
(** The message of a test, None if there is none: testingtools.py 801-854 *)
Definition no_message (m : option ex) (f : ex -> ex) : ex := match m with Some m => f m | None => Con CNone end.
(** testingtools.py 832-833, 987-989: the implicit the[] at the left of a comparison; [e]: before, [e']: after the expansion of inner tests *)
Definition implicit (n : nat) (text : ex -> ex) (e e' : ex) : ex :=
  match e, e' with Cmp l _, Cmp l' r => Cmp (Rec n (text l) l') r | _, _ => e' end.
(** The expansion of all tests in e.  [k]: the marks belong to the test with this variable; [d]: the number of tests around. *)
Fixpoint expand (k : option nat) (d : nat) (e : ex) : ex :=
  match e with
  | Con _ | Var _ | Mark _ => e
  | Prim o l => Prim o (map (expand k d) l)
  | Cmp e l => Cmp (expand k d e) (map (fun oe => (fst oe, expand k d (snd oe))) l)
  | IfE e a b => IfE (expand k d e) (expand k d a) (expand k d b)
  | Lam ps b => Lam ps (expand k d b)
  | Call f args => Call (expand k d f) (map (expand k d) args)
  | The e => match k with Some n => Rec n (transform n e) (expand k d e) | None => The (expand k d e) end
  | Test e m =>                                                                                   (* 801-854 *)
      let e' := expand (Some d) (S d) e in
      Assert d (if marked e then e' else implicit d (fun l => l) e e') (no_message m (expand None d))
  | Uncond u m => Assert d (Mark u) (expand None d m)                                             (* 785-796 *)
  | Raises x e m => AssertR x (expand None d e) (no_message m (expand None d))                    (* 903-928 *)
  | Rec n t e => Rec n t (expand k d e)
  | Assert n e m => Assert n (expand k d e) (expand k d m)
  | AssertR x e m => AssertR x (expand k d e) (expand k d m)
  end.
(** A return statement. *)
Definition is_return (s : stm) : bool := match s with Return _ => true | _ => false end.
(** testingtools.py 984-990 *)
Fixpoint implicit_return (n : nat) (text : ex -> ex) (b b' : list stm) : list stm :=
  match b, b' with
  | Return (Some e) :: _, Return (Some e') :: r => Return (Some (implicit n text e e')) :: r
  | Return _ :: _, b' => b'
  | _ :: b, s :: b' => s :: implicit_return n text b b'
  | _, b' => b'
  end.
(** The expansion of the tests in a statement: testingtools.py 935-999, 1002-1043 *)
Fixpoint expands (k : option nat) (d : nat) (s : stm) {struct s} : stm :=
  match s with
  | Expr e => Expr (expand k d e)
  | Assign x e => Assign x (expand k d e)
  | Return e => Return (option_map (expand k d) e)
  | If e a b => If (expand k d e) (map (expands k d) a) (map (expands k d) b)
  | Def f ps b => Def f ps (map (expands k d) b)
  | TestB m b =>                                                                                  (* 935-999 *)
      (* in the body of another test, the marks are gone already *)
      let b' := match k with
                | Some n => implicit_return d (transform n) b (map (expands (Some n) (S d)) b)
                | None => let b' := map (expands (Some d) (S d)) b in
                          if existsb markeds b then b' else implicit_return d (fun l => l) b b'
                end in
      AssertB d (no_message m (expand None d))
              (if existsb is_return b then b' else b' ++ [Return (Some (Con (CBool true)))])
  | AssertB n m b => AssertB n (expand k d m) (map (expands k d) b)
  | RaisesB x m b => AssertRB x (no_message m (expand None d)) (map (expands k d) b)              (* 1007-1043 *)
  | AssertRB x m b => AssertRB x (expand k d m) (map (expands k d) b)
  end.
(** A whole program expanded. *)
Definition expand_program (p : list stm) : list stm := map (expands None 0) p.

(** Is there a the[] that belongs to this test, as documented (macros.md: to the innermost test around it)? *)
Fixpoint has_mark (e : ex) : bool :=
  match e with
  | Con _ | Var _ | Mark _ | Test _ _ | Uncond _ _ | Raises _ _ _ | Assert _ _ _ | AssertR _ _ _ => false
  | Prim _ l => existsb has_mark l
  | Cmp e l => has_mark e || existsb (fun oe => has_mark (snd oe)) l
  | IfE e a b => has_mark e || has_mark a || has_mark b
  | Lam _ b => has_mark b
  | Call f args => has_mark f || existsb has_mark args
  | The _ => true
  | Rec _ _ e => has_mark e
  end.
(** Whether a the[] belongs to this test block, as documented. *)
Fixpoint has_marks (s : stm) : bool :=
  match s with
  | Expr e | Assign _ e | Return (Some e) => has_mark e
  | Return None | TestB _ _ | AssertB _ _ _ | RaisesB _ _ _ | AssertRB _ _ _ => false
  | If e a b => has_mark e || existsb has_marks a || existsb has_marks b
  | Def _ _ b => existsb has_marks b
  end.

(** * How programs run.  This includes what the forms mean as they are documented (testingtools.py 39-83, 91-190): each test has its own
    list of values, to which the[] in it adds. *)
Section Run.
Variable W : Type.
Variable prim : nat -> list con -> W -> outcome con * W.
(** comparison operators *)
Variable compare : nat -> con -> con -> W -> outcome con * W.
Record st := mkS { frames : list frame; funs : list fobj; caps : list (list (ex * value)); reports : list report; world : W }.
(** Computations of the language model (no code in /repo); None is out of fuel. *)
Definition M (A : Type) := st -> option (outcome A * st).
(** A result without further effects (evaluation, no code in /repo). *)
Definition ret {A} (a : A) : M A := fun s => Some (Ok a, s).
(** An exception (evaluation, no code in /repo). *)
Definition raise {A} (x : exn) : M A := fun s => Some (Raise x, s).
(** One evaluation after another; an exception ends it (no code in /repo). *)
Definition mbind {A B} (m : M A) (f : A -> M B) : M B := fun s =>
  match m s with
  | None => None
  | Some (Ok a, s') => f a s'
  | Some (Raise x, s') => Some (Raise x, s')
  end.
Notation "'let*' x := m 'in' b" := (mbind m (fun x => b)) (at level 200, x name, m at level 100, b at level 200).
(** try *)
Definition observe {A} (m : M A) : M (outcome A) := fun s =>
  match m s with
  | None => None
  | Some (r, s') => Some (Ok r, s')
  end.

(** The nearest scope that has the variable (Python's own rule, no code in /repo). *)
Fixpoint nearest (fs : list frame) (c : list nat) (x : string) : nat :=
  match c with
  | [] => 0
  | i :: c => match nth_error fs i with Some f => if mem x (locals f) then i else nearest fs c x | None => 0 end
  end.
(** Python's lookup of a variable (no code in /repo). *)
Definition get_var (c : list nat) (x : string) : M value := fun s =>
  match nth_error (frames s) (nearest (frames s) c x) with
  | Some f => match dict_get String.eqb (vars f) x with Some v => Some (Ok v, s) | None => Some (Raise NameError, s) end
  | None => Some (Raise NameError, s)
  end.
(** Python's assignment to a variable (no code in /repo). *)
Definition set_var (c : list nat) (x : string) (v : value) : M unit := fun s =>
  let i := nearest (frames s) c x in
  match nth_error (frames s) i with
  | Some f => Some (Ok tt, mkS (upd (frames s) i (mkF (locals f) (dict_set String.eqb (vars f) x v))) (funs s) (caps s) (reports s) (world s))
  | None => Some (Raise NameError, s)
  end.
(** A new scope (language model, no code in /repo). *)
Definition alloc (f : frame) : M nat := fun s => Some (Ok (length (frames s)), mkS (frames s ++ [f]) (funs s) (caps s) (reports s) (world s)).
(** A new function object (language model, no code in /repo). *)
Definition new_fun (f : fobj) : M value := fun s =>
  Some (Ok (VFun (length (funs s))), mkS (frames s) (funs s ++ [f]) (caps s) (reports s) (world s)).
(** testingtools.py 587: e = env(captured_values=[]) *)
Definition new_cap : M nat := fun s => Some (Ok (length (caps s)), mkS (frames s) (funs s) (caps s ++ [[]]) (reports s) (world s)).
(** testingtools.py 863-865 *)
Definition record (i : nat) (text : ex) (v : value) : M value := fun s =>
  match nth_error (caps s) i with
  | Some l => Some (Ok v, mkS (frames s) (funs s) (upd (caps s) i (l ++ [(text, v)])) (reports s) (world s))
  | None => Some (Raise NameError, s)
  end.
(** What has been recorded for a test: testingtools.py 863-865 *)
Definition get_cap (i : nat) : M (list (ex * value)) := fun s =>
  match nth_error (caps s) i with Some l => Some (Ok l, s) | None => Some (Raise NameError, s) end.
(** A report is made. *)
Definition tell (r : report) : M unit := fun s => Some (Ok tt, mkS (frames s) (funs s) (caps s) (reports s ++ [r]) (world s)).
(** Something outside of the language is asked (no code in /repo). *)
Definition on_world (f : W -> outcome con * W) : M value := fun s =>
  match f (world s) with
  | (Ok d, w) => Some (Ok (VCon d), mkS (frames s) (funs s) (caps s) (reports s) w)
  | (Raise x, w) => Some (Raise x, mkS (frames s) (funs s) (caps s) (reports s) w)
  end.
(** The primitive operations, which are arbitrary (no code in /repo). *)
Definition do_prim (o : nat) (l : list value) : M value :=
  match cons_of l with Some l => on_world (prim o l) | None => raise TypeError end.
(** A comparison (no code in /repo). *)
Definition do_compare (o : nat) (a b : value) : M value :=
  match a, b with VCon a, VCon b => on_world (compare o a b) | _, _ => raise TypeError end.

(** testingtools.py 587-711: unpythonic_assert; [thunk] gets the number of the env *)
Definition assert_ (thunk : nat -> M value) (m : value) : M value :=
  let* i := new_cap in
  let* r := observe (thunk i) in
  let* l := get_cap i in
  match r with
  | Ok (VMark u) => let* _ := tell (mkR (Requested u) l m) in ret None_
  | Ok v => if truthy v then ret None_ else let* _ := tell (mkR Failed l m) in ret None_
  | Raise x => let* _ := tell (mkR (Errored x) l m) in ret None_
  end.
(** testingtools.py 748-778; no subclasses of exceptions here *)
Definition exn_eq_dec (a b : exn) : {a = b} + {a <> b}.
Proof. decide equality. apply Nat.eq_dec. Defined.
(** Equality of exceptions. *)
Definition exn_eqb (a b : exn) : bool := if exn_eq_dec a b then true else false.
(** unpythonic_assert_raises: testingtools.py 748-778 *)
Definition assert_raises (x : exn) (thunk : M value) (m : value) : M value :=
  let* r := observe thunk in
  match r with
  | Ok _ => let* _ := tell (mkR NoRaise [] m) in ret None_
  | Raise y => if exn_eqb x y then ret None_ else let* _ := tell (mkR (WrongRaise y) [] m) in ret None_
  end.
(** The variable of a test (no code in /repo). *)
Definition lookup (n : nat) (cs : list (nat * nat)) : option nat := option_map snd (find (fun c => fst c =? n) cs).

(** arguments, from the left *)
Definition evals_ (ev : ex -> M value) := fix evals (l : list ex) : M (list value) :=
  match l with [] => ret [] | e :: l => let* v := ev e in let* r := evals l in ret (v :: r) end.
(** a chain of comparisons, from the second term *)
Definition compares_ (ev : ex -> M value) := fix go (v : value) (l : list (nat * ex)) : M value :=
  match l with
  | [] => ret v
  | (o, e) :: l =>
      let* w := ev e in
      let* b := do_compare o v w in
      match l with [] => ret b | _ => if truthy b then go w l else ret b end
  end.
(** Statements one after the other until one returns (no code in /repo). *)
Definition execs_ (exec : stm -> M (option value)) := fix execs (l : list stm) : M (option value) :=
  match l with [] => ret None | s :: l => let* r := exec s in match r with Some v => ret (Some v) | None => execs l end end.

Section Apply.
Variable apply : value -> list value -> M value.
(** [cs]: the variables e_n, innermost first; [imp]: the left of a comparison is marked *)
Fixpoint eval (imp : bool) (e : ex) (c : list nat) (cs : list (nat * nat)) {struct e} : M value :=
  let message (m : option ex) := match m with Some m => eval false m c cs | None => ret None_ end in
  let the (text : ex) (v : value) := match cs with (_, i) :: _ => record i text v | [] => raise RuntimeError end in
  match e with
  | Con k => ret (VCon k)
  | Var x => get_var c x
  | Prim o l =>
      let* vs := evals_ (fun e => eval false e c cs) l in
      do_prim o vs
  | Cmp e l =>
      let* v := eval false e c cs in
      let* v := (if imp then the e v else ret v) in
      compares_ (fun e => eval false e c cs) v l
  | IfE e a b => let* v := eval false e c cs in if truthy v then eval false a c cs else eval false b c cs
  | Lam ps b => new_fun (mkfun ps (BE b) c cs)
  | Call f args =>
      let* v := eval false f c cs in
      let* vs := evals_ (fun e => eval false e c cs) args in
      apply v vs
  | The e => let* v := eval false e c cs in the e v
  | Test e m =>
      let* w := message m in
      assert_ (fun i => eval (negb (has_mark e)) e c ((length cs, i) :: cs)) w
  | Uncond u m => let* w := eval false m c cs in assert_ (fun _ => ret (VMark u)) w
  | Raises x e m => let* w := message m in assert_raises x (eval false e c cs) w
  | Mark u => ret (VMark u)
  | Rec n t e =>
      match lookup n cs with
      | Some i => let* v := eval false e c cs in record i t v
      | None => raise NameError
      end
  | Assert n e m => let* w := eval false m c cs in assert_ (fun i => eval false e c ((n, i) :: cs)) w
  | AssertR x e m => let* w := eval false m c cs in assert_raises x (eval false e c cs) w
  end.
(** An optional expression (no code in /repo). *)
Definition opt_eval (imp : bool) (e : option ex) (c : list nat) (cs : list (nat * nat)) : M value :=
  match e with Some e => eval imp e c cs | None => ret None_ end.
(** the result of a statement: the returned value, if any *)
Fixpoint exec (imp : bool) (s : stm) (c : list nat) (cs : list (nat * nat)) {struct s} : M (option value) :=
  let execs (imp : bool) (l : list stm) (c : list nat) (cs : list (nat * nat)) := execs_ (fun s => exec imp s c cs) l in
  match s with
  | Expr e => let* _ := eval false e c cs in ret None
  | Assign x e => let* v := eval false e c cs in let* _ := set_var c x v in ret None
  | Return e => let* v := opt_eval imp e c cs in ret (Some v)
  | If e a b => let* v := eval false e c cs in if truthy v then execs false a c cs else execs false b c cs
  | Def f ps b => let* g := new_fun (mkfun ps (BS b) c cs) in let* _ := set_var c f g in ret None
  | TestB m b =>                     (* passes if the value returned is true, or if nothing is returned *)
      let* w := opt_eval false m c cs in
      let* _ := assert_ (fun i =>
        let* j := alloc (mkF (locals_of [] (BS b)) []) in
        let* r := execs (negb (existsb has_marks b)) b (j :: c) ((length cs, i) :: cs) in
        ret (match r with Some v => v | None => True_ end)) w in
      ret None
  | AssertB n m b =>
      let* w := eval false m c cs in
      let* _ := assert_ (fun i =>
        let* j := alloc (mkF (locals_of [] (BS b)) []) in
        let* r := execs false b (j :: c) ((n, i) :: cs) in
        ret (match r with Some v => v | None => None_ end)) w in
      ret None
  | RaisesB x m b =>
      let* w := opt_eval false m c cs in
      let* _ := assert_raises x (
        let* j := alloc (mkF (locals_of [] (BS b)) []) in
        let* r := execs false b (j :: c) cs in
        ret (match r with Some v => v | None => None_ end)) w in
      ret None
  | AssertRB x m b =>
      let* w := eval false m c cs in
      let* _ := assert_raises x (
        let* j := alloc (mkF (locals_of [] (BS b)) []) in
        let* r := execs false b (j :: c) cs in
        ret (match r with Some v => v | None => None_ end)) w in
      ret None
  end.
(** Statements one after the other (no code in /repo). *)
Definition execs (imp : bool) (l : list stm) (c : list nat) (cs : list (nat * nat)) : M (option value) :=
  execs_ (fun s => exec imp s c cs) l.
(** The body of a function in its own scope (no code in /repo). *)
Definition enter (f : fobj) (args : list (string * value)) : M value :=
  let* i := alloc (mkF (locals_of (fps f) (fbody f)) args) in
  match fbody f with
  | BE b => eval false b (i :: fc f) (fcs f)
  | BS b => let* r := execs false b (i :: fc f) (fcs f) in ret (match r with Some v => v | None => None_ end)
  end.
End Apply.
(** [fuel]: how many calls may be nested *)
Fixpoint call (fuel : nat) (f : value) (args : list value) : M value :=
  match fuel with
  | 0 => fun _ => None
  | S fuel =>
      match f with
      | VFun r => fun s =>
          match nth_error (funs s) r with
          | Some f => if length args =? length (fps f) then enter (call fuel) f (combine (fps f) args) s else Some (Raise TypeError, s)
          | None => Some (Raise RuntimeError, s)
          end
      | _ => raise TypeError
      end
  end.
(** a program: what it returns, what is reported and what it does *)
Definition run (fuel : nat) (globals : list (string * con)) (p : list stm) (w : W) : option (outcome (option value) * list report * W) :=
  let f0 := mkF [] (map (fun g => (fst g, VCon (snd g))) globals) in
  match execs (call fuel) false p [] [] (mkS [f0] [] [] [] w) with Some (r, s) => Some (r, reports s, world s) | None => None end.
End Run.
Arguments frames {W}.
Arguments funs {W}.
Arguments caps {W}.
Arguments reports {W}.
Arguments world {W}.
Arguments mkS {W}.
Arguments mbind {W A B}.
Arguments ret {W A}.
Arguments raise {W A}.

(** * What the message of a failed test shows of the recorded values: testingtools.py 604-631.  For values that are natural numbers or
    strings of letters, and sources that are such literals or names; without the colors that unparse adds. *)
Inductive lit := LNat (n : nat) | LWord (s : string).
(** A string in single quotes (Python's repr). *)
Definition quote (s : string) : string := ("'" ++ s ++ "'")%string.
(** A number in decimal (Python's repr). *)
Definition digits (n : nat) : string := NilEmpty.string_of_uint (Nat.to_uint n).
(** repr *)
Definition repr (v : lit) : string := match v with LNat n => digits n | LWord s => quote s end.
(** repr of a string: as [quote], but with double quotes if there is a single quote in it *)
Fixpoint has_quote (s : string) : bool := match s with EmptyString => false | String c s => Ascii.eqb c "'"%char || has_quote s end.
(** [repr] of a string, for strings without special characters. *)
Definition repr_string (s : string) : string := if has_quote s then ("""" ++ s ++ """")%string else quote s.
(** canonize_expr: testingtools.py 610-617.  What is in the sources here has one form already. *)
Definition canonize (s : string) : string := s.
(** testingtools.py 620-622: [subexpr_value] is the repr already, and its repr is taken again *)
Definition shown (l : list (string * lit)) : list string :=
  let logged := map (fun sv => (fst sv, repr (snd sv))) l in
  map (fun st => (fst st ++ " = " ++ snd st)%string)
      (filter (fun st => negb (String.eqb (canonize (fst st)) (canonize (repr_string (snd st))))) logged).
