(** Model of [with autocurry] (unpythonic/syntax/autocurry.py, the tests of decorated lambdas in
    unpythonic/syntax/util.py 121-237) and of the parts of curry (unpythonic/fun.py 195-465)
    that its output calls.

    Simplifications: functions take positional parameters without defaults, and a body is one
    expression.  [curry] occurs only in calls of the form curry(f, ...) (it is not passed
    around), and [Values(...)] is not written by the program, although passing arguments
    through makes such objects.  The sorting of the decorators of lambdas (autocurry.py 140)
    is left out: the programs here have no other decorators.  Decorators of a [def]: none, or
    [@curry]. *)
From Coq Require Import String List Bool Arith.
From Verif Require Import Base.
Import ListNotations.
Open Scope string_scope.
Open Scope list_scope.
Open Scope nat_scope.

(** Expressions.  [EUCurry f args] is the call curry(f, args...) written by the user;
    [ECurryF] and [ECurryCall] are the calls of the hygienically captured curryf and currycall,
    which only the macro writes.  [ETick k] has a visible effect, like print(k). *)
Inductive term :=
| ENum (k : nat)
| EVar (x : string)
| EAdd (a b : term)
| EIf (c a b : term)
| ETick (k : nat)
| ELam (ps : list string) (b : term)
| ECall (f : term) (args : list term)
| EUCurry (f : term) (args : list term)
| ECurryF (e : term)
| ECurryCall (f : term) (args : list term).

(** Statements: x = e, an expression, and [def x(ps): return b], with or without [@curry]. *)
Inductive stmt :=
| SAssign (x : string) (e : term)
| SExpr (e : term)
| SDef (curried : bool) (x : string) (ps : list string) (b : term).

(** ** The macro *)
(** A chain of calls with exactly one positional argument (is_lambda_decorator, syntax/util.py 139-159) that ends
    in a lambda: is_decorated_lambda, mode "any",
    syntax/util.py 161-188 *)
Fixpoint decorated_lambda (t : term) : bool :=
  match t with
  | ECall _ [ELam _ _] => true
  | ECall _ [a] => decorated_lambda a
  | EUCurry (ELam _ _) [] => true
  | EUCurry a [] => decorated_lambda a
  | _ => false
  end.
(** is_lambda_decorator(x, "curry") for some call of the chain.  The function called is
    [curry], or itself a call of [curry]: is_decorator syntax/util.py 122-137, has_deco 223-244 *)
Definition is_curry_deco (t : term) : bool :=
  match t with
  | EUCurry _ [] => true
  | ECall (EUCurry _ _) [_] => true
  | _ => false
  end.
(** has_deco (syntax/util.py 227-244): some call of the chain is a curry. *)
Fixpoint curry_in_chain (t : term) : bool :=
  is_curry_deco t ||
  match t with
  | ECall _ [a] => curry_in_chain a
  | EUCurry a [] => curry_in_chain a
  | _ => false
  end.
(** has_curry: syntax/util.py 212-221 *)
Definition has_curry (t : term) : bool := decorated_lambda t && curry_in_chain t.

(** AutoCurryTransformer.transform: autocurry.py 81-136.  [hc] is self.state.hascurry, which a
    subtree inherits unless it is set again. *)
Fixpoint tr (hc : bool) (t : term) : term :=
  match t with
  | ENum k => ENum k
  | EVar x => EVar x
  | EAdd a b => EAdd (tr hc a) (tr hc b)
  | EIf c a b => EIf (tr hc c) (tr hc a) (tr hc b)
  | ETick k => ETick k
  | ELam ps b => if hc then ELam ps (tr true b) else ECurryF (ELam ps (tr false b))
  | ECall f args =>
      let hc' := hc || has_curry t in
      ECurryCall (tr hc' f) (map (tr hc') args)
  | EUCurry f args =>
      let hc' := hc || has_curry t in
      EUCurry (tr hc' f) (map (tr hc') args)
  | ECurryF e => ECurryF (tr hc e)
  | ECurryCall f args => ECurryCall (tr hc f) (map (tr hc) args)
  end.
(** _autocurry: autocurry.py 80, 119-125, 138-140 *)
Definition expand_stmt (s : stmt) : stmt :=
  match s with
  | SAssign x e => SAssign x (tr false e)
  | SExpr e => SExpr (tr false e)
  | SDef curried x ps b => SDef true x ps (tr false b)
  end.
(** _autocurry on the statements of the block: autocurry.py 80-140 *)
Definition autocurry (body : list stmt) : list stmt := map expand_stmt body.

(** ** Running the output *)
(** [Clo ps b rho] is a function, [Part f a] a functools.partial object.  [VFn] is a callable
    that is not curried, [VCur] one made by curry, [VVals] a [Values] object. *)
Inductive val :=
| VData (k : nat)
| VFn (f : fn)
| VCur (f : fn)
| VVals (l : list val)
with fn :=
| Clo (ps : list string) (b : term) (rho : list (string * val))
| Part (f : fn) (a : list val).
(** Variables and their values (no code in /repo). *)
Definition env := list (string * val).
(** Looking up a variable (no code in /repo). *)
Fixpoint get {A} (rho : list (string * A)) (x : string) : option A :=
  match rho with
  | [] => None
  | (y, v) :: rho' => if String.eqb y x then Some v else get rho' x
  end.

(** Results: [None] is out of fuel; the list is the effects, in order. *)
Definition res (A : Type) := option (list nat * outcome A).
(** A result without further effects (evaluation, no code in /repo). *)
Definition ret {A} (v : A) : res A := Some ([], Ok v).
(** An exception (evaluation, no code in /repo). *)
Definition raise {A} (e : exn) : res A := Some ([], Raise e).
(** One evaluation after another; an exception ends it (no code in /repo). *)
Definition bind {A B} (r : res A) (k : A -> res B) : res B :=
  match r with
  | None => None
  | Some (l, Raise e) => Some (l, Raise e)
  | Some (l, Ok v) =>
      match k v with
      | None => None
      | Some (l', o) => Some (l ++ l', o)
      end
  end.

(** How many positional arguments the callable still needs: inspect.signature of the function
    that the partial objects wrap, and the arguments collected (fun.py 493-520). *)
Fixpoint arity (f : fn) : nat :=
  match f with
  | Clo ps _ _ => length ps
  | Part f a => arity f - length a
  end.
(** callable(v), which fun.py 197-451 asks of a result. *)
Definition callable (v : val) : bool :=
  match v with VFn _ | VCur _ => true | _ => false end.
(** bool(v): the test of a conditional expression. *)
Definition truthy (v : val) : bool := match v with VData 0 => false | _ => true end.

(** A call v(args) in plain Python, given how to call a function that is not curried and one
    that is. *)
Definition py_call (ap cc : fn -> list val -> res val) (v : val) (args : list val) : res val :=
  match v with
  | VData _ | VVals _ => raise TypeError
  | VFn f => ap f args
  | VCur f => cc f args
  end.
(** curry(v, args...): fun.py 306-314, 449-451 *)
Definition curry_call (cc : fn -> list val -> res val) (v : val) (args : list val) : res val :=
  match v with
  | VData _ | VVals _ => ret v
  | VCur f => match args with [] => ret v | _ :: _ => cc f args end
  | VFn f => match args with [] => ret (VCur f) | _ :: _ => cc f args end
  end.
(** _currycall: fun.py 453-465; _curry_force_call at 312 and 449 *)
Definition currycall (cc : fn -> list val -> res val) (v : val) (args : list val) : res val :=
  match v with
  | VData _ | VVals _ => ret v
  | VFn f | VCur f => cc f args
  end.

(** [ctx] is whether dyn.curry_context is nonempty; that is all the code looks at.  [g] are
    the global variables, [rho] the local ones. *)
Fixpoint eval (n : nat) (ctx : bool) (g rho : env) (t : term) : res val :=
  match n with
  | O => None
  | S n =>
      match t with
      | ENum k => ret (VData k)
      | EVar x =>
          match get rho x with
          | Some v => ret v
          | None => match get g x with Some v => ret v | None => raise NameError end
          end
      | EAdd a b =>
          bind (eval n ctx g rho a) (fun v =>
          bind (eval n ctx g rho b) (fun w =>
          match v, w with
          | VData i, VData j => ret (VData (i + j))
          | _, _ => raise TypeError
          end))
      | EIf c a b =>
          bind (eval n ctx g rho c) (fun v => eval n ctx g rho (if truthy v then a else b))
      | ETick k => Some ([k], Ok (VData 0))
      | ELam ps b => ret (VFn (Clo ps b rho))
      | ECall f args =>
          bind (eval n ctx g rho f) (fun v =>
          bind (evals n ctx g rho args) (fun vs =>
          py_call (apply n ctx g) (ccall n ctx g) v vs))
      | EUCurry f args =>
          bind (eval n ctx g rho f) (fun v =>
          bind (evals n ctx g rho args) (fun vs => curry_call (ccall n ctx g) v vs))
      | ECurryF e => bind (eval n ctx g rho e) (fun v => curry_call (ccall n ctx g) v [])
      | ECurryCall f args =>
          bind (eval n ctx g rho f) (fun v =>
          bind (evals n ctx g rho args) (fun vs => currycall (ccall n ctx g) v vs))
      end
  end
(** arguments, left to right *)
with evals (n : nat) (ctx : bool) (g rho : env) (ts : list term) : res (list val) :=
  match n with
  | O => None
  | S n =>
      match ts with
      | [] => ret []
      | t :: ts =>
          bind (eval n ctx g rho t) (fun v =>
          bind (evals n ctx g rho ts) (fun vs => ret (v :: vs)))
      end
  end
(** Python's call of a function or a functools.partial *)
with apply (n : nat) (ctx : bool) (g : env) (f : fn) (args : list val) : res val :=
  match n with
  | O => None
  | S n =>
      match f with
      | Clo ps b rho =>
          if length args =? length ps then eval n ctx g (combine ps args ++ rho) b
          else raise TypeError
      | Part f a => apply n ctx g f (a ++ args)
      end
  end
(** Calling a curried function: fun.py 336-444.  If [f] is a partial object of a partial object,
    unpythonic's [partial] (fun.py 138-143, 160, 438) raises TypeError. *)
with ccall (n : nat) (ctx : bool) (g : env) (f : fn) (args : list val) : res val :=
  match n with
  | O => None
  | S n =>
      if length args <? arity f then
        match f with
        | Part (Part _ _) _ => raise TypeError
        | _ => ret (VCur (Part f args))
        end
      else if length args =? arity f then apply n true g f args
      else
        bind (apply n true g f (firstn (arity f) args)) (fun r =>
        let later := skipn (arity f) args in
        let '(leftmost, later) :=
          match r with
          | VVals [] => (None, later)
          | VVals (v :: others) =>
              if callable v then (Some v, others ++ later) else (None, v :: others ++ later)
          | v => if callable v then (Some v, later) else (None, v :: later)
          end in
        match leftmost with
        | Some (VFn h) | Some (VCur h) => ccall n true g h later
        | _ => if ctx then ret (VVals later) else raise TypeError
        end)
  end.

(** A sequence of statements, run outside any curry context.  Result: the global variables. *)
Fixpoint exec (n : nat) (g : env) (ss : list stmt) : res env :=
  match ss with
  | [] => ret g
  | SAssign x e :: ss => bind (eval n false g [] e) (fun v => exec n ((x, v) :: g) ss)
  | SExpr e :: ss => bind (eval n false g [] e) (fun _ => exec n g ss)
  | SDef curried x ps b :: ss =>
      exec n ((x, if curried then VCur (Clo ps b []) else VFn (Clo ps b [])) :: g) ss
  end.
(** A module: [before], then [with autocurry: block], then [after]. *)
Definition run (n : nat) (before block after : list stmt) : res env :=
  exec n [] (before ++ autocurry block ++ after).
