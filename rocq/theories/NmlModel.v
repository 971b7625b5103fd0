(** Model of the namedlambda macro (unpythonic/syntax/lambdatools.py 259-412), of namelambda
    (unpythonic/misc.py 54-123), and of the programs the macro works on: a part of Python with function objects that
    have names, keyword arguments, default values, dictionaries, and let, `x << e`, `x := e`. *)
From Coq Require Import String List ZArith Bool Arith.
From Verif Require Import Base CollModel EnvModel.
Import ListNotations.
Open Scope string_scope.
Open Scope list_scope.
Open Scope nat_scope.

(** constants: what can be written as a key of a dictionary *)
Inductive con := CInt (z : Z) | CStr (s : string) | CNone.
(** Expressions of the language model, before and after expansion (no code in /repo). *)
Inductive ex :=
| Con (k : con)
| Var (x : string)
| Prim (o : nat) (l : list ex)                                   (* builtin functions and operators, on data *)
| NameOf (e : ex)                                                (* e.__name__ *)
| Item (e k : ex)                                                (* e[k] *)
| Lam (ps : list string) (ds : list ex) (line : nat) (b : ex)    (* line: where it is in the file *)
| Call (f : ex) (args : list ex) (kws : list (option string * ex))  (* None: two stars *)
| Shl (x : string) (e : ex)                                      (* x << e, where x is a variable of a let or do *)
| Wal (x : string) (e : ex)                                      (* x := e *)
| Let (bs : list (string * ex)) (b : ex)                         (* let[x << e, ...][b]; not yet expanded *)
| Dict (l : list (option ex * ex))                               (* None: two stars *)
| NameCall (n : con) (e : ex).                                   (* namelambda(n)(e) *)
Inductive stm :=
| Expr (e : ex)
| Assign (x : string) (e : ex)
| Return (e : ex)
| If (e : ex) (a b : list stm)
| Def (f : string) (decos : list ex) (ps : list string) (ds : list ex) (b : list stm).
(** The body of a lambda or of a def (no code in /repo). *)
Inductive body := BE (b : ex) | BS (b : list stm).

(** Python values of the language model (no code in /repo). *)
Inductive value := VCon (k : con) | VFun (r : nat) | VDict (l : list (value * value)).
(** a function object; [c]: the frames around it, innermost first *)
Record fobj := mkfun { fname : string; fps : list string; fds : list value; fbody : body; fc : list nat }.
(** The variables of one call (no code in /repo). *)
Record frame := mkF { locals : list string; vars : list (string * value) }.
(** [==] on constants (no code in /repo). *)
Definition con_eqb (a b : con) : bool :=
  match a, b with CInt x, CInt y => Z.eqb x y | CStr x, CStr y => String.eqb x y | CNone, CNone => true | _, _ => false end.
(** [bool(v)] (no code in /repo). *)
Definition truthy (v : value) : bool :=
  match v with VCon (CInt z) => negb (Z.eqb z 0) | VCon (CStr s) => negb (String.eqb s "") | VCon CNone => false | VFun _ => true | VDict l => match l with [] => false | _ => true end end.
(** A value as a constant (no code in /repo). *)
Definition as_con (v : value) : option con := match v with VCon k => Some k | _ => None end.
(** All values as constants (no code in /repo). *)
Fixpoint cons_of (l : list value) : option (list con) :=
  match l with [] => Some [] | v :: l => match as_con v, cons_of l with Some k, Some r => Some (k :: r) | _, _ => None end end.

(** Local variables of a function.  A lambda or function in it has its own. *)
Fixpoint walrused (e : ex) : list string :=
  match e with
  | Con _ | Var _ => []
  | Prim _ l => flat_map walrused l
  | NameOf e => walrused e
  | Item e k => walrused e ++ walrused k
  | Lam _ ds _ _ => flat_map walrused ds
  | Call f args kws => walrused f ++ flat_map walrused args ++ flat_map (fun kw => walrused (snd kw)) kws
  | Shl _ e => walrused e
  | Wal x e => x :: walrused e
  | Let bs b => flat_map (fun xb => walrused (snd xb)) bs ++ walrused b
  | Dict l => flat_map (fun kv => match fst kv with Some k => walrused k | None => [] end ++ walrused (snd kv)) l
  | NameCall _ e => walrused e
  end.
(** The names that a statement assigns (no code in /repo). *)
Fixpoint stored (s : stm) : list string :=
  match s with
  | Expr e | Return e => walrused e
  | Assign x e => x :: walrused e
  | If e a b => walrused e ++ flat_map stored a ++ flat_map stored b
  | Def f decos _ ds _ => f :: flat_map walrused decos ++ flat_map walrused ds
  end.
(** The local variables of a function (no code in /repo). *)
Definition locals_of (ps : list string) (b : body) : list string :=
  ps ++ match b with BE b => walrused b | BS b => flat_map stored b end.

(** * How programs run *)
Section Run.
Variable W : Type.
Variable prim : nat -> list con -> W -> outcome con * W.
(** The state of the language model (no code in /repo). *)
Record st := mkS { frames : list frame; funs : list fobj; world : W }.
(** Computations of the language model (no code in /repo): a state in, an outcome and a state out; None when out of fuel. *)
Definition M (A : Type) := st -> option (outcome A * st).
(** A computation that gives a value (language model, no code in /repo). *)
Definition ret {A} (a : A) : M A := fun s => Some (Ok a, s).
(** A computation that raises (language model, no code in /repo). *)
Definition raise {A} (x : exn) : M A := fun s => Some (Raise x, s).
(** One computation after another; exceptions pass (language model, no code in /repo). *)
Definition mbind {A B} (m : M A) (f : A -> M B) : M B := fun s =>
  match m s with
  | None => None
  | Some (Ok a, s') => f a s'
  | Some (Raise x, s') => Some (Raise x, s')
  end.
Notation "'let*' x := m 'in' b" := (mbind m (fun x => b)) (at level 200, x name, m at level 100, b at level 200).

(** The nearest scope that has the variable (Python's own rule, no code in /repo). *)
Fixpoint nearest (fs : list frame) (c : list nat) (x : string) : nat :=
  match c with
  | [] => 0
  | i :: c => match nth_error fs i with Some f => if mem x (locals f) then i else nearest fs c x | None => 0 end
  end.
(** Python's lookup of a variable (no code in /repo). *)
Definition get_var (c : list nat) (x : string) : M value := fun s =>
  match nth_error (frames s) (nearest (frames s) c x) with
  | Some f => match dict_get String.eqb (vars f) x with Some v => Some (Ok v, s) | None => Some (Raise NameError, s) end
  | None => Some (Raise NameError, s)
  end.
(** Python's assignment to a variable (no code in /repo). *)
Definition set_var (c : list nat) (x : string) (v : value) : M unit := fun s =>
  let i := nearest (frames s) c x in
  match nth_error (frames s) i with
  | Some f => Some (Ok tt, mkS (upd (frames s) i (mkF (locals f) (dict_set String.eqb (vars f) x v))) (funs s) (world s))
  | None => Some (Raise NameError, s)
  end.
(** A new scope (language model, no code in /repo). *)
Definition alloc (f : frame) : M nat := fun s => Some (Ok (length (frames s)), mkS (frames s ++ [f]) (funs s) (world s)).
(** A new function object (language model, no code in /repo). *)
Definition new_fun (f : fobj) : M value := fun s => Some (Ok (VFun (length (funs s))), mkS (frames s) (funs s ++ [f]) (world s)).
(** A primitive operation of the language model (no code in /repo). *)
Definition do_prim (o : nat) (l : list value) : M value := fun s =>
  match cons_of l with
  | Some l => match prim o l (world s) with
              | (Ok d, w) => Some (Ok (VCon d), mkS (frames s) (funs s) w)
              | (Raise x, w) => Some (Raise x, mkS (frames s) (funs s) w)
              end
  | None => Some (Raise TypeError, s)
  end.
(** __name__ of a function (Python's own). *)
Definition name_of (v : value) : M value := fun s =>
  match v with
  | VFun r => match nth_error (funs s) r with Some f => Some (Ok (VCon (CStr (fname f))), s) | None => Some (Raise RuntimeError, s) end
  | _ => Some (Raise AttributeError, s)
  end.
(** misc.py 90-123: what is not a function is returned as it is; copy(f) of a function is f; the name has to
    be a string.  Of the three names that are set there is one here. *)
Definition rename (n : con) (v : value) : M value := fun s =>
  match v with
  | VFun r =>
      match nth_error (funs s) r, n with
      | Some f, CStr x => Some (Ok v, mkS (frames s) (upd (funs s) r (mkfun x (fps f) (fds f) (fbody f) (fc f))) (world s))
      | Some _, _ => Some (Raise TypeError, s)
      | None, _ => Some (Ok v, s)     (* no such function; does not happen *)
      end
  | _ => Some (Ok v, s)
  end.
(** Looking up a key in a dictionary (no code in /repo). *)
Fixpoint get_item (l : list (value * value)) (k : con) : option value :=
  match l with
  | [] => None
  | (VCon a, v) :: l => match get_item l k with Some w => Some w | None => if con_eqb a k then Some v else None end
  | _ :: l => get_item l k
  end.
(** [v[k]] (no code in /repo). *)
Definition item (v k : value) : M value :=
  match v, k with
  | VDict l, VCon k => match get_item l k with Some v => ret v | None => raise KeyError end
  | _, _ => raise TypeError
  end.
(** keyword arguments *)
Fixpoint names_of (l : list (value * value)) : option (list (string * value)) :=
  match l with
  | [] => Some []
  | (VCon (CStr x), v) :: l => option_map (cons (x, v)) (names_of l)
  | _ => None
  end.
(** Named arguments and [**] ones (no code in /repo). *)
Definition keywords (k : option string) (v : value) : M (list (string * value)) :=
  match k, v with
  | Some x, _ => ret [(x, v)]
  | None, VDict l => match names_of l with Some r => ret r | None => raise TypeError end
  | None, _ => raise TypeError
  end.
(** Entries of a dictionary display (no code in /repo). *)
Definition entries (k : option value) (v : value) : M (list (value * value)) :=
  match k, v with
  | Some x, _ => ret [(x, v)]
  | None, VDict l => ret l
  | None, _ => raise TypeError
  end.

Section Apply.
Variable apply : value -> list value -> list (string * value) -> M value.
(** Python's own evaluation of expressions (no code in /repo). *)
Fixpoint eval (e : ex) (c : list nat) {struct e} : M value :=
  let evals := fix evals (l : list ex) : M (list value) :=
    match l with [] => ret [] | e :: l => let* v := eval e c in let* r := evals l in ret (v :: r) end in
  match e with
  | Con k => ret (VCon k)
  | Var x => get_var c x
  | Prim o l => let* vs := evals l in do_prim o vs
  | NameOf e => let* v := eval e c in name_of v
  | Item e k => let* v := eval e c in let* w := eval k c in item v w
  | Lam ps ds _ b => let* vs := evals ds in new_fun (mkfun "<lambda>" ps vs (BE b) c)
  | Call f args kws =>
      let* v := eval f c in
      let* vs := evals args in
      let* ks := (fix go (l : list (option string * ex)) : M (list (string * value)) :=
                    match l with
                    | [] => ret []
                    | (k, e) :: l => let* v := eval e c in let* a := keywords k v in let* r := go l in ret (a ++ r)
                    end) kws in
      apply v vs ks
  | Shl x e | Wal x e => let* v := eval e c in let* _ := set_var c x v in ret v
  | Let bs b =>
      let* vs := (fix go (l : list (string * ex)) : M (list (string * value)) :=
                    match l with
                    | [] => ret []
                    | (x, e) :: l => let* v := eval e c in let* r := go l in ret ((x, v) :: r)
                    end) bs in
      let* i := alloc (mkF (map fst bs) vs) in
      eval b (i :: c)
  | Dict l =>
      let* r := (fix go (l : list (option ex * ex)) : M (list (value * value)) :=
                   match l with
                   | [] => ret []
                   | (Some k, e) :: l => let* a := eval k c in let* v := eval e c in let* h := entries (Some a) v in let* r := go l in ret (h ++ r)
                   | (None, e) :: l => let* v := eval e c in let* h := entries None v in let* r := go l in ret (h ++ r)
                   end) l in
      ret (VDict r)
  | NameCall n e => let* v := eval e c in rename n v
  end.
(** Python's own evaluation of expressions, left to right (no code in /repo). *)
Definition evals (l : list ex) (c : list nat) : M (list value) :=
  (fix evals (l : list ex) : M (list value) :=
    match l with [] => ret [] | e :: l => let* v := eval e c in let* r := evals l in ret (v :: r) end) l.
(** Python's own application of decorators, innermost first (no code in /repo). *)
Fixpoint decorate (fs : list value) (v : value) : M value :=
  match fs with [] => ret v | f :: fs => let* v' := decorate fs v in apply f [v'] [] end.
(** the result of a statement: the returned value, if any *)
Fixpoint exec (s : stm) (c : list nat) {struct s} : M (option value) :=
  let execs := fix execs (l : list stm) : M (option value) :=
    match l with [] => ret None | s :: l => let* r := exec s c in match r with Some v => ret (Some v) | None => execs l end end in
  match s with
  | Expr e => let* _ := eval e c in ret None
  | Assign x e => let* v := eval e c in let* _ := set_var c x v in ret None
  | Return e => let* v := eval e c in ret (Some v)
  | If e a b => let* v := eval e c in if truthy v then execs a else execs b
  | Def f decos ps ds b =>
      let* fs := evals decos c in
      let* vs := evals ds c in
      let* g := new_fun (mkfun f ps vs (BS b) c) in
      let* v := decorate fs g in
      let* _ := set_var c f v in ret None
  end.
(** Statements one after the other (no code in /repo). *)
Definition execs (l : list stm) (c : list nat) : M (option value) :=
  (fix execs (l : list stm) : M (option value) :=
    match l with [] => ret None | s :: l => let* r := exec s c in match r with Some v => ret (Some v) | None => execs l end end) l.
(** The body of a function in its own scope (no code in /repo). *)
Definition enter (f : fobj) (args : list (string * value)) : M value :=
  let* i := alloc (mkF (locals_of (fps f) (fbody f)) args) in
  match fbody f with
  | BE b => eval b (i :: fc f)
  | BS b => let* r := execs b (i :: fc f) in ret (match r with Some v => v | None => VCon CNone end)
  end.
End Apply.
(** The values of the parameters.  The last parameters have the defaults. *)
Fixpoint fill (ps : list string) (ds : list (option value)) (kws : list (string * value)) : option (list (string * value)) :=
  match ps, ds with
  | [], _ => Some []
  | p :: ps, d :: ds =>
      match dict_get String.eqb kws p, d with
      | Some v, _ => option_map (cons (p, v)) (fill ps ds kws)
      | None, Some v => option_map (cons (p, v)) (fill ps ds kws)
      | None, None => None
      end
  | _, [] => None
  end.
(** No name occurs twice (no code in /repo). *)
Fixpoint distinct (l : list string) : bool := match l with [] => true | x :: l => negb (mem x l) && distinct l end.
(** The arguments of a call bound to the parameters (no code in /repo). *)
Definition arguments (ps : list string) (ds args : list value) (kws : list (string * value)) : option (list (string * value)) :=
  let n := length args in
  if (n <=? length ps) && forallb (fun k => mem k (skipn n ps)) (map fst kws) && distinct (map fst kws) then
    option_map (app (combine ps args)) (fill (skipn n ps) (skipn n (repeat None (length ps - length ds) ++ map Some ds)) kws)
  else None.
(** [fuel]: how many calls may be nested *)
Fixpoint call (fuel : nat) (f : value) (args : list value) (kws : list (string * value)) : M value :=
  match fuel with
  | 0 => fun _ => None
  | S fuel =>
      match f with
      | VFun r => fun s =>
          match nth_error (funs s) r with
          | Some f => match arguments (fps f) (fds f) args kws with
                      | Some vals => enter (call fuel) f vals s
                      | None => Some (Raise TypeError, s)
                      end
          | None => Some (Raise RuntimeError, s)
          end
      | _ => raise TypeError
      end
  end.
(** a program: statements, in a module with some global variables *)
Definition run (fuel : nat) (globals : list (string * con)) (p : list stm) (w : W) : option (outcome (option value) * W) :=
  let f0 := mkF [] (map (fun g => (fst g, VCon (snd g))) globals) in
  match execs (call fuel) p [] (mkS [f0] [] w) with Some (r, s) => Some (r, world s) | None => None end.
End Run.
Arguments frames {W}.
Arguments funs {W}.
Arguments world {W}.
Arguments mkS {W}.
Arguments mbind {W A B}.
Arguments ret {W A}.
Arguments raise {W A}.

(** * The macro *)
(** [loc]: the name for a lambda in a line, 404 *)
Section Macro.
Variable loc : nat -> string.
(** is_decorated_lambda(tree, mode="any"): syntax/util.py 159-187; a call of namelambda is one, too *)
Fixpoint decorated (t : ex) : bool :=
  match t with
  | Call _ [a] _ | NameCall _ a => match a with Lam _ _ _ _ => true | _ => decorated a end
  | _ => false
  end.
(** has_deco(["namelambda"], tree): syntax/util.py 227-244; for a decorated lambda *)
Fixpoint has_name (t : ex) : bool :=
  match t with
  | NameCall _ _ => true
  | Call (Var f) [a] _ => String.eqb f "namelambda" || has_name a
  | Call (Call (Var f) _ _) [a] _ => String.eqb f "namelambda" || has_name a
  | Call _ [a] _ => has_name a
  | _ => false
  end.
(** iscurrywithfinallambda: lambdatools.py 264-267 *)
Definition is_curry (t : ex) : bool :=
  match t with
  | Call (Var "curry") args _ => match rev args with Lam _ _ _ _ :: _ => true | _ => false end
  | _ => false
  end.
(** lambdatools.py 300: nameit applies.  Autocurry (295-299) is not modelled. *)
Definition nameable (t : ex) : bool :=
  match t with Lam _ _ _ _ => true | _ => false end || (decorated t && negb (has_name t)) || is_curry t.
(** NamedLambdaTransformer: lambdatools.py 311-382.  [inner]: t is a value that nameit has named; only the body of its lambda
    is visited. *)
Fixpoint visit (inner : bool) (t : ex) {struct t} : ex :=
  let value (n : con) (t : ex) := if nameable t then NameCall n (visit true t) else visit false t in
  if inner then
    match t with
    | Lam ps ds l b => Lam ps ds l (visit false b)
    | NameCall n a => NameCall n (visit true a)
    | Call f args kws =>
        Call f ((fix go (l : list ex) := match l with [] => [] | [a] => [visit true a] | a :: l => a :: go l end) args) kws
    | t => t
    end
  else
    match t with
    | Con k => Con k
    | Var x => Var x
    | Prim o l => Prim o (map (visit false) l)
    | NameOf e => NameOf (visit false e)
    | Item e k => Item (visit false e) (visit false k)
    | Lam ps ds l b => Lam ps (map (visit false) ds) l (visit false b)
    | Call f args [] => Call (visit false f) (map (visit false) args) []
    | Call f args kws =>                                                                          (* 351-363 *)
        Call f (map (visit false) args)
             (map (fun kw => (fst kw, match fst kw with Some x => value (CStr x) (snd kw) | None => visit false (snd kw) end)) kws)
    | Shl x e => Shl x (value (CStr x) e)                                                         (* 329-336 *)
    | Wal x e => Wal x (value (CStr x) e)                                                         (* 344-350 *)
    | Let bs b => Let (map (fun xe => (fst xe, value (CStr (fst xe)) (snd xe))) bs) (visit false b)  (* 315-327 *)
    | Dict l =>                                                                                   (* 364-381 *)
        Dict (map (fun kv => match kv with
                             | (Some (Con k), v) => (Some (Con k), value k v)
                             | (Some k, v) => (Some (visit false k), visit false v)
                             | (None, v) => (None, visit false v)
                             end) l)
    | NameCall n e => NameCall n (visit false e)
    end.
(** nameit on the value of a binding: lambdatools.py 300-382 *)
Definition bound (n : con) (t : ex) : ex := if nameable t then NameCall n (visit true t) else visit false t.
(** NamedLambdaTransformer on a statement: lambdatools.py 311-382 *)
Fixpoint visits (s : stm) : stm :=
  match s with
  | Expr e => Expr (visit false e)
  | Assign x e => Assign x (bound (CStr x) e)                                                     (* 337-343 *)
  | Return e => Return (visit false e)
  | If e a b => If (visit false e) (map visits a) (map visits b)
  | Def f decos ps ds b => Def f (map (visit false) decos) ps (map (visit false) ds) (map visits b)
  end.
(** NamedLambdaFinalizationTransformer: lambdatools.py 395-411 *)
Fixpoint final (inner : bool) (t : ex) {struct t} : ex :=
  if inner || (decorated t && has_name t) then
    match t with
    | Lam ps ds l b => Lam ps ds l (final false b)
    | NameCall n a => NameCall n (final true a)
    | Call f args kws => Call f (match args with [] => [] | a :: l => final true a :: l end) kws
    | t => t
    end
  else
    match t with
    | Con k => Con k
    | Var x => Var x
    | Prim o l => Prim o (map (final false) l)
    | NameOf e => NameOf (final false e)
    | Item e k => Item (final false e) (final false k)
    | Lam ps ds l b => NameCall (CStr (loc l)) (Lam ps ds l (final false b))
    | Call f args kws => Call (final false f) (map (final false) args) (map (fun kw => (fst kw, final false (snd kw))) kws)
    | Shl x e => Shl x (final false e)
    | Wal x e => Wal x (final false e)
    | Let bs b => Let (map (fun xe => (fst xe, final false (snd xe))) bs) (final false b)
    | Dict l => Dict (map (fun kv => (option_map (final false) (fst kv), final false (snd kv))) l)
    | NameCall n e => NameCall n (final false e)
    end.
(** NamedLambdaFinalizationTransformer on a statement: lambdatools.py 395-411 *)
Fixpoint finals (s : stm) : stm :=
  match s with
  | Expr e => Expr (final false e)
  | Assign x e => Assign x (final false e)
  | Return e => Return (final false e)
  | If e a b => If (final false e) (map finals a) (map finals b)
  | Def f decos ps ds b => Def f (map (final false) decos) ps (map (final false) ds) (map finals b)
  end.
(** lambdatools.py 384-412.  The other macros expand between the first two passes; here they are left as they are. *)
Definition namedlambda (p : list stm) : list stm := map finals (map visits (map visits p)).
End Macro.
