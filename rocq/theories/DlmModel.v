(** Model of the macros dlet, dletrec, blet, bletrec, dletseq and bletseq (unpythonic/syntax/letdo.py 213-346, 418-486,
    497-624, with scopeanalyzer.py 98-164 and the decorators of lispylet.py 221-268), and of the programs they work on:
    functions with default values and decorators, lambdas, if, local variables.

    Simplifications.  One type of trees has what the user writes and what the macros make of it.  Parameters from gensym
    are numbers, one for each depth of nesting of lets; so functions that are not inside each other may have the same.
    The functions that dletseq makes have the names [inner d].  A function object and the wrapper that gives it its env
    are one object.  del, global, nonlocal, comprehensions and `:=` to variables other than those of a let are left out.
    The names of the variables of a let are not names of methods of env (see C27). *)
From Coq Require Import String List ZArith Bool Arith.
From Verif Require Import Base CollModel EnvModel.
Import ListNotations.
Open Scope string_scope.
Open Scope list_scope.
Open Scope nat_scope.

(** Expressions of the language model, before and after expansion (no code in /repo). *)
Inductive ex :=
| Num (z : Z)
| Var (x : string)
| Prim (o : nat) (l : list ex)                    (* builtin functions and operators *)
| Call (f : ex) (l : list ex)
| Lam (ps : list string) (b : ex)
| Wal (x : string) (e : ex)                       (* x := e *)
(* made by the macros: *)
| EGet (en : nat) (x : string)                    (* en.x *)
| ESet (en : nat) (x : string) (e : ex).          (* en.set("x", e) *)
Inductive mode := Let | Letseq | Letrec.
(** A decorator made by the macros: dletf or, if [now], bletf, with the bindings; in a letrec their values are in
    functions of the env, lambda en: v. *)
Inductive letter := mkL { now : bool; isrec : bool; binds : list (string * ex); envname : nat }.
(** Statements: def with decorators, assignment, return and the rest, before and after expansion (no code in /repo). *)
Inductive stm :=
| Expr (e : ex)
| Assign (x : string) (e : ex)
| Return (e : ex)
| If (e : ex) (a b : list stm)
(** [k]: the decorator made by the macros, in the innermost position, together with the keyword-only parameter of the
    function *)
| Def (f : string) (decos : list ex) (k : option letter) (ps : list string) (ds : list ex) (b : list stm)
(** @dlet[bs] def f(...): ...; or @blet, if [now] *)
| Dlet (now : bool) (m : mode) (bs : list (string * ex)) (f : string) (decos : list ex) (ps : list string) (ds : list ex) (b : list stm).

(** * The macros *)
(** get_names_in_store_context: scopeanalyzer.py 288-395 *)
Fixpoint stored_e (e : ex) : list string :=
  match e with
  | Num _ | Var _ | Lam _ _ | EGet _ _ => []
  | Prim _ l => flat_map stored_e l
  | Call f l => stored_e f ++ flat_map stored_e l
  | Wal x v => x :: stored_e v
  | ESet _ _ v => stored_e v
  end.
(** scopeanalyzer.py 288-395: the names that a statement binds, for the statements of the model. *)
Fixpoint stored (s : stm) : list string :=
  match s with
  | Expr e | Return e => stored_e e
  | Assign x e => x :: stored_e e
  | If e a b => stored_e e ++ flat_map stored a ++ flat_map stored b
  | Def f _ _ _ _ _ | Dlet _ _ _ f _ _ _ _ => [f]
  end.
(** scoped_transform with the callbacks of _transform_envassignment and _transform_name: scopeanalyzer.py 113-164,
    letdo.py 441-486.  [L]: the names of the let; [en]: its env.  [a], [l]: args and localvars. *)
Inductive pass := Assigns | Names.
Section Transform.
Variable L : list string.
Variable en : nat.
(** The name is one of the let's, and not shadowed (letdo.py and scopeanalyzer.py, as cited at [pass]). *)
Definition ours (a l : list string) (x : string) : bool := mem x L && negb (mem x (a ++ l)).
(** The pass over expressions, as cited at [pass]. *)
Fixpoint tr_e (p : pass) (a l : list string) (e : ex) : ex :=
  match e with
  | Num z => Num z
  | Var x => match p with Names => if ours a l x then EGet en x else Var x | Assigns => Var x end
  | Prim o es => Prim o (map (tr_e p a l) es)
  | Call f es => Call (tr_e p a l f) (map (tr_e p a l) es)
  | Lam ps b => Lam ps (tr_e p (a ++ ps) l b)
  | Wal x v =>
      match p with
      | Assigns => if ours a l x then ESet en x (tr_e p a l v) else Wal x (tr_e p a l v)
      | Names => Wal x (tr_e p a l v)
      end
  | EGet n x => EGet n x
  | ESet n x v => ESet n x (tr_e p a l v)
  end.
(** The pass over a decorator's bindings, as cited at [pass]. *)
Definition tr_k (p : pass) (a l : list string) (k : letter) : letter :=
  mkL (now k) (isrec k) (map (fun b => (fst b, tr_e p a l (snd b))) (binds k)) (envname k).
(** The statements of a function body: scopeanalyzer.py 138-156 *)
Definition body (f : list string -> stm -> stm) :=
  fix go (l : list string) (b : list stm) : list stm :=
    match b with
    | [] => []
    | s :: b' => f l s :: go (l ++ stored (f l s)) b'
    end.
(** A statement in one pass: scopeanalyzer.py 98-164 *)
Fixpoint tr_s (p : pass) (a l : list string) (s : stm) {struct s} : stm :=
  match s with
  | Expr e => Expr (tr_e p a l e)
  | Assign x e => Assign x (tr_e p a l e)
  | Return e => Return (tr_e p a l e)
  | If e x y => If (tr_e p a l e) (map (tr_s p a l) x) (map (tr_s p a l) y)
  | Def f decos k ps ds b =>
      let a' := a ++ f :: ps in
      Def f (map (tr_e p a l) decos) (option_map (tr_k p a l) k) ps (map (tr_e p a' l) ds) (body (tr_s p a') l b)
  | Dlet _ _ _ _ _ _ _ _ => s                      (* already expanded *)
  end.
(** _letlike_transform: letdo.py 418-439 *)
Definition letlike_e (e : ex) : ex := tr_e Names [] [] (tr_e Assigns [] [] e).
(** Both passes one after the other: letdo.py 418-439 *)
Definition letlike (s : stm) : stm := tr_s Names [] [] (tr_s Assigns [] [] s).
End Transform.

(** _let_decorator_impl: letdo.py 516-557, on an expanded function definition *)
Definition let_decorator (d : nat) (call isrec : bool) (bs : list (string * ex)) (s : stm) : stm :=
  let names := map fst bs in
  let bs' := if isrec then map (fun b => (fst b, letlike_e names d (snd b))) bs else bs in
  match letlike names d s with
  | Def f decos None ps ds b => Def f decos (Some (mkL call isrec bs' d)) ps ds b
  | s' => s'
  end.
(** _dletseq_impl: letdo.py 559-624, one step from the last binding to the first; [d]: the depth of the first.  The
    function that is made has no parameters and is called [inner d]; it gets the user's parameters and name at the end
    (606-613). *)
Section Dletseq.
Variable inner : nat -> string.
Fixpoint dletseq_impl (d : nat) (call : bool) (bs : list (string * ex)) (decos : list ex) (b : list stm) {struct bs} : stm :=
  match bs with
  | [] => Def (inner d) decos None [] [] b                                                      (* 585-589 *)
  | bnd :: rest =>
      match rest with
      | [] => let_decorator d call false [bnd] (Def (inner d) decos None [] [] b)
      | _ =>
          let i := inner (S d) in
          let innerdef := dletseq_impl (S d) call rest decos b in
          let_decorator d call false [bnd] (Def (inner d) [] None [] [] [innerdef; Return (if call then Var i else Call (Var i) [])])
      end
  end.
(** The function that a step makes: letdo.py 559-624 *)
Definition with_params (f : string) (ps : list string) (ds : list ex) (s : stm) : stm :=
  match s with Def _ decos k _ _ b => Def f decos k ps ds b | _ => s end.
(** The expander: it expands what is inside first (letdo.py 521) *)
Fixpoint expand (d : nat) (s : stm) {struct s} : stm :=
  match s with
  | If e a b => If e (map (expand d) a) (map (expand d) b)
  | Def f decos k ps ds b => Def f decos k ps ds (map (expand d) b)
  | Dlet call m bs f decos ps ds b =>
      match m with
      | Let => let_decorator d call false bs (Def f decos None ps ds (map (expand (S d)) b))
      | Letrec => let_decorator d call true bs (Def f decos None ps ds (map (expand (S d)) b))
      | Letseq => with_params f ps ds (dletseq_impl d call bs decos (map (expand (d + length bs)) b))
      end
  | s => s
  end.
(** A whole program expanded. *)
Definition expand_program (p : list stm) : list stm := map (expand 0) p.
End Dletseq.

(** * How programs run *)
(** Functions and envs are known by their numbers. *)
Inductive value := VNone | VInt (z : Z) | VFun (i : nat).
(** [bool(v)] (no code in /repo). *)
Definition truthy (v : value) : bool := match v with VNone => false | VInt z => negb (Z.eqb z 0) | VFun _ => true end.
(** The body of a lambda or of a def (no code in /repo). *)
Inductive code := BE (b : ex) | BS (b : list stm).
(** What surrounds a piece of code: the frame of a call; an env whose variables are visible (only in source programs);
    a parameter [en] that holds an env (only in expanded programs). *)
Inductive link := F (i : nat) | E (j : nat) | K (en j : nat).
(** A function object: parameters, defaults, body and what surrounds it (no code in /repo). *)
Record func := mkFun { fpars : list string; fdefs : list value; fcode : code; fchain : list link }.
(** The variables of one call (no code in /repo). *)
Record frame := mkF { locals : list string; vars : list (string * value) }.
(** An env object (env.py 12-222): its names, and the values of those that have one. *)
Record env := mkE { names : list string; vals : list (string * value) }.
(** The names that a statement assigns, in Python's own sense (no code in /repo). *)
Fixpoint assigned (s : stm) : list string :=
  match s with
  | Assign x _ => [x]
  | If _ a b => flat_map assigned a ++ flat_map assigned b
  | Def f _ _ _ _ _ | Dlet _ _ _ f _ _ _ _ => [f]
  | _ => []
  end.
(** The local variables of a function (no code in /repo). *)
Definition locals_of (ps : list string) (b : code) : list string :=
  match b with BE _ => ps | BS b => ps ++ flat_map assigned b end.
Section Run.
Variable W : Type.
Variable prim : nat -> list value -> W -> outcome value * W.
(** The state of the language model (no code in /repo). *)
Record st := mkS { frames : list frame; envs : list env; funs : list func; world : W }.
(** Computations of the language model (no code in /repo): a state in, an outcome and a state out; None when out of fuel. *)
Definition M (A : Type) := st -> option (outcome A * st).
(** A computation that gives a value (language model, no code in /repo). *)
Definition ret {A} (a : A) : M A := fun s => Some (Ok a, s).
(** A computation that raises (language model, no code in /repo). *)
Definition raise {A} (x : exn) : M A := fun s => Some (Raise x, s).
(** One computation after another; exceptions pass (language model, no code in /repo). *)
Definition mbind {A B} (m : M A) (f : A -> M B) : M B := fun s =>
  match m s with
  | None => None
  | Some (Ok a, s') => f a s'
  | Some (Raise x, s') => Some (Raise x, s')
  end.
Notation "'let*' x := m 'in' b" := (mbind m (fun x => b)) (at level 200, x name, m at level 100, b at level 200).
(** Where a variable is: in a frame (frame 0 has the global variables) or in an env *)
Inductive place := InFrame (i : nat) | InEnv (j : nat).
(** Where a name is found from inside out (no code in /repo). *)
Fixpoint place_of (fs : list frame) (es : list env) (c : list link) (x : string) : place :=
  match c with
  | [] => InFrame 0
  | F i :: c => match nth_error fs i with Some f => if mem x (locals f) then InFrame i else place_of fs es c x | None => place_of fs es c x end
  | E j :: c => match nth_error es j with Some e => if mem x (names e) then InEnv j else place_of fs es c x | None => place_of fs es c x end
  | K _ _ :: c => place_of fs es c x
  end.
(** Reading a name of an env: env.py 88-95 *)
Definition env_read (j : nat) (x : string) : M value := fun s =>
  match nth_error (envs s) j with
  | Some e => match dict_get String.eqb (vals e) x with Some v => Some (Ok v, s) | None => Some (Raise AttributeError, s) end
  | None => Some (Raise RuntimeError, s)
  end.
(** A binding of a let is made: lispylet.py 221-250 *)
Definition env_init (j : nat) (x : string) (v : value) : M unit := fun s =>
  match nth_error (envs s) j with
  | Some e => Some (Ok tt, mkS (frames s) (upd (envs s) j (mkE (names e) (dict_set String.eqb (vals e) x v))) (funs s) (world s))
  | None => Some (Raise RuntimeError, s)
  end.
(** env.set: only of a name that has a value *)
Definition env_set (j : nat) (x : string) (v : value) : M value := let* _ := env_read j x in let* _ := env_init j x v in ret v.
(** Reading a variable (no code in /repo). *)
Definition get_var (c : list link) (x : string) : M value := fun s =>
  match place_of (frames s) (envs s) c x with
  | InFrame i =>
      match nth_error (frames s) i with
      | Some f => match dict_get String.eqb (vars f) x with Some v => Some (Ok v, s) | None => Some (Raise (if i =? 0 then NameError else UnboundLocalError), s) end
      | None => Some (Raise RuntimeError, s)
      end
  | InEnv j => env_read j x s
  end.
(** Assigning a variable (no code in /repo). *)
Definition set_var (c : list link) (x : string) (v : value) : M unit := fun s =>
  match place_of (frames s) (envs s) c x with
  | InFrame i =>
      match nth_error (frames s) i with
      | Some f => Some (Ok tt, mkS (upd (frames s) i (mkF (locals f) (dict_set String.eqb (vars f) x v))) (envs s) (funs s) (world s))
      | None => Some (Raise RuntimeError, s)
      end
  | InEnv j => (let* _ := env_set j x v in ret tt) s
  end.
(** The env that the code generated by the macro calls en (no code in /repo). *)
Fixpoint env_of (c : list link) (en : nat) : option nat :=
  match c with
  | [] => None
  | K n j :: c => if n =? en then Some j else env_of c en
  | _ :: c => env_of c en
  end.
(** The same; NameError if there is none (no code in /repo). *)
Definition get_env (c : list link) (en : nat) : M nat := match env_of c en with Some j => ret j | None => raise NameError end.
(** The frame of a call (no code in /repo). *)
Definition new_frame (f : frame) : M nat := fun s => Some (Ok (length (frames s)), mkS (frames s ++ [f]) (envs s) (funs s) (world s)).
(** A new env object: env.py 67-69 *)
Definition new_env (e : env) : M nat := fun s => Some (Ok (length (envs s)), mkS (frames s) (envs s ++ [e]) (funs s) (world s)).
(** A new function object (no code in /repo). *)
Definition new_fun (f : func) : M value := fun s => Some (Ok (VFun (length (funs s))), mkS (frames s) (envs s) (funs s ++ [f]) (world s)).
(** The primitive operations, which are arbitrary (no code in /repo). *)
Definition do_prim (o : nat) (l : list value) : M value := fun s =>
  let (r, w) := prim o l (world s) in Some (r, mkS (frames s) (envs s) (funs s) w).
Section Apply.
Variable apply : value -> list value -> M value.
(** Python's own evaluation of expressions (no code in /repo). *)
Fixpoint eval (e : ex) (c : list link) {struct e} : M value :=
  let evals := fix evals (l : list ex) : M (list value) :=
    match l with [] => ret [] | e :: l => let* v := eval e c in let* r := evals l in ret (v :: r) end in
  match e with
  | Num z => ret (VInt z)
  | Var x => get_var c x
  | Prim o l => let* vs := evals l in do_prim o vs
  | Call f l => let* v := eval f c in let* vs := evals l in apply v vs
  | Lam ps b => new_fun (mkFun ps [] (BE b) c)
  | Wal x e => let* v := eval e c in let* _ := set_var c x v in ret v
  | EGet en x => let* j := get_env c en in env_read j x
  | ESet en x e => let* j := get_env c en in let* v := eval e c in env_set j x v
  end.
(** Python's own evaluation of expressions, left to right (no code in /repo). *)
Definition evals (c : list link) : list ex -> M (list value) :=
  fix evals (l : list ex) : M (list value) :=
    match l with [] => ret [] | e :: l => let* v := eval e c in let* r := evals l in ret (v :: r) end.
(** Assignment of arguments to parameters (Python's own, no code in /repo). *)
Definition fill (j : nat) (xs : list string) (vs : list value) : M unit :=
  (fix go (l : list (string * value)) : M unit :=
    match l with [] => ret tt | (x, v) :: l => let* _ := env_init j x v in go l end) (combine xs vs).
(** the values of a letrec, one after the other *)
Fixpoint fill_rec (j : nat) (c : list link) (bs : list (string * ex)) : M unit :=
  match bs with [] => ret tt | (x, e) :: bs => let* v := eval e c in let* _ := env_init j x v in fill_rec j c bs end.
(** Decorators are applied from the last one to the first (no code in /repo). *)
Fixpoint decorate (fs : list value) (v : value) : M value :=
  match fs with [] => ret v | f :: fs => let* v' := decorate fs v in apply f [v'] end.
(** A function with a let around it: what the decorator does (lispylet.py 221-268).  [inside j]: the link by which code
    inside the let gets at env j.  The values of a let are evaluated before the default values of the function, those
    of a letrec after them. *)
Definition let_over (call rec : bool) (inside : nat -> link) (bs : list (string * ex)) (f : string) (decos : list ex) (ps : list string) (ds : list ex) (b : list stm) (c : list link) : M unit :=
  let* fs := evals c decos in
  let* vs := (if rec then ret [] else evals c (map snd bs)) in
  let* dvs := evals c ds in
  let* j := new_env (mkE (map fst bs) []) in
  let* _ := (if rec then fill_rec j (inside j :: c) bs else fill j (map fst bs) vs) in
  let* v := new_fun (mkFun ps dvs (BS b) (inside j :: c)) in
  let* v := (if call then apply v [] else ret v) in
  let* v := decorate fs v in
  set_var c f v.
(** the result of a statement: the returned value, if any *)
Fixpoint exec (s : stm) (c : list link) {struct s} : M (option value) :=
  let execs := fix execs (l : list stm) : M (option value) :=
    match l with [] => ret None | s :: l => let* r := exec s c in match r with Some v => ret (Some v) | None => execs l end end in
  match s with
  | Expr e => let* _ := eval e c in ret None
  | Assign x e => let* v := eval e c in let* _ := set_var c x v in ret None
  | Return e => let* v := eval e c in ret (Some v)
  | If e a b => let* v := eval e c in if truthy v then execs a else execs b
  | Def f decos None ps ds b =>
      let* fs := evals c decos in
      let* dvs := evals c ds in
      let* v := new_fun (mkFun ps dvs (BS b) c) in
      let* v := decorate fs v in
      let* _ := set_var c f v in ret None
  | Def f decos (Some k) ps ds b =>
      let* _ := let_over (now k) (isrec k) (K (envname k)) (binds k) f decos ps ds b c in ret None
  (** a source program: the env itself is around the function *)
  | Dlet call m bs f decos ps ds b =>
      match m with
      | Letseq => raise RuntimeError                       (* see DlmSpec *)
      | _ => let* _ := let_over call (match m with Letrec => true | _ => false end) E bs f decos ps ds b c in ret None
      end
  end.
(** Statements one after the other (no code in /repo). *)
Definition execs (c : list link) : list stm -> M (option value) :=
  fix execs (l : list stm) : M (option value) :=
    match l with [] => ret None | s :: l => let* r := exec s c in match r with Some v => ret (Some v) | None => execs l end end.
(** what happens in a call, once the parameters have their values *)
Definition enter (f : func) (args : list value) : M value :=
  let* i := new_frame (mkF (locals_of (fpars f) (fcode f)) (combine (fpars f) args)) in
  match fcode f with
  | BE b => eval b (F i :: fchain f)
  | BS b => let* r := execs (F i :: fchain f) b in ret (match r with Some v => v | None => VNone end)
  end.
End Apply.
(** The arguments of a call bound to the parameters (no code in /repo). *)
Definition arguments (ps : list string) (ds args : list value) : option (list value) :=
  if (length args <=? length ps) && (length ps - length args <=? length ds)
  then Some (args ++ skipn (length ds - (length ps - length args)) ds) else None.
(** [fuel]: how many calls may be nested *)
Fixpoint call (fuel : nat) (v : value) (args : list value) : M value :=
  match fuel with
  | 0 => fun _ => None
  | S fuel =>
      match v with
      | VFun i => fun s =>
          match nth_error (funs s) i with
          | Some f =>
              match arguments (fpars f) (fdefs f) args with
              | Some vals => enter (call fuel) f vals s
              | None => raise TypeError s
              end
          | None => raise RuntimeError s
          end
      | _ => raise TypeError
      end
  end.
(** a program: the statements of a module, with some global variables; the result is the value of a last return *)
Definition run (fuel : nat) (globals : list (string * value)) (p : list stm) (w : W) : option (outcome (option value) * W) :=
  match execs (call fuel) [] p (mkS [mkF [] globals] [] [] w) with Some (r, s) => Some (r, world s) | None => None end.
End Run.
Arguments frames {W}.
Arguments envs {W}.
Arguments funs {W}.
Arguments world {W}.
Arguments mkS {W}.
Arguments mbind {W A B}.
Arguments ret {W A}.
Arguments raise {W A}.
