(** Model of the envify macro (unpythonic/syntax/lambdatools.py 444-546) and of the programs it works on: a
    part of Python with nested functions, lambdas with default values, decorators, list comprehensions, for,
    nonlocal, and the assignment expressions of unpythonic.  The env objects are those of EnvModel. *)
From Coq Require Import String List ZArith Bool Arith.
From Verif Require Import Base CollModel EnvModel.
Import ListNotations.
Open Scope string_scope.
Open Scope list_scope.
Open Scope nat_scope.

(** Expressions of the language model, before and after expansion (no code in /repo). *)
Inductive ex :=
| Num (z : Z)
| Var (x : string)
| Prim (o : nat) (l : list ex)                    (* builtin functions and operators *)
| Call (f : ex) (l : list ex)
| Lam (ps : list string) (ds : list ex) (b : ex)  (* lambda ps: b; the last parameters have the defaults ds *)
| Asg (x : string) (e : ex)                       (* x << e *)
| Comp (b : ex) (x : string) (l : ex)             (* [b for x in l] *)
(* made by the macro: *)
| EGet (en x : string)                            (* en.x *)
| ESet (en x : string) (e : ex)                   (* en.set("x", e) *)
| EComp (b : ex) (en x : string) (l : ex)         (* [b for en.x in l] *)
| EDo (en : string) (ps : list string) (b : ex).  (* do[en.update(p=p, ...), b], where en is the env of the do *)
Inductive stm :=
| Expr (e : ex)
| Assign (x : string) (e : ex)
| Return (e : ex)
| If (e : ex) (a b : list stm)
| For (x : string) (e : ex) (b : list stm)
| Def (f : string) (decos : list ex) (ps : list string) (ds : list ex) (b : list stm)
| Nonlocal (xs : list string)
(* made by the macro: *)
| EAssign (en x : string) (e : ex)                (* en.x = e *)
| EFor (en x : string) (e : ex) (b : list stm)    (* for en.x in e: ... *)
| EInit (en : string) (ps : list string).         (* en = env(p=p, ...) *)

(** Plain data of the language model (no code in /repo). *)
Inductive data := DNone | DInt (z : Z) | DList (l : list data).
(** Bodies of functions: of a lambda or of a def. *)
Inductive body := BE (b : ex) | BS (b : list stm).
(** Values of the language model (no code in /repo). *)
Inductive value :=
| VNone
| VInt (z : Z)
| VList (l : list value)
| VFun (ps : list string) (ds : list value) (b : body) (c : list nat)  (* c: the frames around it, innermost first *)
| VEnv (i : nat)       (* an env object; it is called by the number of the frame in which it was made *)
| VMeth (x : string).  (* a method of an env *)
Fixpoint inj (d : data) : value := match d with DNone => VNone | DInt z => VInt z | DList l => VList (map inj l) end.
(** A value as data, if it is one (no code in /repo). *)
Fixpoint proj (v : value) : option data :=
  match v with
  | VNone => Some DNone
  | VInt z => Some (DInt z)
  | VList l =>
      match (fix projs (l : list value) : option (list data) :=
         match l with
         | [] => Some []
         | v :: l => match proj v, projs l with Some d, Some r => Some (d :: r) | _, _ => None end
         end) l with
      | Some l => Some (DList l)
      | None => None
      end
  | _ => None
  end.
(** [bool(v)] (no code in /repo). *)
Definition truthy (v : value) : bool := match v with VNone => false | VInt z => negb (Z.eqb z 0) | VList [] => false | _ => true end.

(** A frame: of a call, or of a comprehension; frame 0 has the global variables.  [locals]: the local
    variables, whether they have a value or not. *)
Record frame := mkF { locals : list string; params : list string; vars : list (string * value); eobj : option (envst value) }.

(** Local variables of a function: the Python language reference, 4.2.1 *)
Fixpoint stored (s : stm) : list string :=
  match s with
  | Assign x _ => [x]
  | If _ a b => flat_map stored a ++ flat_map stored b
  | For x _ b => x :: flat_map stored b
  | Def f _ _ _ _ => [f]
  | EFor _ _ _ b => flat_map stored b
  | EInit en _ => [en]
  | _ => []
  end.
(** Names declared nonlocal or global (Python language reference). *)
Fixpoint declared (s : stm) : list string :=
  match s with
  | Nonlocal xs => xs
  | If _ a b => flat_map declared a ++ flat_map declared b
  | For _ _ b | EFor _ _ _ b => flat_map declared b
  | _ => []
  end.
(** The names that are not in the other list. *)
Definition minus (l r : list string) : list string := filter (fun x => negb (mem x r)) l.
(** The parameter of the functions in an expanded do is taken for a local variable of the lambda around it. *)
Definition locals_of (ps : list string) (b : body) : list string :=
  match b with
  | BE (EDo en _ _) => ps ++ [en]
  | BE _ => ps
  | BS b => ps ++ minus (flat_map stored b) (flat_map declared b)
  end.

(** * How programs run *)
(** [src]: in a source program `x << e`, where x is a parameter, is an assignment; in the expanded program it
    is a shift, an operator. *)
Section Run.
Variable W : Type.
Variable prim : nat -> list data -> W -> outcome data * W.
Variable src : bool.
(** The number of the operation << (language model). *)
Definition opshift : nat := 0.
(** The state of the language model (no code in /repo). *)
Record st := mkS { frames : list frame; world : W }.
(** Computations of the language model (no code in /repo): a state in, an outcome and a state out; None when out of fuel. *)
Definition M (A : Type) := st -> option (outcome A * st).
(** A computation that gives a value (language model, no code in /repo). *)
Definition ret {A} (a : A) : M A := fun s => Some (Ok a, s).
(** A computation that raises (language model, no code in /repo). *)
Definition raise {A} (x : exn) : M A := fun s => Some (Raise x, s).
(** One computation after another; exceptions pass (language model, no code in /repo). *)
Definition mbind {A B} (m : M A) (f : A -> M B) : M B := fun s =>
  match m s with
  | None => None
  | Some (Ok a, s') => f a s'
  | Some (Raise x, s') => Some (Raise x, s')
  end.
Notation "'let*' x := m 'in' b" := (mbind m (fun x => b)) (at level 200, x name, m at level 100, b at level 200).

(** the frame of a variable; global variables are in frame 0 *)
Fixpoint nearest (fs : list frame) (c : list nat) (x : string) : nat :=
  match c with
  | [] => 0
  | i :: c => match nth_error fs i with Some f => if mem x (locals f) then i else nearest fs c x | None => 0 end
  end.
(** Reading a variable (no code in /repo). *)
Definition get_var (c : list nat) (x : string) : M value := fun s =>
  match nth_error (frames s) (nearest (frames s) c x) with
  | Some f => match dict_get String.eqb (vars f) x with Some v => Some (Ok v, s) | None => Some (Raise NameError, s) end
  | None => Some (Raise NameError, s)
  end.
(** A frame gets new contents (no code in /repo). *)
Definition put_frame (i : nat) (f : frame) : M unit := fun s => Some (Ok tt, mkS (upd (frames s) i f) (world s)).
(** Assigning a variable (no code in /repo). *)
Definition set_var (c : list nat) (x : string) (v : value) : M unit := fun s =>
  let i := nearest (frames s) c x in
  match nth_error (frames s) i with
  | Some f => put_frame i (mkF (locals f) (params f) (dict_set String.eqb (vars f) x v) (eobj f)) s
  | None => Some (Raise RuntimeError, s)
  end.
(** Whether the name is a parameter of the function that has it (for the documented meaning). *)
Definition is_param (c : list nat) (x : string) : M bool := fun s =>
  match nth_error (frames s) (nearest (frames s) c x) with
  | Some f => Some (Ok (mem x (params f)), s)
  | None => Some (Ok false, s)
  end.
(** A new object in the memory (no code in /repo). *)
Definition alloc (f : frame) : M nat := fun s => Some (Ok (length (frames s)), mkS (frames s ++ [f]) (world s)).
(** The primitive operations, which are arbitrary (no code in /repo). *)
Definition do_prim (o : nat) (l : list value) : M value := fun s =>
  match proj (VList l) with
  | Some (DList l) => match prim o l (world s) with
                      | (Ok d, w) => Some (Ok (inj d), mkS (frames s) w)
                      | (Raise x, w) => Some (Raise x, mkS (frames s) w)
                      end
  | _ => Some (Raise TypeError, s)
  end.
(** Iterating over a value (no code in /repo). *)
Definition items (v : value) : M (list value) := match v with VList l => ret l | _ => raise TypeError end.

(** env objects: env.py, as in EnvModel; every name in a program is an identifier *)
Definition with_env {A} (v : value) (f : envst value -> outcome A * envst value) : M A := fun s =>
  match v with
  | VEnv i =>
      match nth_error (frames s) i with
      | Some fr =>
          match eobj fr with
          | Some e => let '(r, e') := f e in Some (r, mkS (upd (frames s) i (mkF (locals fr) (params fr) (vars fr) (Some e'))) (world s))
          | None => Some (Raise RuntimeError, s)
          end
      | None => Some (Raise RuntimeError, s)
      end
  | _ => Some (Raise AttributeError, s)
  end.
(** [str.isidentifier], true of the names in a program: env.py 74-86 *)
Definition isid : name -> bool := fun _ => true.
(** A direct write to an attribute of the env object itself, which programs of the model do not make. *)
Definition direct : envst value -> name -> value -> envst value := fun e _ _ => e.
(** What reading an env gives, as a value of the language. *)
Definition as_value (r : outcome (@res value)) : outcome value :=
  match r with Ok (RVal v) => Ok v | Ok (RAttr x) => Ok (VMeth x) | Ok _ => Ok VNone | Raise x => Raise x end.
(** [e.x]: env.py 88-95 *)
Definition env_read (v : value) (x : string) : M value := with_env v (fun e => (as_value (env_getattr isid e x), e)).
(** [e.x = a]: env.py 74-86 *)
Definition env_write (v : value) (x : string) (a : value) : M value :=
  with_env v (fun e => let '(r, e') := env_setattr isid direct e x a in (as_value r, e')).
(** [e.set("x", a)]: env.py 185-194 *)
Definition env_put (v : value) (x : string) (a : value) : M value :=
  with_env v (fun e => let '(r, e') := env_set isid direct e x a in (as_value r, e')).
(** A new env in frame i.  A parameter called self or cls collides with one of __init__ or __new__. *)
Definition set_eobj (i : nat) (e : envst value) : M unit := fun s =>
  match nth_error (frames s) i with
  | Some fr => put_frame i (mkF (locals fr) (params fr) (vars fr) (Some e)) s
  | None => Some (Raise RuntimeError, s)
  end.
(** [env(x=..., ...)]: env.py 67-69 *)
Definition env_create (i : nat) (b : list (string * value)) : M value :=
  if mem "self" (map fst b) || mem "cls" (map fst b) then raise TypeError
  else match construct (env_setattr isid direct) b with
       | Ok e => let* _ := set_eobj i e in ret (VEnv i)
       | Raise x => raise x
       end.
(** en.update(p=p, ...); here self collides *)
Definition env_fill (v : value) (b : list (string * value)) : M value :=
  if mem "self" (map fst b) then raise TypeError
  else with_env v (fun e => let '(r, e') := env_update e [] b in (as_value r, e')).
(** Reading several variables (no code in /repo). *)
Fixpoint get_vars (c : list nat) (xs : list string) : M (list (string * value)) :=
  match xs with
  | [] => ret []
  | x :: xs => let* v := get_var c x in let* r := get_vars c xs in ret ((x, v) :: r)
  end.
(** The innermost frame (no code in /repo). *)
Definition here (c : list nat) : nat := match c with i :: _ => i | [] => 0 end.

(** Map with effects, left to right (no code in /repo). *)
Definition each (f : value -> M value) : list value -> M (list value) :=
  fix go (l : list value) : M (list value) :=
    match l with [] => ret [] | v :: l => let* a := f v in let* r := go l in ret (a :: r) end.

(** [apply]: how functions are called *)
Section Apply.
Variable apply : value -> list value -> M value.
(** Python's own evaluation of expressions (no code in /repo). *)
Fixpoint eval (e : ex) (c : list nat) {struct e} : M value :=
  let evals := fix evals (l : list ex) : M (list value) :=
    match l with [] => ret [] | e :: l => let* v := eval e c in let* r := evals l in ret (v :: r) end in
  match e with
  | Num z => ret (VInt z)
  | Var x => get_var c x
  | Prim o l => let* vs := evals l in do_prim o vs
  | Call f l => let* v := eval f c in let* vs := evals l in apply v vs
  | Lam ps ds b => let* vs := evals ds in ret (VFun ps vs (BE b) c)
  | Asg x e =>
      let* p := is_param c x in
      if src && p then let* v := eval e c in let* _ := set_var c x v in ret v
      else let* a := get_var c x in let* v := eval e c in do_prim opshift [a; v]
  | Comp b x l =>
      let* v := eval l c in let* vs := items v in
      let* i := alloc (mkF [x] [] [] None) in
      let* r := each (fun v => let* _ := set_var (i :: c) x v in eval b (i :: c)) vs in
      ret (VList r)
  | EGet en x => let* o := get_var c en in env_read o x
  | ESet en x e => let* o := get_var c en in let* v := eval e c in env_put o x v
  | EComp b en x l =>
      let* v := eval l c in let* vs := items v in
      let* i := alloc (mkF [] [] [] None) in
      let* r := each (fun v => let* o := get_var (i :: c) en in let* _ := env_write o x v in eval b (i :: c)) vs in
      ret (VList r)
  | EDo en ps b =>
      let* o := env_create (here c) [] in
      let* _ := set_var c en o in
      let* bs := get_vars c ps in
      let* _ := env_fill o bs in
      eval b c
  end.
(** Python's own evaluation of expressions, left to right (no code in /repo). *)
Definition evals (l : list ex) (c : list nat) : M (list value) :=
  (fix evals (l : list ex) : M (list value) :=
    match l with [] => ret [] | e :: l => let* v := eval e c in let* r := evals l in ret (v :: r) end) l.

(** the result of a statement: the returned value, if any *)
Definition until (f : value -> M (option value)) : list value -> M (option value) :=
  fix go (l : list value) : M (option value) :=
    match l with [] => ret None | v :: l => let* r := f v in match r with Some a => ret (Some a) | None => go l end end.
(** Decorators are applied from the last one to the first (no code in /repo). *)
Fixpoint decorate (fs : list value) (v : value) : M value :=
  match fs with [] => ret v | f :: fs => let* v' := decorate fs v in apply f [v'] end.
(** Execution of statements (no code in /repo). *)
Fixpoint exec (s : stm) (c : list nat) {struct s} : M (option value) :=
  let execs := fix execs (l : list stm) : M (option value) :=
    match l with [] => ret None | s :: l => let* r := exec s c in match r with Some v => ret (Some v) | None => execs l end end in
  match s with
  | Expr e => let* _ := eval e c in ret None
  | Assign x e => let* v := eval e c in let* _ := set_var c x v in ret None
  | Return e => let* v := eval e c in ret (Some v)
  | If e a b => let* v := eval e c in if truthy v then execs a else execs b
  | For x e b =>
      let* v := eval e c in let* vs := items v in
      until (fun v => let* _ := set_var c x v in execs b) vs
  | Def f decos ps ds b =>
      let* fs := evals decos c in
      let* vs := evals ds c in
      let* v := decorate fs (VFun ps vs (BS b) c) in
      let* _ := set_var c f v in ret None
  | Nonlocal _ => ret None
  | EAssign en x e => let* v := eval e c in let* o := get_var c en in let* _ := env_write o x v in ret None
  | EFor en x e b =>
      let* v := eval e c in let* vs := items v in
      until (fun v => let* o := get_var c en in let* _ := env_write o x v in execs b) vs
  | EInit en ps =>
      let* bs := get_vars c ps in
      let* o := env_create (here c) bs in
      let* _ := set_var c en o in ret None
  end.
(** Statements one after the other (no code in /repo). *)
Definition execs (l : list stm) (c : list nat) : M (option value) :=
  (fix execs (l : list stm) : M (option value) :=
    match l with [] => ret None | s :: l => let* r := exec s c in match r with Some v => ret (Some v) | None => execs l end end) l.
(** what happens in a call, once the parameters have their values *)
Definition enter (ps : list string) (vals : list value) (b : body) (c : list nat) : M value :=
  let* i := alloc (mkF (locals_of ps b) ps (combine ps vals) None) in
  match b with
  | BE b => eval b (i :: c)
  | BS b => let* r := execs b (i :: c) in ret (match r with Some v => v | None => VNone end)
  end.
End Apply.
(** The arguments of a call bound to the parameters (no code in /repo). *)
Definition arguments (ps : list string) (ds args : list value) : option (list value) :=
  if (length args <=? length ps) && (length ps - length args <=? length ds)
  then Some (args ++ skipn (length ds - (length ps - length args)) ds) else None.
(** [fuel]: how many calls may be nested *)
Fixpoint call (fuel : nat) (f : value) (args : list value) : M value :=
  match fuel with
  | 0 => fun _ => None
  | S fuel =>
      match f with
      | VFun ps ds b c =>
          match arguments ps ds args with
          | Some vals => enter (call fuel) ps vals b c
          | None => raise TypeError
          end
      | _ => raise TypeError
      end
  end.
(** a program: statements, in a module with some global variables *)
Definition run (fuel : nat) (globals : list (string * data)) (p : list stm) (w : W) : option (outcome (option value) * W) :=
  let f0 := mkF [] [] (map (fun g => (fst g, inj (snd g))) globals) None in
  match execs (call fuel) p [] (mkS [f0] w) with Some (r, s) => Some (r, world s) | None => None end.
End Run.
Arguments frames {W}.
Arguments world {W}.
Arguments mkS {W}.
Arguments mbind {W A B}.
Arguments ret {W A}.
Arguments raise {W A}.

(** * The macro *)
(** [fresh]: gensym("e").  Simplified: a name for each depth of nesting, so functions that are not inside each
    other may have the same.  [bs]: the attribute self.state.bindings; "x" is bound to `en.x`. *)
Section Envify.
Variable fresh : nat -> string.
(** The bindings that the parameters get, as cited above. *)
Definition bind_params (ps : list string) (en : string) (bs : list (string * string)) : list (string * string) :=
  map (fun p => (p, en)) ps ++ bs.
(** The transformer on expressions, as cited above. *)
Fixpoint tr (d : nat) (bs : list (string * string)) (e : ex) {struct e} : ex :=
  let look := dict_get String.eqb bs in
  match e with
  | Num z => Num z
  | Var x => match look x with Some en => EGet en x | None => Var x end
  | Prim o l => Prim o (map (tr d bs) l)
  | Call f l => Call (tr d bs f) (map (tr d bs) l)
  | Lam ps ds b =>
      match ps with
      | [] => Lam ps (map (tr d bs) ds) (tr d bs b)
      | _ => let en := fresh d in
             let bs' := bind_params ps en bs in
             Lam ps (map (tr (S d) bs') ds) (EDo en ps (tr (S d) bs' b))
      end
  | Asg x e => match look x with Some en => ESet en x (tr d bs e) | None => Asg x (tr d bs e) end
  | Comp b x l =>
      match look x with
      | Some en => EComp (tr d bs b) en x (tr d bs l)
      | None => Comp (tr d bs b) x (tr d bs l)
      end
  | _ => e
  end.
(** The transformer on statements, as cited above. *)
Fixpoint trs (d : nat) (bs : list (string * string)) (s : stm) {struct s} : stm :=
  let look := dict_get String.eqb bs in
  match s with
  | Expr e => Expr (tr d bs e)
  | Assign x e => match look x with Some en => EAssign en x (tr d bs e) | None => Assign x (tr d bs e) end
  | Return e => Return (tr d bs e)
  | If e a b => If (tr d bs e) (map (trs d bs) a) (map (trs d bs) b)
  | For x e b =>
      match look x with
      | Some en => EFor en x (tr d bs e) (map (trs d bs) b)
      | None => For x (tr d bs e) (map (trs d bs) b)
      end
  | Def f decos ps ds b =>
      match ps with
      | [] => Def f (map (tr d bs) decos) ps (map (tr d bs) ds) (map (trs d bs) b)
      | _ => let en := fresh d in
             let bs' := bind_params ps en bs in
             Def f (map (tr (S d) bs') decos) ps (map (tr (S d) bs') ds) (EInit en ps :: map (trs (S d) bs') b)
      end
  | Nonlocal xs => Nonlocal xs
  | _ => s
  end.
(** The whole block. *)
Definition envify (p : list stm) : list stm := map (trs 0 []) p.
End Envify.
