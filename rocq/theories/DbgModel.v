(** Model of the macros nb (unpythonic/syntax/nb.py 48-72) and dbg (unpythonic/syntax/dbg.py 113-246), on programs of a
    part of Python: functions see their own variables and global ones. *)
From Coq Require Import String List ZArith Bool Arith.
From Verif Require Import Base CollModel EnvModel.
Import ListNotations.
Open Scope string_scope.
Open Scope list_scope.
Open Scope nat_scope.

(** Constants of the language model (no code in /repo). *)
Inductive con := CInt (z : Z) | CStr (s : string) | CBool (b : bool) | CNone.
(** Expressions of the language model, among them dbg[] and nb[] and the calls made from them (dbg.py 204-234, dbg.py 236-244, nb.py 48-65). *)
Inductive ex :=
| Con (k : con)
| Var (x : string)
| Prim (o : nat) (l : list ex)                        (* builtin functions and operators, on data *)
| IfE (e a b : ex)                                    (* a if e else b *)
| Lam (ps : list string) (b : ex)
| Call (line : nat) (f : ex) (args : list (bool * ex)) (kws : list (string * ex))  (* f(a, *a, k=a); true: starred *)
| Tup (l : list (bool * ex))                          (* (a, *a) *)
(* as written *)
| Dbg (line : nat) (e : ex)                           (* dbg[e] *)
(* as expanded *)
| Texts (l : list ex)                                 (* ("text", ...) *)
| DbgE (line : nat) (text : ex) (e : ex)              (* dyn.dbgprint_expr("text", e, filename=..., lineno=line) *)
| DbgP (line : nat) (ks vs : ex) (kws : list (string * ex))   (* dbgprint_block(ks, vs, k=a, filename=..., lineno=line) *)
| MkPrinter (p : option string)                       (* lambda value: _print_and_passthrough(p, value) *)
| NotNone (e : ex).                                   (* e is not None *)
Inductive stm :=
| Expr (e : ex)
| Assign (x : string) (e : ex)
| Return (e : option ex)
| If (e : ex) (a b : list stm)
| Def (f : string) (ps : list string) (b : list stm)
(* as written *)
| WithDbg (p : option string) (b : list stm)          (* with dbg: b, with dbg[p]: b *)
| WithNb (p : option string) (b : list stm).          (* with nb: b, with nb[p]: b *)

(** * The macros *)
(** DbgBlockTransformer: dbg.py 219-234.  [p]: the custom print function, if any.  The text of *a is that of a here. *)
Definition pname (p : option string) : string := match p with Some x => x | None => "print" end.
(** Whether it is this name. *)
Definition is_name (x : string) (f : ex) : bool := match f with Var y => String.eqb y x | _ => false end.
(** The keyword arguments filename and lineno of the generated call: dbg.py 204-234 *)
Definition site (line : nat) : list (string * ex) := [("filename", Con (CStr "file")); ("lineno", Con (CInt (Z.of_nat line)))].
(** DbgBlockTransformer on an expression: dbg.py 219-234 *)
Fixpoint transform (p : option string) (e : ex) : ex :=
  match e with
  | Con _ | Var _ | Texts _ | MkPrinter _ => e
  | Prim o l => Prim o (map (transform p) l)
  | IfE e a b => IfE (transform p e) (transform p a) (transform p b)
  | Lam ps b => Lam ps (transform p b)
  | Call line f args kws =>
      let args' := map (fun a => (fst a, transform p (snd a))) args in
      let kws' := map (fun kw => (fst kw, transform p (snd kw))) kws in
      if is_name (pname p) f then
        let names := Texts (map snd args) in                                        (* 224-225 *)
        match p with
        | None => DbgP line names (Tup args') kws'
        | Some x => Call line (Var x) [(false, names); (false, Tup args')] (kws' ++ site line)
        end
      else Call line (transform p f) args' kws'
  | Tup l => Tup (map (fun a => (fst a, transform p (snd a))) l)
  | Dbg line e => Dbg line (transform p e)
  | DbgE line t e => DbgE line t (transform p e)
  | DbgP line ks vs kws => DbgP line (transform p ks) (transform p vs) (map (fun kw => (fst kw, transform p (snd kw))) kws)
  | NotNone e => NotNone (transform p e)
  end.
(** DbgBlockTransformer on a statement: dbg.py 219-234 *)
Fixpoint transforms (p : option string) (s : stm) : stm :=
  match s with
  | Expr e => Expr (transform p e)
  | Assign x e => Assign x (transform p e)
  | Return e => Return (option_map (transform p) e)
  | If e a b => If (transform p e) (map (transforms p) a) (map (transforms p) b)
  | Def f ps b => Def f ps (map (transforms p) b)
  | WithDbg q b => WithDbg q (map (transforms p) b)
  | WithNb q b => WithNb q (map (transforms p) b)
  end.
(** dbg.py 236-244: inside out *)
Fixpoint expand (e : ex) : ex :=
  match e with
  | Con _ | Var _ | Texts _ | MkPrinter _ => e
  | Prim o l => Prim o (map expand l)
  | IfE e a b => IfE (expand e) (expand a) (expand b)
  | Lam ps b => Lam ps (expand b)
  | Call line f args kws => Call line (expand f) (map (fun a => (fst a, expand (snd a))) args) (map (fun kw => (fst kw, expand (snd kw))) kws)
  | Tup l => Tup (map (fun a => (fst a, expand (snd a))) l)
  | Dbg line e => DbgE line (expand e) (expand e)
  | DbgE line t e => DbgE line t (expand e)
  | DbgP line ks vs kws => DbgP line (expand ks) (expand vs) (map (fun kw => (fst kw, expand (snd kw))) kws)
  | NotNone e => NotNone (expand e)
  end.
(** The statement that prints the value, as in _print_and_passthrough: nb.py 70-72 *)
Definition the_print : stm := If (NotNone (Var "_")) [Expr (Call 0 (Var "theprint") [(false, Var "_")] [])] [].
(** The expansion of a statement, of dbg and nb blocks too: dbg.py 204-234, nb.py 48-65 *)
Fixpoint expands (s : stm) : list stm :=
  match s with
  | Expr e => [Expr (expand e)]
  | Assign x e => [Assign x (expand e)]
  | Return e => [Return (option_map expand e)]
  | If e a b => [If (expand e) (flat_map expands a) (flat_map expands b)]
  | Def f ps b => [Def f ps (flat_map expands b)]
  | WithDbg p b => map (transforms p) (flat_map expands b)                                    (* dbg.py 204-234 *)
  | WithNb p b =>                                                                              (* nb.py 48-65 *)
      Assign "_" (Con CNone) :: Assign "theprint" (MkPrinter p) ::
      flat_map (fun s => match s with Expr e => [Assign "_" (expand e); the_print] | _ => expands s end) b
  end.
(** The expansion of a program. *)
Definition expand_program (p : list stm) : list stm := flat_map expands p.

(** * How programs run.  This includes what the forms mean as they are documented. *)
Inductive body := BE (b : ex) | BS (b : list stm).
(** Values of the language model (no code in /repo). *)
Inductive value :=
| VCon (k : con) | VTup (l : list value) | VText (e : ex) | VFun (r : nat)
| VPrint                                              (* print *)
| VPrinter (p : option string).                       (* lambda value: _print_and_passthrough(p, value) *)
Notation None_ := (VCon CNone).
Definition truthy (v : value) : bool :=
  match v with
  | VCon (CInt z) => negb (Z.eqb z 0) | VCon (CStr s) => negb (String.eqb s "") | VCon (CBool b) => b | VCon CNone => false
  | VTup [] => false
  | _ => true
  end.
(** [v is None]. *)
Definition is_none (v : value) : bool := match v with VCon CNone => true | _ => false end.
(** [fmode]: (for the documented meaning) is the function in a dbg block, and with which print function? *)
Record fobj := mkfun { fps : list string; fbody : body; fmode : option (option string) }.
(** What a program shows: plain prints, and what the two functions show: dbg.py 113-162, dbg.py 164-199 *)
Inductive event :=
| Printed (l : list value) (kws : list (string * value))                     (* print *)
| DbgOut (line : nat) (l : list (ex * value)) (kws : list (string * value))  (* dbgprint_block: a text and a value each *)
| DbgVal (line : nat) (e : ex) (v : value).                                  (* dbgprint_expr *)
Definition as_con (v : value) : option con := match v with VCon k => Some k | _ => None end.
(** All values as constants. *)
Fixpoint cons_of (l : list value) : option (list con) :=
  match l with [] => Some [] | v :: l => match as_con v, cons_of l with Some k, Some r => Some (k :: r) | _, _ => None end end.
(** All values as texts of expressions. *)
Fixpoint texts_of (l : list value) : option (list ex) :=
  match l with [] => Some [] | VText e :: l => match texts_of l with Some r => Some (e :: r) | None => None end | _ :: _ => None end.

(** Local variables: what is assigned in the function, and the parameters *)
Fixpoint stored (s : stm) : list string :=
  match s with
  | Expr _ | Return _ => []
  | Assign x _ => [x]
  | If _ a b => flat_map stored a ++ flat_map stored b
  | Def f _ _ => [f]
  | WithDbg _ b => flat_map stored b
  | WithNb _ b => "_" :: flat_map stored b
  end.
(** The local variables of a function (no code in /repo). *)
Definition locals_of (ps : list string) (b : body) : list string :=
  ps ++ match b with BE _ => [] | BS b => flat_map stored b end.
(** The parameters: first the positional arguments, then those given by name *)
Definition bind_args (ps : list string) (args : list value) (kws : list (string * value)) : option (list (string * value)) :=
  let rest := skipn (length args) ps in
  if (length args <=? length ps) && (length kws =? length rest) && forallb (fun x => mem x (map fst kws)) rest
  then Some (combine ps args ++ kws) else None.

Section Run.
Variable W : Type.
Variable prim : nat -> list con -> W -> outcome con * W.
(** The state of the language model (no code in /repo). *)
Record st := mkS { globals : list (string * value); funs : list fobj; out : list event; world : W }.
(** Computations of the language model (no code in /repo): a state in, an outcome and a state out; None when out of fuel. *)
Definition M (A : Type) := st -> option (outcome A * st).
(** A computation that gives a value (language model, no code in /repo). *)
Definition ret {A} (a : A) : M A := fun s => Some (Ok a, s).
(** A computation that raises (language model, no code in /repo). *)
Definition raise {A} (x : exn) : M A := fun s => Some (Raise x, s).
(** One computation after another; exceptions pass (language model, no code in /repo). *)
Definition mbind {A B} (m : M A) (f : A -> M B) : M B := fun s =>
  match m s with
  | None => None
  | Some (Ok a, s') => f a s'
  | Some (Raise x, s') => Some (Raise x, s')
  end.
Notation "'let*' x := m 'in' b" := (mbind m (fun x => b)) (at level 200, x name, m at level 100, b at level 200).
(** the local names and variables; None in the module *)
Definition scope := option (list string * list (string * value)).
(** Reading a variable (no code in /repo). *)
Definition get_var (c : scope) (x : string) : M value := fun s =>
  match c with
  | Some (names, vars) =>
      if mem x names then match dict_get String.eqb vars x with Some v => Some (Ok v, s) | None => Some (Raise UnboundLocalError, s) end
      else match dict_get String.eqb (globals s) x with Some v => Some (Ok v, s) | None => Some (Raise NameError, s) end
  | None => match dict_get String.eqb (globals s) x with Some v => Some (Ok v, s) | None => Some (Raise NameError, s) end
  end.
(** Assigning a variable (no code in /repo). *)
Definition set_var (c : scope) (x : string) (v : value) : M scope := fun s =>
  match c with
  | Some (names, vars) => Some (Ok (Some (names, dict_set String.eqb vars x v)), s)
  | None => Some (Ok None, mkS (dict_set String.eqb (globals s) x v) (funs s) (out s) (world s))
  end.
(** A new function object (no code in /repo). *)
Definition new_fun (f : fobj) : M value := fun s => Some (Ok (VFun (length (funs s))), mkS (globals s) (funs s ++ [f]) (out s) (world s)).
(** Something is shown. *)
Definition emit (v : event) : M unit := fun s => Some (Ok tt, mkS (globals s) (funs s) (out s ++ [v]) (world s)).
(** The primitive operations, which are arbitrary (no code in /repo). *)
Definition do_prim (o : nat) (l : list value) : M value :=
  match cons_of l with
  | Some l => fun s =>
      match prim o l (world s) with
      | (Ok d, w) => Some (Ok (VCon d), mkS (globals s) (funs s) (out s) w)
      | (Raise x, w) => Some (Raise x, mkS (globals s) (funs s) (out s) w)
      end
  | None => raise TypeError
  end.
(** arguments, from the left *)
Definition evals_ (ev : ex -> M value) := fix evals (l : list ex) : M (list value) :=
  match l with [] => ret [] | e :: l => let* v := ev e in let* r := evals l in ret (v :: r) end.
(** Positional arguments, from the left, with stars (no code in /repo). *)
Definition args_ (ev : ex -> M value) := fix args (l : list (bool * ex)) : M (list value) :=
  match l with
  | [] => ret []
  | (star, e) :: l =>
      let* v := ev e in
      let* vs := (if star then match v with VTup vs => ret vs | _ => raise TypeError end else ret [v]) in
      let* r := args l in ret (vs ++ r)
  end.
(** Named arguments, from the left (no code in /repo). *)
Definition kws_ (ev : ex -> M value) := fix kws (l : list (string * ex)) : M (list (string * value)) :=
  match l with [] => ret [] | (k, e) :: l => let* v := ev e in let* r := kws l in ret ((k, v) :: r) end.
(** (documented) the arguments of print in a dbg block, with their sources *)
Definition shown_ (ev : ex -> M value) := fix shown (l : list (bool * ex)) : M (list (ex * value)) :=
  match l with [] => ret [] | (_, e) :: l => let* v := ev e in let* r := shown l in ret ((e, v) :: r) end.

Section Apply.
Variable apply : value -> list value -> list (string * value) -> M value.
(** nb.py 49, 52: the print function of the block, as a name in its scope *)
Definition printer (c : scope) (p : option string) : M value := match p with None => ret VPrint | Some x => get_var c x end.
(** calling a value in scope c; nb.py 52, 70-72 for VPrinter, which is used in the scope where it is made only *)
Definition app (c : scope) (f : value) (args : list value) (kws : list (string * value)) : M value :=
  match f with
  | VPrinter p =>
      match args, kws with
      | [v], [] =>
          let* g := (match p with
                     | Some x => if String.eqb x "value" then ret v
                                 else if String.eqb x "theprint" then raise RuntimeError    (* endless recursion *)
                                 else printer c p
                     | None => printer c p
                     end) in
          let* _ := apply g [v] [] in ret v
      | _, _ => raise TypeError
      end
  | _ => apply f args kws
  end.
(** [m]: (documented) in a dbg block, the print function *)
Fixpoint eval (m : option (option string)) (e : ex) (c : scope) {struct e} : M value :=
  match e with
  | Con k => ret (VCon k)
  | Var x => get_var c x
  | Prim o l => let* vs := evals_ (fun e => eval m e c) l in do_prim o vs
  | IfE e a b => let* v := eval m e c in if truthy v then eval m a c else eval m b c
  | Lam ps b => new_fun (mkfun ps (BE b) m)
  | Call line f args kws =>
      match m with
      | Some None =>
          if is_name "print" f then
            let* l := shown_ (fun e => eval m e c) args in
            let* ks := kws_ (fun e => eval m e c) kws in
            let* _ := emit (DbgOut line l ks) in ret None_
          else
            let* g := eval m f c in
            let* vs := args_ (fun e => eval m e c) args in
            let* ks := kws_ (fun e => eval m e c) kws in
            app c g vs ks
      | Some (Some x) =>
          let* g := eval m f c in
          if is_name x f then
            let* l := shown_ (fun e => eval m e c) args in
            let* ks := kws_ (fun e => eval m e c) kws in
            app c g [VTup (map (fun ev => VText (fst ev)) l); VTup (map snd l)]
              (ks ++ [("filename", VCon (CStr "file")); ("lineno", VCon (CInt (Z.of_nat line)))])
          else
            let* vs := args_ (fun e => eval m e c) args in
            let* ks := kws_ (fun e => eval m e c) kws in
            app c g vs ks
      | None =>
          let* g := eval m f c in
          let* vs := args_ (fun e => eval m e c) args in
          let* ks := kws_ (fun e => eval m e c) kws in
          app c g vs ks
      end
  | Tup l => let* vs := args_ (fun e => eval m e c) l in ret (VTup vs)
  | Dbg line e => let* v := eval m e c in let* _ := emit (DbgVal line e v) in ret v
  | Texts l => ret (VTup (map VText l))
  | DbgE line t e => let* v := eval m e c in let* _ := emit (DbgVal line t v) in ret v          (* dbg.py 164-199 *)
  | DbgP line ks vs kws =>                                                                       (* dbg.py 113-162 *)
      let* ks := eval m ks c in
      let* vs := eval m vs c in
      let* kws := kws_ (fun e => eval m e c) kws in
      match ks, vs with
      | VTup ks, VTup vs =>
          match texts_of ks with
          | Some ts => let* _ := emit (DbgOut line (combine ts vs) kws) in ret None_               (* zip(ks, vs) *)
          | None => raise TypeError
          end
      | _, _ => raise TypeError
      end
  | MkPrinter p => ret (VPrinter p)
  | NotNone e => let* v := eval m e c in ret (VCon (CBool (negb (is_none v))))
  end.
(** An optional expression; None if it is not there (no code in /repo). *)
Definition opt_eval (m : option (option string)) (e : option ex) (c : scope) : M value :=
  match e with Some e => eval m e c | None => ret None_ end.
(** Statements one after the other until one returns (no code in /repo). *)
Definition execs_ (ex : stm -> scope -> M (option value * scope)) := fix execs (l : list stm) (c : scope) : M (option value * scope) :=
  match l with
  | [] => ret (None, c)
  | s :: l => let* r := ex s c in match fst r with Some v => ret r | None => execs l (snd r) end
  end.
(** the result of a statement: the returned value, if any, and the local variables *)
Fixpoint exec (m : option (option string)) (s : stm) (c : scope) {struct s} : M (option value * scope) :=
  match s with
  | Expr e => let* _ := eval m e c in ret (None, c)
  | Assign x e => let* v := eval m e c in let* c := set_var c x v in ret (None, c)
  | Return e => let* v := opt_eval m e c in ret (Some v, c)
  | If e a b => let* v := eval m e c in if truthy v then execs_ (exec m) a c else execs_ (exec m) b c
  | Def f ps b => let* g := new_fun (mkfun ps (BS b) m) in let* c := set_var c f g in ret (None, c)
  | WithDbg p b => execs_ (exec (Some p)) b c
  | WithNb p b =>
      let* c := set_var c "_" None_ in
      execs_ (fun s c =>
        match s with
        | Expr e =>
            let* v := eval m e c in
            let* c := set_var c "_" v in
            if is_none v then ret (None, c)
            else let* g := printer c p in let* _ := apply g [v] [] in ret (None, c)
        | _ => exec m s c
        end) b c
  end.
(** Statements one after the other (no code in /repo). *)
Definition execs (m : option (option string)) (l : list stm) (c : scope) : M (option value * scope) := execs_ (exec m) l c.
(** The body of a function in its own scope (no code in /repo). *)
Definition enter (f : fobj) (args : list (string * value)) : M value :=
  let c := Some (locals_of (fps f) (fbody f), args) in
  match fbody f with
  | BE b => eval (fmode f) b c
  | BS b => let* r := execs (fmode f) b c in ret (match fst r with Some v => v | None => None_ end)
  end.
End Apply.
(** [fuel]: how many calls may be nested *)
Fixpoint call (fuel : nat) (f : value) (args : list value) (kws : list (string * value)) : M value :=
  match f with
  | VPrint => let* _ := emit (Printed args kws) in ret None_
  | VFun r =>
      match fuel with
      | 0 => fun _ => None
      | S fuel => fun s =>
          match nth_error (funs s) r with
          | Some f => match bind_args (fps f) args kws with Some l => enter (call fuel) f l s | None => Some (Raise TypeError, s) end
          | None => Some (Raise RuntimeError, s)
          end
      end
  | _ => raise TypeError
  end.
(** a program: what it returns, its global variables, what is printed and what it does *)
Definition run (fuel : nat) (gl : list (string * value)) (p : list stm) (w : W) : option (outcome (option value) * list (string * value) * list event * W) :=
  match execs (call fuel) None p None (mkS gl [] [] w) with
  | Some (Ok r, s) => Some (Ok (fst r), globals s, out s, world s)
  | Some (Raise x, s) => Some (Raise x, globals s, out s, world s)
  | None => None
  end.
End Run.
Arguments globals {W}.
Arguments funs {W}.
Arguments out {W}.
Arguments world {W}.
Arguments mkS {W}.
Arguments mbind {W A B}.
Arguments ret {W A}.
Arguments raise {W A}.
