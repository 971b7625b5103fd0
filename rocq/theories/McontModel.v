(** Model of `with continuations`, call_cc[] and get_cc (unpythonic/syntax/tailtools.py 761-1250, 1263-1468,
    1490-1644), and of the running of the expanded code (chain_conts, unpythonic/tco.py 140-261,
    unpythonic/fun.py 650-675).

    The fragment of Python: integers, booleans, None, functions with positional parameters and at most one
    starred one, lambdas of the same kind, Values with positional values, `and`, `or`, conditionals, while loops,
    raise, try with one handler for everything, assignments to local and to nonlocal or global variables, calls,
    printing.  There are no classes, finally, break and continue, and no let[] or do[] in return values (for
    these see C79-C82).  `a and b and c` is written (a and b) and c.  A function takes its continuation by the
    name cc only: a parameter cc that the program declares itself (821-838) is left out.
    The names that only the macro can write (_pcc, the generated name of the continuation, _ignored_arg) are
    kept apart from the names of the program. *)
From Coq Require Import String List Bool Arith ZArith.
From Verif Require Import Base.
Import ListNotations.
Open Scope string_scope.
Open Scope list_scope.
Open Scope nat_scope.

(** * The program as written *)
Inductive expr : Type :=
| ENone | EInt (z : Z) | EBool (b : bool) | EVar (x : string)
| EIdent                                   (* unpythonic.identity *)
| EGetcc                                   (* unpythonic.syntax.get_cc *)
| EIsCont (e : expr)                       (* iscontinuation(e) *)
| EIsNone (e : expr)                       (* e is None *)
| EAdd (a b : expr) | ELt (a b : expr) | ENot (e : expr)
| EIf (t a b : expr)                       (* a if t else b *)
| EAnd (a b : expr) | EOr (a b : expr)
| ELam (ps : list string) (star : option string) (e : expr)     (* lambda ps, *star: e *)
| ECall (f : expr) (args : list expr) (cc : option expr)        (* f(args) or f(args, cc=k) *)
| EValues (args : list expr).              (* Values(args) *)

(** what stands in the brackets of call_cc[]: a call, None, or one of them by a condition (tailtools.py 1034-1054) *)
Inductive ccall : Type := CNone | CCall (f : expr) (args : list expr).
(** The brackets of a call_cc[]: one call, or a condition with two: tailtools.py 1034-1054 *)
Inductive ccsite : Type := One (c : ccall) | Cond (t : expr) (a b : ccall).

(** Statements of the source, call_cc[] among them (no code in /repo but tailtools.py 640-665). *)
Inductive stmt : Type :=
| SAssign (x : string) (e : expr)
| SNonlocal (x : string) (e : expr)        (* x = e, x being declared nonlocal or global *)
| SPrint (e : expr)
| SExpr (e : expr)
| SIf (t : expr) (a b : block)
| SWhile (t : expr) (a : block)
| STry (a h : block)                       (* try: a; except Exception: h *)
| SRaise (n : nat)                         (* raise an exception of the user's *)
| SReturn (e : expr)                       (* a bare return has ENone *)
| SDef (f : string) (ps : list string) (star : option string) (b : block)
| SCallcc (ts : list string) (star : option string) (c : ccsite)    (* t1, t2, *rest = call_cc[c] *)
with block : Type :=
| BNil | BCons (s : stmt) (b : block).

(** * The expanded program *)
(** expressions, and return value expressions *)
Inductive yexpr : Type :=
| YNone | YInt (z : Z) | YBool (b : bool) | YVar (x : string)
| YIdent | YGetcc
| YIsCont (e : yexpr) | YIsNone (e : yexpr)
| YAdd (a b : yexpr) | YLt (a b : yexpr) | YNot (e : yexpr)
| YIf (t a b : yexpr)
| YAnd (a b : yexpr) | YOr (a b : yexpr)
| YLam (ps : list string) (star : option string) (x : texpr)    (* trampolined(lambda ps, *star, cc=identity, _pcc=None: x) *)
| YCall (f : yexpr) (args : list yexpr) (cc : option yexpr)
| YValues (args : list yexpr)
with texpr : Type :=
| XData (e : yexpr)                                         (* chain_conts(_pcc, cc)(e) *)
| XJump (f : yexpr) (args : list yexpr) (cc : option yexpr) (* jump(f, args, cc=chain_conts(_pcc, cc, with_star=True)) *)
| XIf (t : yexpr) (a b : texpr)
| XOr (a : yexpr) (x : texpr)                               (* aif[a, chain_conts(_pcc, cc)(it), x] *)
| XCc (f : yexpr) (args : list yexpr)                       (* jump(f, args, cc=f_cont) *)
| XCcNone (k : nat).                                        (* jump(f_cont, None, ..., None, cc=cc) *)
Inductive tstmt : Type :=
| TAssign (x : string) (e : yexpr)
| TNonlocal (x : string) (e : yexpr)
| TPrint (e : yexpr)
| TExpr (e : yexpr)
| TIf (t : yexpr) (a b : tblock)
| TWhile (t : yexpr) (a : tblock)
| TTry (a h : tblock)
| TRaise (n : nat)
| TReturn (e : texpr)
| TDef (f : string) (ps : list string) (star : option string) (b : tblock)
| TDefcont (ts : list string) (star : option string) (b : tblock)
    (* def f_cont(ts, *star, cc=identity, _pcc=(cc if cc is not identity else None)): b;
       f_cont.is_continuation = True *)
| TTop (f : yexpr) (args : list yexpr)                        (* f(args, cc=cont) *)
| TTopNone (k : nat)                                        (* cont(None, ..., None, cc=cc) *)
| TStray                                                    (* a call_cc[] that was not transformed *)
with tblock : Type :=
| TNil | TCons (s : tstmt) (b : tblock).

(** ** Expansion *)
(** the node types for which 1622 finds a tail call in the last item of an `and` or `or` *)
Definition compound (e : expr) : bool :=
  match e with ECall _ _ _ | EValues _ | EIf _ _ _ | EAnd _ _ | EOr _ _ => true | _ => false end.
(** tailtools.py 1550-1644 with the callbacks call_cb (869-880) and data_cb (882-884) *)
Definition retexpr_of (ytr : expr -> yexpr) : expr -> texpr := fix go (e : expr) : texpr :=
  match e with
  | ECall f args cc => XJump (ytr f) (map ytr args) (option_map ytr cc)
  | EIf t a b => XIf (ytr t) (go a) (go b)
  | EAnd a b => if compound b then XIf (ytr a) (go b) (XData (YBool false)) else XData (ytr e)
  | EOr a b => if compound b then XOr (ytr a) (go b) else XData (ytr e)
  | _ => XData (ytr e)
  end.
(** tailtools.py 1518-1544: the lambdas in an expression *)
Fixpoint ytr (e : expr) : yexpr :=
  match e with
  | ENone => YNone | EInt z => YInt z | EBool b => YBool b | EVar x => YVar x
  | EIdent => YIdent | EGetcc => YGetcc
  | EIsCont e => YIsCont (ytr e) | EIsNone e => YIsNone (ytr e)
  | EAdd a b => YAdd (ytr a) (ytr b) | ELt a b => YLt (ytr a) (ytr b) | ENot e => YNot (ytr e)
  | EIf t a b => YIf (ytr t) (ytr a) (ytr b)
  | EAnd a b => YAnd (ytr a) (ytr b) | EOr a b => YOr (ytr a) (ytr b)
  | ELam ps star e => YLam ps star (retexpr_of ytr e)
  | ECall f args cc => YCall (ytr f) (map ytr args) (option_map ytr cc)
  | EValues args => YValues (map ytr args)
  end.
(** _transform_retexpr: tailtools.py 1550-1644 *)
Definition retexpr : expr -> texpr := retexpr_of ytr.
(** tailtools.py 1062-1066, 1090: without targets the continuation takes one argument that it ignores *)
Definition ignores (ts : list string) (star : option string) : bool :=
  match ts, star with [], None => true | _, _ => false end.
(** How many arguments a continuation takes: tailtools.py 1062-1091 *)
Definition arity (ts : list string) (star : option string) : nat := if ignores ts star then 1 else length ts.
(** tailtools.py 1086-1091, 1130-1151: the call, inside a def ([owner]) and at the top level of the block *)
Definition xcall (owner : bool) (k : nat) (c : ccall) : tstmt :=
  match owner, c with
  | true, CCall f args => TReturn (XCc (ytr f) (map ytr args))
  | true, CNone => TReturn (XCcNone k)
  | false, CCall f args => TTop (ytr f) (map ytr args)
  | false, CNone => TTopNone k
  end.
(** The statements that a call_cc[] becomes: tailtools.py 1086-1151 *)
Definition xsite (owner : bool) (k : nat) (c : ccsite) : tstmt :=
  match c with
  | One c => xcall owner k c
  | Cond t a b => TIf (ytr t) (TCons (xcall owner k a) TNil) (TCons (xcall owner k b) TNil)
  end.
(** A return statement. *)
Definition is_ret (s : stmt) : bool := match s with SReturn _ => true | _ => false end.
(** An empty block. *)
Definition is_nil (b : block) : bool := match b with BNil => true | _ => false end.

(** The transformation of a statement; of a block in an if; and of the body of a def ([inj]: tailtools.py 1211-1219 adds a
    bare return unless the last statement is a return, [ret]) or of the with block itself ([owner] and [inj]
    false), split at the first call_cc[] (898-913, 1160-1168).  The part after the call_cc[] is the body of a
    def itself, and is split in turn. *)
Fixpoint xstmt (s : stmt) : tstmt :=
  match s with
  | SAssign x e => TAssign x (ytr e)
  | SNonlocal x e => TNonlocal x (ytr e)
  | SPrint e => TPrint (ytr e)
  | SExpr e => TExpr (ytr e)
  | SIf t a b => TIf (ytr t) (xblock a) (xblock b)
  | SWhile t a => TWhile (ytr t) (xblock a)
  | STry a h => TTry (xblock a) (xblock h)
  | SRaise n => TRaise n
  | SReturn e => TReturn (retexpr e)
  | SDef f ps star b => TDef f ps star (xbody true true false b)
  | SCallcc _ _ _ => TStray
  end
with xblock (b : block) : tblock :=
  match b with
  | BNil => TNil
  | BCons s b => TCons (xstmt s) (xblock b)
  end
with xbody (owner inj ret : bool) (b : block) : tblock :=
  match b with
  | BNil => if inj && negb ret then TCons (TReturn (retexpr ENone)) TNil else TNil
  | BCons s b =>
      match s with
      | SCallcc ts star c =>
          TCons (TDefcont ts star (xbody true inj false b)) (TCons (xsite owner (arity ts star) c) TNil)
      | _ => TCons (xstmt s) (xbody owner inj (is_ret s) b)
      end
  end.
(** tailtools.py 907-908: in the block itself, a call_cc[] with nothing after it *)
Fixpoint cc_last (b : block) : bool :=
  match b with
  | BNil => false
  | BCons s b => match s with SCallcc _ _ _ => is_nil b | _ => false end || cc_last b
  end.
(** tailtools.py 1201-1203 *)
Fixpoint top_ret (b : block) : bool :=
  match b with BNil => false | BCons s b => is_ret s || top_ret b end.
(** Python itself: a return outside the functions (the block being at module level) *)
Fixpoint out_ret (t : tstmt) : bool :=
  match t with
  | TReturn _ => true
  | TIf _ a b | TTry a b => out_ret_b a || out_ret_b b
  | TWhile _ a => out_ret_b a
  | _ => false
  end
with out_ret_b (b : tblock) : bool :=
  match b with TNil => false | TCons t b => out_ret t || out_ret_b b end.
(** tailtools.py 1170-1178 *)
Fixpoint stray (t : tstmt) : bool :=
  match t with
  | TStray => true
  | TIf _ a b | TTry a b => stray_b a || stray_b b
  | TWhile _ a => stray_b a
  | TDef _ _ _ b | TDefcont _ _ b => stray_b b
  | _ => false
  end
with stray_b (b : tblock) : bool :=
  match b with TNil => false | TCons t b => stray t || stray_b b end.
(** tailtools.py 797-1250 *)
Definition expand (b : block) : outcome tblock :=
  let t := xbody false false false b in
  if top_ret b || cc_last b || stray_b t || out_ret_b t then Raise SyntaxError else Ok t.

(** * Running Python *)
(** ** Scopes.  An activation of a function has a frame with its local variables; a function value has the
    frames of the functions it is in, innermost first; frame 0 is the module's. *)
Record frame (V : Type) : Type := mkframe { locs : list string; vals : list (string * V) }.
(** The memory: all frames, and what was printed (no code in /repo). *)
Record state (V : Type) : Type := mkstate { frs : list (frame V); out : list V }.
Arguments mkframe {V}. Arguments locs {V}. Arguments vals {V}.
Arguments mkstate {V}. Arguments frs {V}. Arguments out {V}.

Section Scopes.
Context {V : Type}.
(** Membership in a list of names (no code in /repo). *)
Definition memb (x : string) (l : list string) : bool := existsb (String.eqb x) l.
(** Lookup in an association list: Python's dict or namespace (no code in /repo). *)
Fixpoint assoc (x : string) (l : list (string * V)) : option V :=
  match l with [] => None | (y, v) :: l => if String.eqb x y then Some v else assoc x l end.
(** Python's lookup of a variable (no code in /repo). *)
Fixpoint lookup (own : bool) (s : state V) (env : list nat) (x : string) : outcome V :=
  match env with
  | [] => Raise NameError
  | i :: up =>
      match nth_error (frs s) i with
      | None => Raise NameError
      | Some fr =>
          match up with
          | [] => match assoc x (vals fr) with Some v => Ok v | None => Raise NameError end
          | _ => if memb x (locs fr)
                 then match assoc x (vals fr) with
                      | Some v => Ok v
                      | None => Raise (if own then UnboundLocalError else NameError)
                      end
                 else lookup false s up x
          end
      end
  end.
(** Assignment to a variable in a given scope (language model, no code in /repo). *)
Definition setv (s : state V) (i : nat) (x : string) (v : V) : state V :=
  match nth_error (frs s) i with
  | None => s
  | Some fr => mkstate (upd (frs s) i (mkframe (locs fr) ((x, v) :: vals fr))) (out s)
  end.
(** Python's assignment to a variable (no code in /repo). *)
Definition assign (s : state V) (env : list nat) (x : string) (v : V) : state V :=
  match env with [] => s | i :: _ => setv s i x v end.
(** assignment to the variable of the nearest of the frames that has it, or else of the module *)
Fixpoint assign_up (s : state V) (env : list nat) (x : string) (v : V) : state V :=
  match env with
  | [] => s
  | [i] => setv s i x v
  | i :: up =>
      match nth_error (frs s) i with
      | Some fr => if memb x (locs fr) then setv s i x v else assign_up s up x v
      | None => s
      end
  end.
(** An assignment to a nonlocal variable (no code in /repo). *)
Definition nonlocal (s : state V) (env : list nat) (x : string) (v : V) : state V :=
  match env with [] => s | [i] => setv s i x v | _ :: up => assign_up s up x v end.
(** Printing (no code in /repo). *)
Definition print (s : state V) (v : V) : state V := mkstate (frs s) (out s ++ [v]).
(** a new frame for a call, if the arguments fit the parameters; [ign]: one argument may be given, and is not
    used; [loc]: the variables assigned in the body *)
Definition starl (star : option string) : list string := match star with Some x => [x] | None => [] end.
(** The frame of a call (no code in /repo). *)
Definition newframe (tup : list V -> V) (ps : list string) (star : option string) (ign : bool) (loc : list string)
    (args : list V) (cc : V) : option (frame V) :=
  let l := ps ++ starl star ++ "cc" :: loc in
  if ign then if length args <=? 1 then Some (mkframe l [("cc", cc)]) else None
  else match star with
       | None => if length args =? length ps then Some (mkframe l (combine ps args ++ [("cc", cc)])) else None
       | Some x => if length ps <=? length args
                   then Some (mkframe l (combine ps args ++ [(x, tup (skipn (length ps) args)); ("cc", cc)]))
                   else None
       end.
(** A new frame in the memory (no code in /repo). *)
Definition alloc (s : state V) (fr : frame V) : state V * nat :=
  (mkstate (frs s ++ [fr]) (out s), length (frs s)).
End Scopes.

(** ** Values and the expanded program *)
Inductive value : Type :=
| VNone | VInt (z : Z) | VBool (b : bool)
| VTuple (l : list value)
| VFun (ps : list string) (star : option string) (ign : bool) (b : tblock) (env : list nat)
    (pcc : option value) (iscont : bool)            (* with the default of its parameter _pcc *)
| VIdent | VGetcc
| VComp (cc1 cc2 : value)                           (* the function cc of chain_conts(cc1, cc2, True), 765-766 *)
| VValues (l : list value) (cc : option value)      (* with or without a named return value cc *)
| VJump (f : value) (l : list value) (cc : option value).       (* tco.py 159-170 *)

(** Outcomes of the transformer: a value, an exception, or out of fuel (no code in /repo). *)
Inductive res (A : Type) : Type :=
| Done (a : A) (s : state value) | Err (e : exn) (s : state value) | NoFuel.
Arguments Done {A}. Arguments Err {A}. Arguments NoFuel {A}.
(** One computation after another; exceptions pass (language model, no code in /repo). *)
Definition bind {A B} (r : res A) (f : A -> state value -> res B) : res B :=
  match r with Done a s => f a s | Err e s => Err e s | NoFuel => NoFuel end.
(** An outcome as a result of the language model. *)
Definition lift {A} (s : state value) (o : outcome A) : res A :=
  match o with Ok a => Done a s | Raise e => Err e s end.

(** Python's bool() of a value (no code in /repo). *)
Definition truth (v : value) : bool :=
  match v with
  | VNone => false | VInt z => negb (Z.eqb z 0) | VBool b => b
  | VTuple [] => false | _ => true
  end.
(** Python's callable() (no code in /repo). *)
Definition callable (v : value) : bool :=
  match v with VFun _ _ _ _ _ _ _ | VIdent | VGetcc | VComp _ _ => true | _ => false end.
(** tailtools.py 1252-1259 *)
Definition iscont (v : value) : bool := match v with VFun _ _ _ _ _ _ c => c | _ => false end.
(** the arguments that a return value stands for (775, 781) *)
Definition unpack (v : value) : list value * option value :=
  match v with VValues l cc => (l, cc) | v => ([v], None) end.
(** fun.py 673-675 *)
Definition identity (args : list value) (cc : option value) : value :=
  match args, cc with
  | [], None => VNone
  | [v], None => v
  | l, cc => VValues l cc
  end.
(** the names that a body assigns, which are local to it: the macro's own definitions are not counted *)
Fixpoint assigned_t (s : tstmt) : list string :=
  match s with
  | TAssign x _ => [x]
  | TDef f _ _ _ => [f]
  | TIf _ a b | TTry a b => assigned_tb a ++ assigned_tb b
  | TWhile _ a => assigned_tb a
  | _ => []
  end
with assigned_tb (b : tblock) : list string :=
  match b with TNil => [] | TCons s b => assigned_t s ++ assigned_tb b end.

(** Python's arithmetic on ints (no code in /repo). *)
Definition arith (e : exn) (f : Z -> Z -> value) (a b : value) : outcome value :=
  match a, b with VInt x, VInt y => Ok (f x y) | _, _ => Raise e end.

(** tailtools.py 772-784: chain_conts(pcc, k)(v) *)
Definition chain_conts (pcc : option value) (k v : value) (s : state value) : res value :=
  let (l, kw) := unpack v in
  match pcc, kw with
  | Some c1, None => Done (VJump c1 l (Some k)) s
  | Some c1, Some _ => Err TypeError s
  | None, kw => Done (VJump k l kw) s
  end.

(** [pcc]: the parameter _pcc of the function that runs; [cont]: its variable f_cont, if it is defined.
    [fuel] bounds the nesting of everything. *)
Fixpoint eval (fuel : nat) (s : state value) (env : list nat) (e : yexpr) : res value :=
  match fuel with
  | O => NoFuel
  | S n =>
      match e with
      | YNone => Done VNone s
      | YInt z => Done (VInt z) s
      | YBool b => Done (VBool b) s
      | YVar x => lift s (lookup true s env x)
      | YIdent => Done VIdent s
      | YGetcc => Done VGetcc s
      | YIsCont e => bind (eval n s env e) (fun v s => Done (VBool (iscont v)) s)
      | YIsNone e => bind (eval n s env e) (fun v s => Done (VBool (match v with VNone => true | _ => false end)) s)
      | YNot e => bind (eval n s env e) (fun v s => Done (VBool (negb (truth v))) s)
      | YAdd a b => bind (eval n s env a) (fun v s => bind (eval n s env b) (fun w s =>
                      lift s (arith TypeError (fun x y => VInt (x + y)) v w)))
      | YLt a b => bind (eval n s env a) (fun v s => bind (eval n s env b) (fun w s =>
                      lift s (arith TypeError (fun x y => VBool (x <? y)%Z) v w)))
      | YIf t a b => bind (eval n s env t) (fun v s => eval n s env (if truth v then a else b))
      | YAnd a b => bind (eval n s env a) (fun v s => if truth v then eval n s env b else Done v s)
      | YOr a b => bind (eval n s env a) (fun v s => if truth v then Done v s else eval n s env b)
      | YLam ps star x => Done (VFun ps star false (TCons (TReturn x) TNil) env None false) s
      | YValues l => bind (evals n s env l) (fun l s => Done (VValues l None) s)
      | YCall f args cc =>
          bind (eval n s env f) (fun f s => bind (evals n s env args) (fun args s =>
            bind (match cc with
                  | None => Done None s
                  | Some e => bind (eval n s env e) (fun k s => Done (Some k) s)
                  end) (fun cc s => call n s f args cc)))
      end
  end
with evals (fuel : nat) (s : state value) (env : list nat) (l : list yexpr) : res (list value) :=
  match fuel with
  | O => NoFuel
  | S n =>
      match l with
      | [] => Done [] s
      | e :: l => bind (eval n s env e) (fun v s => bind (evals n s env l) (fun vs s => Done (v :: vs) s))
      end
  end
(** a call that is not a tail call: a function of the block has a trampoline, and so has get_cc *)
with call (fuel : nat) (s : state value) (f : value) (args : list value) (cc : option value) : res value :=
  match fuel with
  | O => NoFuel
  | S n =>
      match f with
      | VFun _ _ _ _ _ _ _ | VGetcc => tramp n s f args cc
      | VIdent | VComp _ _ => raw n s f args cc
      | _ => Err TypeError s
      end
  end
(** tco.py 246-261 *)
with tramp (fuel : nat) (s : state value) (f : value) (args : list value) (cc : option value) : res value :=
  match fuel with
  | O => NoFuel
  | S n =>
      bind (raw n s f args cc) (fun v s =>
        match v with
        | VJump g args cc => if callable g then tramp n s g args cc else Err RuntimeError s
        | v => Done v s
        end)
  end
(** one call, without the trampoline *)
with raw (fuel : nat) (s : state value) (f : value) (args : list value) (cc : option value) : res value :=
  match fuel with
  | O => NoFuel
  | S n =>
      match f with
      | VFun ps star ign b env pcc _ =>
          match newframe VTuple ps star ign (assigned_tb b) args (match cc with Some k => k | None => VIdent end) with
          | None => Err TypeError s
          | Some fr =>
              let (s, i) := alloc s fr in
              bind (exec n s (i :: env) pcc None b) (fun r s => Done (match r with Some v => v | None => VNone end) s)
          end
      | VIdent => Done (identity args cc) s
      | VGetcc => match cc with None => Err TypeError s | Some k => Done (VJump k (k :: args) None) s end  (* 1263-1468 *)
      | VComp cc1 cc2 =>                                                                                  (* 765-766 *)
          match cc with Some _ => Err TypeError s | None => Done (VJump cc1 args (Some cc2)) s end
      | _ => Err TypeError s
      end
  end
(** None: the end of the block was reached *)
with exec (fuel : nat) (s : state value) (env : list nat) (pcc cont : option value) (b : tblock) : res (option value) :=
  match fuel with
  | O => NoFuel
  | S n =>
      match b with
      | TNil => Done None s
      | TCons t b =>
          match t with
          | TAssign x e => bind (eval n s env e) (fun v s => exec n (assign s env x v) env pcc cont b)
          | TNonlocal x e => bind (eval n s env e) (fun v s => exec n (nonlocal s env x v) env pcc cont b)
          | TPrint e => bind (eval n s env e) (fun v s => exec n (print s v) env pcc cont b)
          | TExpr e => bind (eval n s env e) (fun _ s => exec n s env pcc cont b)
          | TIf t a c =>
              bind (eval n s env t) (fun v s =>
                bind (exec n s env pcc cont (if truth v then a else c)) (fun r s =>
                  match r with Some v => Done (Some v) s | None => exec n s env pcc cont b end))
          | TWhile t a =>
              bind (eval n s env t) (fun v s =>
                if truth v then
                  bind (exec n s env pcc cont a) (fun r s =>
                    match r with Some v => Done (Some v) s | None => exec n s env pcc cont (TCons (TWhile t a) b) end)
                else exec n s env pcc cont b)
          | TTry a h =>
              let next r s := match r with Some v => Done (Some v) s | None => exec n s env pcc cont b end in
              match exec n s env pcc cont a with
              | Done r s => next r s
              | Err _ s => bind (exec n s env pcc cont h) next
              | NoFuel => NoFuel
              end
          | TRaise m => Err (UserExn m) s
          | TReturn x => bind (retx n s env pcc cont x) (fun v s => Done (Some v) s)
          | TDef f ps star c => exec n (assign s env f (VFun ps star false c env None false)) env pcc cont b
          | TDefcont ts star c =>                                                  (* 1109-1128 *)
              bind (lift s (lookup true s env "cc")) (fun k s =>
                let pcc' := match k with VIdent => None | k => Some k end in
                exec n s env pcc (Some (VFun ts star (ignores ts star) c env pcc' true)) b)
          | TTop f args =>
              match n with
              | O => NoFuel
              | S m =>
                  bind (eval m s env f) (fun f s => bind (evals m s env args) (fun args s =>
                    match cont with
                    | None => Err NameError s
                    | Some k => bind (call m s f args (Some k)) (fun _ s => exec n s env pcc cont b)
                    end))
              end
          | TTopNone k =>
              match n, cont with
              | O, _ => NoFuel
              | _, None => Err NameError s
              | S m, Some f =>
                  bind (lift s (lookup true s env "cc")) (fun c s =>
                    bind (call m s f (repeat VNone k) (Some c)) (fun _ s => exec n s env pcc cont b))
              end
          | TStray => Err SyntaxError s          (* not reached: expand rejects it *)
          end
      end
  end
with retx (fuel : nat) (s : state value) (env : list nat) (pcc cont : option value) (x : texpr) : res value :=
  match fuel with
  | O => NoFuel
  | S n =>
      match x with
      | XData e =>                                                                 (* 772-784 *)
          bind (lift s (lookup true s env "cc")) (fun k s =>
            bind (eval n s env e) (fun v s => chain_conts pcc k v s))
      | XJump f args cc =>                                                         (* 764-771 *)
          bind (eval n s env f) (fun f s => bind (evals n s env args) (fun args s =>
            bind (eval n s env (match cc with Some e => e | None => YVar "cc" end)) (fun k s =>
              Done (VJump f args (Some (match pcc with Some c1 => VComp c1 k | None => k end))) s)))
      | XIf t a b => bind (eval n s env t) (fun v s => retx n s env pcc cont (if truth v then a else b))
      | XOr a x =>
          bind (eval n s env a) (fun v s =>
            if truth v then bind (lift s (lookup true s env "cc")) (fun k s => chain_conts pcc k v s)
            else retx n s env pcc cont x)
      | XCc f args =>
          bind (eval n s env f) (fun f s => bind (evals n s env args) (fun args s =>
            match cont with None => Err NameError s | Some k => Done (VJump f args (Some k)) s end))
      | XCcNone m =>
          match cont with
          | None => Err NameError s
          | Some k => bind (lift s (lookup true s env "cc")) (fun c s => Done (VJump k (repeat VNone m) (Some c)) s)
          end
      end
  end.

(** tailtools.py 1235-1236: the block starts with cc = identity *)
Definition start {V} (id : V) : state V := mkstate [mkframe [] [("cc", id)]] [].
(** The expanded block from the start: tailtools.py 1235-1236 *)
Definition run (fuel : nat) (b : tblock) : res (option value) := exec fuel (start VIdent) [0] None None b.
