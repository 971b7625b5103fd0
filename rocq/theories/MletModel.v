(** Model of the macros let, letseq, letrec and do (unpythonic/syntax/letdo.py 351-491, 825-956, with
    scopeanalyzer.py 98-164) on a language of expressions.  Bindings are in the form `x := v` (or `x << v`).
    One type of trees has both what the user writes (let[], do[], ...) and what the macros make of it (calls
    of lispylet's `_let` and seq's `do` on lambdas that take the environment), because some macros see trees
    that are partly expanded.  The names from gensym are numbers: they are different from each other and
    from the names in the program.  do0, dlet, blet and comprehensions are left out. *)
From Coq Require Import String List ZArith Bool Arith.
From Verif Require Import Base CollModel EnvModel.
Import ListNotations.
Open Scope string_scope.
Open Scope list_scope.
Open Scope nat_scope.

(** Python values of the language model (no code in /repo). *)
Inductive value := VNone | VBool (b : bool) | VInt (z : Z) | VFun (n : nat) | VPrim (o : nat).
(** Python's bool() of a value (no code in /repo). *)
Definition truthy (v : value) : bool :=
  match v with VNone => false | VBool b => b | VInt z => negb (Z.eqb z 0) | _ => true end.
(** let, letseq, letrec (syntax/letdo.py, the mode argument). *)
Inductive mode := MLet | MLetseq | MLetrec.

(** Expressions before and after expansion (no code in /repo). *)
Inductive ex :=
| XConst (v : value)
| XVar (x : string)
| XPrim (o : nat) (l : list ex)               (* operators *)
| XCall (f : ex) (l : list ex)
| XIf (t a b : ex)
| XLam (ps : list string) (b : ex)
| XAsgn (x : string) (v : ex)                 (* x := v *)
| XLocal (a : ex)                             (* local[x := v] *)
| XDelete (a : ex)                            (* delete[x] *)
| XLet (m : mode) (bs : list ex) (b : ex)     (* let[bs][b] *)
| XDo (implicit : bool) (l : list ex)         (* do[l]; implicit: the body of a let, in extra brackets *)
(* what these are expanded to: *)
| XAttr (e : nat) (x : string)                (* e.x *)
| XSet (def : bool) (e : nat) (x : string) (v : ex)   (* e._set("x", v) if def, else e.set("x", v) *)
| XPop (e : nat) (x : string)                 (* e.pop("x") *)
| TLet (isrec : bool) (e : nat) (bs : list (string * ex)) (b : ex)
                                              (* _let((("x", v), ...), lambda e: b); letrec: ("x", lambda e: v) *)
| TDo (e : nat) (l : list ex).                (* do(lambda e: item, ...) *)

(** letdo.py 441-452, scopeanalyzer.py 98-164 (for lambdas).  [scope]: names_in_scope.  The names from
    gensym, which are parameters of the lambdas in TLet and TDo, are in scope too, but they are not
    among [lhs]. *)
Definition mems (x : string) (l : list string) : bool := existsb (String.eqb x) l.
(** _letlike_transform's first half, on an expression: letdo.py 441-452 *)
Fixpoint tr_assign (lhs : list string) (def : bool) (e : nat) (scope : list string) (t : ex) {struct t} : ex :=
  let go := tr_assign lhs def e scope in
  match t with
  | XAsgn x v => if mems x lhs && negb (mems x scope) then XSet def e x (go v) else XAsgn x (go v)
  | XPrim o l => XPrim o (map go l)
  | XCall f l => XCall (go f) (map go l)
  | XIf a b c => XIf (go a) (go b) (go c)
  | XLam ps b => XLam ps (tr_assign lhs def e (scope ++ ps) b)
  | XLocal a => XLocal (go a)
  | XDelete a => XDelete (go a)
  | XLet m bs b => XLet m (map go bs) (go b)
  | XDo i l => XDo i (map go l)
  | XSet d e' x v => XSet d e' x (go v)
  | TLet r e' bs b => TLet r e' (map (fun xv => (fst xv, go (snd xv))) bs) (go b)
  | TDo e' l => TDo e' (map go l)
  | XConst _ | XVar _ | XAttr _ _ | XPop _ _ => t
  end.
(** letdo.py 454-486 *)
Fixpoint tr_name (rhs : list string) (e : nat) (scope : list string) (t : ex) {struct t} : ex :=
  let go := tr_name rhs e scope in
  match t with
  | XVar x => if mems x rhs && negb (mems x scope) then XAttr e x else XVar x
  | XAsgn x v => XAsgn x (go v)
  | XPrim o l => XPrim o (map go l)
  | XCall f l => XCall (go f) (map go l)
  | XIf a b c => XIf (go a) (go b) (go c)
  | XLam ps b => XLam ps (tr_name rhs e (scope ++ ps) b)
  | XLocal a => XLocal (go a)
  | XDelete a => XDelete (go a)
  | XLet m bs b => XLet m (map go bs) (go b)
  | XDo i l => XDo i (map go l)
  | XSet d e' x v => XSet d e' x (go v)
  | TLet r e' bs b => TLet r e' (map (fun xv => (fst xv, go (snd xv))) bs) (go b)
  | TDo e' l => TDo e' (map go l)
  | XConst _ | XAttr _ _ | XPop _ _ => t
  end.
(** letdo.py 418-439 (the lambda that _envwrap adds is part of TLet and TDo) *)
Definition letlike (e : nat) (lhs rhs : list string) (def : bool) (t : ex) : ex :=
  tr_name rhs e [] (tr_assign lhs def e [] t).

(** letdo.py 836-852 *)
Fixpoint localdefs (t : ex) : outcome (ex * list string) :=
  match t with
  | XLocal (XAsgn x v) => do r <- localdefs v ; Ok (XAsgn x (fst r), x :: snd r)
  | XLocal _ => Raise SyntaxError
  | _ => Ok (t, [])
  end.
(** letdo.py 853-867 *)
Definition deletes (e : nat) (t : ex) : outcome (ex * list string) :=
  match t with
  | XDelete (XVar x) => Ok (XPop e x, [x])
  | XDelete _ => Raise SyntaxError
  | _ => Ok (t, [])
  end.
(** letdo.py 869-886: is there a local[] or delete[]?  The search stops at `do[...]`; the extra brackets of
    a let are not one. *)
Fixpoint stray (t : ex) : bool :=
  match t with
  | XLocal _ | XDelete _ => true
  | XDo false _ => false
  | XAsgn _ v | XSet _ _ _ v => stray v
  | XPrim _ l | XDo true l | TDo _ l => existsb stray l
  | XCall f l => stray f || existsb stray l
  | XIf a b c => stray a || stray b || stray c
  | XLam _ b => stray b
  | XLet _ bs b => existsb stray bs || stray b
  | TLet _ _ bs b => existsb (fun xv => stray (snd xv)) bs || stray b
  | XConst _ | XVar _ | XAttr _ _ | XPop _ _ => false
  end.
(** letdo.py 888-914 *)
Fixpoint do_lines (e : nat) (names : list string) (l : list ex) : outcome (list ex) :=
  match l with
  | [] => Ok []
  | t :: l =>
      do r1 <- localdefs t ;
      let (t1, new) := r1 in
      do r2 <- deletes e t1 ;
      let (t2, del) := r2 in
      if match new, del with _ :: _, _ :: _ => true | _, _ => false end then Raise SyntaxError
      else if existsb (fun x => mems x names) new then Raise SyntaxError
      else if stray t2 then Raise SyntaxError
      else let updated := filter (fun x => negb (mems x del)) (names ++ new) in
           do l' <- do_lines e updated l ;
           Ok (letlike e updated names true t2 :: l')
  end.
(** letdoutil.py 64-109, for bindings in the form `x := v` *)
Fixpoint canonize (bs : list ex) : outcome (list (string * ex)) :=
  match bs with
  | [] => Ok []
  | XAsgn x v :: bs => do r <- canonize bs ; Ok ((x, v) :: r)
  | _ :: _ => Raise SyntaxError
  end.

(** The expander.  [n]: the next name from gensym.  [None]: [k], the bound on the recursion, was too low.
    The expander calls a macro on the tree as it is, and goes on with what the macro returns; a macro can
    have parts of the tree expanded first, which let does (384, 391) and do does not. *)
Definition bind {A B} (r : option (outcome A)) (f : A -> option (outcome B)) : option (outcome B) :=
  match r with None => None | Some (Raise x) => Some (Raise x) | Some (Ok a) => f a end.
(** The expander on a list of expressions (mcpyrate). *)
Fixpoint expand_list (expand : nat -> ex -> option (outcome (ex * nat))) (n : nat) (l : list ex)
    : option (outcome (list ex * nat)) :=
  match l with
  | [] => Some (Ok ([], n))
  | t :: l => bind (expand n t) (fun r => bind (expand_list expand (snd r) l) (fun r' => Some (Ok (fst r :: fst r', snd r'))))
  end.
(** The expander: let, letseq, letrec, do and the rest, as cited above. *)
Fixpoint expand (k : nat) (n : nat) (t : ex) : option (outcome (ex * nat)) :=
  match k with
  | 0 => None
  | S k =>
      let ret t n := Some (Ok (t, n)) in
      match t with
      | XConst _ | XVar _ | XAttr _ _ | XPop _ _ => ret t n
      | XPrim o l => bind (expand_list (expand k) n l) (fun r => ret (XPrim o (fst r)) (snd r))
      | XCall f l => bind (expand k n f) (fun q => bind (expand_list (expand k) (snd q) l) (fun r => ret (XCall (fst q) (fst r)) (snd r)))
      | XIf a b c =>
          bind (expand k n a) (fun q => bind (expand k (snd q) b) (fun r => bind (expand k (snd r) c) (fun s =>
            ret (XIf (fst q) (fst r) (fst s)) (snd s))))
      | XLam ps b => bind (expand k n b) (fun q => ret (XLam ps (fst q)) (snd q))
      | XAsgn x v => bind (expand k n v) (fun q => ret (XAsgn x (fst q)) (snd q))
      | XSet d e x v => bind (expand k n v) (fun q => ret (XSet d e x (fst q)) (snd q))
      | XLocal _ | XDelete _ => Some (Raise SyntaxError)                   (* 656, 677 *)
      | XLet m bs b =>                                                     (* 77-84, 351-416 *)
          bind (Some (canonize bs)) (fun bs =>
          match m, bs with
          | MLetseq, [] => expand k n b
          | MLetseq, [(x, v)] => expand k n (XLet MLet [XAsgn x v] b)
          | MLetseq, (x, v) :: rest =>
              expand k n (XLet MLet [XAsgn x v] (XLet MLetseq (map (fun xv => XAsgn (fst xv) (snd xv)) rest) b))
          | _, _ =>
              bind (expand k n b) (fun q =>
              match bs with
              | [] => ret (fst q) (snd q)
              | _ =>
                  bind (expand_list (expand k) (snd q) (map snd bs)) (fun r =>
                  let e := snd r in
                  let names := map fst bs in
                  let isrec := match m with MLetrec => true | _ => false end in
                  let tr := letlike e names names false in
                  ret (TLet isrec e (combine names (if isrec then map tr (fst r) else fst r)) (tr (fst q))) (S e))
              end)
          end)
      | XDo _ l =>                                                         (* 825-920 *)
          bind (Some (do_lines n [] l)) (fun l =>
          bind (expand_list (expand k) (S n) l) (fun r => ret (TDo n (fst r)) (snd r)))
      | TLet isrec e bs b =>
          bind (expand_list (expand k) n (map snd bs)) (fun r => bind (expand k (snd r) b) (fun q =>
            ret (TLet isrec e (combine (map fst bs) (fst r)) (fst q)) (snd q)))
      | TDo e l => bind (expand_list (expand k) n l) (fun r => ret (TDo e (fst r)) (snd r))
      end
  end.

(** * The meaning of expanded programs *)
(** Variables of Python: parameters of lambdas; a name from gensym is bound to an env, given by its number *)
Inductive tbind := TB (x : string) (v : value) | TE (e : nat) (k : nat).
(** The variables in scope (no code in /repo). *)
Definition tenv := list tbind.
(** Reading a variable (no code in /repo). *)
Fixpoint tget (env : tenv) (x : string) : option value :=
  match env with [] => None | TB y v :: env => if String.eqb y x then Some v else tget env x | _ :: env => tget env x end.
(** The env that a generated name stands for (no code in /repo). *)
Fixpoint tgetenv (env : tenv) (e : nat) : option nat :=
  match env with [] => None | TE d k :: env => if Nat.eqb d e then Some k else tgetenv env e | _ :: env => tgetenv env e end.

Section Run.
Variable W : Type.                            (* what builtin functions act on *)
Variable prim : nat -> list value -> W -> outcome value * W.
Variable globals : string -> option value.

(** The state of the language model (no code in /repo). *)
Record theap := mkT { tfuns : list (tenv * list string * ex); tenvs : list (envst value); tworld : W }.
(** Computations of the language model (no code in /repo); None when out of fuel. *)
Definition TM (A : Type) := theap -> option (outcome A * theap).
(** [str.isidentifier], true of the names in a program: env.py 74-86 *)
Definition isid (x : string) : bool := true.                               (* names in a program are identifiers *)
Definition no_effect (e : envst value) (x : string) (v : value) : envst value := e.
(** An env gets new contents. *)
Definition put_env (k : nat) (e : (envst value)) (h : theap) : theap := mkT (tfuns h) (upd (tenvs h) k e) (tworld h).
(** run an operation on the env that the name [e] is bound to *)
Definition on_env (env : tenv) (e : nat) (f : envst value -> outcome value * envst value) (h : theap)
    : option (outcome value * theap) :=
  match tgetenv env e with
  | None => Some (Raise NameError, h)
  | Some k =>
      match nth_error (tenvs h) k with
      | None => Some (Raise NameError, h)
      | Some s => let (r, s') := f s in Some (r, put_env k s' h)
      end
  end.
(** What an operation on an env gives, as a value of the language. *)
Definition val_of (r : outcome (@res value)) : outcome value :=
  match r with Ok (RVal v) => Ok v | Ok _ => Ok VNone | Raise x => Raise x end.
(** e.x.  A method of env, if [x] is the name of one (then the value is not modelled) *)
Definition do_attr (x : string) (s : (envst value)) : outcome value * (envst value) := (val_of (env_getattr isid s x), s).
(** env.py 185-199 *)
Definition do_set (def : bool) (x : string) (v : value) (s : (envst value)) : outcome value * (envst value) :=
  if def then match env_setattr isid no_effect s x v with (Ok _, s') => (Ok v, s') | (Raise y, s') => (Raise y, s') end
  else let (r, s') := env_set isid no_effect s x v in (val_of r, s').
(** [e.pop(x)], which delete[] becomes: env.py 133-136 *)
Definition do_pop (x : string) (s : (envst value)) : outcome value * (envst value) :=
  let (r, s') := env_pop s x None in (val_of r, s').
(** lispylet.py 239-250, one binding whose value is known *)
Definition do_bind (x : string) (v : value) (s : (envst value)) : outcome value * (envst value) :=
  match setitem isid no_effect s x v with Ok s' => (Ok v, s') | Raise y => (Raise y, s) end.
(** The contents of an env. *)
Definition get_env (k : nat) (h : theap) : (envst value) := match nth_error (tenvs h) k with Some s => s | None => env0 end.

Section Eval.
Variable call : value -> list value -> TM value.

(** Evaluation of expanded code: _let of lispylet (lispylet.py 221-250), do (seq.py 511-592), and Python itself. *)
Fixpoint teval (env : tenv) (t : ex) (h : theap) {struct t} : option (outcome value * theap) :=
  let evals := fix evals (l : list ex) (h : theap) : option (outcome (list value) * theap) :=
    match l with
    | [] => Some (Ok [], h)
    | t :: l =>
        match teval env t h with
        | Some (Ok v, h) => match evals l h with Some (Ok vs, h) => Some (Ok (v :: vs), h) | r => r end
        | Some (Raise x, h) => Some (Raise x, h)
        | None => None
        end
    end in
  match t with
  | XConst v => Some (Ok v, h)
  | XVar x =>
      Some (match tget env x with
            | Some v => Ok v
            | None => match globals x with Some v => Ok v | None => Raise NameError end
            end, h)
  | XPrim o l =>
      match evals l h with
      | Some (Ok vs, h) => let (r, w) := prim o vs (tworld h) in Some (r, mkT (tfuns h) (tenvs h) w)
      | Some (Raise x, h) => Some (Raise x, h)
      | None => None
      end
  | XCall f l =>
      match teval env f h with
      | Some (Ok g, h) =>
          match evals l h with
          | Some (Ok vs, h) => call g vs h
          | Some (Raise x, h) => Some (Raise x, h)
          | None => None
          end
      | r => r
      end
  | XIf a b c =>
      match teval env a h with
      | Some (Ok v, h) => if truthy v then teval env b h else teval env c h
      | r => r
      end
  | XLam ps b => Some (Ok (VFun (length (tfuns h))), mkT (tfuns h ++ [(env, ps, b)]) (tenvs h) (tworld h))
  | XAttr e x => on_env env e (do_attr x) h
  | XSet d e x v =>
      match teval env v h with
      | Some (Ok v, h) => on_env env e (do_set d x v) h
      | r => r
      end
  | XPop e x => on_env env e (do_pop x) h
  | TLet false e bs b =>                      (* lispylet.py 221-250; the values are evaluated by the caller *)
      match (fix values (bs : list (string * ex)) (h : theap) : option (outcome (list (string * value)) * theap) :=
               match bs with
               | [] => Some (Ok [], h)
               | (x, v) :: bs =>
                   match teval env v h with
                   | Some (Ok v, h) => match values bs h with Some (Ok vs, h) => Some (Ok ((x, v) :: vs), h) | r => r end
                   | Some (Raise y, h) => Some (Raise y, h)
                   | None => None
                   end
               end) bs h with
      | Some (Ok vs, h) =>
          let k := length (tenvs h) in
          let h := mkT (tfuns h) (tenvs h ++ [env0]) (tworld h) in
          match (fix fill (vs : list (string * value)) (s : (envst value)) : outcome (envst value) :=
                   match vs with
                   | [] => Ok s
                   | (x, v) :: vs =>
                       if has s x then Raise AttributeError
                       else match do_bind x v s with (Ok _, s) => fill vs s | (Raise y, _) => Raise y end
                   end) vs env0 with
          | Ok s => teval (TE e k :: env) b (put_env k (finalize s) h)
          | Raise y => Some (Raise y, h)
          end
      | Some (Raise y, h) => Some (Raise y, h)
      | None => None
      end
  | TLet true e bs b =>
      let k := length (tenvs h) in
      match (fix fill (bs : list (string * ex)) (h : theap) : option (outcome unit * theap) :=
               match bs with
               | [] => Some (Ok tt, h)
               | (x, v) :: bs =>
                   if has (get_env k h) x then Some (Raise AttributeError, h)
                   else match teval (TE e k :: env) v h with
                        | Some (Ok v, h) =>
                            match do_bind x v (get_env k h) with
                            | (Ok _, s) => fill bs (put_env k s h)
                            | (Raise y, _) => Some (Raise y, h)
                            end
                        | Some (Raise y, h) => Some (Raise y, h)
                        | None => None
                        end
               end) bs (mkT (tfuns h) (tenvs h ++ [env0]) (tworld h)) with
      | Some (Ok _, h) => teval (TE e k :: env) b (put_env k (finalize (get_env k h)) h)
      | Some (Raise y, h) => Some (Raise y, h)
      | None => None
      end
  | TDo e l =>                                (* seq.py 577-592 *)
      let k := length (tenvs h) in
      (fix items (l : list ex) (last : outcome value) (h : theap) : option (outcome value * theap) :=
         match l with
         | [] => Some (last, h)
         | t :: l =>
             match teval (TE e k :: env) t h with
             | Some (Ok v, h) => items l (Ok v) h
             | r => r
             end
         end) l (Raise UnboundLocalError) (mkT (tfuns h) (tenvs h ++ [env0]) (tworld h))
  | XAsgn _ _ | XLocal _ | XDelete _ | XLet _ _ _ | XDo _ _ => Some (Raise SyntaxError, h)
      (* macros that are not expanded, and `x := v` for a variable of Python: not in the model *)
  end.
End Eval.
(** The arguments of a call bound to the parameters (no code in /repo). *)
Definition params (ps : list string) (vs : list value) : option (list (string * value)) :=
  if Nat.eqb (length ps) (length vs) then Some (combine ps vs) else None.
(** Calling a function (no code in /repo). *)
Fixpoint tcall (fuel : nat) (g : value) (vs : list value) (h : theap) : option (outcome value * theap) :=
  match fuel with
  | 0 => None
  | S fuel =>
      match g with
      | VPrim o => let (r, w) := prim o vs (tworld h) in Some (r, mkT (tfuns h) (tenvs h) w)
      | VFun n =>
          match nth_error (tfuns h) n with
          | Some (env, ps, b) =>
              match params ps vs with
              | Some l => teval (tcall fuel) (map (fun xv => TB (fst xv) (snd xv)) l ++ env) b h
              | None => Some (Raise TypeError, h)
              end
          | None => Some (Raise TypeError, h)
          end
      | _ => Some (Raise TypeError, h)
      end
  end.
(** An expanded program from the start (no code in /repo). *)
Definition trun (fuel : nat) (t : ex) (w : W) : option (outcome value * W) :=
  match teval (tcall fuel) [] t (mkT [] [] w) with Some (r, h) => Some (r, tworld h) | None => None end.
End Run.
