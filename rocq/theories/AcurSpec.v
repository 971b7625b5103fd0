(** What [with autocurry] means, on the program as the user wrote it. *)
From Coq Require Import String List Bool Arith Permutation.
From Verif Require Import Base AcurModel.
Import ListNotations.
Open Scope list_scope.
Open Scope nat_scope.

(** ** Well-formed programs *)
(** The user writes no curryf or currycall. *)
Fixpoint src (t : term) : Prop :=
  match t with
  | ENum _ | EVar _ | ETick _ => True
  | EAdd a b => src a /\ src b
  | EIf c a b => src c /\ src a /\ src b
  | ELam _ b => src b
  | ECall f args | EUCurry f args => src f /\ fold_right (fun t P => src t /\ P) True args
  | ECurryF _ | ECurryCall _ _ => False
  end.
Fixpoint nolam (t : term) : bool :=
  match t with
  | ENum _ | EVar _ | ETick _ => true
  | EAdd a b => nolam a && nolam b
  | EIf c a b => nolam c && nolam a && nolam b
  | ELam _ _ => false
  | ECall f args | EUCurry f args | ECurryCall f args => nolam f && forallb nolam args
  | ECurryF e => nolam e
  end.
(** A chain of calls with one argument each that ends in a lambda ... *)
Fixpoint ends_in_lambda (t : term) : bool :=
  match t with
  | ECall _ [ELam _ _] => true
  | ECall _ [a] => ends_in_lambda a
  | EUCurry (ELam _ _) [] => true
  | EUCurry a [] => ends_in_lambda a
  | _ => false
  end.
(** ... and has a curry(...) or curry(...)(...) in it. *)
Fixpoint curry_on_the_way (t : term) : bool :=
  match t with
  | EUCurry _ [] => true
  | ECall (EUCurry _ _) [_] => true
  | _ => false
  end ||
  match t with
  | ECall _ [a] => curry_on_the_way a
  | EUCurry a [] => curry_on_the_way a
  | _ => false
  end.
Definition curried_lambda (t : term) : bool := ends_in_lambda t && curry_on_the_way t.
(** Code in the block: a curry(...) whose argument is, at the end of a chain of calls, a lambda
    occurs only as curry(lambda ...: body) where the body contains no lambda. *)
Fixpoint plain_curry (t : term) : Prop :=
  match t with
  | ENum _ | EVar _ | ETick _ => True
  | EAdd a b => plain_curry a /\ plain_curry b
  | EIf c a b => plain_curry c /\ plain_curry a /\ plain_curry b
  | ELam _ b => plain_curry b
  | ECall f args =>
      curried_lambda t = false /\ plain_curry f /\ fold_right (fun t P => plain_curry t /\ P) True args
  | EUCurry f args =>
      (curried_lambda t = false \/ exists ps b, t = EUCurry (ELam ps b) [] /\ nolam b = true) /\
      plain_curry f /\ fold_right (fun t P => plain_curry t /\ P) True args
  | ECurryF _ | ECurryCall _ _ => True
  end.
Definition stmt_term (s : stmt) : term :=
  match s with SAssign _ e => e | SExpr e => e | SDef _ _ _ b => b end.
Definition source (ss : list stmt) : Prop := Forall (fun s => src (stmt_term s)) ss.
Definition block_ok (ss : list stmt) : Prop :=
  Forall (fun s => src (stmt_term s) /\ plain_curry (stmt_term s)) ss.

(** ** Curried evaluation
    A function written in the block is curried; so is a function passed to curry().  A call
    written in the block treats the function called as curried, whether it is or not; a call
    written outside does so only if it is.  A curried function waits until it has all its
    arguments; arguments left over are passed to its result, and it is a TypeError if that is
    not a function. *)
Inductive hval :=
| HData (k : nat)
| HFn (curried : bool) (f : hfn)
with hfn :=
| HClo (inside : bool) (ps : list string) (b : term) (rho : list (string * hval))
| HPart (f : hfn) (a : list hval).
Definition henv := list (string * hval).
Fixpoint harity (f : hfn) : nat :=
  match f with HClo _ ps _ _ => length ps | HPart f a => harity f - length a end.
Definition htruthy (v : hval) : bool := match v with HData 0 => false | _ => true end.

(** [lim]: a function can be applied to some of its arguments, and the result again, but a third
    time this is a TypeError.  (Without [lim], there is no such limit.) *)
Definition twice (f : hfn) : bool := match f with HPart (HPart _ _) _ => true | _ => false end.
Fixpoint heval (lim : bool) (n : nat) (inside : bool) (g rho : henv) (t : term) : res hval :=
  match n with
  | O => None
  | S n =>
      match t with
      | ENum k => ret (HData k)
      | EVar x =>
          match get rho x with
          | Some v => ret v
          | None => match get g x with Some v => ret v | None => raise NameError end
          end
      | EAdd a b =>
          bind (heval lim n inside g rho a) (fun v =>
          bind (heval lim n inside g rho b) (fun w =>
          match v, w with
          | HData i, HData j => ret (HData (i + j))
          | _, _ => raise TypeError
          end))
      | EIf c a b =>
          bind (heval lim n inside g rho c) (fun v =>
          heval lim n inside g rho (if htruthy v then a else b))
      | ETick k => Some ([k], Ok (HData 0))
      | ELam ps b => ret (HFn inside (HClo inside ps b rho))
      | ECall f args =>
          bind (heval lim n inside g rho f) (fun v =>
          bind (hevals lim n inside g rho args) (fun vs =>
          match v with
          | HData _ => raise TypeError
          | HFn curried f => if inside || curried then hcurried lim n g f vs else happly lim n g f vs
          end))
      | EUCurry f args =>
          bind (heval lim n inside g rho f) (fun v =>
          bind (hevals lim n inside g rho args) (fun vs =>
          match v, vs with
          | HData _, [] => ret v
          | HData _, _ :: _ => raise TypeError
          | HFn _ f, [] => ret (HFn true f)
          | HFn _ f, _ :: _ => hcurried lim n g f vs
          end))
      | ECurryF _ | ECurryCall _ _ => raise SyntaxError
      end
  end
with hevals (lim : bool) (n : nat) (inside : bool) (g rho : henv) (ts : list term) : res (list hval) :=
  match n with
  | O => None
  | S n =>
      match ts with
      | [] => ret []
      | t :: ts =>
          bind (heval lim n inside g rho t) (fun v =>
          bind (hevals lim n inside g rho ts) (fun vs => ret (v :: vs)))
      end
  end
with happly (lim : bool) (n : nat) (g : henv) (f : hfn) (args : list hval) : res hval :=
  match n with
  | O => None
  | S n =>
      match f with
      | HClo inside ps b rho =>
          if length args =? length ps then heval lim n inside g (combine ps args ++ rho) b
          else raise TypeError
      | HPart f a => happly lim n g f (a ++ args)
      end
  end
with hcurried (lim : bool) (n : nat) (g : henv) (f : hfn) (args : list hval) : res hval :=
  match n with
  | O => None
  | S n =>
      if length args <? harity f then
        if lim && twice f then raise TypeError else ret (HFn true (HPart f args))
      else if length args =? harity f then happly lim n g f args
      else
        bind (happly lim n g f (firstn (harity f) args)) (fun r =>
        match r with
        | HData _ => raise TypeError
        | HFn _ h => hcurried lim n g h (skipn (harity f) args)
        end)
  end.
Fixpoint hexec (lim : bool) (n : nat) (inside : bool) (g : henv) (ss : list stmt) : res henv :=
  match ss with
  | [] => ret g
  | SAssign x e :: ss =>
      bind (heval lim n inside g [] e) (fun v => hexec lim n inside ((x, v) :: g) ss)
  | SExpr e :: ss => bind (heval lim n inside g [] e) (fun _ => hexec lim n inside g ss)
  | SDef curried x ps b :: ss =>
      hexec lim n inside ((x, HFn (inside || curried) (HClo inside ps b [])) :: g) ss
  end.
Definition hrun (lim : bool) (n : nat) (before block after : list stmt) : res henv :=
  bind (hexec lim n false [] before) (fun g =>
  bind (hexec lim n true g block) (fun g => hexec lim n false g after)).


(** ** What can be seen of a result: which variables exist, their values if these are data,
    and whether they are functions. *)
Inductive seen := SData (k : nat) | SFun | SVals (n : nat).
Definition see (v : val) : seen :=
  match v with VData k => SData k | VFn _ | VCur _ => SFun | VVals l => SVals (length l) end.
Definition hsee (v : hval) : seen := match v with HData k => SData k | HFn _ _ => SFun end.

(** ** Regrouping arguments
    Anywhere in the code, f(a...)(b...) may be written as f(a..., b...), provided there is at
    least one b, and the other way around. *)
Inductive regroup : term -> term -> Prop :=
| rg_num k : regroup (ENum k) (ENum k)
| rg_var x : regroup (EVar x) (EVar x)
| rg_add a a' b b' : regroup a a' -> regroup b b' -> regroup (EAdd a b) (EAdd a' b')
| rg_if c c' a a' b b' :
    regroup c c' -> regroup a a' -> regroup b b' -> regroup (EIf c a b) (EIf c' a' b')
| rg_tick k : regroup (ETick k) (ETick k)
| rg_lam ps b b' : regroup b b' -> regroup (ELam ps b) (ELam ps b')
| rg_call f f' a a' : regroup f f' -> regroups a a' -> regroup (ECall f a) (ECall f' a')
| rg_curry f f' a a' : regroup f f' -> regroups a a' -> regroup (EUCurry f a) (EUCurry f' a')
| rg_merge f f' a a' b b' :
    regroup f f' -> regroups a a' -> regroups b b' -> b <> [] ->
    regroup (ECall (ECall f a) b) (ECall f' (a' ++ b'))
| rg_split f f' a a' b b' :
    regroup f f' -> regroups a a' -> regroups b b' -> b <> [] ->
    regroup (ECall f (a ++ b)) (ECall (ECall f' a') b')
with regroups : list term -> list term -> Prop :=
| rgs_nil : regroups [] []
| rgs_cons t t' ts ts' : regroup t t' -> regroups ts ts' -> regroups (t :: ts) (t' :: ts').
Inductive regroup_stmt : stmt -> stmt -> Prop :=
| rgt_assign x e e' : regroup e e' -> regroup_stmt (SAssign x e) (SAssign x e')
| rgt_expr e e' : regroup e e' -> regroup_stmt (SExpr e) (SExpr e')
| rgt_def c x ps b b' : regroup b b' -> regroup_stmt (SDef c x ps b) (SDef c x ps b').
