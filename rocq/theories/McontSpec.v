(** What `with continuations` means, by its documentation (the docstring of continuations in
    unpythonic/syntax/tailtools.py, and doc/macros.md): a machine in which continuations are values.  A
    continuation is the identity, the rest of a function after a call_cc[], any other function, or first one
    and then another.  Every function has a variable cc with the continuation it was given; the rest of a
    function after a call_cc[] is a function of the targets, with a scope of its own, which when it returns
    goes on with what the function had to go on with when the call_cc[] was executed (its tail), and then with
    its own cc. *)
From Coq Require Import String List Bool Arith ZArith.
From Verif Require Import Base McontModel.
Import ListNotations.
Open Scope string_scope.
Open Scope list_scope.
Open Scope nat_scope.

(** where a block stands: inside a compound statement ([try]: inside the body of a try statement of the same
    function); body of a function; rest of the with block after a call_cc[]; the with block itself *)
Inductive place : Type := Inside (try : bool) | Body | TopRest | Top.
Definition in_try (p : place) : bool := match p with Inside t => t | _ => false end.

Inductive sval : Type :=
| SVNone | SVInt (z : Z) | SVBool (b : bool)
| SVTuple (l : list sval)
| SVFun (ps : list string) (star : option string) (b : block) (env : list nat)
| SVRest (ts : list string) (star : option string) (fn : bool) (b : block) (env : list nat) (tail : sval)
    (* the rest [b] of a function ([fn]) or of the with block *)
| SVIdent | SVGetcc
| SVSeq (k1 k2 : sval)                    (* first k1, then k2 *)
| SVValues (l : list sval).

(** Where the program does something that the implementation does not do as documented. *)
Inductive odd : Type :=
| LosesTail            (* a second call_cc[] in a function that has a continuation *)
| NoneBranch           (* call_cc[None] in a function that has a continuation *)
| CallsSeq             (* a composed continuation is called by hand, or is the tail of the function that returns *)
| CallsIdent           (* identity is called with a continuation *)
| FalseAnd             (* return a and b, where b may be a tail call, and a is false but not False *)
| TailInTry.           (* a tail call in the body of a try statement *)

Inductive sres (A : Type) : Type :=
| SDone (a : A) (s : state sval) | SErr (e : exn) (s : state sval) | SNoFuel | SOdd (o : odd).
Arguments SDone {A}. Arguments SErr {A}. Arguments SNoFuel {A}. Arguments SOdd {A}.
Definition sbind {A B} (r : sres A) (f : A -> state sval -> sres B) : sres B :=
  match r with SDone a s => f a s | SErr e s => SErr e s | SNoFuel => SNoFuel | SOdd o => SOdd o end.
Definition slift {A} (s : state sval) (o : outcome A) : sres A :=
  match o with Ok a => SDone a s | Raise e => SErr e s end.

Definition struth (v : sval) : bool :=
  match v with
  | SVNone => false | SVInt z => negb (Z.eqb z 0) | SVBool b => b
  | SVTuple [] => false | _ => true
  end.
Definition scallable (v : sval) : bool :=
  match v with SVFun _ _ _ _ | SVRest _ _ _ _ _ _ | SVIdent | SVGetcc | SVSeq _ _ => true | _ => false end.
Definition is_ident (v : sval) : bool := match v with SVIdent => true | _ => false end.
Definition sunpack (v : sval) : list sval := match v with SVValues l => l | v => [v] end.
Definition spack (l : list sval) : sval := match l with [] => SVNone | [v] => v | l => SVValues l end.
Definition sarith (f : Z -> Z -> sval) (a b : sval) : outcome sval :=
  match a, b with SVInt x, SVInt y => Ok (f x y) | _, _ => Raise TypeError end.
(** first k1, then k2 *)
Definition seq (k1 k2 : sval) : sval := if is_ident k1 then k2 else SVSeq k1 k2.
(** the names that a part of a function assigns: up to its first call_cc[], where a new scope begins *)
Fixpoint assigned (s : stmt) : list string :=
  match s with
  | SAssign x _ => [x]
  | SDef f _ _ _ => [f]
  | SIf _ a b | STry a b => assigned_in a ++ assigned_in b
  | SWhile _ a => assigned_in a
  | _ => []
  end
with assigned_in (b : block) : list string :=
  match b with BNil => [] | BCons s b => assigned s ++ assigned_in b end.
Fixpoint assigned_b (b : block) : list string :=
  match b with
  | BNil => []
  | BCons s b => match s with SCallcc _ _ _ => [] | s => assigned s ++ assigned_b b end
  end.

(** what is to be done next: finish with a value, or call a function with arguments, and a continuation that
    is passed to it (none: as an ordinary call does) *)
Inductive act : Type := Final (v : sval) | Next (f : sval) (l : list sval) (cc : option sval).

(** a function with this tail and this continuation returns v *)
Definition go_on (tail k v : sval) : act :=
  if is_ident tail then Next k (sunpack v) None else Next tail (sunpack v) (Some k).

(** The last item of an `and` or `or` that is returned is a tail position if it has one of these forms. *)
Definition may_call (e : expr) : bool :=
  match e with ECall _ _ _ => true | EValues _ => true | EIf _ _ _ => true | EAnd _ _ => true | EOr _ _ => true | _ => false end.

Section Spec.
Variable strict : bool.         (* stop where the implementation is odd *)
Definition oddly {A} (o : odd) (r : sres A) : sres A := if strict then SOdd o else r.

(** expressions; [scall]: a call to its end *)
Fixpoint seval (fuel : nat) (s : state sval) (env : list nat) (e : expr) : sres sval :=
  match fuel with
  | O => SNoFuel
  | S n =>
      match e with
      | ENone => SDone SVNone s
      | EInt z => SDone (SVInt z) s
      | EBool b => SDone (SVBool b) s
      | EVar x => slift s (lookup true s env x)
      | EIdent => SDone SVIdent s
      | EGetcc => SDone SVGetcc s
      | EIsCont e => sbind (seval n s env e) (fun v s =>
                       SDone (SVBool (match v with SVRest _ _ _ _ _ _ => true | _ => false end)) s)
      | EIsNone e => sbind (seval n s env e) (fun v s => SDone (SVBool (match v with SVNone => true | _ => false end)) s)
      | ENot e => sbind (seval n s env e) (fun v s => SDone (SVBool (negb (struth v))) s)
      | EAdd a b => sbind (seval n s env a) (fun v s => sbind (seval n s env b) (fun w s =>
                      slift s (sarith (fun x y => SVInt (x + y)) v w)))
      | ELt a b => sbind (seval n s env a) (fun v s => sbind (seval n s env b) (fun w s =>
                      slift s (sarith (fun x y => SVBool (x <? y)%Z) v w)))
      | EIf t a b => sbind (seval n s env t) (fun v s => seval n s env (if struth v then a else b))
      | EAnd a b => sbind (seval n s env a) (fun v s => if struth v then seval n s env b else SDone v s)
      | EOr a b => sbind (seval n s env a) (fun v s => if struth v then SDone v s else seval n s env b)
      | ELam ps star e => SDone (SVFun ps star (BCons (SReturn e) BNil) env) s
      | EValues l => sbind (sevals n s env l) (fun l s => SDone (SVValues l) s)
      | ECall f args cc =>
          sbind (seval n s env f) (fun f s => sbind (sevals n s env args) (fun args s =>
            sbind (match cc with
                   | None => SDone None s
                   | Some e => sbind (seval n s env e) (fun k s => SDone (Some k) s)
                   end) (fun cc s => scall n s f args cc)))
      end
  end
with sevals (fuel : nat) (s : state sval) (env : list nat) (l : list expr) : sres (list sval) :=
  match fuel with
  | O => SNoFuel
  | S n =>
      match l with
      | [] => SDone [] s
      | e :: l => sbind (seval n s env e) (fun v s => sbind (sevals n s env l) (fun vs s => SDone (v :: vs) s))
      end
  end
with scall (fuel : nat) (s : state sval) (f : sval) (args : list sval) (cc : option sval) : sres sval :=
  match fuel with
  | O => SNoFuel
  | S n =>
      match f with
      | SVFun _ _ _ _ | SVRest _ _ _ _ _ _ | SVGetcc => sloop n s f args cc
      | SVIdent =>
          sbind (sstep n s f args cc) (fun a s =>
            match a with Final v => SDone v s | Next g l c => sloop n s g l c end)
      | SVSeq _ _ => oddly CallsSeq (sloop n s f args cc)
      | _ => SErr TypeError s
      end
  end
with sloop (fuel : nat) (s : state sval) (f : sval) (args : list sval) (cc : option sval) : sres sval :=
  match fuel with
  | O => SNoFuel
  | S n =>
      sbind (sstep n s f args cc) (fun a s =>
        match a with
        | Final v => SDone v s
        | Next g l c => if scallable g then sloop n s g l c else SErr RuntimeError s
        end)
  end
with sstep (fuel : nat) (s : state sval) (f : sval) (args : list sval) (cc : option sval) : sres act :=
  match fuel with
  | O => SNoFuel
  | S n =>
      match f with
      | SVFun ps star b env =>
          match newframe SVTuple ps star false (assigned_b b) args (match cc with Some k => k | None => SVIdent end) with
          | None => SErr TypeError s
          | Some fr => let (s, i) := alloc s fr in
              sbind (sexec n s (i :: env) SVIdent Body b) (fun r s =>
                SDone (match r with Some a => a | None => Final SVNone end) s)
          end
      | SVRest ts star fn b env tail =>
          match newframe SVTuple ts star (ignores ts star) (assigned_b b) args
                  (match cc with Some k => k | None => SVIdent end) with
          | None => SErr TypeError s
          | Some fr => let (s, i) := alloc s fr in
              sbind (sexec n s (i :: env) tail (if fn then Body else TopRest) b) (fun r s =>
                SDone (match r with Some a => a | None => Final SVNone end) s)
          end
      | SVIdent =>
          match cc with
          | None => SDone (Final (spack args)) s
          | Some k => oddly CallsIdent (SDone (Next k args None) s)
          end
      | SVSeq k1 k2 =>
          match cc with
          | None => SDone (Next k1 args (Some k2)) s
          | Some k => oddly CallsSeq (SDone (Next k1 args (Some (seq k2 k))) s)
          end
      | SVGetcc => match cc with None => SErr TypeError s | Some k => SDone (Next k (k :: args) None) s end
      | _ => SErr TypeError s
      end
  end
(** [tail]: what is to be done after the function before its cc *)
with sexec (fuel : nat) (s : state sval) (env : list nat) (tail : sval) (p : place) (b : block) : sres (option act) :=
  match fuel with
  | O => SNoFuel
  | S n =>
      match b with
      | BNil =>
          match p with
          | Body => sbind (sret n s env tail false ENone) (fun a s => SDone (Some a) s)
          | _ => SDone None s
          end
      | BCons t b =>
          match t with
          | SAssign x e => sbind (seval n s env e) (fun v s => sexec n (assign s env x v) env tail p b)
          | SNonlocal x e => sbind (seval n s env e) (fun v s => sexec n (nonlocal s env x v) env tail p b)
          | SPrint e => sbind (seval n s env e) (fun v s => sexec n (print s v) env tail p b)
          | SExpr e => sbind (seval n s env e) (fun _ s => sexec n s env tail p b)
          | SIf t a c =>
              sbind (seval n s env t) (fun v s =>
                sbind (sexec n s env tail (Inside (in_try p)) (if struth v then a else c)) (fun r s =>
                  match r with Some a => SDone (Some a) s | None => sexec n s env tail p b end))
          | SWhile t a =>
              sbind (seval n s env t) (fun v s =>
                if struth v then
                  sbind (sexec n s env tail (Inside (in_try p)) a) (fun r s =>
                    match r with Some a => SDone (Some a) s | None => sexec n s env tail p (BCons (SWhile t a) b) end)
                else sexec n s env tail p b)
          | STry a h =>
              let next r s := match r with Some a => SDone (Some a) s | None => sexec n s env tail p b end in
              match sexec n s env tail (Inside true) a with
              | SDone r s => next r s
              | SErr _ s => sbind (sexec n s env tail (Inside (in_try p)) h) next
              | SNoFuel => SNoFuel
              | SOdd o => SOdd o
              end
          | SRaise m => SErr (UserExn m) s
          | SReturn e => sbind (sret n s env tail (in_try p) e) (fun a s => SDone (Some a) s)
          | SDef f ps star c => sexec n (assign s env f (SVFun ps star c env)) env tail p b
          | SCallcc ts star c =>
              match p with
              | Inside _ => SErr SyntaxError s
              | _ =>
                  sbind (slift s (lookup true s env "cc")) (fun k s =>
                    let rest := SVRest ts star (match p with Body => true | _ => false end) b env (seq tail k) in
                    let r := scc n s env (match p with Top => true | _ => false end) rest (arity ts star) c in
                    if is_ident tail then r else oddly LosesTail r)
              end
          end
      end
  end
(** return e; [try]: in the body of a try statement, where a call is made before the function returns *)
with sret (fuel : nat) (s : state sval) (env : list nat) (tail : sval) (try : bool) (e : expr) : sres act :=
  let give v s := sbind (slift s (lookup true s env "cc")) (fun k s => SDone (go_on tail k v) s) in
  match fuel with
  | O => SNoFuel
  | S n =>
      let data := sbind (slift s (lookup true s env "cc")) (fun k s =>
                    sbind (seval n s env e) (fun v s => SDone (go_on tail k v) s)) in
      match e with
      | ECall f args cc =>
          sbind (seval n s env f) (fun f s => sbind (sevals n s env args) (fun args s =>
            sbind (seval n s env (match cc with Some e => e | None => EVar "cc" end)) (fun k s =>
              if try then
                oddly TailInTry (sbind (scall n s f args (option_map (fun _ => k) cc)) give)
              else SDone (Next f args (Some (seq tail k))) s)))
      | EIf t a b => sbind (seval n s env t) (fun v s => sret n s env tail try (if struth v then a else b))
      | EAnd a b =>
          if may_call b then
            sbind (seval n s env a) (fun v s =>
              if struth v then sret n s env tail try b
              else match v with
                   | SVBool false => sret n s env tail try (EBool false)
                   | v => oddly FalseAnd (give v s)
                   end)
          else data
      | EOr a b =>
          if may_call b then
            sbind (seval n s env a) (fun v s => if struth v then give v s else sret n s env tail try b)
          else data
      | _ => data
      end
  end
(** call_cc[c] with the continuation [rest], which takes [m] arguments; at the top level of the with block
    ([top]) it is an ordinary call *)
with scc (fuel : nat) (s : state sval) (env : list nat) (top : bool) (rest : sval) (m : nat) (c : ccsite) : sres (option act) :=
  match fuel with
  | O => SNoFuel
  | S n =>
      match c with
      | One c => scc1 n s env top rest m c
      | Cond t a b =>
          sbind (seval n s env t) (fun v s =>
            match n with O => SNoFuel | S n => scc1 n s env top rest m (if struth v then a else b) end)
      end
  end
with scc1 (fuel : nat) (s : state sval) (env : list nat) (top : bool) (rest : sval) (m : nat) (c : ccall) : sres (option act) :=
  let go n f args cc s :=
    if top then sbind (scall n s f args cc) (fun _ s => SDone None s) else SDone (Some (Next f args cc)) s in
  match fuel with
  | O => SNoFuel
  | S n =>
      match c with
      | CCall f args =>
          sbind (seval n s env f) (fun f s => sbind (sevals n s env args) (fun args s => go n f args (Some rest) s))
      | CNone =>
          let r := go n rest (repeat SVNone m) (Some SVIdent) s in
          match lookup true s env "cc" with Ok SVIdent => r | _ => oddly NoneBranch r end
      end
  end.

Definition srun (fuel : nat) (b : block) : sres (option act) := sexec fuel (start SVIdent) [0] SVIdent Top b.
End Spec.

(** ** What the results have to do with each other *)
(** the value of the expanded program for a value of the machine *)
Definition inj (p : place) : bool := match p with Body => true | _ => false end.
Definition owner (p : place) : bool := match p with Body | TopRest => true | _ => false end.
Definition xplace (p : place) (b : block) : tblock :=
  match p with Inside _ => xblock b | _ => xbody (owner p) (inj p) false b end.
Fixpoint tr (v : sval) : value :=
  match v with
  | SVNone => VNone | SVInt z => VInt z | SVBool b => VBool b
  | SVTuple l => VTuple (map tr l)
  | SVFun ps star b env => VFun ps star false (xplace Body b) env None false
  | SVRest ts star fn b env tail =>
      VFun ts star (ignores ts star) (xplace (if fn then Body else TopRest) b) env (if is_ident tail then None else Some (tr tail)) true
  | SVIdent => VIdent | SVGetcc => VGetcc
  | SVSeq k1 k2 => VComp (tr k1) (tr k2)
  | SVValues l => VValues (map tr l) None
  end.
Definition trf (fr : frame sval) : frame value := mkframe (locs fr) (map (fun q => (fst q, tr (snd q))) (vals fr)).
Definition trs (s : state sval) : state value := mkstate (map trf (frs s)) (map tr (out s)).
Definition tact (a : act) : value :=
  match a with Final v => tr v | Next f l cc => VJump (tr f) (map tr l) (option_map tr cc) end.
Definition tres {A B} (f : A -> B) (r : sres A) : option (res B) :=
  match r with
  | SDone a s => Some (Done (f a) (trs s))
  | SErr e s => Some (Err e (trs s))
  | SNoFuel => Some NoFuel
  | SOdd _ => None
  end.

(** ** Where call_cc[] and return may stand (doc/macros.md; the docstring) *)
(** whether a statement contains a return of the function it is in *)
Fixpoint has_ret (s : stmt) : bool :=
  match s with
  | SReturn _ => true
  | SIf _ a b | STry a b => has_ret_b a || has_ret_b b
  | SWhile _ a => has_ret_b a
  | _ => false
  end
with has_ret_b (b : block) : bool :=
  match b with BNil => false | BCons s b => has_ret s || has_ret_b b end.
(** a call_cc[] is a statement of the body of a def or of the with block, not of a compound statement *)
Fixpoint placed (s : stmt) : bool :=
  match s with
  | SIf _ a b | STry a b => placed_in a && placed_in b
  | SWhile _ a => placed_in a
  | SDef _ _ _ b => placed_b b
  | _ => true
  end
with placed_in (b : block) : bool :=
  match b with
  | BNil => true
  | BCons s b => (match s with SCallcc _ _ _ => false | _ => placed s end) && placed_in b
  end
with placed_b (b : block) : bool :=
  match b with BNil => true | BCons s b => placed s && placed_b b end.
Fixpoint stmts (b : block) : list stmt := match b with BNil => [] | BCons s b => s :: stmts b end.
Definition is_cc (s : stmt) : bool := match s with SCallcc _ _ _ => true | _ => false end.
(** the block before its first call_cc[] *)
Fixpoint before_cc (l : list stmt) : list stmt :=
  match l with [] => [] | s :: l => if is_cc s then [] else s :: before_cc l end.
(** In the block itself (at module level): no return is a statement of it, nor stands in an if before the
    first call_cc[]; and a call_cc[] is not its last statement. *)
Definition allowed (b : block) : Prop :=
  placed_b b = true /\
  (forall e, ~ In (SReturn e) (stmts b)) /\
  (forall s, In s (before_cc (stmts b)) -> has_ret s = false) /\
  (forall l s, stmts b = l ++ [s] -> is_cc s = false).

(** ** The programs that the implementation treats as documented, but for calls of identity
    After a call_cc[] no function has another one, or makes a tail call, nor does the body of a try statement;
    there is no call_cc[None], and no return of `a and b` where b is a call, a condition, `and` or `or`. *)
Fixpoint no_tail_call (e : expr) : bool :=
  match e with
  | ECall _ _ _ => false
  | EIf _ a b => no_tail_call a && no_tail_call b
  | EAnd _ b | EOr _ b => negb (may_call b) || no_tail_call b
  | _ => true
  end.
Fixpoint no_and (e : expr) : bool :=
  match e with
  | EIf _ a b => no_and a && no_and b
  | EAnd _ b => negb (may_call b)
  | EOr _ b => negb (may_call b) || no_and b
  | _ => true
  end.
(** the same in all lambdas in an expression *)
Fixpoint fine_e (e : expr) : bool :=
  match e with
  | EIsCont e | EIsNone e | ENot e => fine_e e
  | EAdd a b | ELt a b | EAnd a b | EOr a b => fine_e a && fine_e b
  | EIf t a b => fine_e t && fine_e a && fine_e b
  | ELam _ _ e => no_and e && fine_e e
  | ECall f args cc => fine_e f && forallb fine_e args && match cc with Some e => fine_e e | None => true end
  | EValues args => forallb fine_e args
  | _ => true
  end.
Definition fine_call (c : ccall) : bool :=
  match c with CNone => false | CCall f args => fine_e f && forallb fine_e args end.
Definition fine_site (c : ccsite) : bool :=
  match c with One c => fine_call c | Cond t a b => fine_e t && fine_call a && fine_call b end.
Fixpoint fine (s : stmt) : bool :=
  match s with
  | SAssign _ e | SNonlocal _ e | SPrint e | SExpr e => fine_e e
  | SIf t a b => fine_e t && fine_in a && fine_in b
  | SWhile t a => fine_e t && fine_in a
  | STry a h => calm_b a && fine_in h
  | SRaise _ => true
  | SReturn e => no_and e && fine_e e
  | SDef _ _ _ b => fine_b b
  | SCallcc _ _ c => true
  end
with fine_in (b : block) : bool := match b with BNil => true | BCons s b => fine s && fine_in b end
with fine_b (b : block) : bool :=
  match b with
  | BNil => true
  | BCons s b => match s with SCallcc _ _ c => fine_site c && calm_b b | _ => fine s && fine_b b end
  end
with calm (s : stmt) : bool :=
  match s with
  | SAssign _ e | SNonlocal _ e | SPrint e | SExpr e => fine_e e
  | SIf t a b => fine_e t && calm_b a && calm_b b
  | SWhile t a => fine_e t && calm_b a
  | STry a h => calm_b a && calm_b h
  | SRaise _ => true
  | SReturn e => no_tail_call e && no_and e && fine_e e
  | SDef _ _ _ b => fine_b b
  | SCallcc _ _ _ => false
  end
with calm_b (b : block) : bool := match b with BNil => true | BCons s b => calm s && calm_b b end.
