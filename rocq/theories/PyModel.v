(** A fragment of Python, in which the programs that the block macros of unpythonic/syntax rewrite are
    written: an abstract syntax and an interpreter.  This is not code of unpythonic; it is the meaning
    that the theorems about the macros give to program texts.  Not in the fragment: classes with
    instances, generators, async, nonlocal/global, named arguments, decorators other than @trampolined. *)
From Coq Require Import String List ZArith Arith Bool.
From Verif Require Import Base.
Import ListNotations.
Open Scope string_scope.
Open Scope list_scope.
Open Scope nat_scope.

(** Values.  Functions and classes are references to the heap; exceptions carry their type; [VPrim] is a
    builtin function.
    [VJump] is a [_jump] object of unpythonic/tco.py. *)
Inductive value :=
| VNone | VBool (b : bool) | VInt (z : Z) | VFun (n : nat) | VPrim (o : nat) | VObj (n : nat) | VExn (e : exn)
| VJump (target : value) (args : list value).
(** [bool(v)] (no code in /repo). *)
Definition truthy (v : value) : bool :=
  match v with VNone => false | VBool b => b | VInt z => negb (Z.eqb z 0) | _ => true end.

(** Expressions of the fragment of Python (no code in /repo). *)
Inductive expr :=
| EConst (v : value)
| EVar (x : string)
| EPrim (o : nat) (l : list expr)                 (* operators *)
| ECall (f : expr) (args : list expr)
| EIf (test body orelse : expr)                   (* body if test else orelse *)
| EBool (isand : bool) (l : list expr)            (* x and y and ..., x or y or ... *)
| ELam (tramp : bool) (params : list string) (body : expr)   (* tramp: trampolined(lambda ...) *)
| EJump (f : expr) (args : list expr).            (* jump(f, ...) *)

Inductive stmt :=
| SExpr (e : expr)
| SAssign (x : string) (e : expr)
| SPass
| SReturn (e : expr)
| SRaise (e : expr)
| SBreak
| SContinue
| SIf (e : expr) (body orelse : list stmt)
| SWhile (e : expr) (body orelse : list stmt)
| STry (body : list stmt) (handlers : list ((exn -> bool) * list stmt)) (orelse final : list stmt)
| SWith (e : expr) (x : option string) (body : list stmt)
| SDef (tramp : bool) (x : string) (params : list string) (body : list stmt)   (* tramp: @trampolined *)
| SClass (x : string) (body : list stmt)
| SList (l : list stmt).                          (* a list of statements in the place of one *)

(** The names that a block binds, as the compiler finds them *)
Fixpoint binds (s : stmt) : list string :=
  let block := fix block (l : list stmt) : list string := match l with [] => [] | s :: l => binds s ++ block l end in
  match s with
  | SAssign x _ => [x]
  | SDef _ x _ _ => [x]
  | SClass x _ => [x]
  | SIf _ a b | SWhile _ a b => block a ++ block b
  | STry a hs b c =>
      block a ++ (fix hl (hs : list ((exn -> bool) * list stmt)) : list string :=
                    match hs with [] => [] | (_, l) :: hs => block l ++ hl hs end) hs ++ block b ++ block c
  | SWith _ x a => match x with Some x => [x] | None => [] end ++ block a
  | SList l => block l
  | _ => []
  end.
(** The names that a block binds (no code in /repo). *)
Fixpoint binds_all (l : list stmt) : list string := match l with [] => [] | s :: l => binds s ++ binds_all l end.

(** Bodies of functions (language model). *)
Inductive fbody := BExpr (e : expr) | BBlock (l : list stmt).
(** Function objects of the language model (no code in /repo). *)
Record fobj := mkFun { ftramp : bool; fparams : list string; fcode : fbody; fenv : nat }.
(** Scopes of the language model (no code in /repo). *)
Record frame := mkFrame { slots : list (string * option value); up : option nat; isclass : bool }.

(** How a statement ends.  [CNormal v]: it was completed, and [v] is the value of the expression, the
    function or the class that it consists of or ends in (None, for other statements).  Python itself
    discards [v]. *)
Inductive comp := CNormal (v : value) | CReturn (v : value) | CRaise (e : exn) | CBreak | CContinue.

(** Python's RecursionError. *)
Definition RecursionError : exn := UserExn 999.

Section Py.
Variable W : Type.                       (* what builtin functions act on: files, the screen, ... *)
Variable prim : nat -> list value -> W -> outcome value * W.

(** The state of the language model (no code in /repo). *)
Record heap := mkHeap { frames : list frame; funs : list fobj; objs : list nat; world : W }.

(** A new scope (language model, no code in /repo). *)
Definition new_frame (f : frame) (h : heap) : heap := mkHeap (frames h ++ [f]) (funs h) (objs h) (world h).
(** A new function object (language model, no code in /repo). *)
Definition new_fun (f : fobj) (h : heap) : heap := mkHeap (frames h) (funs h ++ [f]) (objs h) (world h).
(** A new object (language model, no code in /repo). *)
Definition new_obj (n : nat) (h : heap) : heap := mkHeap (frames h) (funs h) (objs h ++ [n]) (world h).
(** The world outside, replaced (language model, no code in /repo). *)
Definition set_world (w : W) (h : heap) : heap := mkHeap (frames h) (funs h) (objs h) w.

(** Lookup in an association list: Python's dict or namespace (no code in /repo). *)
Fixpoint get (x : string) (l : list (string * option value)) : option (option value) :=
  match l with [] => None | (y, v) :: l => if String.eqb y x then Some v else get x l end.
(** Update of an association list: Python's dict or namespace (no code in /repo). *)
Fixpoint put (x : string) (v : value) (l : list (string * option value)) : list (string * option value) :=
  match l with [] => [(x, Some v)] | (y, w) :: l => if String.eqb y x then (y, Some v) :: l else (y, w) :: put x v l end.
(** Update of one item of a list (no code in /repo). *)
Fixpoint set_nth {A} (n : nat) (a : A) (l : list A) : list A :=
  match l, n with [], _ => [] | _ :: l, 0 => a :: l | b :: l, S n => b :: set_nth n a l end.
(** Python's assignment to a variable (no code in /repo). *)
Definition assign (cur : nat) (x : string) (v : value) (h : heap) : heap :=
  match nth_error (frames h) cur with
  | None => h
  | Some f => mkHeap (set_nth cur (mkFrame (put x v (slots f)) (up f) (isclass f)) (frames h)) (funs h) (objs h) (world h)
  end.
(** The frames form a chain; a name that is local to a function but not bound yet is an error. *)
Fixpoint lookup (k : nat) (x : string) (cur : nat) (fs : list frame) : outcome value :=
  match k with
  | 0 => Raise NameError
  | S k =>
      match nth_error fs cur with
      | None => Raise NameError
      | Some f =>
          match get x (slots f) with
          | Some (Some v) => Ok v
          | Some None => if isclass f then match up f with Some p => lookup k x p fs | None => Raise NameError end
                         else Raise UnboundLocalError
          | None => match up f with Some p => lookup k x p fs | None => Raise NameError end
          end
      end
  end.
(** The frame that a function or class defined here sees: names of a class body are not visible in it *)
Definition outer (cur : nat) (h : heap) : nat :=
  match nth_error (frames h) cur with
  | Some f => if isclass f then match up f with Some p => p | None => cur end else cur
  | None => cur
  end.
(** Variables without a value (no code in /repo). *)
Definition unbound (l : list string) : list (string * option value) := map (fun x => (x, None)) l.
(** Parameters with the arguments, if their number fits (no code in /repo). *)
Fixpoint bound (params : list string) (args : list value) : option (list (string * option value)) :=
  match params, args with
  | [], [] => Some []
  | p :: params, a :: args => match bound params args with Some l => Some ((p, Some a) :: l) | None => None end
  | _, _ => None
  end.

(** [None]: out of fuel *)
Definition M (A : Type) := heap -> option (outcome A * heap).
(** What executing statements gives (no code in /repo). *)
Definition C := heap -> option (comp * heap).

Section Eval.
Variable call : value -> list value -> M value.
Variable loops : nat.

(** Evaluation of expressions (no code in /repo). *)
Fixpoint eval (cur : nat) (e : expr) (h : heap) {struct e} : option (outcome value * heap) :=
  let evals := fix evals (l : list expr) (h : heap) : option (outcome (list value) * heap) :=
    match l with
    | [] => Some (Ok [], h)
    | e :: l =>
        match eval cur e h with
        | Some (Ok v, h) =>
            match evals l h with
            | Some (Ok vs, h) => Some (Ok (v :: vs), h)
            | r => r
            end
        | Some (Raise x, h) => Some (Raise x, h)
        | None => None
        end
    end in
  match e with
  | EConst v => Some (Ok v, h)
  | EVar x => Some (lookup (S (length (frames h))) x cur (frames h), h)
  | EPrim o l =>
      match evals l h with
      | Some (Ok vs, h) => let (r, w) := prim o vs (world h) in Some (r, set_world w h)
      | Some (Raise x, h) => Some (Raise x, h)
      | None => None
      end
  | ECall f args =>
      match eval cur f h with
      | Some (Ok g, h) =>
          match evals args h with
          | Some (Ok vs, h) => call g vs h
          | Some (Raise x, h) => Some (Raise x, h)
          | None => None
          end
      | r => r
      end
  | EJump f args =>
      match eval cur f h with
      | Some (Ok g, h) =>
          match evals args h with
          | Some (Ok vs, h) => Some (Ok (VJump g vs), h)
          | Some (Raise x, h) => Some (Raise x, h)
          | None => None
          end
      | r => r
      end
  | EIf t a b =>
      match eval cur t h with
      | Some (Ok v, h) => if truthy v then eval cur a h else eval cur b h
      | r => r
      end
  | EBool isand l =>
      (fix items (l : list expr) (h : heap) : option (outcome value * heap) :=
         match l with
         | [] => Some (Ok VNone, h)      (* there are at least two items *)
         | [e] => eval cur e h
         | e :: l =>
             match eval cur e h with
             | Some (Ok v, h) => if Bool.eqb (truthy v) isand then items l h else Some (Ok v, h)
             | r => r
             end
         end) l h
  | ELam tr ps b => Some (Ok (VFun (length (funs h))), new_fun (mkFun tr ps (BExpr b) (outer cur h)) h)
  end.

(** An expression as a statement (language model). *)
Definition of_expr (k : value -> C) (m : option (outcome value * heap)) : option (comp * heap) :=
  match m with
  | Some (Ok v, h) => k v h
  | Some (Raise x, h) => Some (CRaise x, h)
  | None => None
  end.
(** what follows a statement that has been completed; anything else ends the block *)
Definition and_then (r : option (comp * heap)) (k : value -> C) : option (comp * heap) :=
  match r with Some (CNormal v, h) => k v h | r => r end.
(** finally: *)
Definition at_last (r : option (comp * heap)) (fin : C) : option (comp * heap) :=
  match r with
  | Some (c, h) => match fin h with Some (CNormal _, h) => Some (c, h) | r => r end
  | None => None
  end.
(** the end of a with block, [v] being the context manager: a function that is called at the end *)
Definition leave_with (v : value) (r : option (comp * heap)) : option (comp * heap) :=
  match r with
  | Some (c, h) =>
      of_expr (fun x h => match c with CRaise _ => Some (if truthy x then CNormal VNone else c, h) | _ => Some (c, h) end)
              (call v [match c with CRaise e => VExn e | _ => VNone end] h)
  | None => None
  end.

(** Python's own execution of statements (no code in /repo). *)
Fixpoint exec (cur : nat) (s : stmt) (h : heap) {struct s} : option (comp * heap) :=
  let block := fix block (l : list stmt) (last : value) (h : heap) : option (comp * heap) :=
    match l with [] => Some (CNormal last, h) | s :: l => and_then (exec cur s h) (fun v h => block l v h) end in
  match s with
  | SExpr e => of_expr (fun v h => Some (CNormal v, h)) (eval cur e h)
  | SAssign x e => of_expr (fun v h => Some (CNormal VNone, assign cur x v h)) (eval cur e h)
  | SPass => Some (CNormal VNone, h)
  | SReturn e => of_expr (fun v h => Some (CReturn v, h)) (eval cur e h)
  | SRaise e => of_expr (fun v h => Some (CRaise match v with VExn x => x | _ => TypeError end, h)) (eval cur e h)
  | SBreak => Some (CBreak, h)
  | SContinue => Some (CContinue, h)
  | SIf e a b => of_expr (fun v h => block (if truthy v then a else b) VNone h) (eval cur e h)
  | SWhile e a b =>
      (fix loop (k : nat) (h : heap) : option (comp * heap) :=
         match k with
         | 0 => None
         | S k =>
             of_expr (fun v h =>
               if truthy v
               then match block a VNone h with
                    | Some (CNormal _, h) | Some (CContinue, h) => loop k h
                    | Some (CBreak, h) => Some (CNormal VNone, h)
                    | r => r
                    end
               else and_then (block b VNone h) (fun _ h => Some (CNormal VNone, h))) (eval cur e h)
         end) loops h
  | STry a hs b c =>
      let r := match block a VNone h with
               | Some (CNormal v, h) => match b with [] => Some (CNormal v, h) | _ => block b VNone h end
               | Some (CRaise x, h) =>
                   (fix first (hs : list ((exn -> bool) * list stmt)) : option (comp * heap) :=
                      match hs with
                      | [] => Some (CRaise x, h)
                      | (m, l) :: hs => if m x then block l VNone h else first hs
                      end) hs
               | r => r
               end in
      at_last r (fun h => block c VNone h)
  | SWith e x a =>
      of_expr (fun v h => leave_with v (block a VNone (match x with Some x => assign cur x v h | None => h end))) (eval cur e h)
  | SDef tr x ps b =>
      let v := VFun (length (funs h)) in
      Some (CNormal v, assign cur x v (new_fun (mkFun tr ps (BBlock b) (outer cur h)) h))
  | SClass x b =>
      let n := length (frames h) in
      match (fix cblock (l : list stmt) (h : heap) : option (comp * heap) :=
               match l with [] => Some (CNormal VNone, h) | s :: l => and_then (exec n s h) (fun _ h => cblock l h) end)
              b (new_frame (mkFrame (unbound (binds_all b)) (Some (outer cur h)) true) h) with
      | Some (CNormal _, h) => let v := VObj (length (objs h)) in Some (CNormal v, assign cur x v (new_obj n h))
      | Some (CRaise e, h) => Some (CRaise e, h)
      | Some (_, h) => Some (CRaise SyntaxError, h)
      | None => None
      end
  | SList l => block l VNone h
  end.
(** Python's own execution of a block of statements (no code in /repo). *)
Definition block (cur : nat) := fix block (l : list stmt) (last : value) (h : heap) : option (comp * heap) :=
  match l with [] => Some (CNormal last, h) | s :: l => and_then (exec cur s h) (fun v h => block l v h) end.
End Eval.

(** [implicit]: do functions return the value that their body ends in?
    [uncallable]: what is raised when something other than a function is called (false) or jumped into
    (true); in Python, see [py_uncallable].  No value here: such a program is given no result. *)
Variable implicit : bool.
Variable uncallable : bool -> option exn.
(** the result of a function, given how its body ended *)
Definition result (c : comp) : outcome value :=
  match c with
  | CNormal v => Ok (if implicit then v else VNone)
  | CReturn v => Ok v
  | CRaise e => Raise e
  | CBreak | CContinue => Raise SyntaxError
  end.
(** The body of a function in a new frame (no code in /repo). *)
Definition run_body (call : value -> list value -> M value) (loops : nat) (f : fobj) (args : list value) : M value := fun h =>
  match bound (fparams f) args with
  | None => Some (Raise TypeError, h)
  | Some l =>
      let cur := length (frames h) in
      match fcode f with
      | BExpr e => eval call cur e (new_frame (mkFrame l (Some (fenv f)) false) h)
      | BBlock b =>
          match block call loops cur b VNone (new_frame (mkFrame (l ++ unbound (binds_all b)) (Some (fenv f)) false) h) with
          | Some (c, h) => Some (result c, h)
          | None => None
          end
      end
  end.
(** A call.  [bounce]: the call is made by a trampoline, which has taken away the function's own
    (tco.py 165-169, 246-261).  [depth]: how many calls can be nested yet, if there is a limit; a trampoline
    calls from where it is.  (Its own stack frame is not counted.) *)
Definition deeper (bounce : bool) (depth : option nat) : option (option nat) :=
  match depth with
  | None => Some None
  | Some d => if bounce then Some (Some d) else match d with 0 => None | S d => Some (Some d) end
  end.
(** Calling what cannot be called: TypeError from Python, or from the trampoline (tco.py 236-305). *)
Definition not_callable (bounce : bool) (h : heap) : option (outcome value * heap) :=
  match uncallable bounce with Some e => Some (Raise e, h) | None => None end.
(** A call, with trampolines: tco.py 236-305, tco.py 140-157 *)
Fixpoint call (fuel : nat) (depth : option nat) (bounce : bool) (g : value) (args : list value) (h : heap)
    : option (outcome value * heap) :=
  match fuel with
  | 0 => None
  | S fuel =>
      match g with
      | VPrim o => let (r, w) := prim o args (world h) in Some (r, set_world w h)
      | VFun n =>
          match nth_error (funs h) n with
          | None => not_callable bounce h
          | Some f =>
              match deeper bounce depth with
              | None => Some (Raise RecursionError, h)
              | Some depth =>
                  match run_body (call fuel depth false) fuel f args h with
                  | Some (Ok (VJump t a), h) =>
                      if bounce || ftramp f then call fuel depth true t a h else Some (Ok (VJump t a), h)
                  | r => r
                  end
              end
          end
      | _ => not_callable bounce h
      end
  end.
(** A block of statements at the top level of a module, whose frame is number 0 *)
Definition module (fuel : nat) (depth : option nat) (l : list stmt) (h : heap) : option (comp * heap) :=
  block (call fuel depth false) fuel 0 l VNone h.
End Py.
(** TypeError: ... is not callable; RuntimeError: tco.py 256 *)
Definition py_uncallable (bounce : bool) : option exn := Some (if bounce then RuntimeError else TypeError).
Arguments mkHeap {W}.
Arguments frames {W}.
Arguments funs {W}.
Arguments objs {W}.
Arguments world {W}.
