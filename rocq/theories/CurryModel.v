(** Model of curry (unpythonic/fun.py 197-576) for functions that are not @generic.

    Simplifications: no laziness ([force] and [maybe_force_args] are a plain call), and the
    functions have no type annotations, so that the type check in [partial] (fun.py 110-176)
    passes whenever [get_type_hints] accepts the function. *)
From Coq Require Import String List Bool.
From Verif Require Import Base CollModel BindModel.
Import ListNotations.
Open Scope list_scope.

Section Curry.
(** non-callable values *)
Context {D : Type}.

(** Values and callables.  [Raw i] is a user function, [Part f a k] a functools.partial
    object.  A partial of a partial stays nested: [functools.wraps] (fun.py 333) touches the
    [__dict__] of the inner partial, and CPython merges only partials without a dict. *)
Inductive val :=
| VData (d : D)
| VFn (f : fn)        (* a callable that is not curried *)
| VCur (f : fn)       (* the result of curry(f) *)
with fn :=
| Raw (i : nat)
| Part (f : fn) (a : list val) (k : list (pname * val)).
(** Named arguments. *)
Definition kwvals := dict pname val.

(** What a call returns: one value, or a [Values] object. *)
Inductive ret := One (v : val) | Many (rets : list val) (kwrets : kwvals).

(** The program: signature and body of each user function.  Bodies are functions of what they
    see of their arguments. *)
Variable sigs : nat -> signature val.
Variable body : nat -> bindings val -> outcome ret.

(** Calls of user functions, in order, with what they saw. *)
Definition log := list (nat * bindings val).
(** Named arguments given later replace those of the same name (functools.partial; fun.py 110-176). *)
Definition merge (k1 k2 : kwvals) : kwvals := dict_update String.eqb k1 k2.

(** Python's call of a function or a functools.partial *)
Fixpoint call_fn (f : fn) (args : list val) (kw : kwvals) : log * outcome ret :=
  match f with
  | Raw i => match py_call_bind (sigs i) args kw with
             | Raise e => ([], Raise e)
             | Ok b => ([(i, b)], body i b)
             end
  | Part g a k => call_fn g (a ++ args) (merge k kw)
  end.
(** [inspect.signature] *)
Fixpoint signature_of (f : fn) : outcome (signature val) :=
  match f with
  | Raw i => Ok (sigs i)
  | Part g a k => do ps <- signature_of g; partial_signature ps a k
  end.

(** fun.py 466-468 *)
Inductive action := Call | Pass (later_args : list val) (later_kwargs : kwvals) | Keep.
(** _decide_curry_action: fun.py 476-521 *)
Definition decide (f : fn) (args : list val) (kw : kwvals) : outcome action :=
  let '(function, collected_args, collected_kwargs) :=
    match f with
    | Part g a k => (g, a ++ args, merge k kw)
    | Raw _ => (f, args, kw)
    end in
  do ps <- signature_of function;
  do an <- ubind ps collected_args collected_kwargs;
  match unbound_parameters an, extra_args an, extra_kwargs an with
  | [], [], [] => Ok Call
  | [], la, lk => Ok (Pass la lk)
  | _ :: _, _, _ => Ok Keep
  end.

(** curry(f) without further arguments, [f] a callable that is not curried: fun.py 325-331,
    333, 447-451 *)
Definition curry_fn (f : fn) : outcome val := do _ <- signature_of f; Ok (VCur f).
(** curry(v) for any value: fun.py 308-314 *)
Definition curry_value (v : val) : outcome val :=
  match v with VData _ => Ok v | VCur _ => Ok v | VFn f => curry_fn f end.

(** Python's callable() (no code in /repo). *)
Definition callable (v : val) : bool := match v with VData _ => false | _ => true end.

(** unpythonic's type-checking partial, for functions without annotations: fun.py 110-176.
    If [f] is a partial object, [get_type_hints] is called with [f.func] (138-143, 160), and
    it raises TypeError if that is again a partial object. *)
Definition partial (f : fn) (args : list val) (kw : kwvals) : outcome fn :=
  match f with
  | Part (Part _ _ _) _ _ => Raise TypeError
  | _ => Ok (Part f args kw)
  end.

(** Calling a curried function: fun.py 333-446.  [ctx] is dyn.curry_context.  Out of fuel
    (one unit per link of a chain of callable results) is reported as [None]. *)
Fixpoint call_curried (fuel : nat) (ctx : list fn) (f : fn) (args : list val) (kw : kwvals)
  : option (log * outcome ret) :=
  match fuel with
  | O => None
  | S fuel' =>
      match decide f args kw with
      | Raise e => Some ([], Raise e)
      | Ok Call => Some (call_fn f args kw)
      | Ok Keep =>
          (* 437-444 *)
          Some ([], do p <- partial f args kw; do v <- curry_fn p; Ok (One v))
      | Ok (Pass later_args later_kwargs) =>
          (* 366-370 *)
          let now_args :=
            match later_args with
            | [] => args
            | _ :: _ => firstn (length args - length later_args) args
            end in
          let now_kwargs := filter (fun kv => negb (khas later_kwargs (fst kv))) kw in
          match call_fn f now_args now_kwargs with
          | (l, Raise e) => Some (l, Raise e)
          | (l, Ok now_result) =>
              (* 376-409 *)
              let '(leftmost, la, lk) :=
                match now_result with
                | Many [] kwrets => (None, later_args, merge later_kwargs kwrets)
                | Many (v :: others) kwrets =>
                    (if callable v then Some v else None,
                     if callable v then others ++ later_args else v :: others ++ later_args,
                     merge later_kwargs kwrets)
                | One v =>
                    (if callable v then Some v else None,
                     if callable v then later_args else v :: later_args,
                     later_kwargs)
                end in
              match leftmost with
              | Some v =>
                  (* 414-417; [curry_value] of a callable is always curried *)
                  match curry_value v with
                  | Raise e => Some (l, Raise e)
                  | Ok (VData _) | Ok (VFn _) => Some (l, Raise TypeError)
                  | Ok (VCur g) =>
                      match call_curried fuel' (ctx ++ [f]) g la lk with
                      | None => None
                      | Some (l', r) => Some (l ++ l', r)
                      end
                  end
              | None =>
                  (* 425-435 *)
                  match ctx with
                  | [] => Some (l, Raise TypeError)
                  | _ :: _ => Some (l, Ok (Many la lk))
                  end
              end
          end
      end
  end.

(** A step supplies positional and named arguments.  The result of each step is called on
    the next one; calling something that is not callable is a TypeError. *)
Definition step : Type := list val * kwvals.
(** One step on a value: a call of it, if it can be called (fun.py 333-446 if it is curried). *)
Definition call_value (fuel : nat) (ctx : list fn) (v : val) (s : step)
  : option (log * outcome ret) :=
  match v with
  | VData _ => Some ([], Raise TypeError)
  | VFn f => Some (call_fn f (fst s) (snd s))
  | VCur f => call_curried fuel ctx f (fst s) (snd s)
  end.
(** The steps one after the other: f(...)(...)(...) *)
Fixpoint call_steps (fuel : nat) (ctx : list fn) (v : val) (ss : list step)
  : option (log * outcome ret) :=
  match ss with
  | [] => Some ([], Ok (One v))
  | s :: ss' =>
      match call_value fuel ctx v s with
      | Some (l, Ok (One v')) =>
          match call_steps fuel ctx v' ss' with
          | None => None
          | Some (l', r) => Some (l ++ l', r)
          end
      | Some (l, Ok (Many rs k)) =>
          match ss' with [] => Some (l, Ok (Many rs k)) | _ :: _ => Some (l, Raise TypeError) end
      | Some (l, Raise e) => Some (l, Raise e)
      | None => None
      end
  end.
End Curry.
Arguments val : clear implicits.
Arguments fn : clear implicits.
Arguments ret : clear implicits.
Arguments step : clear implicits.
