(** Model of the function tools of unpythonic/fun.py (580-1040), of [Values]
    (unpythonic/funutil.py 200-406) and of the pipes (unpythonic/seq.py 102-481).

    Simplification: no laziness ([force], [force1] are the identity and [maybe_force_args] is a
    plain call; lazyutil.py 78-124 on arguments without [Lazy] objects). *)
From Coq Require Import String List Bool ZArith.
From Verif Require Import Base CollModel BindModel FoldModel.
Import ListNotations.
Open Scope list_scope.

Section Fun.
(** ordinary objects, and the state of everything a function can read and write *)
Context {D S : Type}.

(** A Python value: a [Values] object (funutil.py 298-305) or something else. *)
Inductive val := Obj (d : D) | Vals (rets : list val) (kwrets : list (pname * val)).
(** Named arguments or named values. *)
Definition kwvals := dict pname val.

(** A function: does [iscurried] hold (fun.py 191-193), can attributes be set on it (built-in
    functions have no [__dict__]), and what a call does.  The first argument of [code] is the
    length of dyn.curry_context. *)
Definition action (A : Type) := S -> outcome A * S.
(** A function: what the combinators can see of it, and what it does when called. *)
Record func := mkfunc {
  curried : bool;
  has_dict : bool;
  code : nat -> list val -> kwvals -> action val }.
(** A result without further effects (evaluation, no code in /repo). *)
Definition ret_ {A} (a : A) : action A := fun s => (Ok a, s).
(** An exception (evaluation, no code in /repo). *)
Definition raise_ {A} (e : exn) : action A := fun s => (Raise e, s).
(** One evaluation after another; an exception ends it (no code in /repo). *)
Definition bind_ {A B} (m : action A) (k : A -> action B) : action B :=
  fun s => match m s with (Ok a, s') => k a s' | (Raise e, s') => (Raise e, s') end.

(** A call with unpacking of a [Values]: fun.py 897-899, seq.py 341-344, 462-465 *)
Definition call_unpacked (f : func) (ctx : nat) (a : val) : action val :=
  match a with
  | Vals rets kwrets => code f ctx rets kwrets
  | Obj _ => code f ctx [a] []
  end.

(** ** compose *)
(** fun.py 883-900 *)
Definition compose_two (f g : func) : func :=
  mkfunc false true (fun ctx args kw =>
    bind_ (code g (if curried f then Datatypes.S ctx else ctx) args kw)
          (fun a => call_unpacked f ctx a)).
(** passthrough_lazy_args sets an attribute on the result (lazyutil.py 176): AttributeError
    for None and for a built-in *)
Definition mark (f : option func) : outcome func :=
  match f with
  | Some g => if has_dict g then Ok g else Raise AttributeError
  | None => Raise AttributeError
  end.
(** fun.py 901-913, 919-946 *)
Definition composel (fs : list func) : outcome func := mark (reducel compose_two fs None).
(** composer: fun.py 919-930 *)
Definition composer (fs : list func) : outcome func :=
  mark (reducel (fun elt acc => compose_two acc elt) fs None).
(** fun.py 801-862; [lambda x: ...] takes [x] by position or by name *)
Definition compose1_two (f g : func) : func :=
  mkfunc false true (fun ctx args kw =>
    match args, kw with
    | [x], [] => bind_ (code g ctx [x] []) (fun y => code f ctx [y] [])
    | [], [(k, x)] => if String.eqb k "x" then bind_ (code g ctx [x] []) (fun y => code f ctx [y] [])
                      else raise_ TypeError
    | _, _ => raise_ TypeError
    end).
(** composel1: fun.py 844-854 *)
Definition composel1 (fs : list func) : outcome func := mark (reducel compose1_two fs None).
(** composer1: fun.py 832-842 *)
Definition composer1 (fs : list func) : outcome func :=
  mark (reducel (fun elt acc => compose1_two acc elt) fs None).

(** ** pipes *)
(** seq.py 345-347, 399, 466-469 *)
Definition unwrap (xs : val) : outcome val :=
  match xs with
  | Vals [] [] => Raise IndexError
  | Vals [x] [] => Ok x
  | _ => Ok xs
  end.
(** An outcome without effects (no code in /repo). *)
Definition lift {A} (o : outcome A) : action A := fun s => (o, s).
(** seq.py 330-344 *)
Fixpoint pipe_loop (ctx : nat) (xs : val) (bodys : list func) : action val :=
  match bodys with
  | [] => ret_ xs
  | update :: bodys' =>
      let islast := match bodys' with [] => true | _ :: _ => false end in
      bind_ (call_unpacked update (if curried update && negb islast then Datatypes.S ctx else ctx) xs)
            (fun xs' => pipe_loop ctx xs' bodys')
  end.
(** seq.py 279-347 *)
Definition pipe (ctx : nat) (values0 : val) (bodys : list func) : action val :=
  bind_ (pipe_loop ctx values0 bodys) (fun xs => lift (unwrap xs)).
(** seq.py 104-168 *)
Fixpoint pipe1 (ctx : nat) (x : val) (bodys : list func) : action val :=
  match bodys with
  | [] => ret_ x
  | update :: bodys' => bind_ (code update ctx [x] []) (fun y => pipe1 ctx y bodys')
  end.

(** Pipe objects live in a heap, indexed by their identity.  [Piped], [LazyPiped]:
    seq.py 365-378, 409-445; [Piped1], [LazyPiped1]: 174-181, 210-232. *)
Inductive pobj :=
| Piped (xs : val)                          (* always a [Vals] *)
| LazyPiped (xs : val) (funcs : list func)
| Piped1 (x : val)
| LazyPiped1 (x : val) (funcs : list func).
(** The memory of the language model (no code in /repo). *)
Definition heap := list pobj.
(** A new object in the memory (no code in /repo). *)
Definition alloc (h : heap) (o : pobj) : heap * nat := (h ++ [o], length h).
(** The right operand of [|]. *)
Inductive operand := Exit | Fn (f : func).
(** What [|] gives: a new pipe object, or a value. *)
Inductive result := NewPipe (i : nat) | Value (v : val).
(** The values that a pipe holds, as a Values object: seq.py 365-406, seq.py 409-481 *)
Definition as_values (v : val) : val :=
  match v with Vals _ _ => v | Obj _ => Vals [v] [] end.
(** A new pipe object: seq.py 365-406, seq.py 409-481 *)
Definition new_pipe (h : heap) (o : pobj) : heap * outcome result :=
  let (h', i) := alloc h o in (h', Ok (NewPipe i)).
(** seq.py 461-465 *)
Fixpoint run_funcs (ctx : nat) (vs : val) (funcs : list func) : action val :=
  match funcs with
  | [] => ret_ vs
  | g :: funcs' => bind_ (call_unpacked g ctx vs) (fun v => run_funcs ctx v funcs')
  end.
(** The functions of a lazy pipe of one value, in order: seq.py 210-276 *)
Fixpoint run_funcs1 (ctx : nat) (v : val) (funcs : list func) : action val :=
  match funcs with
  | [] => ret_ v
  | g :: funcs' => bind_ (code g ctx [v] []) (fun v' => run_funcs1 ctx v' funcs')
  end.
(** __or__: seq.py 182-205 (piped1), 233-274 (lazy_piped1), 379-404 (piped), 446-479
    (lazy_piped); the object [i] must exist *)
Definition por (ctx : nat) (h : heap) (i : nat) (f : operand) (s : S)
  : option (heap * S * outcome result) :=
  match nth_error h i with
  | None => None
  | Some (Piped xs) =>
      match f with
      | Exit => Some (h, s, omap Value (unwrap xs))
      | Fn f =>
          match call_unpacked f ctx xs s with
          | (Raise e, s') => Some (h, s', Raise e)
          | (Ok newxs, s') => let (h', r) := new_pipe h (Piped (as_values newxs)) in Some (h', s', r)
          end
      end
  | Some (LazyPiped xs funcs) =>
      match f with
      | Exit => let (r, s') := bind_ (run_funcs ctx xs funcs) (fun v => lift (unwrap v)) s in
                Some (h, s', omap Value r)
      | Fn f => let (h', r) := new_pipe h (LazyPiped xs (funcs ++ [f])) in Some (h', s, r)
      end
  | Some (Piped1 x) =>
      match f with
      | Exit => Some (h, s, Ok (Value x))
      | Fn f =>
          match code f ctx [x] [] s with
          | (Raise e, s') => Some (h, s', Raise e)
          | (Ok y, s') => let (h', r) := new_pipe h (Piped1 y) in Some (h', s', r)
          end
      end
  | Some (LazyPiped1 x funcs) =>
      match f with
      | Exit => let (r, s') := run_funcs1 ctx x funcs s in Some (h, s', omap Value r)
      | Fn f => let (h', r) := new_pipe h (LazyPiped1 x (funcs ++ [f])) in Some (h', s, r)
      end
  end.
(** [p | f1 | ... | fn], then [| exitpipe] *)
Fixpoint por_chain (ctx : nat) (h : heap) (i : nat) (fs : list func) (s : S)
  : option (heap * S * outcome result) :=
  match fs with
  | [] => por ctx h i Exit s
  | f :: fs' =>
      match por ctx h i (Fn f) s with
      | Some (h', s', Ok (NewPipe j)) => por_chain ctx h' j fs' s'
      | other => other
      end
  end.

(** ** Argument rearrangers *)
(** fun.py 580-587 *)
Definition flip (f : func) : func :=
  mkfunc (curried f) true (fun ctx args kw => code f ctx (rev args) kw).
(** fun.py 604-618: the arguments [f] is called with *)
Definition rotate_args {A} (k : Z) (args : list A) : outcome (list A) :=
  let n := zlen args in
  if (n =? 0)%Z then Raise TypeError
  else if negb ((- n <? k) && (k <? n))%Z then Raise IndexError
  else let j := ((- k) mod n)%Z in
       do a <- py_slice args (mkslice (Some (- j)%Z) None None);
       do b <- py_slice args (mkslice None (Some (- j)%Z) None);
       Ok (a ++ b).
(** rotate: fun.py 589-618 *)
Definition rotate (k : Z) (f : func) : func :=
  mkfunc (curried f) true (fun ctx args kw =>
    bind_ (lift (rotate_args k args)) (fun rargs => code f ctx rargs kw)).
(** fun.py 976-1001 *)
Definition tokth (k : Z) (f : func) : func :=
  mkfunc false true (fun ctx args kw =>
    let n := zlen args in
    if (n =? 0)%Z then raise_ TypeError
    else if negb ((- n <? k) && (k <? n))%Z then raise_ IndexError
    else
      let j := (k mod n)%Z in
      let m := (j + 1)%Z in
      bind_ (lift (py_slice args (mkslice None (Some j) None))) (fun out =>
      bind_ (lift (py_index args j)) (fun x =>
      bind_ (code f ctx [x] []) (fun y =>
      bind_ (if (m <? n)%Z then lift (py_slice args (mkslice (Some m) None None)) else ret_ []) (fun rest =>
      ret_ (Vals ((out ++ [y]) ++ rest) kw)))))).
(** fun.py 1003-1022 *)
Definition to1st (f : func) : func := tokth 0 f.
(** to2nd: fun.py 1016-1018 *)
Definition to2nd (f : func) : func := tokth 1 f.
(** tolast: fun.py 1020-1022 *)
Definition tolast (f : func) : func := tokth (-1) f.
(** fun.py 1024-1040 *)
Definition to (specs : list (Z * func)) : outcome func :=
  composel (map (fun kf => tokth (fst kf) (snd kf)) specs).
(** fun.py 623-644; [items v] is what iterating over [v] gives *)
Definition apply (items : val -> outcome (list val)) (ctx : nat) (f : func) (arg0 : val)
                 (more : list val) (kw : kwvals) : action val :=
  match rev more with
  | [] => bind_ (lift (items arg0)) (fun lst => code f ctx lst kw)
  | last :: front => bind_ (lift (items last)) (fun lst => code f ctx ((arg0 :: rev front) ++ lst) kw)
  end.
(** fun.py 650-675; [none] is None.  [const] (679-710) returns the same value at each call. *)
Definition identity (none : D) (args : list val) (kw : kwvals) : val :=
  match args, kw with
  | [], [] => Obj none
  | [x], [] => x
  | _, _ => Vals args kw
  end.
(** const: fun.py 679-710 *)
Definition const (none : D) (args : list val) (kw : kwvals) : func :=
  mkfunc false true (fun _ _ _ => ret_ (identity none args kw)).

(** ** Logic.  [truthy] is bool(), [tt_] and [ff] are True and False. *)
Section Logic.
Variable truthy : val -> bool.
Variables tt_ ff : D.
(** Python's bool objects (no code in /repo). *)
Definition pybool (b : bool) : val := if b then Obj tt_ else Obj ff.
(** fun.py 714-726 *)
Definition notf (f : func) : func :=
  mkfunc false true (fun ctx args kw => bind_ (code f ctx args kw) (fun v => ret_ (pybool (negb (truthy v))))).
(** fun.py 743-750; [b] is the variable *)
Fixpoint conj_loop (ctx : nat) (args : list val) (kw : kwvals) (b : val) (fs : list func) : action val :=
  match fs with
  | [] => ret_ b
  | f :: fs' =>
      bind_ (if truthy b then code f ctx args kw else ret_ b) (fun b' =>
      if truthy b' then conj_loop ctx args kw b' fs' else ret_ (pybool false))
  end.
(** andf: fun.py 728-751 *)
Definition andf (fs : list func) : func :=
  mkfunc false true (fun ctx args kw => conj_loop ctx args kw (pybool true) fs).
(** fun.py 770-777 *)
Fixpoint disj_loop (ctx : nat) (args : list val) (kw : kwvals) (b : val) (fs : list func) : action val :=
  match fs with
  | [] => ret_ (pybool false)
  | f :: fs' =>
      bind_ (if truthy b then ret_ b else code f ctx args kw) (fun b' =>
      if truthy b' then ret_ b' else disj_loop ctx args kw b' fs')
  end.
(** orf: fun.py 753-778 *)
Definition orf (fs : list func) : func :=
  mkfunc false true (fun ctx args kw => disj_loop ctx args kw (pybool false) fs).
End Logic.

(** ** Values: funutil.py 298-374 *)
Inductive subscript := SInt (i : Z) | SSlice (s : pyslice) | SStr (n : pname) | SOther.
(** Values.ret: funutil.py 200-389 *)
Definition vals_ret (rets : list val) : outcome val := py_index rets 0.
(** Values.__iter__: funutil.py 313-328 *)
Definition vals_iter (rets : list val) (kwrets : kwvals) : outcome (list val) :=
  match kwrets with [] => Ok rets | _ :: _ => Raise ValueError end.
(** a slice gives a tuple, which is reported as a list here *)
Definition vals_getitem (rets : list val) (kwrets : kwvals) (idx : subscript) : outcome (list val) :=
  match idx with
  | SInt i => omap (fun v => [v]) (py_index rets i)
  | SSlice s => py_slice rets s
  | SStr n => match kget kwrets n with Some v => Ok [v] | None => Raise KeyError end
  | SOther => Raise TypeError
  end.
(** Values.__contains__: funutil.py 347-349 *)
Definition vals_contains (kwrets : kwvals) (n : pname) : bool := khas kwrets n.
(** Values.get: funutil.py 361-363 *)
Definition vals_get (kwrets : kwvals) (n : pname) (default : val) : val :=
  match kget kwrets n with Some v => v | None => default end.
(** tuple and dict equality; [deq] is == (or identity) of other objects *)
Section Eq.
Variable deq : D -> D -> bool.
(** Python's == of the values of the model (no code in /repo). *)
Fixpoint val_eqb (a b : val) {struct a} : bool :=
  match a, b with
  | Obj x, Obj y => deq x y
  | Vals r k, Vals r' k' =>
      (fix go (l l' : list val) : bool :=
         match l, l' with
         | [], [] => true
         | x :: l0, y :: l0' => val_eqb x y && go l0 l0'
         | _, _ => false
         end) r r' &&
      (Nat.eqb (length k) (length k') &&
       (fix go (l : list (pname * val)) : bool :=
          match l with
          | [] => true
          | (n, x) :: l0 => match kget k' n with Some y => val_eqb x y | None => false end && go l0
          end) k)
  | _, _ => false
  end.
End Eq.

(** funutil.py 393-406; [tuple_items d] is [Some] for an object of type tuple *)
Definition valuify (tuple_items : D -> option (list val)) (f : func) : func :=
  mkfunc (curried f) true (fun ctx args kw =>
    bind_ (code f ctx args kw) (fun v =>
      ret_ (match v with
            | Obj d => match tuple_items d with Some l => Vals l [] | None => v end
            | Vals _ _ => v
            end))).
End Fun.
Arguments val : clear implicits.
Arguments func : clear implicits.
Arguments kwvals : clear implicits.
Arguments pobj : clear implicits.
Arguments heap : clear implicits.
