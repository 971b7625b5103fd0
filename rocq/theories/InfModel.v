(** Model of the infix arithmetic of mathematical sequences: mathseq.py 459-618 (imathify, gmathify) and 627-749 (the
    termwise operations), with iterables that may be consumed.

    Numbers are of any type N; the elements of iterables are numbers (the recursion of 630, 638, 641, 644 into iterables
    within iterables is left out).  Python's dispatch of infix operators to methods is part of the model. *)
From Coq Require Import List Bool Arith.
From Verif Require Import Base CollModel.
Import ListNotations.

(** Python's binary operators (mathseq.py, class imathify). *)
Inductive binop := Add | Sub | Mul | TrueDiv | FloorDiv | DivMod | Mod | Pow | LShift | RShift | And | Xor | Or | Lt | Le | Eq | Ne | Ge | Gt.
Section Infix.
Context {N : Type}.
(** Python's unary operators and conversions (mathseq.py, class imathify). *)
Inductive unop := Abs | Pos | Neg | Invert | Round (ndigits : option N) | Trunc | Floor | Ceil.
(** the operations on numbers: operator.add and so on, round, and pow with three arguments *)
Variable prim2 : binop -> N -> N -> outcome N.
Variable prim1 : unop -> N -> outcome N.
Variable pow3 : N -> N -> N -> outcome N.
(** a primitive, with its settings if it has any (mathseq.py 625) *)
Definition fn1 := N -> outcome N.
(** A primitive of two numbers. *)
Definition fn2 := N -> N -> outcome N.

(** Values: a number; a tuple or another iterable that gives a new iterator each time; a generator; and imathify(v) *)
Inductive val := Num (z : N) | Tup (l : list N) | Gen (i : nat) | M (v : val).
(** Iterators.  [Src f p]: yields f p, f (p + 1), ... as long as there are such; then the generator expressions of 630, 638
    (with its zip), 641 and 644; and a generator that has ended. *)
Inductive cell :=
| Src (f : nat -> option N) (p : nat)
| Un (op : fn1) (it : nat)
| Zip (op : fn2) (a b : nat)
| OnLeft (op : fn2) (it : nat) (c : N)
| OnRight (op : fn2) (c : N) (it : nat)
| Done.
(** The memory of the language model (no code in /repo). *)
Definition heap := list cell.
(** A new object in the memory (no code in /repo). *)
Definition alloc (h : heap) (c : cell) : nat * heap := (length h, h ++ [c]).
(** [hasattr(x, "__iter__")] *)
Definition iterable (v : val) : bool := match v with Num _ => false | _ => true end.
(** [iter(v)]; mathseq.py 510-511 for imathify *)
Fixpoint iter (h : heap) (v : val) : outcome (nat * heap) :=
  match v with
  | Num _ => Raise TypeError
  | Tup l => Ok (alloc h (Src (nth_error l) 0))
  | Gen i => Ok (i, h)
  | M v => iter h v
  end.
(** [next(it)]: None is StopIteration.  [fuel]: more than the number of the iterator suffices. *)
Fixpoint next (fuel : nat) (h : heap) (i : nat) : outcome (option N) * heap :=
  match fuel with
  | O => (Raise RuntimeError, h)
  | S fuel =>
      let ended r h := (r, upd h i Done) in
      match nth_error h i with
      | None => (Raise RuntimeError, h)
      | Some Done => (Ok None, h)
      | Some (Src f p) =>
          match f p with
          | Some z => (Ok (Some z), upd h i (Src f (S p)))
          | None => (Ok None, h)
          end
      | Some (Un op it) =>
          match next fuel h it with
          | (Ok (Some x), h) => match op x with Ok z => (Ok (Some z), h) | Raise e => ended (Raise e) h end
          | (r, h) => ended r h
          end
      | Some (Zip op a b) =>
          match next fuel h a with
          | (Ok (Some x), h) =>
              match next fuel h b with
              | (Ok (Some y), h) => match op x y with Ok z => (Ok (Some z), h) | Raise e => ended (Raise e) h end
              | (r, h) => ended r h
              end
          | (r, h) => ended r h
          end
      | Some (OnLeft op it c) =>
          match next fuel h it with
          | (Ok (Some x), h) => match op x c with Ok z => (Ok (Some z), h) | Raise e => ended (Raise e) h end
          | (r, h) => ended r h
          end
      | Some (OnRight op c it) =>
          match next fuel h it with
          | (Ok (Some y), h) => match op c y with Ok z => (Ok (Some z), h) | Raise e => ended (Raise e) h end
          | (r, h) => ended r h
          end
      end
  end.
(** A new generator, in an imathify (mathseq.py 459-601). *)
Definition mret (r : nat * heap) : outcome (val * heap) := Ok (M (Gen (fst r)), snd r).
(** mathseq.py 627-632 *)
Definition stream_unop (op : fn1) (h : heap) (a : val) : outcome (val * heap) :=
  if iterable a then
    do r <- iter h a ; mret (alloc (snd r) (Un op (fst r)))
  else match a with Num z => do r <- op z ; Ok (Num r, h) | _ => Raise TypeError end.
(** mathseq.py 633-647 *)
Definition stream_binop (op : fn2) (h : heap) (a b : val) : outcome (val * heap) :=
  match a, b with
  | Num x, Num y => do r <- op x y ; Ok (Num r, h)                                    (* 645-646 *)
  | _, Num c => do r <- iter h a ; mret (alloc (snd r) (OnLeft op (fst r) c))         (* 639-641 *)
  | Num c, _ => do r <- iter h b ; mret (alloc (snd r) (OnRight op c (fst r)))        (* 642-644 *)
  | _, _ =>                                                                            (* 636-638 *)
      do r <- iter h a ; do s <- iter (snd r) b ; mret (alloc (snd s) (Zip op (fst r) (fst s)))
  end.
(** The methods of imathify, mathseq.py 512-601: with the receiver, and the other operand.  [method o]: what [__o__] does. *)
Definition method (o : binop) (h : heap) (self other : val) : outcome (val * heap) :=
  match o with
  | Add => stream_binop (prim2 Add) h self other
  | Sub => stream_binop (prim2 Sub) h self other
  | Mul => stream_binop (prim2 Mul) h self other
  | TrueDiv => stream_binop (prim2 TrueDiv) h self other
  | FloorDiv => stream_binop (prim2 FloorDiv) h self other
  | DivMod => stream_binop (prim2 DivMod) h self other
  | Mod => stream_binop (prim2 Mod) h self other
  | Pow => stream_binop (prim2 Pow) h self other
  | LShift => stream_binop (prim2 LShift) h self other
  | RShift => stream_binop (prim2 RShift) h self other
  | And => stream_binop (prim2 And) h self other
  | Xor => stream_binop (prim2 Xor) h self other
  | Or => stream_binop (prim2 Or) h self other
  | Lt => stream_binop (prim2 Lt) h self other
  | Le => stream_binop (prim2 Le) h self other
  | Eq => stream_binop (prim2 Eq) h self other
  | Ne => stream_binop (prim2 Ne) h self other
  | Ge => stream_binop (prim2 Ge) h self other
  | Gt => stream_binop (prim2 Gt) h self other
  end.
(** what Python calls when only the right operand is an imathify: [__radd__] and so on; the mirrored comparison *)
Definition rmethod (o : binop) (h : heap) (self other : val) : outcome (val * heap) :=
  match o with
  | Add => stream_binop (prim2 Add) h other self
  | Sub => stream_binop (prim2 Sub) h other self
  | Mul => stream_binop (prim2 Mul) h other self
  | TrueDiv => stream_binop (prim2 TrueDiv) h other self
  | FloorDiv => stream_binop (prim2 FloorDiv) h other self
  | DivMod => stream_binop (prim2 DivMod) h other self
  | Mod => stream_binop (prim2 Mod) h other self
  | Pow => stream_binop (prim2 Pow) h other self
  | LShift => stream_binop (prim2 LShift) h other self
  | RShift => stream_binop (prim2 RShift) h other self
  | And => stream_binop (prim2 And) h other self
  | Xor => stream_binop (prim2 Xor) h other self
  | Or => stream_binop (prim2 Or) h other self
  | Lt => method Gt h self other
  | Le => method Ge h self other
  | Eq => method Eq h self other
  | Ne => method Ne h self other
  | Ge => method Le h self other
  | Gt => method Lt h self other
  end.
(** The methods for one operand: mathseq.py 520-527, 552-559, with sround 681-694 *)
Definition umethod (o : unop) (h : heap) (self : val) : outcome (val * heap) :=
  match o with
  | Abs => stream_unop (prim1 Abs) h self
  | Pos => stream_unop (prim1 Pos) h self
  | Neg => stream_unop (prim1 Neg) h self
  | Invert => stream_unop (prim1 Invert) h self
  | Round None => stream_unop (prim1 (Round None)) h self
  | Round (Some n) => stream_unop (prim1 (Round (Some n))) h self
  | Trunc => stream_unop (prim1 Trunc) h self
  | Floor => stream_unop (prim1 Floor) h self
  | Ceil => stream_unop (prim1 Ceil) h self
  end.
(** isinstance(v, imathify): mathseq.py 459-601 *)
Definition is_m (v : val) : bool := match v with M _ => true | _ => false end.
(** Python's [a o b], [o a] and [pow(a, b, c)], with c a number (mathseq.py 548-549, 662-670).  Without an imathify: numbers, or else
    the operation is not one of this library, which the model excludes by TypeError.  [pow(a, b, c)] tries the left
    operand only. *)
Definition infix (o : binop) (h : heap) (a b : val) : outcome (val * heap) :=
  if is_m a then method o h a b
  else if is_m b then rmethod o h b a
  else match a, b with Num x, Num y => do r <- prim2 o x y ; Ok (Num r, h) | _, _ => Raise TypeError end.
(** [o a] in Python, which calls the method of a: mathseq.py 459-601 *)
Definition prefix (o : unop) (h : heap) (a : val) : outcome (val * heap) :=
  if is_m a then umethod o h a
  else match a with Num x => do r <- prim1 o x ; Ok (Num r, h) | _ => Raise TypeError end.
(** [pow(a, b, c)] in Python: mathseq.py 548-549 *)
Definition power3 (h : heap) (a b : val) (c : N) : outcome (val * heap) :=
  if is_m a then stream_binop (fun x y => pow3 x y c) h a b
  else match a, b with Num x, Num y => do r <- pow3 x y c ; Ok (Num r, h) | _, _ => Raise TypeError end.

(** Expressions.  [Call f]: a call of a gfunc decorated with gmathify (mathseq.py 603-618), which makes a new generator. *)
Inductive expr :=
| Leaf (v : val)
| Call (f : nat -> option N)
| Bin (o : binop) (a b : expr)
| Pre (o : unop) (a : expr)
| Pow3 (a b : expr) (c : N).
(** An expression: operators of Python on imathify objects. *)
Fixpoint eval (h : heap) (e : expr) : outcome (val * heap) :=
  match e with
  | Leaf v => Ok (v, h)
  | Call f => mret (alloc h (Src f 0))
  | Bin o a b => do r <- eval h a ; do s <- eval (snd r) b ; infix o (snd s) (fst r) (fst s)
  | Pre o a => do r <- eval h a ; prefix o (snd r) (fst r)
  | Pow3 a b c => do r <- eval h a ; do s <- eval (snd r) b ; power3 (snd s) (fst r) (fst s) c
  end.
(** Up to n elements of an iterator: those it yields, and the exception that it ends with, if any *)
Fixpoint pull (n : nat) (h : heap) (i : nat) : list N * option exn * heap :=
  match n with
  | O => ([], None, h)
  | S n =>
      match next (S i) h i with
      | (Ok (Some z), h) => let '(l, x, h) := pull n h i in (z :: l, x, h)
      | (Ok None, h) => ([], None, h)
      | (Raise x, h) => ([], Some x, h)
      end
  end.
(** [take(n, e)] as a list *)
Definition run (n : nat) (h : heap) (e : expr) : outcome (list N * option exn) :=
  do r <- eval h e ; do s <- iter (snd r) (fst r) ; Ok (fst (pull n (snd s) (fst s))).
End Infix.
