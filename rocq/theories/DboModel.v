(** Model of the blocks of dynamic assignment as objects (unpythonic/dynassign.py): `block = dyn.let(x=1)` makes an
    object that can be entered any number of times.  One thread. *)
From Coq Require Import List Bool Arith.
From Verif Require Import Base CollModel DynModel.
Import ListNotations.
Open Scope nat_scope.
Open Scope list_scope.

Section Dbo.
Context {N V : Type}.
Variable neqb : N -> N -> bool.
Notation scope := (dict N V).
(** The bindings of each block object made so far (dynassign.py 37-39), the stack of those entered, innermost first
    (17-21), and _global_dynvars (13). *)
Record bst := mkbst { objs : list scope; bstack : list nat; bglobals : scope }.
(** The bindings of an object: dynassign.py 39 *)
Definition bindings (w : bst) (o : nat) : scope := nth o (objs w) [].
(** dynassign.py 149-151 *)
Fixpoint bfind (w : bst) (os : list nat) (n : N) : option nat :=
  match os with [] => None | o :: os => if in_scope neqb (bindings w o) n then Some o else bfind w os n end.
(** _resolve: dynassign.py 146-154 *)
Definition bresolve (w : bst) (n : N) : outcome (option nat) :=
  match bfind w (bstack w) n with
  | Some o => Ok (Some o)
  | None => if in_scope neqb (bglobals w) n then Ok None else Raise AttributeError
  end.
(** dynassign.py 156-159 *)
Definition bget (w : bst) (n : N) : outcome V :=
  do s <- bresolve w n ;
  match dict_get neqb (match s with Some o => bindings w o | None => bglobals w end) n with
  | Some v => Ok v
  | None => Raise KeyError
  end.
(** scope[name] = value: dynassign.py 174, 209 *)
Definition bwrite (w : bst) (s : option nat) (n : N) (v : V) : bst :=
  match s with
  | Some o => mkbst (upd (objs w) o (dict_set neqb (bindings w o) n v)) (bstack w) (bglobals w)
  | None => mkbst (objs w) (bstack w) (dict_set neqb (bglobals w) n v)
  end.
(** dynassign.py 206 *)
Fixpoint bresolve_all (w : bst) (b : list (N * V)) : outcome (list (option nat)) :=
  match b with
  | [] => Ok []
  | (n, _) :: b => do s <- bresolve w n ; do ss <- bresolve_all w b ; Ok (s :: ss)
  end.
(** dynassign.py 207-209 *)
Fixpoint bwrite_all (w : bst) (ss : list (option nat)) (b : list (N * V)) : bst :=
  match ss, b with
  | s :: ss, (n, v) :: b => bwrite_all (bwrite w s n v) ss b
  | _, _ => w
  end.
(** __enter__: dynassign.py 40-42 *)
Definition benter (w : bst) (o : nat) : bst :=
  match bindings w o with [] => w | _ => mkbst (objs w) (o :: bstack w) (bglobals w) end.
(** __exit__: dynassign.py 45-47 *)
Definition bexit (w : bst) (o : nat) : bst :=
  match bindings w o with [] => w | _ => mkbst (objs w) (tl (bstack w)) (bglobals w) end.

(** Programs; an object is known by its number.  What they do may depend on what they read. *)
Inductive bcmd :=
| BSkip
| BSeq (c1 c2 : bcmd)
| BRead (n : N) (k : V -> bcmd)
| BAssign (n : N) (v : V)
| BUpdate (b : list (N * V))
| BMakeDynvar (b : list (N * V))
| BThrow (x : exn)
| BTry (c : bcmd) (handler : exn -> bcmd)
| BNew (b : scope) (k : nat -> bcmd)       (* block = dyn.let( **b) *)
| BWith (o : nat) (body : bcmd).           (* with block: body *)
(** Result, final state, and the values read, in order.  The operations of dyn are those above; the rest is Python's own. *)
Fixpoint bexec (c : bcmd) (w : bst) : outcome unit * bst * list V :=
  match c with
  | BSkip => (Ok tt, w, [])
  | BSeq c1 c2 =>
      match bexec c1 w with
      | (Ok _, w1, t1) => match bexec c2 w1 with (r, w2, t2) => (r, w2, t1 ++ t2) end
      | r => r
      end
  | BRead n k =>
      match bget w n with
      | Ok v => match bexec (k v) w with (r, w1, t) => (r, w1, v :: t) end
      | Raise x => (Raise x, w, [])
      end
  | BAssign n v => match bresolve w n with Ok s => (Ok tt, bwrite w s n v, []) | Raise x => (Raise x, w, []) end
  | BUpdate b => match bresolve_all w b with Ok ss => (Ok tt, bwrite_all w ss b, []) | Raise x => (Raise x, w, []) end
  | BMakeDynvar b => (Ok tt, mkbst (objs w) (bstack w) (dict_update neqb (bglobals w) b), [])
  | BThrow x => (Raise x, w, [])
  | BTry c1 h =>
      match bexec c1 w with
      | (Raise x, w1, t1) => match bexec (h x) w1 with (r, w2, t2) => (r, w2, t1 ++ t2) end
      | r => r
      end
  | BNew b k => bexec (k (length (objs w))) (mkbst (objs w ++ [b]) (bstack w) (bglobals w))
  | BWith o body =>
      if o <? length (objs w) then match bexec body (benter w o) with (r, w1, t) => (r, bexit w1 o, t) end
      else (Raise NameError, w, [])          (* no such object *)
  end.
End Dbo.
Arguments bst : clear implicits.
Arguments bcmd : clear implicits.
