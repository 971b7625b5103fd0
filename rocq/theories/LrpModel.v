(** Model of the printing of cons cells, unpythonic/llist.py 44-45, 229-251. *)
From Verif Require Import Base LLModel.
From Coq Require Import String List.
Import ListNotations.
Open Scope string_scope.

Section Lrp.
Context {A : Type}.
(** [repr] of an object that is neither a cons nor nil; it has no [lispyrepr].
    Simplification: printing it raises nothing. *)
Variable show : A -> string.

(** [repr(v)] with [n] levels of recursion left (none: RecursionError, a RuntimeError).
    Nil: llist.py 44-45; cons: 229-241.  The comprehension prints the items up to where
    the walker stops; if it stops with a TypeError, what was printed is thrown away. *)
Fixpoint repr (n : nat) (v : val A) : outcome string :=
  match n with
  | O => Raise RuntimeError
  | S n =>
      match v with
      | Atom a => Ok (show a)
      | Nil => Ok "nil"
      | Cons a d =>
          let '(l, ok) := ll_walk v in
          do result_list <- mapM (repr n) l;
          if ok : bool then Ok ("ll(" ++ String.concat ", " result_list ++ ")")
          else do ra <- repr n a; do rd <- repr n d; Ok ("cons(" ++ String.concat ", " [ra; rd] ++ ")")
      end
  end.

(** [r(v)] of llist.py 247, and for a cons [v.lispyrepr()]: 242-250.  The items of a list
    are printed by [repr]. *)
Fixpoint lispyrepr (n : nat) (v : val A) : outcome string :=
  match n with
  | O => Raise RuntimeError
  | S n' =>
      match v with
      | Cons a d =>
          let '(l, ok) := ll_walk v in
          do result_list <- mapM (repr n') l;
          do result_list <- (if ok : bool then Ok result_list
                             else do ra <- lispyrepr n' a; do rd <- lispyrepr n' d; Ok [ra; "."; rd]);
          Ok ("(" ++ String.concat " " result_list ++ ")")
      | _ => repr n v
      end
  end.
End Lrp.
