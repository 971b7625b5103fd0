(** C116: printing of linked lists. *)
From Verif Require Import Base LLModel LLSpec LrpModel LrpSpec LrpProofs.
From Coq Require Import String List ZArith.
Import ListNotations.
Open Scope string_scope.

(** The text that [repr] gives for any structure of cells is a Python expression for that same
    structure, if the atoms have such texts. *)
Theorem C116_repr_eval : forall A (show : A -> string) read, plain show read ->
  forall (v : val A) n, depth v <= n -> exists s, repr show n v = Ok s /\ pyread read s = Some v.
Proof. exact (@repr_round). Qed.
Print Assumptions C116_repr_eval.
(** Different structures have different texts. *)
Theorem C116_repr_injective : forall A (show : A -> string) read, plain show read ->
  forall n m (v w : val A) s, repr show n v = Ok s -> repr show m w = Ok s -> v = w.
Proof. exact (@repr_inj). Qed.
Print Assumptions C116_repr_injective.
(** Printing needs as many levels of recursion as the structure is nested deep, however long the
    lists are; with fewer it ends with a RecursionError, and not with a wrong text. *)
Theorem C116_depth : forall A (show : A -> string) n (v : val A),
  (depth v <= n -> (exists s, repr show n v = Ok s) /\ (exists s, lispyrepr show n v = Ok s)) /\
  (n < depth v -> repr show n v = Raise RuntimeError /\ lispyrepr show n v = Raise RuntimeError).
Proof.
  exact (fun A show n v => conj (fun H => conj (proj1 (repr_depth show n v) H) (proj1 (lispy_depth show n v) H))
                                (fun H => conj (proj2 (repr_depth show n v) H) (proj2 (lispy_depth show n v) H))).
Qed.
Print Assumptions C116_depth.
(** ... but lists that end with something other than nil need one level per item. *)
Theorem C116_dotted_depth : forall A (show : A -> string) l a n, n <= length l ->
  repr show n (chain l (Atom a)) = Raise RuntimeError /\ lispyrepr show n (chain l (Atom a)) = Raise RuntimeError.
Proof. exact (@improper_deep). Qed.
Print Assumptions C116_dotted_depth.
(** [lispyrepr] gives the structure in Lisp's dot notation, if no list has cells as items. *)
Theorem C116_lispyrepr_partial : forall A (show : A -> string) read, plain show read ->
  forall (v : val A) n, flat v -> depth v <= n -> exists s, lispyrepr show n v = Ok s /\ lispread read s = Some v.
Proof. exact (@lispy_round). Qed.
Print Assumptions C116_lispyrepr_partial.
(** Otherwise the text is a mixture of both notations: [ll(ll(1))] prints as [(ll(1))]. *)
Theorem C116_lispyrepr_refuted :
  exists v : val Z, exists s, lispyrepr show_int (depth v) v = Ok s /\ lispread read_int s <> Some v.
Proof. exact lispy_wrong. Qed.
Print Assumptions C116_lispyrepr_refuted.

Example C116_ex_plain : plain show_int read_int.
Proof. exact ints_plain. Qed.
Example C116_ex : let l := lst [Atom 1; lst [Atom (-20); Nil]; Cons (Atom 3) (Atom 45)]%Z in
  let p := Cons (lst [Atom 1; Atom 2]%Z) (Cons Nil (Atom 3%Z)) in
  repr show_int 3 l = Ok "ll(1, ll(-20, nil), cons(3, 45))" /\ repr show_int 2 l = Raise RuntimeError /\
  repr show_int 4 p = Ok "cons(ll(1, 2), cons(nil, 3))" /\
  lispyrepr show_int 4 p = Ok "((1 2) . (nil . 3))" /\ lispread read_int "((1 2) nil . 3)" = Some p /\ flat p /\
  lispyrepr show_int 3 l = Ok "(1 ll(-20, nil) cons(3, 45))".
Proof. vm_compute. intuition. Qed.
