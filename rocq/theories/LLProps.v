(** C14, C15: cons structures and linked lists.  [lst l] is the chain of cells with the
    items [l], ended by nil; [chain l t] is the one ended by [t]. *)
From Verif Require Import Base ItrModel LLModel LLSpec LLProofs.
From Coq Require Import List Bool ZArith Permutation.
Import ListNotations.
Open Scope nat_scope.

(** C14.  [llist] builds the linked list; converting back gives the items. *)
Theorem C14_llist : forall A (l : list (val A)), llist l = lst l /\ items (llist l) = Ok l.
Proof. exact (fun A l => conj (llist_eq l) (items_llist l)). Qed.
Print Assumptions C14_llist.
Theorem C14_llist_of_linked_list : forall A (l : list (val A)), llist_v (lst l) = Ok (lst l).
Proof. exact (@llist_lst). Qed.
Print Assumptions C14_llist_of_linked_list.
Theorem C14_lreverse : forall A (l : list (val A)), lreverse l = lst (rev l) /\ lreverse_v (lst l) = Ok (lst (rev l)).
Proof. exact (fun A l => conj (lreverse_eq l) (lreverse_lst l)). Qed.
Print Assumptions C14_lreverse.
Theorem C14_lappend : forall A (ls : list (list (val A))), lappend (map lst ls) = Ok (lst (concat ls)).
Proof. exact (@lappend_lst). Qed.
Print Assumptions C14_lappend.
Theorem C14_lzip : forall A (ls : list (list (val A))), ls <> [] -> lzip (map lst ls) = Ok (lst (map lst (zip ls))).
Proof. exact (@lzip_lst). Qed.
Print Assumptions C14_lzip.
(** Lists of two items or more that end with something other than nil, and things that are not lists at all: TypeError.
    So is lzip without arguments. *)
Theorem C14_improper : forall A (x y : val A) l a, let v := chain (x :: y :: l) (Atom a) in
  items v = Raise TypeError /\ llist_v v = Raise TypeError /\ lreverse_v v = Raise TypeError /\ (forall w, lappend [v; w] = Raise TypeError) /\ (forall ls, lzip (v :: ls) = Raise TypeError).
Proof. exact (@improper). Qed.
Print Assumptions C14_improper.
Theorem C14_atoms : forall A (a : A) (w : val A),
  items (Atom a) = Raise TypeError /\ llist_v (Atom a) = Raise TypeError /\ lreverse_v (Atom a) = Raise TypeError /\ lappend [Atom a; w] = Raise TypeError /\ lzip [] = (Raise TypeError : outcome (val A)).
Proof. exact (@atoms). Qed.
Print Assumptions C14_atoms.
Theorem C14_reversed : forall A (l : list (val A)),
  exists r, reversed (lst l) = Ok r /\ rv_remaining r = rev l /\ llist_reviter r = lst (rev l).
Proof. exact (@reversed_lst). Qed.
Print Assumptions C14_reversed.
(** Unlike for other iterators, [llist] of a partly consumed reverse iterator gives all of
    its items, not the remaining ones. *)
Theorem C14_llist_of_iterator_refuted : forall A (l : list (val A)) k, 0 < k <= length l ->
  exists r, reversed (lst l) = Ok r /\ let r' := Nat.iter k rv_next r in
    rv_remaining r' = skipn k (rev l) /\ llist_reviter r' = lst (rev l) /\ llist_reviter r' <> lst (rv_remaining r').
Proof. exact (@reversed_consumed_wrong). Qed.
Print Assumptions C14_llist_of_iterator_refuted.

(** Structures are equal exactly when they have the same shape and equal atoms: the answer
    is always there (given enough fuel, which stands for the stack), and is right. *)
Theorem C14_equality : forall A (aeqb : A -> A -> bool) fuel v w, nodes v <= fuel ->
  exists b, veq aeqb fuel v w = Some b /\ (b = true <-> same aeqb v w).
Proof. exact (@veq_decides). Qed.
Print Assumptions C14_equality.
(** Equal structures have equal hashes, whatever the hashes of atoms, nil and tuples are. *)
Theorem C14_hash : forall A (aeqb : A -> A -> bool) (ha : A -> Z) hn ht,
  (forall x y, aeqb x y = true -> ha x = ha y) -> forall fuel v w, same aeqb v w ->
  nodes v <= fuel -> exists h, vhash ha hn ht fuel v = Some h /\ vhash ha hn ht fuel w = Some h.
Proof. exact (@vhash_equal). Qed.
Print Assumptions C14_hash.
(** [member] finds the tail from the first matching item on; it says False only for a proper
    list without the item. *)
Theorem C14_member : forall A (aeqb : A -> A -> bool) x l t, is_cons t = false -> l <> [] ->
  forall fuel, (forall y, In y l -> nodes y <= fuel) ->
  (exists i a, nth_error l i = Some a /\ same aeqb a x /\
     (forall j b, j < i -> nth_error l j = Some b -> ~ same aeqb b x) /\
     member aeqb fuel x (chain l t) = Some (Ok (Some (chain (skipn i l) t)))) \/
  ((forall a, In a l -> ~ same aeqb a x) /\
   member aeqb fuel x (chain l t) = Some (if is_nil t then Ok None else Raise TypeError)).
Proof. exact (@member_spec). Qed.
Print Assumptions C14_member.
(** c[ad]*r: the letters are a path, read from the right. *)
Theorem C14_accessors : forall A spec (v : val A),
  accessor spec v = match follow (rev spec) v with Some w => Ok w | None => Raise TypeError end.
Proof. exact (@accessor_follow). Qed.
Print Assumptions C14_accessors.

Example C14_ex : let a := Atom 1 in let b := Atom 2 in let c := Atom 3 in
  let imp := Cons a (Cons (lst [b; c]) b) in
  lappend [lst [a; b]; Nil; lst [c]] = Ok (lst [a; b; c]) /\
  lzip [lst [a; b; c]; lst [c; b]] = Ok (lst [lst [a; c]; lst [b; b]]) /\
  veq Nat.eqb (nodes imp) imp imp = Some true /\
  veq Nat.eqb (nodes imp) imp (Cons a (Cons (lst [b; b]) b)) = Some false /\
  member Nat.eqb 5 c (lst [a; c; b]) = Some (Ok (Some (lst [c; b]))) /\
  member Nat.eqb 5 a imp = Some (Ok (Some imp)) /\ member Nat.eqb 5 c imp = Some (Raise TypeError) /\
  accessor [true; false] (lst [a; b]) = Ok b /\ lappend [imp; Nil] = Raise TypeError.
Proof. vm_compute. repeat split. Qed.

(** C15.  Every cell is the first of a unique chain of cells ended by a non-cons ... *)
Theorem C15_every_cell_is_a_chain : forall A (v : val A), exists l t, v = chain l t /\ is_cons t = false.
Proof. exact (@chain_split). Qed.
Print Assumptions C15_every_cell_is_a_chain.
(** ... of which the list iterators yield the items or the tails in order, and then stop
    if it is a proper list or raise TypeError; the default iterator also accepts a single cell. *)
Theorem C15_list_iterators : forall A (x : val A) l t, is_cons t = false ->
  let v := chain (x :: l) t in
  linked_list_iterator v = Ok (x :: l, is_nil t) /\
  tail_iterator v = Ok (map (fun i => chain (skipn i (x :: l)) t) (seq 0 (length (x :: l))), is_nil t) /\
  list_or_cell_iterator v =
    Ok (match l, t with [], Atom _ => ([x; t], true) | _, _ => (x :: l, is_nil t) end).
Proof. exact (@iterators_chain). Qed.
Print Assumptions C15_list_iterators.
Theorem C15_iterators_need_a_cell : forall A (v : val A), is_cons v = false ->
  linked_list_iterator v = Raise TypeError /\ tail_iterator v = Raise TypeError /\
  binary_tree_iterator v = Raise TypeError /\ jack_iterator v = Raise TypeError.
Proof. exact (@iterators_noncons). Qed.
Print Assumptions C15_iterators_need_a_cell.
(** The tree iterators visit every leaf exactly once (the second one: except for nil in
    cdr position) ... *)
Theorem C15_tree_leaves_partial : forall A (v : val A), is_cons v = true ->
  (exists out, binary_tree_iterator v = Ok (Some out) /\ Permutation out (leaves v)) /\
  (exists out, jack_iterator v = Ok (Some out) /\ Permutation out (leaves_but_nil_cdr v)).
Proof. exact (@binary_tree_perm). Qed.
Print Assumptions C15_tree_leaves_partial.
(** ... but not always from left to right, ... *)
Theorem C15_tree_order_refuted : exists v : val nat,
  leaves v = [Atom 1; Atom 2; Atom 3] /\ binary_tree_iterator v = Ok (Some [Atom 3; Atom 1; Atom 2]).
Proof. exact tree_order_wrong. Qed.
Print Assumptions C15_tree_order_refuted.
(** ... only if no cell has a cell on its left and a leaf on its right. *)
Theorem C15_tree_order_partial : forall A (v : val A), is_cons v = true -> right_deep v ->
  binary_tree_iterator v = Ok (Some (leaves v)).
Proof. exact (@binary_tree_order). Qed.
Print Assumptions C15_tree_order_partial.

Example C15_ex : let t := Cons (Cons (Atom 1) (Atom 2)) (Cons (Atom 3) (Atom 4)) in
  is_cons t = true /\ right_deep t /\ binary_tree_iterator t = Ok (Some [Atom 1; Atom 2; Atom 3; Atom 4]) /\
  jack_iterator (lst [t; Atom 5]) = Ok (Some [Atom 1; Atom 2; Atom 3; Atom 4; Atom 5]) /\
  LLModel.iter (Cons (Atom 1) (Cons (Atom 2) (Atom 3))) = Ok ([Atom 1; Atom 2], false).
Proof. vm_compute. repeat split; intros; try discriminate; auto. Qed.
