(** C129: with quicklambda *)
From Coq Require Import String List Bool Arith.
From Verif Require Import Base QklModel QklSpec QklProofs.
Import ListNotations.
Open Scope string_scope.
Open Scope list_scope.
Open Scope nat_scope.

(** Whatever the block, and whatever macros the expander knows under whatever names: each fn[...] in it, also in
    the arguments of other macros and inside of other fn[...]s, is replaced by the lambda that it means, and
    nothing else is changed; in particular, the other macros stay as they are. *)
Theorem C129_reads fnm bindings k n t t' n' :
  written t -> quicklambda fnm bindings k n t = Some (t', n') -> reads (bound fnm bindings) false t t' [].
Proof. exact (quick_reads fnm bindings k n t t' n'). Qed.
Print Assumptions C129_reads.
(** What the macros that are expanded after it get to see contains no fn[...], under any of its names. *)
Theorem C129_first fnm bindings k n t t' n' :
  quicklambda fnm bindings k n t = Some (t', n') -> ~ uses_fn (bound fnm bindings) t'.
Proof. exact (quick_none fnm bindings k n t t' n'). Qed.
Print Assumptions C129_first.
(** Parameters of two different lambdas have different names, and these are new: from those that gensym gave. *)
Theorem C129_distinct fnm bindings k n t t' n' :
  written t -> quicklambda fnm bindings k n t = Some (t', n') ->
  NoDup (gen_params t') /\ forall i, In i (gen_params t') -> n <= i < n'.
Proof. exact (quick_distinct fnm bindings k n t t' n'). Qed.
Print Assumptions C129_distinct.
(** A block without fn[...] stays as it is. *)
Theorem C129_unchanged fnm bindings k n t t' n' :
  written t -> ~ uses_fn (bound fnm bindings) t -> quicklambda fnm bindings k n t = Some (t', n') -> t' = t.
Proof. exact (quick_same fnm bindings k n t t' n'). Qed.
Print Assumptions C129_unchanged.
(** The expansion ends. *)
Theorem C129_ends fnm bindings t :
  exists k0, forall k n, k0 <= k -> exists t' n', quicklambda fnm bindings k n t = Some (t', n').
Proof. exact (quick_ends fnm bindings t). Qed.
Print Assumptions C129_ends.

(** An expander in which fn, macro 7, is known as fn and as f; macro 3 is let.  Node 0 is a call, 1 a sum. *)
Definition names : list (string * nat) := [("fn", 7); ("let", 3); ("f", 7)].
Definition x_ : tree := TName (User "_").
(** map(fn[_ + f[_ + _](_, data[_])], let[f[_], _]), where the last underscore is outside *)
Definition block : tree :=
  TNode 0 [TName (User "map");
           TSub (User "fn") (TNode 1 [x_; TNode 0 [TSub (User "f") (TNode 1 [x_; x_]); x_; TSub (User "data") x_]]);
           TSub (User "let") (TNode 2 [TSub (User "f") x_; x_])].
Example C129_ex : written block /\ quicklambda 7 names 30 0 block = Some
  (TNode 0 [TName (User "map");
            TLam [Gen 0; Gen 1; Gen 2]
              (TNode 1 [TName (Gen 0); TNode 0 [TLam [Gen 3; Gen 4] (TNode 1 [TName (Gen 3); TName (Gen 4)]); TName (Gen 1); TSub (User "data") (TName (Gen 2))]]);
            TSub (User "let") (TNode 2 [TLam [Gen 5] (TName (Gen 5)); x_])], 6).
Proof.
  split; [|vm_compute; reflexivity]. unfold block, x_.
  repeat match goal with |- written _ => constructor | |- Forall _ _ => constructor | |- user _ => eexists; reflexivity end.
Qed.
(** uses_fn holds of this block, and not of one that uses let only *)
Example C129_ex_uses : uses_fn (bound 7 names) block /\ ~ uses_fn (bound 7 names) (TSub (User "let") x_).
Proof.
  split.
  - eapply u_node; [right; left; reflexivity|]. constructor. now left.
  - intros U. inversion U as [x i B|x i V| |]; subst.
    + destruct B as [E|[E|[E|[]]]]; discriminate.
    + inversion V.
Qed.
