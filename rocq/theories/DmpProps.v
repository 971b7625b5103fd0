(** C122: dyn is a mapping. *)
From Coq Require Import String List.
From Verif Require Import Base CollModel DynModel DmpModel DmpSpec DmpProofs.
Import ListNotations.
Open Scope string_scope.

(** Iteration gives each dynamic variable once, in the order in which the names were first bound, from the outermost scope to
    the innermost; [len] counts them ... *)
Theorem C122_iter : forall (V : Type) (d : @dst string V),
  NoDup (dyn_iter d) /\ (forall n, In n (dyn_iter d) <-> bound d n) /\ dyn_len d = length (dyn_iter d) /\
  dyn_iter d = firsts (concat (map (map fst) (rev (scopes d)))).
Proof. exact (fun V d => conj (iter_nodup d) (conj (iter_in d) (conj (len_iter d) (iter_firsts d)))). Qed.
Print Assumptions C122_iter.
(** ... and [items()] gives each with its innermost value. *)
Theorem C122_items : forall (V : Type) (d : @dst string V), proper d ->
  exists l, dyn_items d = Ok l /\ map fst l = dyn_iter d /\ forall n v, In (n, v) l <-> binds d n v.
Proof. exact (fun V => items_ok). Qed.
Print Assumptions C122_items.
(** [dyn] is equal to a dict that has the same names and values. *)
Theorem C122_eq : forall (V : Type) (veqb : V -> V -> bool), (forall a b, veqb a b = true <-> a = b) ->
  forall (d : @dst string V) m, proper d -> NoDup (map fst m) ->
  exists b, dyn_eq veqb d m = Ok b /\ (b = true <-> forall n v, In (n, v) m <-> binds d n v).
Proof. exact (fun V => eq_ok). Qed.
Print Assumptions C122_eq.
(** Access by name agrees with it, unless the class has an attribute of that name. *)
Theorem C122_getitem_partial : forall (V : Type) (d : @dst string V) n, proper d -> is_class_attribute n = false ->
  (forall v, dyn_getitem d n = Ok (Var v) <-> binds d n v) /\ (~ bound d n -> dyn_getitem d n = Raise AttributeError).
Proof. exact (fun V d n P A => conj (fun v => getitem_ok d n v P A) (getitem_unbound d n A)). Qed.
Print Assumptions C122_getitem_partial.
Theorem C122_contains_partial : forall (V : Type) (d : @dst string V) n, proper d -> is_class_attribute n = false ->
  exists b, dyn_contains d n = Ok b /\ (b = true <-> bound d n).
Proof. exact (fun V => contains_ok). Qed.
Print Assumptions C122_contains_partial.
Theorem C122_get_partial : forall (V : Type) (d : @dst string V) n, proper d -> is_class_attribute n = false ->
  (forall v, binds d n v -> dyn_get_default d n = Ok (Some (Var v))) /\ (~ bound d n -> dyn_get_default d n = Ok None).
Proof. exact (fun V => get_default_ok). Qed.
Print Assumptions C122_get_partial.
(** If it has, then in no state can the variable be read by its name, and the name is always [in dyn]: a variable [items] or
    [get] can be bound, and is seen in iteration only. *)
Theorem C122_class_names_refuted : forall (V : Type) (d : @dst string V) n, is_class_attribute n = true ->
  dyn_getitem d n = Ok (Attr n) /\ dyn_contains d n = Ok true /\ dyn_get_default d n = Ok (Some (Attr n)).
Proof. exact (fun V => class_names). Qed.
Print Assumptions C122_class_names_refuted.
(** dyn is registered as a Mapping, but for a missing name it raises AttributeError; its view raises KeyError. *)
Theorem C122_keyerror_refuted : forall (V : Type) (d : @dst string V) n, is_class_attribute n = false -> ~ bound d n ->
  dyn_getitem d n = Raise AttributeError /\ chain_getitem (maps d) n = Raise KeyError.
Proof. exact (fun V d n A N => conj (getitem_unbound d n A N) (chain_getitem_err (maps d) n (fun s H1 H2 => N (ex_intro _ s (conj H1 H2))))). Qed.
Print Assumptions C122_keyerror_refuted.
(** Assignment through a view is not assignment to the variable: both are seen by later reads, but if the variable is bound in an
    outer scope only, the first is forgotten at the end of the innermost block. *)
Theorem C122_view_assignment_refuted : forall (V : Type) s ss g n (v w : V) block, block <> [] -> dict_get String.eqb s n = None ->
  dyn_get String.eqb (mkdst ss g) n = Ok w ->
  let d := mkdst (s :: ss) g in
  dyn_get String.eqb (view_setitem d n v) n = Ok v /\
  dyn_get String.eqb (block_exit (view_setitem d n v) block) n = Ok w /\
  exists d', dyn_set String.eqb d n v = Ok d' /\ dyn_get String.eqb (block_exit d' block) n = Ok v.
Proof.
  exact (fun V s ss g n v w b NB E G => conj (view_set_get _ n v)
    (conj (eq_trans (f_equal (fun d => dyn_get String.eqb d n) (view_set_exit s ss g n v b NB)) G) (dyn_set_exit s ss g n v w b NB E G))).
Qed.
Print Assumptions C122_view_assignment_refuted.

(** with dyn.let(a=1, b=2): with dyn.let(items=3, a=4): ..., with a default c. *)
Example C122_ex : let d := mkdst [[("items", 3); ("a", 4)]; [("a", 1); ("b", 2)]] [("c", 0)] in
  proper d /\ dyn_iter d = ["c"; "a"; "b"; "items"] /\ dyn_items d = Ok [("c", 0); ("a", 4); ("b", 2); ("items", 3)] /\
  dyn_getitem d "a" = Ok (Var 4) /\ dyn_getitem d "items" = Ok (Attr "items") /\ dyn_contains d "zzz" = Ok false /\ dyn_contains d "let" = Ok true /\
  dyn_len d = 4 /\ dyn_eq Nat.eqb d [("a", 4); ("b", 2); ("c", 0); ("items", 3)] = Ok true.
Proof. split; [repeat constructor; cbn; intuition discriminate|]. repeat split. Qed.
(** the three reads of the last theorem *)
Example C122_ex_view : let d := mkdst [[("y", 2)]; [("x", 1)]] [] in
  dict_get String.eqb [("y", 2)] "x" = None /\ dyn_get String.eqb (mkdst [[("x", 1)]] []) "x" = Ok 1.
Proof. repeat split. Qed.
