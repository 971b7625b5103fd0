(** C67 (arities) and the part of C33 (memoize) about which calls share a memo entry. *)
From Coq Require Import String List Bool ZArith Lia.
From Verif Require Import Base CollModel BindModel BindSpec BindProofs BindSeesProofs.
Import ListNotations.
Open Scope string_scope.
Open Scope list_scope.

(** ** C67 *)
(** arity_includes(f, n) holds iff [f] can be called with [n] positional arguments; for a
    bound method or classmethod, whose self or cls is passed first, the same. *)
Theorem C67_includes : forall (V : Type) (bound : bool) (ps : signature V) (self : V) (args : list V),
  wf_sig ps -> no_required_kwonly ps ->
  (arity_includes bound ps (zlen args) = true <->
   accepts ps (if bound then self :: args else args)).
Proof. exact @arity_includes_ok. Qed.
Print Assumptions C67_includes.

(** def f(a, b=0, /, c=0, *, d=0, **e) *)
Example C67_includes_case :
  let ps := [mkparam "a" PosOnly None; mkparam "b" PosOnly (Some 0); mkparam "c" PosOrKw (Some 0);
             mkparam "d" KwOnly (Some 0); mkparam "e" VarKw None] in
  wf_sig ps /\ no_required_kwonly ps /\
  map (fun n => arity_includes false ps n) [0; 1; 2; 3; 4]%Z = [false; true; true; true; false] /\
  map (fun n => arity_includes true ps n) [0; 1; 2; 3; 4]%Z = [true; true; true; false; false].
Proof.
  split; [|split; [|split; reflexivity]].
  - split; [reflexivity|]. repeat constructor; cbn; intuition congruence.
  - intros p H. cbn in H. intuition (subst; cbn in *; congruence).
Qed.

(** For a generic function, the range covers every multimethod. *)
Theorem C67_generic_covers : forall (V : Type) bound (methods : list (signature V)) ps n,
  In ps methods -> arity_includes bound ps n = true ->
  generic_arity_includes bound methods n = true.
Proof. exact @generic_covers. Qed.
Print Assumptions C67_generic_covers.
Example C67_generic_covers_case :
  generic_arities false [[mkparam "a" PosOrKw (None : option nat)];
                         [mkparam "a" PosOrKw None; mkparam "b" VarPos None]] = (Some 1%Z, None).
Proof. reflexivity. Qed.

(** But the converse of the claim fails for generic functions: multimethods of one and three
    parameters give a range that includes two. *)
Theorem C67_generic_exact_refuted :
  exists methods : list (signature nat),
    generic_arity_includes false methods 2 = true /\
    forall ps, In ps methods -> wf_sig ps /\ forall x y, ~ accepts ps [x; y].
Proof.
  exists [[mkparam "a" PosOrKw None];
          [mkparam "a" PosOrKw None; mkparam "b" PosOrKw None; mkparam "c" PosOrKw None]].
  split; [reflexivity|].
  intros ps [<- | [<- | []]]; (split; [split; [reflexivity | repeat constructor; cbn; intuition congruence]|]);
    intros x y [b H]; discriminate H.
Qed.
Print Assumptions C67_generic_exact_refuted.

(** For a bound method without an explicit self parameter, the lower end is negative. *)
Theorem C67_lower_refuted :
  exists ps : signature nat, wf_sig ps /\ no_required_kwonly ps /\
    fst (arities true ps) = (-1)%Z /\ accepts ps [0].
Proof.
  exists [mkparam "args" VarPos None].
  split; [split; [reflexivity | repeat constructor; cbn; intuition congruence]|].
  split; [intros p [<- | []]; discriminate|]. split; [reflexivity|].
  exists [("args", BTup [0])]. reflexivity.
Qed.
Print Assumptions C67_lower_refuted.

(** required_kwargs and optional_kwargs are the names of the keyword-only parameters without
    and with a default. *)
Theorem C67_kwargs : forall (V : Type) (optional : bool) (ps : signature V) n,
  In n (kwargs_of optional ps) <->
  exists p, In p ps /\ p_name p = n /\ p_kind p = KwOnly /\
            (if optional then p_default p <> None else p_default p = None).
Proof. exact @kwargs_of_ok. Qed.
Print Assumptions C67_kwargs.
Example C67_kwargs_case :
  let ps := [mkparam "a" PosOrKw None; mkparam "b" KwOnly None; mkparam "c" KwOnly (Some 1)] in
  kwargs_of false ps = ["b"] /\ kwargs_of true ps = ["c"].
Proof. split; reflexivity. Qed.

(** For a generic function they do not work: a multimethod with one keyword-only parameter
    [key] makes required_kwargs raise ValueError, and one with a keyword-only parameter [xy]
    gives a dict with the key [x]. *)
Theorem C67_generic_kwargs_refuted :
  generic_kwargs false [[mkparam "a" PosOrKw (None : option nat); mkparam "key" KwOnly None]]
    = Raise ValueError /\
  generic_kwargs false [[mkparam "a" PosOrKw (None : option nat); mkparam "xy" KwOnly None]]
    = Ok [("x", "y")].
Proof. split; reflexivity. Qed.
Print Assumptions C67_generic_kwargs_refuted.

(** ** C33: memo entries *)
(** Two calls have the same key only if the body would see the same arguments. *)
Theorem C33_key_sound : forall (V : Type) (ps : signature V) a1 k1 a2 k2 key,
  wf_sig ps -> is_dict k1 -> is_dict k2 ->
  memo_key ps a1 k1 = Ok key -> memo_key ps a2 k2 = Ok key ->
  seen_alike ps a1 k1 a2 k2.
Proof. exact @key_sound. Qed.
Print Assumptions C33_key_sound.

(** Two calls that bind the same parameters to the same values, positionally, by name or by
    default, share one entry.  Missing: functions with a **kwargs parameter (refuted below). *)
Theorem C33_key_shared_partial : forall (V : Type) (ps : signature V) a1 k1 a2 k2 key1 key2,
  wf_sig ps -> no_var_kw ps -> is_dict k1 -> is_dict k2 ->
  memo_key ps a1 k1 = Ok key1 -> memo_key ps a2 k2 = Ok key2 ->
  seen_alike ps a1 k1 a2 k2 -> key1 = key2.
Proof. exact @key_complete. Qed.
Print Assumptions C33_key_shared_partial.

(** def f(a, b=5, *c, d): f(1, d=2), f(1, 5, d=2) and f(d=2, a=1, b=5) share an entry *)
Example C33_key_case :
  let ps := [mkparam "a" PosOrKw None; mkparam "b" PosOrKw (Some 5); mkparam "c" VarPos None;
             mkparam "d" KwOnly None] in
  wf_sig ps /\ no_var_kw ps /\
  seen_alike ps [1] [("d", 2)] [] [("d", 2); ("a", 1); ("b", 5)] /\
  memo_key ps [1] [("d", 2)] = Ok [("a", TV 1); ("b", TV 5); ("c", TTup []); ("d", TV 2)] /\
  memo_key ps [1; 5] [("d", 2)] = memo_key ps [1] [("d", 2)] /\
  memo_key ps [] [("d", 2); ("a", 1); ("b", 5)] = memo_key ps [1] [("d", 2)] /\
  memo_key ps [1; 5; 6] [("d", 2)] <> memo_key ps [1] [("d", 2)].
Proof.
  split; [split; [reflexivity | repeat constructor; cbn; intuition congruence]|].
  split; [intros p H; cbn in H; intuition (subst; cbn in *; congruence)|].
  split; [repeat constructor|].
  repeat (split; [reflexivity|]). discriminate.
Qed.

(** With a **kwargs parameter, the order in which the names are written matters: f(x=1, y=2)
    and f(y=2, x=1) pass equal dicts but do not share an entry. *)
Theorem C33_key_order_refuted :
  exists (ps : signature nat) k1 k2 key1 key2,
    wf_sig ps /\ is_dict k1 /\ is_dict k2 /\
    memo_key ps [] k1 = Ok key1 /\ memo_key ps [] k2 = Ok key2 /\
    seen_alike ps [] k1 [] k2 /\ key1 <> key2.
Proof.
  exists [mkparam "kw" VarKw None], [("x", 1); ("y", 2)], [("y", 2); ("x", 1)].
  eexists _, _.
  split; [split; [reflexivity | repeat constructor; cbn; intuition congruence]|].
  split; [repeat constructor; cbn; intuition congruence|].
  split; [repeat constructor; cbn; intuition congruence|].
  split; [reflexivity|]. split; [reflexivity|]. split; [|discriminate].
  constructor; [|constructor]. split; [reflexivity|].
  intros n. change (kget [("x", 1); ("y", 2)] n = kget [("y", 2); ("x", 1)] n).
  unfold kget, dict_get.
  destruct (String.eqb_spec "x" n) as [E1 | E1], (String.eqb_spec "y" n) as [E2 | E2];
    try reflexivity. congruence.
Qed.
Print Assumptions C33_key_order_refuted.
