(** C100: the order of decorators. *)
From Coq Require Import String List Bool Arith ZArith Permutation Sorting.Sorted.
From Verif Require Import DecModel DecSpec DecProofs.
Import ListNotations.
Open Scope string_scope.
Open Scope list_scope.

(** The registry holds exactly what was registered, smallest priority first ... *)
Theorem C100_registry rs :
  Permutation (map (fun x => (pri x, nam x)) rs) (entries (after rs)) /\
  StronglySorted no_later (entries (after rs)) /\
  (forall x, In x (all_decorators (after rs)) <-> registered rs x) /\
  (forall x, In x (tco_decorators (after rs)) <-> exists p, In (p, true, x) rs).
Proof. exact (registry_ok rs). Qed.
Print Assumptions C100_registry.
(** ... whatever the order of the registrations was: the order in which modules are imported does
    not matter. *)
Theorem C100_import_order rs rs' : Permutation rs rs' ->
  entries (after rs) = entries (after rs').
Proof. exact (registry_order_irrelevant rs rs'). Qed.
Print Assumptions C100_import_order.

(** Everywhere in the code, the decorators of a lambda that has only known ones are put in the
    order of their priorities, the smallest outermost; nothing else changes. *)
Theorem C100_sort rs t : sorted_into rs t (sort_lambda_decorators (after rs) t).
Proof. exact (sorts rs t). Qed.
Print Assumptions C100_sort.
Example C100_sort_example :
  sort_lambda_decorators (after builtin)
    (Call (Name "call_ec") [Call (Name "curry") [Call (Name "trampolined") [Lam ["ec"]
       (Call (Name "memoize") [Call (Call (Name "namelambda") [Name "n"]) [Lam [] (Name "x")]])]]]) =
  Call (Name "curry") [Call (Name "trampolined") [Call (Name "call_ec") [Lam ["ec"]
       (Call (Call (Name "namelambda") [Name "n"]) [Call (Name "memoize") [Lam [] (Name "x")]])]]].
Proof. vm_compute. reflexivity. Qed.

(** Whether a lambda or a function has one of some decorators. *)
Theorem C100_has_lambda r names ds ps b : ds <> [] ->
  exists v, has_deco r names (decorate ds (Lam ps b)) = Some v /\
    (v = true <-> exists d x, In d ds /\ deco_name d = Some x /\ In x names).
Proof. exact (has_deco_chain r names ds ps b). Qed.
Print Assumptions C100_has_lambda.
Theorem C100_has_other r names t : (forall ds ps b, ds <> [] -> t <> decorate ds (Lam ps b)) ->
  has_deco r names t = None.
Proof. exact (has_deco_none r names t). Qed.
Print Assumptions C100_has_other.
Theorem C100_has_def names l :
  has_deco_def names l = true <-> exists d x, In d l /\ deco_name d = Some x /\ In x names.
Proof. exact (has_deco_def_ok names l). Qed.
Print Assumptions C100_has_def.

(** A decorator that a macro adds to a function whose known decorators are in order goes to its
    place among them.  (Partial: decorators with arguments are not looked at, see below.) *)
Theorem C100_insert_partial rs x l k p : ordered rs l -> highest rs x p ->
  suggest_decorator_index (after rs) x l = Some k -> fits rs p k l.
Proof. exact (suggest_fits rs x l k p). Qed.
Print Assumptions C100_insert_partial.
(** No place is suggested only for an unknown decorator, or if there are no known ones. *)
Theorem C100_none rs x l : suggest_decorator_index (after rs) x l = None ->
  ~ registered rs x \/ (forall d y, In d l -> plain_name d = Some y -> ~ registered rs y).
Proof. exact (suggest_none rs x l). Qed.
Print Assumptions C100_none.
Example C100_insert_example :
  let l := [Name "deco"; Name "memoize"; Name "other"; Name "fix"; Name "trampolined"] in
  suggest_decorator_index (after builtin) "fixtco" l = Some 3 /\
  suggest_decorator_index (after builtin) "curry" l = Some 0 /\
  suggest_decorator_index (after builtin) "call_ec" l = Some 5 /\
  suggest_decorator_index (after builtin) "deco" l = None.
Proof. vm_compute. repeat split. Qed.
Example C100_ordered_example : ordered builtin [Name "deco"; Name "memoize"; Name "trampolined"].
Proof.
  intros [|[|[|i]]] [|[|[|j]]] d d' x x' p p' Hij Hd Hd' Hx Hx' Hp Hp'; cbn in *; try discriminate;
    try (exfalso; revert Hij; apply Nat.nlt_ge; repeat apply le_n_S; apply Nat.le_0_l);
    try (destruct j; discriminate).
  - injection Hd as <-. injection Hx as <-. destruct Hp as ((t & H) & _). vm_compute in H.
    repeat (destruct H as [H|H]; [discriminate|]). destruct H.
  - injection Hd as <-. injection Hx as <-. destruct Hp as ((t & H) & _). vm_compute in H.
    repeat (destruct H as [H|H]; [discriminate|]). destruct H.
  - injection Hd as <-. injection Hx as <-. injection Hd' as <-. injection Hx' as <-.
    rewrite (highest_unique builtin "memoize" p 10%Z Hp) by (now apply builtin_highest).
    rewrite (highest_unique builtin "trampolined" p' 40%Z Hp') by (now apply builtin_highest).
    discriminate.
Qed.

(** If the decorators are not in order, there should be no suggestion; but there always is one,
    because the check looks at the running maxima, which are always in order ... *)
Theorem C100_check_refuted rs x l : registered rs x ->
  (exists d y, In d l /\ plain_name d = Some y /\ registered rs y) ->
  exists k, suggest_decorator_index (after rs) x l = Some k.
Proof. exact (suggest_known rs x l). Qed.
Print Assumptions C100_check_refuted.
(** ... and the place may be wrong. *)
Theorem C100_unordered_refuted : exists l x k p,
  l = [Name "trampolined"; Name "memoize"] /\ x = "valuify" /\ highest builtin x p /\
  suggest_decorator_index (after builtin) x l = Some k /\ ~ fits builtin p k l.
Proof. exact unordered_case. Qed.
Print Assumptions C100_unordered_refuted.
(** Decorators with arguments are not looked at: after @looped_over(xs), which should come later. *)
Theorem C100_parametric_refuted : exists l,
  l = [Name "curry"; Call (Name "looped_over") [Name "xs"]] /\
  suggest_decorator_index (after builtin) "valuify" l = Some 2 /\
  highest builtin "valuify" 30%Z /\ highest builtin "looped_over" 50%Z.
Proof. exact parametric_case. Qed.
Print Assumptions C100_parametric_refuted.
(** The decorator that autocurry adds to a lambda goes by the name curryf, which is not registered:
    a lambda with it is not sorted. *)
Theorem C100_curryf_refuted : exists t,
  t = Call (Name "trampolined") [Call (Name "memoize") [Call (Cap "curryf") [Lam ["x"] (Name "x")]]] /\
  sort_lambda_decorators (after builtin) t = t.
Proof. exact unknown_case. Qed.
Print Assumptions C100_curryf_refuted.

(** The decorators of the library that apply tail call optimization by themselves *)
Theorem C100_builtin_tco x : In x (tco_decorators (after builtin)) <->
  In x ["trampolined"; "fixtco"; "looped"; "breakably_looped"; "looped_over"; "breakably_looped_over"].
Proof. exact (builtin_tco x). Qed.
Print Assumptions C100_builtin_tco.
