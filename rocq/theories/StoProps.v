(** C124: the names that a statement binds, deletes or declares, and the names in scope. *)
From Coq Require Import String List Bool Arith.
From Verif Require Import Base StoModel StoSpec StoProofs.
Import ListNotations.
Open Scope string_scope.
Open Scope list_scope.

(** get_names_in_store_context finds exactly the names that a statement binds in its scope. *)
Theorem C124_store_partial : forall t, ordinary t -> exists l, stored t = Ok l /\ forall x, In (Some x) l <-> binds x t.
Proof. exact stored_exact. Qed.
Print Assumptions C124_store_partial.
(** That it finds no others needs no condition but for the dotted names of import. *)
Theorem C124_store_sound : forall t l x, within no_dots t -> stored t = Ok l -> In (Some x) l -> binds x t.
Proof. exact stored_sound. Qed.
Print Assumptions C124_store_sound.
(** It fails, with TypeError, for exactly the statements that have a pattern for a mapping or a class in
    them (other than in an inner scope). *)
Theorem C124_store_error : forall t e, stored t = Raise e <-> e = TypeError /\ ~ within no_patterns t.
Proof. exact stored_error. Qed.
Print Assumptions C124_store_error.
(** get_names_in_del_context finds exactly the names that are deleted, and collect_nonlocals and
    collect_globals together the names that are declared. *)
Theorem C124_del_partial : forall t, within no_handlers t -> forall x, In x (deleted t) <-> deletes x t.
Proof. exact deleted_exact. Qed.
Print Assumptions C124_del_partial.
Theorem C124_declared : forall t x, In x (nonlocals t ++ globals t) <-> declares x t.
Proof. exact declared_exact. Qed.
Print Assumptions C124_declared.
(** get_lexical_variables: a function's name, its parameters, and what its body binds, each once; and what
    its body declares. *)
Theorem C124_function_partial : forall f a o b, Forall ordinary b -> exists args nonlocs,
  get_lexical_variables (Def f a o b) true = Ok (args, nonlocs) /\ NoDup args /\ NoDup nonlocs /\
  (forall x, In (Some x) args <-> x = f \/ parameter x a \/ exists t, In t b /\ binds x t) /\
  (forall x, In x nonlocs <-> exists t, In t b /\ declares x t).
Proof. exact function_names. Qed.
Print Assumptions C124_function_partial.
Theorem C124_lambda : forall a o b c, exists args, get_lexical_variables (Lam a o b) c = Ok (map Some args, []) /\ NoDup args /\
  forall x, In x args <-> parameter x a.
Proof. exact lambda_names. Qed.
Print Assumptions C124_lambda.
(** The targets of a comprehension *)
Theorem C124_comprehension_partial : forall ts f r c, Forall (fun t => simple_target t /\ named_or_tuple t) ts -> exists args,
  get_lexical_variables (Comp ts f r) c = Ok (args, []) /\ NoDup args /\
  (forall x, In (Some x) args <-> exists t, In t ts /\ binds x t) /\ ~ In None args.
Proof. exact comp_names. Qed.
Print Assumptions C124_comprehension_partial.

(** An example:
<<
    def f(p, /, q, *r, s):
        global g
        try:
            import a.b as m, n
            from k import u as v
            for (i, *js) in p: w = (z := lambda y: y)
        except E as err: del w
        match q:
            case [c, *d] as whole: pass
        def h(): hidden = 1
        return [e for e in r]
>> *)
Definition st_ x := Node (KName Store x) [].
Definition ld x := Node (KName Load x) [].
Definition other l := Node KOther l.
Definition noargs := mkargs [] [] None [] None.
Definition body1 : list tree :=
  [Node (KGlobal ["g"]) [];
   Node (KTry [Some "err"])
     [Node (KImport false [("a.b", Some "m"); ("n", None)]) []; Node (KImport true [("u", Some "v")]) [];
      other [Node KTuple [st_ "i"; other [st_ "js"]]; ld "p";
             other [st_ "w"; Node KWalrus [st_ "z"; Lam (mkargs [] ["y"] None [] None) [] (ld "y")]]];
      other [ld "E"; other [Node (KName Del "w") []]]];
   other [ld "q"; Node (KMatchAs (Some "whole")) [other [Node (KMatchAs (Some "c")) []; Node (KMatchStar (Some "d")) []]]];
   Def "h" noargs [] [other [st_ "hidden"; other []]];
   other [Comp [st_ "e"] (ld "r") [ld "e"]]].
Example C124_ordinary : Forall ordinary body1.
Proof. apply ordinary_check. reflexivity. Qed.
Example C124_ex :
  get_lexical_variables (Def "f" (mkargs ["p"] ["q"] (Some "r") ["s"] None) [] body1) true =
    Ok (map Some ["f"; "q"; "s"; "p"; "r"; "err"; "m"; "n"; "v"; "i"; "js"; "w"; "z"; "whole"; "c"; "d"; "h"], ["g"]) /\
  flat_map deleted body1 = ["w"].
Proof. split; reflexivity. Qed.
Example C124_target_ex : let t := Node KTuple [st_ "i"; other [st_ "j"; other [st_ "k"]]] in
  simple_target t /\ named_or_tuple t /\ get_lexical_variables (Comp [t; st_ "i"] (ld "l") []) true = Ok ([Some "i"; Some "j"; Some "k"], []).
Proof. split; [repeat (constructor; auto)|split; [exact Logic.I|reflexivity]]. Qed.
Example C124_handlers_ex : within no_handlers (other [other [Node (KName Del "w") []]; Node (KTry [None]) []]).
Proof. repeat (constructor; auto). intros x [E|[]]; discriminate. Qed.

(** ** Where it is different *)
(** [import a.b] binds a, not "a.b". *)
Theorem C124_import_refuted : exists t, stored t = Ok [Some "a.b"] /\ binds "a" t /\ ~ binds "a.b" t.
Proof. exact import_case. Qed.
Print Assumptions C124_import_refuted.
(** A handler without a name: None is among the names. *)
Theorem C124_handler_refuted : exists t l, stored t = Ok l /\ In None l.
Proof. exact handler_case. Qed.
Print Assumptions C124_handler_refuted.
(** [[y := x for x in xs]] binds y, and so does [def f(x=(y := 1)): ...]; both are missed. *)
Theorem C124_walrus_refuted : exists t u, stored t = Ok [] /\ binds "y" t /\ stored u = Ok [Some "f"] /\ binds "y" u.
Proof. exact walrus_case. Qed.
Print Assumptions C124_walrus_refuted.
(** [case {"k": x}:] and [case C(x):] bind x, but raise TypeError. *)
Theorem C124_match_refuted : exists t u, stored t = Raise TypeError /\ binds "x" t /\ stored u = Raise TypeError /\ binds "x" u.
Proof. exact match_case. Qed.
Print Assumptions C124_match_refuted.
(** The name of a handler is deleted at its end, which is missed. *)
Theorem C124_del_refuted : exists t, deletes "err" t /\ deleted t = [].
Proof. exact del_case. Qed.
Print Assumptions C124_del_refuted.
(** The two lists of get_lexical_variables are not disjoint, although documented so: [nonlocal x; x = 1]. *)
Theorem C124_nonlocal_refuted : exists f args nonlocs, get_lexical_variables f true = Ok (args, nonlocs) /\ In (Some "x") args /\ In "x" nonlocs.
Proof. exact nonlocal_case. Qed.
Print Assumptions C124_nonlocal_refuted.
(** [[a for [a, b] in l]] is refused, and [[... for (o.a, b) in l]] is said to bind o. *)
Theorem C124_target_refuted : exists t u,
  binds "a" t /\ get_lexical_variables (Comp [t] (ld "l") [ld "a"]) true = Raise SyntaxError /\
  (forall x, binds x u -> x = "b") /\ get_lexical_variables (Comp [u] (ld "l") []) true = Ok ([Some "o"; Some "b"], []).
Proof. exact target_case. Qed.
Print Assumptions C124_target_refuted.
