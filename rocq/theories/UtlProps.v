(** C139: what the traversals of syntax/util.py find and change *)
From Coq Require Import String List Bool Arith.
From Verif Require Import Base UtlModel UtlSpec UtlProofs.
Import ListNotations.
Open Scope string_scope.
Open Scope list_scope.
Open Scope nat_scope.

(** detect_callec gives the three fixed names and the first parameters of the functions that call_ec is applied to where
    they are made, as a decorator of a def or, perhaps among others, around a lambda; anywhere in the tree; and no others. *)
Theorem C139_callec : forall t l, detect_callec t = Ok l ->
  forall x, In x l <-> In x ["ec"; "brk"; "throw"] \/ exists s ps, part s t /\ escapes s (x :: ps).
Proof. exact detect_callec_spec. Qed.
Print Assumptions C139_callec.
(** It fails, with an IndexError, exactly if such a function has no plain positional parameter. *)
Theorem C139_callec_fails : forall t y, detect_callec t = Raise y <-> y = IndexError /\ exists s, part s t /\ escapes s [].
Proof. exact detect_callec_fails. Qed.
Print Assumptions C139_callec_fails.
(** A call is taken for one of an escape continuation exactly if it is by such a name, not as an attribute. *)
Theorem C139_isec : forall t known, isec t known = true <-> exists f args kws x, t = Call f args kws /\ bare x f /\ In x known.
Proof. exact isec_spec. Qed.
Print Assumptions C139_isec.

(** detect_lambda gives the lambdas that were there before do[] forms were expanded, each once, from left to right and
    outermost first; whether or not the expanded forms are inside of autocurry. *)
Theorem C139_lambdas : forall t t', plain t -> expanded t t' -> detect_lambda t' = Ok (lambdas t).
Proof. exact lambdas_found. Qed.
Print Assumptions C139_lambdas.
Theorem C139_lambdas_all : forall t i, In i (lambdas t) <-> exists ps ds b, part (Lam i ps ds b) t.
Proof. exact lambdas_in. Qed.
Print Assumptions C139_lambdas_all.
(** Not so for all trees: `mesh.dof(x)`, a method of that name, makes it fail, and in `f(lambda: x).dof()` the lambda is not found. *)
Theorem C139_dof_refuted :
  (exists t, detect_lambda t = Raise AttributeError) /\
  (exists t i, In i (lambdas t) /\ detect_lambda t = Ok []).
Proof.
  split; [exists (Call (Attr (Name "mesh") "dof") [Name "x"] []); reflexivity|].
  exists (Call (Attr (Call (Name "f") [Lam 7 [] [] (Name "x")] []) "dof") [] []), 7. split; [cbn; auto | reflexivity].
Qed.
Print Assumptions C139_dof_refuted.

(** transform_statements calls [f] once for each statement of the body, inner ones before those they are in, from left to
    right, and for nothing else: not for what [f] returned. *)
Theorem C139_once : forall (W : Type) (f : tree -> W -> list tree * W) (body : list tree) w log,
  transform_statements (noting f) body (w, log) =
    (fst (transform_statements f body w), (snd (transform_statements f body w), log ++ flat_map postorder body)).
Proof. exact @statements_log. Qed.
Print Assumptions C139_once.
(** If [f] makes good statements of a statement whose inner ones are good, all statements are good in the end, at any depth. *)
Theorem C139_good : forall (W : Type) (f : tree -> W -> list tree * W) (good : tree -> Prop),
  (forall t w, is_stmt t = true ->
     (forall c, In c (children t) -> forall s, part s c -> is_stmt s = true -> good s) ->
     Forall (fun x => forall s, part s x -> is_stmt s = true -> good s) (fst (f t w))) ->
  forall body w, Forall wf body ->
  Forall (fun x => forall s, part s x -> is_stmt s = true -> good s) (fst (transform_statements f body w)).
Proof. exact @statements_good. Qed.
Print Assumptions C139_good.
(** What [f] leaves as it is stays as it is; in particular, expressions. *)
Theorem C139_same : forall (W : Type) (f : tree -> W -> list tree * W) (body : list tree) w,
  (forall t s, In t body -> part s t -> is_stmt s = true -> forall w, f s w = ([s], w)) ->
  transform_statements f body w = (body, w).
Proof. exact @statements_same. Qed.
Print Assumptions C139_same.

(** call_ec as a decorator, around a lambda, among other decorators, in each other *)
Example C139_callec_ex :
  let t := Node true 0 [[Fun 1 ["k"; "x"] [] [Call (Name "f") [Call (Attr (Name "unpythonic") "call_ec") [Call (Name "trampolined") [Lam 1 ["out"] [] (Name "x")] []] []] []] [Name "curry"; Done (Name "call_ec")]];
                        [Call (Name "call_ec") [Name "g"] []; Call (Name "g") [Lam 2 ["no"] [] (Name "x")] []]] in
  detect_callec t = Ok ["ec"; "brk"; "throw"; "k"; "out"; "out"] /\
  isec (Call (Name "out") [] []) ["ec"; "out"] = true /\ isec (Call (Attr (Name "m") "out") [] []) ["ec"; "out"] = false.
Proof. repeat split. Qed.
Example C139_callec_fails_ex : detect_callec (Call (Name "call_ec") [Lam 0 [] [] (Name "x")] []) = Raise IndexError.
Proof. reflexivity. Qed.
(** A do in a do, one of them inside of autocurry *)
Example C139_lambdas_ex :
  let t := Fun 0 [] [Lam 1 ["x"] [] (Name "x")] [Do [Lam 2 [] [Name "d"] (Do [Lam 3 ["e"] [] (Name "e"); Name "z"]); Call (Name "g") [Name "y"] []]] [] in
  let t' := Fun 0 [] [Lam 1 ["x"] [] (Name "x")]
    [do_call false [wrapped false (Name "l1") (Lam 10 ["e"] [] (Lam 2 [] [Name "d"] (do_call true [wrapped true (Name "l2") (Lam 11 ["e"] [] (Lam 3 ["e"] [] (Name "e"))); wrapped true (Name "l3") (Lam 12 ["e"] [] (Name "z"))])));
                    wrapped false (Name "l4") (Lam 13 ["e"] [] (Call (Name "g") [Name "y"] []))]] [] in
  plain t /\ expanded t t' /\ detect_lambda t' = Ok [1; 2; 3].
Proof.
  split; [|split; [|reflexivity]].
  - repeat (apply plain_intro; [try exact I; split; reflexivity | cbn [children app concat]; repeat (apply Forall_cons || apply Forall_nil)]).
  - repeat first [apply (x_do false) | apply (x_do true) | apply (xn_cons false) | apply (xn_cons true) | constructor].
Qed.
(** Statements with an even number are dropped, the others doubled *)
Definition halve (t : tree) (w : nat) : list tree * nat := if Nat.even (number t) then ([], S w) else ([t; t], S w).
Example C139_once_ex :
  let body := [Node true 1 [[Name "x"]; [Node true 2 [[Node true 3 []]]; Node true 5 []]]; Fun 4 [] [] [Node true 7 []] []] in
  transform_statements (noting halve) body (0, []) =
    ([Node true 1 [[Name "x"]; [Node true 5 []; Node true 5 []]]; Node true 1 [[Name "x"]; [Node true 5 []; Node true 5 []]]], (6, [3; 2; 5; 1; 7; 4])).
Proof. reflexivity. Qed.
Example C139_good_ex :
  (forall t w, is_stmt t = true ->
     (forall c, In c (children t) -> forall s, part s c -> is_stmt s = true -> Nat.even (number s) = false) ->
     Forall (fun x => forall s, part s x -> is_stmt s = true -> Nat.even (number s) = false) (fst (halve t w))) /\
  Forall wf [Node true 1 [[Name "x"]; [Node true 2 []]]].
Proof.
  split; [|repeat constructor]. intros t w St G. unfold halve. destruct (Nat.even (number t)) eqn:E; cbn; [constructor|].
  assert (A : forall s, part s t -> is_stmt s = true -> Nat.even (number s) = false) by (intros s P S1; inversion P; subst; eauto).
  repeat constructor; exact A.
Qed.
Example C139_same_ex : transform_statements (fun t w => if number t =? 9 then ([], S w) else ([t], w)) [Fun 1 [] [] [Node true 2 [[Name "x"]]] [Name "d"]] 0 = ([Fun 1 [] [] [Node true 2 [[Name "x"]]] [Name "d"]], 0).
Proof. reflexivity. Qed.
