(** C102: the forms of let and do, and the views on them. *)
From Coq Require Import String List Bool Arith ZArith.
From Verif Require Import Base LvwModel LvwSpec LvwProofs.
Import ListNotations.
Open Scope string_scope.
Open Scope list_scope.
Open Scope nat_scope.

(** * Bindings *)
(** However the bindings are written, they are read as the list of pairs *)
Theorem C102_bindings ls bs es : keys_bindable ls bs -> written bs es -> canonize ls es = Ok (map tup bs).
Proof. exact (canonize_written ls bs es). Qed.
Print Assumptions C102_bindings.
(** and nothing else is accepted. *)
Theorem C102_bindings_only ls es r : canonize ls es = Ok r ->
  exists bs, written bs es /\ keys_bindable ls bs /\ r = map tup bs.
Proof. exact (canonize_sound ls es r). Qed.
Print Assumptions C102_bindings_only.

(** * The macros: each form has the bindings and the body that are written *)
(** In the forms with `in` and `where` templates cannot be bound. *)
Theorem C102_macro_partial ls bs body x k t :
  keys_bindable (ls && match k with KLispy => true | _ => false end) bs -> bs <> [] ->
  let_form false bs body x k t -> apply_let ls t = Ok (map tup bs, body).
Proof. exact (apply_form ls bs body x k t). Qed.
Print Assumptions C102_macro_partial.
(** Empty brackets or parentheses may come before the forms with `in` and `where`: let()[[x := 1] in x]. *)
Theorem C102_macro_empty ls bs body x k c m : keys_bindable false bs -> content bs body k c ->
  m = TSub (TName x) (TTup []) \/ (exists kws, m = TCall (TName x) [] kws) -> apply_let ls (TSub m c) = Ok (map tup bs, body).
Proof. exact (apply_empty ls bs body x k c m). Qed.
Print Assumptions C102_macro_empty.

Definition x := TName "x".
Definition y := TName "y".
Definition n (z : Z) := TConst z.
Definition bs0 : list (tree * tree) := [(x, n 1); (y, TShl x (n 2))].
(** let[x := 1, y << (x << 2)][body], let((x, 1), (y, x << 2))[body], let[[[x, 1], [y, x << 2]] in body],
    let[body, where(x := 1, y := x << 2)] *)
Definition body0 := TOther 0 [x; y].
Definition forms0 : list (kind * tree) :=
  [ (KLispy, TSub (TSub (TName "let") (TTup [TWal x (n 1); TShl y (TShl x (n 2))])) body0);
    (KLispy, TSub (TCall (TName "let") (map tup bs0) []) body0);
    (KIn, TSub (TName "let") (TCmp (TLst [TLst [x; n 1]; TLst [y; TShl x (n 2)]]) [OpIn] [body0]));
    (KWhere, TSub (TName "let") (TTup [body0; TCall (TName "where") [TWal x (n 1); TWal y (TShl x (n 2))] []])) ].
Example C102_ex_forms : keys_bindable false bs0 /\
  Forall (fun kt => let_form false bs0 body0 "let" (fst kt) (snd kt) /\ apply_let false (snd kt) = Ok (map tup bs0, body0)) forms0.
Proof.
  split; [repeat constructor|]. repeat apply Forall_cons; try apply Forall_nil; cbn [fst snd]; (split; [|reflexivity]).
  - constructor. eapply inv_brackets; [apply w_assign; repeat constructor; auto|constructor].
  - constructor. apply inv_parens. apply w_tuples.
  - constructor. constructor. apply (w_lists bs0).
  - constructor. constructor. apply inv_parens. apply w_assign. repeat constructor; auto.
Qed.
(** one binding: let[x := 1][x], let[x, 1][x], let[[x, 1]][x], let[(x, 1) in x] *)
Example C102_ex_one : Forall (fun t => apply_let false t = Ok ([TTup [x; n 1]], x))
  [ TSub (TSub (TName "let") (TWal x (n 1))) x; TSub (TSub (TName "let") (TTup [x; n 1])) x;
    TSub (TSub (TName "let") (TLst [x; n 1])) x; TSub (TName "let") (TCmp (TTup [x; n 1]) [OpIn] [x]) ].
Proof. repeat constructor. Qed.

(** By the documentation of let_syntax its alternative forms have the same bindings, but templates work
    only in the first: let_syntax[f(x) << 1][f(2)], and let_syntax[[f(x) << 1] in f(2)] *)
Definition template := (TCall (TName "f") [x] [], n 1).
Theorem C102_template_refuted : exists bs body t1 t2,
  keys_bindable true bs /\ let_form false bs body "let_syntax" KLispy t1 /\ let_form false bs body "let_syntax" KIn t2 /\
  apply_let true t1 = Ok (map tup bs, body) /\ apply_let true t2 = Raise SyntaxError.
Proof.
  exists [template], (TCall (TName "f") [n 2] []).
  exists (TSub (TSub (TName "let_syntax") (TShl (fst template) (snd template))) (TCall (TName "f") [n 2] [])).
  exists (TSub (TName "let_syntax") (TCmp (TLst [TShl (fst template) (snd template)]) [OpIn] [TCall (TName "f") [n 2] []])).
  split; [constructor; [apply bind_call; constructor|constructor]|]. split; [|split; [|split; reflexivity]].
  - constructor. eapply inv_brackets; [|apply br_one]. apply w_assign. constructor; [right; reflexivity|constructor].
  - constructor. constructor. apply w_assign. constructor; [right; reflexivity|constructor].
Qed.
Print Assumptions C102_template_refuted.
(** By the documentation the bindings can be in any of the formats, also `k := v` and `k << v`, "in any of
    these" forms; not so in the form with `in`: let[x << 1 in x] *)
Theorem C102_in_refuted : exists t, t = TSub (TName "let") (TCmp (TShl x (n 1)) [OpIn] [x]) /\
  apply_let false t = Raise TypeError /\ islet t = None.
Proof. eexists. repeat split. Qed.
Print Assumptions C102_in_refuted.

(** * UnexpandedLetView: reading *)
Theorem C102_read own bs body x k t : In x let_names -> keys_bindable false bs -> let_form own bs body x k t ->
  view t = Ok (mkU t k (Some x) true) /\ get_bindings (mkU t k (Some x) true) = Ok (map tup bs) /\
  get_body (mkU t k (Some x) true) = Ok body.
Proof. exact (form_read' own bs body x k t). Qed.
Print Assumptions C102_read.
(** just the part in the brackets *)
Theorem C102_read_content bs body k c : keys_bindable false bs -> content bs body k c ->
  view c = Ok (mkU c k None false) /\ get_bindings (mkU c k None false) = Ok (map tup bs) /\ get_body (mkU c k None false) = Ok body.
Proof. exact (content_read bs body k c). Qed.
Print Assumptions C102_read_content.
Theorem C102_read_decorator own bs x t : In x decorator_names -> keys_bindable false bs -> invoked own bs x t ->
  view t = Ok (mkU t KDecorator (Some x) true) /\ get_bindings (mkU t KDecorator (Some x) true) = Ok (map tup bs) /\
  get_body (mkU t KDecorator (Some x) true) = Raise TypeError.
Proof. exact (deco_read' own bs x t). Qed.
Print Assumptions C102_read_decorator.
(** Whatever has a view with bindings is one of these. *)
Theorem C102_only t v r : comparison_ok t -> view t = Ok v -> get_bindings v = Ok r ->
  exists bs, r = map tup bs /\ keys_bindable false bs /\
  match get_body v with
  | Ok b => (exists x, In x let_names /\ vmode v = Some x /\ let_form true bs b x (vkind v) t) \/
            (vmode v = None /\ content bs b (vkind v) t)
  | Raise _ => exists x, In x decorator_names /\ vmode v = Some x /\ vkind v = KDecorator /\ invoked true bs x t
  end.
Proof. exact (view_sound' t v r). Qed.
Print Assumptions C102_only.
(** By the documentation "When not available, ``body is None``"; it is a TypeError. *)
Theorem C102_no_body_refuted : exists t v, view t = Ok v /\ get_bindings v = Ok [TTup [x; n 1]] /\ get_body v = Raise TypeError.
Proof. exists (TSub (TName "dlet") (TWal x (n 1))). eexists. repeat split. Qed.
Print Assumptions C102_no_body_refuted.

(** * UnexpandedLetView: writing *)
(** After writing the bindings it is a let of the same form, with the new bindings and the old body. *)
Theorem C102_write_bindings py39 own bs body x k t bs' : let_form own bs body x k t ->
  exists t', set_bindings py39 (mkU t k (Some x) true) (map tup bs') = Ok t' /\ let_form false bs' body x k t'.
Proof. exact (set_bindings_form py39 own bs body x k t bs'). Qed.
Print Assumptions C102_write_bindings.
Theorem C102_write_bindings_content py39 bs body k c bs' : content bs body k c ->
  exists c', set_bindings py39 (mkU c k None false) (map tup bs') = Ok c' /\ content bs' body k c'.
Proof. exact (set_bindings_content py39 bs body k c bs'). Qed.
Print Assumptions C102_write_bindings_content.
Theorem C102_write_bindings_decorator py39 own bs x t bs' : invoked own bs x t ->
  exists t', set_bindings py39 (mkU t KDecorator (Some x) true) (map tup bs') = Ok t' /\ invoked false bs' x t'.
Proof. exact (set_bindings_deco py39 own bs x t bs'). Qed.
Print Assumptions C102_write_bindings_decorator.
(** After writing the body it has the new body; in `let[...][body]` with Python 3.9 or later only if the new
    body is not an attribute, subscript, assignment or constant. *)
Theorem C102_write_body_partial py39 own bs body x k t body' : let_form own bs body x k t ->
  k <> KLispy \/ py39 = false \/ has_value_field body' = false ->
  exists t', set_body py39 (mkU t k (Some x) true) body' = Ok t' /\ let_form own bs body' x k t'.
Proof. exact (set_body_form py39 own bs body x k t body'). Qed.
Print Assumptions C102_write_body_partial.
Theorem C102_write_body_content py39 bs body k c body' : content bs body k c ->
  exists c', set_body py39 (mkU c k None false) body' = Ok c' /\ content bs body' k c'.
Proof. exact (set_body_content py39 bs body k c body'). Qed.
Print Assumptions C102_write_body_content.
(** otherwise the new body becomes a part of itself: let[x := 1][x], with the body 2 *)
Theorem C102_write_body_refuted : exists t v t' body', view t = Ok v /\ vkind v = KLispy /\ get_body v = Ok x /\ body' = n 2 /\
  set_body true v body' = Ok t' /\ t' = TSub (TSub (TName "let") (TWal x (n 1))) TKnot.
Proof. exists (TSub (TSub (TName "let") (TWal x (n 1))) x). eexists. eexists. exists (n 2). repeat split. Qed.
Print Assumptions C102_write_body_refuted.
Example C102_ex_write : set_bindings true (mkU (TSub (TName "let") (TCmp (TLst [TWal x (n 1)]) [OpIn] [x])) KIn (Some "let") true) (map tup bs0) =
  Ok (TSub (TName "let") (TCmp (TTup (map tup bs0)) [OpIn] [x])).
Proof. reflexivity. Qed.

(** * UnexpandedEnvAssignView *)
Theorem C102_assign k v t : a_name k -> t = TWal k v \/ t = TShl k v ->
  assign_name t = Ok (name_of k) /\ assign_value t = Ok v /\
  (forall v', exists t', set_assign_value t v' = Ok t' /\ (t = TWal k v /\ t' = TWal k v' \/ t = TShl k v /\ t' = TShl k v')).
Proof. exact (assign_view k v t). Qed.
Print Assumptions C102_assign.
Theorem C102_assign_rename k v t x : (exists y, k = TName y \/ k = TDone (TName y)) -> t = TWal k v \/ t = TShl k v ->
  exists t' k', set_assign_name t x = Ok t' /\ (k' = TName x \/ k' = TDone (TName x)) /\
    (t = TWal k v /\ t' = TWal k' v \/ t = TShl k v /\ t' = TShl k' v) /\ assign_name t' = Ok (Some x) /\ assign_value t' = Ok v.
Proof. exact (assign_rename k v t x). Qed.
Print Assumptions C102_assign_rename.
Theorem C102_assign_only t p : assign_parts t = Ok p -> a_name (fst p) /\ (t = TWal (fst p) (snd p) \/ t = TShl (fst p) (snd p)).
Proof. exact (assign_only t p). Qed.
Print Assumptions C102_assign_only.

(** * UnexpandedDoView *)
Theorem C102_do py39 x l l' : x = "do" \/ x = "do0" ->
  do_get (TSub (TName x) (TTup l)) = Ok l /\ do_set py39 (TSub (TName x) (TTup l)) l' = Ok (TSub (TName x) (TTup l')) /\
  do_get (TLst l) = Ok l /\ do_set py39 (TLst l) l' = Ok (TLst l').
Proof. exact (do_views py39 x l l'). Qed.
Print Assumptions C102_do.
Theorem C102_do_only t l : do_get t = Ok l -> t = TLst l \/ exists x, In x ["do"; "do0"] /\ t = TSub (TName x) (TTup l).
Proof. exact (do_only t l). Qed.
Print Assumptions C102_do_only.

(** * What is rejected, and how *)
Theorem C102_rejects_bindings ls es : (forall bs, written bs es -> ~ keys_bindable ls bs) -> canonize ls es = Raise SyntaxError.
Proof. exact (rejects_bindings ls es). Qed.
Print Assumptions C102_rejects_bindings.
Theorem C102_rejects_view t e : view t = Raise e -> e = TypeError.
Proof. exact (rejects_view t e). Qed.
Print Assumptions C102_rejects_view.
Theorem C102_rejects_decorator_body py39 x t new : set_body py39 (mkU t KDecorator (Some x) true) new = Raise TypeError.
Proof. exact eq_refl. Qed.
Print Assumptions C102_rejects_decorator_body.
Theorem C102_rejects_assign t : (forall k v, a_name k -> t <> TWal k v /\ t <> TShl k v) ->
  assign_name t = Raise TypeError /\ assign_value t = Raise TypeError /\
  (forall x, set_assign_name t x = Raise TypeError) /\ (forall v, set_assign_value t v = Raise TypeError).
Proof. exact (rejects_assign t). Qed.
Print Assumptions C102_rejects_assign.
Theorem C102_rejects_do py39 t l' : (forall l, t <> TLst l) -> (forall x l, In x ["do"; "do0"] -> t <> TSub (TName x) (TTup l)) ->
  do_get t = Raise TypeError /\ do_set py39 t l' = Raise TypeError.
Proof. exact (rejects_do py39 t l'). Qed.
Print Assumptions C102_rejects_do.
Example C102_rejects_ex :
  canonize false [TConst 1] = Raise SyntaxError /\ view (TName "x") = Raise TypeError /\
  assign_name (TWal (TAttr (TName "x") "y") (TConst 1)) = Raise TypeError /\ do_get (TSub (TName "do") (TConst 1)) = Raise TypeError.
Proof. repeat split. Qed.
