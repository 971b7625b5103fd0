(** C103: let and do forms that are expanded already, and the views on them. *)
From Coq Require Import String List Bool Arith ZArith.
From Verif Require Import Base LvwModel LvxModel LvxSpec LvxProofs.
Import ListNotations.
Open Scope string_scope.
Open Scope list_scope.
Open Scope nat_scope.

(** * The macros, also with autocurry, make trees of the described forms *)
Definition curried_binding (b : string * tree) : string * tree := (fst b, autocurry (snd b)).
Theorem C103_made_let text m e bs body :
  let_tree false m e bs body (make_let text m e bs body) /\
  let_tree true m e (map curried_binding bs) (autocurry body) (autocurry (make_let text m e bs body)).
Proof. exact (conj (made_let text m e bs body) (made_let_c text m e bs body)). Qed.
Print Assumptions C103_made_let.
Theorem C103_made_dlet text m e bs :
  dlet_tree false m e bs (make_dlet text m e bs) /\
  dlet_tree true m e (map curried_binding bs) (autocurry (make_dlet text m e bs)).
Proof. exact (conj (made_dlet text m e bs) (made_dlet_c text m e bs)). Qed.
Print Assumptions C103_made_dlet.
Theorem C103_made_do text e items :
  do_tree false e items (make_do text e items) /\
  do_tree true e (map autocurry items) (autocurry (make_do text e items)).
Proof. exact (conj (made_do text e items) (made_do_c text e items)). Qed.
Print Assumptions C103_made_do.

(** * Reading: the view has the mode, the name of the environment, the bindings and the body *)
Theorem C103_read_let c m e bs body t : let_tree c m e bs body t ->
  exists v, xview_of t = Ok v /\ xtree v = t /\ xkind_of v = mkK c false (TStr m) /\ envname v = Some e /\
    xbindings v = Ok (TTup (map (shown m e) bs)) /\ xbody v = Ok (TLam [e] body).
Proof. exact (fun H => ex_intro _ _ (match let_read c m e bs body t H with conj A B => conj A (conj eq_refl (conj eq_refl (conj eq_refl B))) end)). Qed.
Print Assumptions C103_read_let.
(** A decorator has no body, and a view can tell the name of the environment from the bindings of a letrec
    only. *)
Theorem C103_read_dlet c m e bs t : dlet_tree c m e bs t ->
  exists v, xview_of t = Ok v /\ xtree v = t /\ xkind_of v = mkK c true (TStr m) /\
    envname v = (if String.eqb m "letrec" then match bs with [] => None | _ => Some e end else None) /\
    xbindings v = Ok (TTup (map (shown m e) bs)) /\ xbody v = Raise TypeError.
Proof. exact (fun H => ex_intro _ _ (match dlet_read c m e bs t H with conj A B => conj A (conj eq_refl (conj eq_refl (conj eq_refl B))) end)). Qed.
Print Assumptions C103_read_dlet.
Theorem C103_read_do c e items t : do_tree c e items t ->
  exists v, dview_of t = Ok v /\ dtree v = t /\ dcurried v = c /\ denvname v = match items with [] => None | _ => Some e end /\
    dbody v = Ok (map (fun i => TLam [e] i) items).
Proof. exact (fun H => ex_intro _ _ (match do_read c e items t H with conj A B => conj A (conj eq_refl (conj eq_refl (conj eq_refl B))) end)). Qed.
Print Assumptions C103_read_do.

(** * Writing: only the part that is assigned changes *)
(** The parameter [p] of the new lambda is replaced by the name of the environment. *)
Theorem C103_write_body c m e bs body t v p body' : let_tree c m e bs body t -> xview_of t = Ok v ->
  exists t', xset_body v (TLam [p] body') = Ok t' /\ let_tree c m e bs body' t'.
Proof. exact (write_body c m e bs body t v p body'). Qed.
Print Assumptions C103_write_body.
(** As many bindings as before: they replace the old ones; in a letrec each value is a lambda with one
    parameter, [ps] are these parameters.  Otherwise the assignment is rejected. *)
Theorem C103_write_bindings c m e bs body t v ps bs' : let_tree c m e bs body t -> xview_of t = Ok v -> length ps = length bs' ->
  let new := TTup (map (fun pb => shown m (fst pb) (snd pb)) (combine ps bs')) in
  if length bs' =? length bs then exists t', xset_bindings v new = Ok t' /\ let_tree c m e bs' body t'
  else xset_bindings v new = Raise NotImplementedError.
Proof. exact (write_bindings c m e bs body t v ps bs'). Qed.
Print Assumptions C103_write_bindings.
Theorem C103_write_bindings_decorator c m e bs t v ps bs' : dlet_tree c m e bs t -> xview_of t = Ok v -> length ps = length bs' ->
  let new := TTup (map (fun pb => shown m (fst pb) (snd pb)) (combine ps bs')) in
  if length bs' =? length bs then exists t', xset_bindings v new = Ok t' /\ dlet_tree c m e bs' t'
  else xset_bindings v new = Raise NotImplementedError.
Proof. exact (write_bindings_decorator c m e bs t v ps bs'). Qed.
Print Assumptions C103_write_bindings_decorator.
Theorem C103_write_do c e items t v ps items' : do_tree c e items t -> dview_of t = Ok v -> length ps = length items' ->
  let new := map (fun pi => TLam [fst pi] (snd pi)) (combine ps items') in
  if length items' =? length items then exists t', dset_body v new = Ok t' /\ do_tree c e items' t'
  else dset_body v new = Raise NotImplementedError.
Proof. exact (write_do c e items t v ps items'). Qed.
Print Assumptions C103_write_do.

(** Example: letrec[f := 1, g := e.f][e.g], with autocurry; the value of f and the body are replaced, with
    lambdas whose parameter has another name. *)
Definition text (n : nat) : string := if n =? 1 then "1" else "2".
Definition n (z : Z) := TConst z.
Definition rec0 := make_let text "letrec" "e3" [("f", n 1); ("g", TAttr (TName "e3") "f")] (TAttr (TName "e3") "g").
Example C103_ex :
  match xview_of (autocurry rec0) with
  | Ok v =>
      envname v = Some "e3" /\
      match xset_bindings v (TTup [TTup [TStr "f"; TLam ["e"] (n 2)]; TTup [TStr "g"; TLam ["e"] (TAttr (TName "e3") "f")]]) with
      | Ok t =>
          match xview_of t with
          | Ok v => xbody v = Ok (TLam ["e3"] (TAttr (TName "e3") "g")) /\
              xbindings v = Ok (TTup [TTup [TStr "f"; TLam ["e3"] (n 2)]; TTup [TStr "g"; TLam ["e3"] (TAttr (TName "e3") "f")]])
          | Raise _ => False
          end
      | Raise _ => False
      end
  | Raise _ => False
  end.
Proof. repeat split. Qed.

(** * What counts as expanded *)
(** Only calls by these names are taken for expanded forms *)
Theorem C103_only t : (forall k, xislet t = Ok (Some k) -> named_call "letter" t) /\
  (forall c, xisdo t = Ok (Some c) -> named_call "dof" t).
Proof. exact (conj (islet_only t) (isdo_only t)). Qed.
Print Assumptions C103_only.
(** but so are calls of functions or methods of the user that have these names: `dof(a, b)` is taken for a do,
    and for `obj.letter(a)` islet raises AssertionError. *)
Theorem C103_names_refuted : exists t1 t2,
  t1 = TCall (TName "dof") [TName "a"; TName "b"] [] /\ xisdo t1 = Ok (Some false) /\
  t2 = TCall (TAttr (TName "obj") "letter") [TName "a"] [] /\ xislet t2 = Raise AssertionError.
Proof. exact (ex_intro _ _ (ex_intro _ _ (conj eq_refl (conj eq_refl (conj eq_refl eq_refl))))). Qed.
Print Assumptions C103_names_refuted.

(** * What is rejected *)
(** A tree that is no call by these names has no view (for a call of currycall without arguments, which has no
    meaning, the exception is an IndexError). *)
Theorem C103_rejects t :
  (~ named_call "letter" t ->
   xview_of t = Raise TypeError \/ exists f kws, has_name "currycall" f /\ t = TCall f [] kws /\ xview_of t = Raise IndexError) /\
  (~ named_call "dof" t ->
   dview_of t = Raise TypeError \/ exists f kws, has_name "currycall" f /\ t = TCall f [] kws /\ dview_of t = Raise IndexError).
Proof. exact (conj (rejects_let t) (rejects_do t)). Qed.
Print Assumptions C103_rejects.
Theorem C103_rejects_body c m e bs body t v new : let_tree c m e bs body t -> xview_of t = Ok v -> no_lambda new -> xset_body v new = Raise TypeError.
Proof. exact (rejects_body c m e bs body t v new). Qed.
Print Assumptions C103_rejects_body.
Theorem C103_rejects_body_decorator c m e bs t v new : dlet_tree c m e bs t -> xview_of t = Ok v -> xset_body v new = Raise TypeError.
Proof. exact (rejects_body_decorator c m e bs t v new). Qed.
Print Assumptions C103_rejects_body_decorator.
(** New bindings are a tuple of pairs; of the right number, with constants for keys, and in a letrec with lambdas for
    values. *)
Theorem C103_rejects_bindings c m e bs body t v new : let_tree c m e bs body t -> xview_of t = Ok v ->
  ((forall nl, new = TTup nl -> ~ Forall pair_tree nl) -> xset_bindings v new = Raise TypeError) /\
  (forall nl, new = TTup nl -> Forall pair_tree nl -> length nl = length bs ->
     (~ Forall keyed nl -> xset_bindings v new = Raise TypeError) /\
     (m = "letrec" -> (forall a b, In (TTup [a; b]) nl -> lambda_with b \/ no_lambda b) -> (exists a b, In (TTup [a; b]) nl /\ no_lambda b) ->
      xset_bindings v new = Raise TypeError)).
Proof. exact (rejects_bindings c m e bs body t v new). Qed.
Print Assumptions C103_rejects_bindings.
Theorem C103_rejects_bindings_decorator c m e bs t v new : dlet_tree c m e bs t -> xview_of t = Ok v ->
  ((forall nl, new = TTup nl -> ~ Forall pair_tree nl) -> xset_bindings v new = Raise TypeError) /\
  (forall nl, new = TTup nl -> Forall pair_tree nl -> length nl = length bs ->
     (~ Forall keyed nl -> xset_bindings v new = Raise TypeError) /\
     (m = "letrec" -> (forall a b, In (TTup [a; b]) nl -> lambda_with b \/ no_lambda b) -> (exists a b, In (TTup [a; b]) nl /\ no_lambda b) ->
      xset_bindings v new = Raise TypeError)).
Proof. exact (rejects_bindings_decorator c m e bs t v new). Qed.
Print Assumptions C103_rejects_bindings_decorator.
Theorem C103_rejects_do_body c e items t v nl : do_tree c e items t -> dview_of t = Ok v -> length nl = length items ->
  Forall (fun t => lambda_with t \/ no_lambda t) nl -> Exists no_lambda nl -> dset_body v nl = Raise TypeError.
Proof. exact (rejects_do_body c e items t v nl). Qed.
Print Assumptions C103_rejects_do_body.
Example C103_rejects_ex : ~ named_call "letter" (TCall (TName "f") [TName "letter"] []) /\ no_lambda (TName "x") /\ lambda_with (TLam ["e"] (TName "x")) /\
  keyed (TTup [TStr "x"; TName "y"]) /\ ~ keyed (TTup [TName "x"; TName "y"]) /\ ~ pair_tree (TLst [TName "x"; TName "y"]).
Proof.
  repeat split.
  - intros H. inversion H; subst; match goal with H : has_name _ (TName "f") |- _ => inversion H end.
  - intros ps b E. discriminate.
  - exists "e", [], (TName "x"). reflexivity.
  - exists (TStr "x"), (TName "y"). split; [reflexivity|left; now exists "x"].
  - intros (a & b & E & [[x ->]|[z ->]]); discriminate.
  - intros (a & b & E). discriminate.
Qed.

(** * The names that the lambdas get *)
Theorem C103_labels text e :
  (forall bs body j x v, nth_error bs j = Some (x, v) ->
     exists bl, make_let text "letrec" e bs body = TCall (TCap "letter") [TTup bl; wrapped false "letrec_body" (TLam [e] body)] [("mode", TStr "letrec")] /\
       nth_error bl j = Some (TTup [TStr x; wrapped false ("letrec_binding" ++ text (S j) ++ "_" ++ x) (TLam [e] v)])) /\
  (forall items j t, nth_error items j = Some t ->
     exists l, make_do text e items = TCall (TCap "dof") l [] /\ nth_error l j = Some (wrapped false ("do_line" ++ text (S j)) (TLam [e] t))).
Proof. exact (labels text e). Qed.
Print Assumptions C103_labels.
