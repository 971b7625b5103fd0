(** Proofs about expanded let and do forms. *)
From Coq Require Import String List Bool Arith Lia.
From Verif Require Import Base BaseProofs LvwModel LvxModel LvxSpec.
Import ListNotations.
Open Scope string_scope.
Open Scope list_scope.
Open Scope nat_scope.

Definition cb (b : string * tree) : string * tree := (fst b, autocurry (snd b)).
Section Made.
Variable text : nat -> string.
Lemma made_bindings m e bs : forall j, Forall2 (binding_tree false m e) bs
  (map (fun jb => let '(j, (x, v)) := jb in
     TTup [TStr x; if String.eqb m "letrec" then named ("letrec_binding" ++ text j ++ "_" ++ x) (TLam [e] v) else v]) (number j bs)).
Proof.
  induction bs as [|[x v] bs IH]; intros j; cbn; constructor; [|apply IH]. unfold binding_tree. destruct (String.eqb m "letrec"); [|reflexivity].
  eexists. reflexivity.
Qed.
Lemma made_bindings_c m e bs : forall j, Forall2 (binding_tree true m e) (map cb bs)
  (map autocurry (map (fun jb => let '(j, (x, v)) := jb in
     TTup [TStr x; if String.eqb m "letrec" then named ("letrec_binding" ++ text j ++ "_" ++ x) (TLam [e] v) else v]) (number j bs))).
Proof.
  induction bs as [|[x v] bs IH]; intros j; cbn [number map]; constructor; [|apply IH]. unfold binding_tree, cb. cbn [fst snd autocurry map].
  destruct (String.eqb m "letrec"); [|reflexivity]. eexists. reflexivity.
Qed.
Lemma made_let m e bs body : let_tree false m e bs body (make_let text m e bs body).
Proof. eexists. eexists. split; [apply (made_bindings m e bs 1)|reflexivity]. Qed.
Lemma made_let_c m e bs body : let_tree true m e (map cb bs) (autocurry body) (autocurry (make_let text m e bs body)).
Proof. eexists. eexists. split; [apply (made_bindings_c m e bs 1)|reflexivity]. Qed.
Lemma made_dlet m e bs : dlet_tree false m e bs (make_dlet text m e bs).
Proof. eexists. split; [apply (made_bindings m e bs 1)|reflexivity]. Qed.
Lemma made_dlet_c m e bs : dlet_tree true m e (map cb bs) (autocurry (make_dlet text m e bs)).
Proof. eexists. split; [apply (made_bindings_c m e bs 1)|reflexivity]. Qed.
Lemma made_do e items : do_tree false e items (make_do text e items).
Proof.
  unfold do_tree, make_do. eexists. split; [|reflexivity]. generalize 1. induction items as [|t items IH]; intros j; constructor; [|apply IH]. eexists. reflexivity.
Qed.
Lemma made_do_c e items : do_tree true e (map autocurry items) (autocurry (make_do text e items)).
Proof.
  unfold do_tree, make_do. eexists. split; [|reflexivity]. generalize 1. induction items as [|t items IH]; intros j; constructor; [|apply IH]. eexists. reflexivity.
Qed.
End Made.

(** ** Reading *)
Definition xk (c d : bool) (m : string) : xkind := mkK c d (TStr m).
Lemma lambda_wrapped c label lam : the_lambda (mkK c false (TStr "")) (wrapped c label lam) = Ok lam.
Proof. destruct c; reflexivity. Qed.
Lemma the_lambda_eq k v : the_lambda k v = the_lambda (mkK (curried k) false (TStr "")) v.
Proof. reflexivity. Qed.
Lemma bindings_map c d m e bs bl : Forall2 (binding_tree c m e) bs bl -> String.eqb m "letrec" = true ->
  map_outcome (fun b => do bl <- elts b ; do kv <- two bl ; do lam <- the_lambda (xk c d m) (snd kv) ; Ok (TTup [fst kv; lam])) bl =
  Ok (map (shown m e) bs).
Proof.
  intros F M. induction F as [|b t bs bl H F IH]; [reflexivity|]. cbn [map_outcome map]. unfold binding_tree in H. rewrite M in H. destruct H as [label ->].
  cbn [elts obind two snd fst]. rewrite the_lambda_eq. cbn [curried xk]. rewrite lambda_wrapped. cbn [obind]. rewrite IH. unfold shown. now rewrite M.
Qed.
Lemma bindings_plain c m e bs bl : Forall2 (binding_tree c m e) bs bl -> String.eqb m "letrec" = false -> bl = map (shown m e) bs.
Proof.
  intros F M. induction F as [|b t bs bl H F IH]; [reflexivity|]. cbn [map]. unfold binding_tree in H. rewrite M in H. rewrite <- IH. unfold shown at 1. rewrite M. now rewrite H.
Qed.
Lemma called_bindings c d m f x l kws : thebindings (xk c d m) (called c f (x :: l) kws) = Ok x.
Proof. destruct c; reflexivity. Qed.
Lemma get_bindings_of c d m e bs bl l kws : Forall2 (binding_tree c m e) bs bl ->
  xget_bindings (xk c d m) (called c "letter" (TTup bl :: l) kws) = Ok (TTup (map (shown m e) bs)).
Proof.
  intros F. unfold xget_bindings. rewrite called_bindings. cbn [obind]. unfold is_letrec. cbn [mode xk]. destruct (String.eqb m "letrec") eqn:M.
  - cbn [elts obind]. rewrite (bindings_map c d m e bs bl F M). reflexivity.
  - now rewrite (bindings_plain c m e bs bl F M).
Qed.
Lemma let_islet c m e bs body t : let_tree c m e bs body t -> xislet t = Ok (Some (xk c false m)).
Proof. intros (bl & label & F & ->). destruct c; reflexivity. Qed.
Lemma dlet_islet c m e bs t : dlet_tree c m e bs t -> xislet t = Ok (Some (xk c true m)).
Proof. intros (bl & F & ->). destruct c; reflexivity. Qed.
Lemma let_body c m e bs body t : let_tree c m e bs body t -> xget_body (xk c false m) t = Ok (TLam [e] body).
Proof. intros (bl & label & F & ->). destruct c; reflexivity. Qed.
Lemma let_read c m e bs body t : let_tree c m e bs body t ->
  xview_of t = Ok (mkX t (xk c false m) (Some e)) /\
  xbindings (mkX t (xk c false m) (Some e)) = Ok (TTup (map (shown m e) bs)) /\
  xbody (mkX t (xk c false m) (Some e)) = Ok (TLam [e] body).
Proof.
  intros L. split; [|split].
  - unfold xview_of. rewrite (let_islet _ _ _ _ _ _ L). cbn [obind]. unfold xenvname. rewrite (let_body _ _ _ _ _ _ L). reflexivity.
  - destruct L as (bl & label & F & ->). unfold xbindings. cbn [xkind_of xtree]. now apply get_bindings_of.
  - exact (let_body _ _ _ _ _ _ L).
Qed.
Lemma dlet_read c m e bs t : dlet_tree c m e bs t ->
  let v := mkX t (xk c true m) (if String.eqb m "letrec" then match bs with [] => None | _ => Some e end else None) in
  xview_of t = Ok v /\ xbindings v = Ok (TTup (map (shown m e) bs)) /\ xbody v = Raise TypeError.
Proof.
  intros L v. assert (B : xget_bindings (xk c true m) t = Ok (TTup (map (shown m e) bs))).
  { destruct L as (bl & F & ->). now apply get_bindings_of. }
  split; [|split; [exact B|reflexivity]]. unfold xview_of. rewrite (dlet_islet _ _ _ _ _ L). cbn [obind]. unfold xenvname. cbn [xget_body decorator xk obind].
  unfold is_letrec. cbn [mode xk]. subst v. destruct (String.eqb m "letrec") eqn:M; [|reflexivity]. fold (xk c true m). rewrite B. cbn [obind elts].
  destruct bs as [|b bs]; [reflexivity|]. cbn [map]. unfold shown at 1. rewrite M. reflexivity.
Qed.
Lemma do_get_lambdas c e items l : Forall2 (fun item x => exists label, x = wrapped c label (TLam [e] item)) items l ->
  map_outcome (item_lambda c) l = Ok (map (fun i => TLam [e] i) items).
Proof.
  induction 1 as [|i x items l [label ->] F IH]; [reflexivity|]. cbn [map_outcome map].
  assert (E : item_lambda c (wrapped c label (TLam [e] i)) = Ok (TLam [e] i)) by (destruct c; reflexivity). rewrite E. cbn [obind]. now rewrite IH.
Qed.
Lemma do_body_of c e items t : do_tree c e items t -> xdo_body c t = Ok (map (fun i => TLam [e] i) items).
Proof.
  intros (l & F & ->). unfold xdo_body. assert (E : do_items c (called c "dof" l []) = Ok l) by (destruct c; reflexivity). rewrite E. cbn [obind]. now apply do_get_lambdas.
Qed.
Lemma do_read c e items t : do_tree c e items t ->
  let v := mkD t c (match items with [] => None | _ => Some e end) in
  dview_of t = Ok v /\ dbody v = Ok (map (fun i => TLam [e] i) items).
Proof.
  intros D v. split; [|exact (do_body_of _ _ _ _ D)]. unfold dview_of.
  assert (E : xisdo t = Ok (Some c)) by (destruct D as (l & F & ->); destruct c; reflexivity). rewrite E. cbn [obind].
  unfold xdo_envname. rewrite (do_body_of _ _ _ _ D). subst v. destruct items; reflexivity.
Qed.

(** ** Writing *)
Lemma let_set_body c m e bs body t p body' : let_tree c m e bs body t ->
  exists t', xset_body (mkX t (xk c false m) (Some e)) (TLam [p] body') = Ok t' /\ let_tree c m e bs body' t'.
Proof.
  intros (bl & label & F & ->). destruct c; cbn; eexists; (split; [reflexivity|]); exists bl, label; (split; [assumption|reflexivity]).
Qed.
Lemma replace_wrapped c label lam lam' : replace_lambda c lam' (wrapped c label lam) = Ok (wrapped c label lam').
Proof. destruct c; reflexivity. Qed.
Lemma relabel_wrapped c label lam x : relabel c x (wrapped c label lam) = Ok (wrapped c ("letrec_binding_" ++ x) lam).
Proof. destruct c; reflexivity. Qed.
Lemma set_rec_spec c d m e : String.eqb m "letrec" = true -> forall bs bl, Forall2 (binding_tree c m e) bs bl -> forall ps bs',
  length bs' = length bs -> length ps = length bs' ->
  exists r, set_rec (xk c d m) (Some e) bl (map (fun pb => shown m (fst pb) (snd pb)) (combine ps bs')) = Ok r /\ Forall2 (binding_tree c m e) bs' r.
Proof.
  intros M bs bl F. induction F as [|b t bs bl H F IH]; intros ps bs' L1 L2.
  - destruct bs'; [|discriminate L1]. destruct ps; [|discriminate L2]. exists []. split; [reflexivity|constructor].
  - destruct bs' as [|b' bs']; [discriminate L1|]. destruct ps as [|p ps]; [discriminate L2|].
    destruct (IH ps bs') as (r & E & G); [cbn in L1; lia|cbn in L2; lia|].
    unfold binding_tree in H. rewrite M in H. destruct H as [label ->].
    exists (TTup [TStr (fst b'); wrapped c ("letrec_binding_" ++ fst b') (TLam [e] (snd b'))] :: r). split.
    + cbn [combine map set_rec fst snd elts two obind]. unfold shown at 1. rewrite M. cbn [elts two obind snd fst inject].
      change (curried (xk c d m)) with c. rewrite replace_wrapped. cbn [obind const_text]. rewrite relabel_wrapped. cbn [obind]. rewrite E. reflexivity.
    + constructor; [|assumption]. unfold binding_tree. rewrite M. eauto.
Qed.
Lemma shown_pairs m ps bs : forallb is_pair_tuple (map (fun pb => shown m (fst pb) (snd pb)) (combine ps bs)) = true.
Proof. apply forallb_forall. intros x I. apply in_map_iff in I as (b & <- & _). reflexivity. Qed.
Lemma shown_consts m ps bs : forallb (fun b => match b with TTup (k :: _) => is_const k | _ => false end) (map (fun pb => shown m (fst pb) (snd pb)) (combine ps bs)) = true.
Proof. apply forallb_forall. intros x I. apply in_map_iff in I as (b & <- & _). reflexivity. Qed.
Lemma set_bindings_any c d m e en bs bl l kws ps bs' : Forall2 (binding_tree c m e) bs bl ->
  (String.eqb m "letrec" = true -> bs <> [] -> en = Some e) -> length ps = length bs' ->
  let v := mkX (called c "letter" (TTup bl :: l) kws) (xk c d m) en in
  let new := TTup (map (fun pb => shown m (fst pb) (snd pb)) (combine ps bs')) in
  if length bs' =? length bs
  then exists r, xset_bindings v new = Ok (called c "letter" (TTup r :: l) kws) /\ Forall2 (binding_tree c m e) bs' r
  else xset_bindings v new = Raise NotImplementedError.
Proof.
  intros F En L2 v new. unfold xset_bindings. subst v new. cbv beta iota zeta. rewrite shown_pairs. cbn [negb]. unfold xbindings. cbn [xkind_of xtree].
  rewrite (get_bindings_of c d m e bs bl l kws F). cbn [obind elts].
  replace (length (map (fun pb => shown m (fst pb) (snd pb)) (combine ps bs'))) with (length bs') by (rewrite map_length, combine_length; lia).
  rewrite map_length. destruct (length bs' =? length bs) eqn:L; [|reflexivity]. cbn [negb]. apply Nat.eqb_eq in L.
  rewrite shown_consts, called_bindings. cbn [negb obind elts]. unfold is_letrec. cbn [mode xk envname].
  assert (P : forall x, put_arg (if c then 1 else 0) x (called c "letter" (TTup bl :: l) kws) = Ok (called c "letter" (x :: l) kws)) by (intros; destruct c; reflexivity).
  destruct (String.eqb m "letrec") eqn:M.
  - assert (S : exists r, set_rec (xk c d m) en bl (map (fun pb => shown m (fst pb) (snd pb)) (combine ps bs')) = Ok r /\ Forall2 (binding_tree c m e) bs' r).
    { destruct bs as [|b bs].
      - inversion F; subst. destruct bs'; [|discriminate L]. exists []. split; [reflexivity|constructor].
      - rewrite (En eq_refl) by discriminate. now apply (set_rec_spec c d m e M (b :: bs)). }
    destruct S as (r & E & G). exists r. fold (xk c d m). rewrite E. cbn [obind curried xk]. rewrite P. auto.
  - cbn [obind curried]. rewrite P. eexists. split; [reflexivity|].
    clear - M L2. revert ps L2. induction bs' as [|b bs' IH]; intros ps L2; destruct ps as [|p ps]; try discriminate L2; [constructor|].
    cbn [combine map]. constructor; [|apply IH; now injection L2]. unfold binding_tree. rewrite M. unfold shown. cbn [fst snd]. now rewrite M.
Qed.
Lemma let_set_bindings c m e bs body t ps bs' : let_tree c m e bs body t -> length ps = length bs' ->
  let new := TTup (map (fun pb => shown m (fst pb) (snd pb)) (combine ps bs')) in
  if length bs' =? length bs
  then exists t', xset_bindings (mkX t (xk c false m) (Some e)) new = Ok t' /\ let_tree c m e bs' body t'
  else xset_bindings (mkX t (xk c false m) (Some e)) new = Raise NotImplementedError.
Proof.
  intros (bl & label & F & ->) L2 new. pose proof (set_bindings_any c false m e (Some e) bs bl [wrapped c label (TLam [e] body)] [("mode", TStr m)] ps bs' F (fun _ _ => eq_refl) L2) as S.
  cbv zeta in S. fold new in S. destruct (length bs' =? length bs); [|exact S]. destruct S as (r & E & G). eexists. split; [exact E|]. exists r, label. auto.
Qed.
Lemma dlet_set_bindings c m e bs t ps bs' : dlet_tree c m e bs t -> length ps = length bs' ->
  let v := mkX t (xk c true m) (if String.eqb m "letrec" then match bs with [] => None | _ => Some e end else None) in
  let new := TTup (map (fun pb => shown m (fst pb) (snd pb)) (combine ps bs')) in
  if length bs' =? length bs
  then exists t', xset_bindings v new = Ok t' /\ dlet_tree c m e bs' t'
  else xset_bindings v new = Raise NotImplementedError.
Proof.
  intros (bl & F & ->) L2 v new.
  assert (En : String.eqb m "letrec" = true -> bs <> [] -> (if String.eqb m "letrec" then match bs with [] => None | _ => Some e end else None) = Some e).
  { intros -> N. destruct bs; [congruence|reflexivity]. }
  pose proof (set_bindings_any c true m e _ bs bl [] [("mode", TStr m); ("_envname", TStr e)] ps bs' F En L2) as S.
  cbv zeta in S. fold new v in S. destruct (length bs' =? length bs); [|exact S]. destruct S as (r & E & G). eexists. split; [exact E|]. exists r. auto.
Qed.
Lemma set_items_spec c e items l : Forall2 (fun item x => exists label, x = wrapped c label (TLam [e] item)) items l -> forall ps items',
  length items' = length items -> length ps = length items' ->
  exists r, set_items c (Some e) l (map (fun pi => TLam [fst pi] (snd pi)) (combine ps items')) = Ok r /\
    Forall2 (fun item x => exists label, x = wrapped c label (TLam [e] item)) items' r.
Proof.
  induction 1 as [|i x items l [label ->] F IH]; intros ps items' L1 L2.
  - destruct items'; [|discriminate L1]. destruct ps; [|discriminate L2]. exists []. split; [reflexivity|constructor].
  - destruct items' as [|i' items']; [discriminate L1|]. destruct ps as [|p ps]; [discriminate L2|].
    destruct (IH ps items') as (r & E & G); [cbn in L1; lia|cbn in L2; lia|].
    exists (wrapped c label (TLam [e] i') :: r). split.
    + cbn [combine map set_items inject fst snd obind]. rewrite replace_wrapped. cbn [obind]. now rewrite E.
    + constructor; [eauto|assumption].
Qed.
Lemma do_set_body c e items t ps items' : do_tree c e items t -> length ps = length items' ->
  let v := mkD t c (match items with [] => None | _ => Some e end) in
  let new := map (fun pi => TLam [fst pi] (snd pi)) (combine ps items') in
  if length items' =? length items
  then exists t', dset_body v new = Ok t' /\ do_tree c e items' t'
  else dset_body v new = Raise NotImplementedError.
Proof.
  intros D L2 v new. unfold dset_body. subst v. unfold dbody. cbn [dcurried dtree denvname]. rewrite (do_body_of _ _ _ _ D). cbn [obind].
  replace (length new) with (length items') by (subst new; rewrite map_length, combine_length; lia).
  rewrite map_length. destruct (length items' =? length items) eqn:L; [|reflexivity]. cbn [negb]. apply Nat.eqb_eq in L.
  destruct D as (l & F & ->).
  assert (S : exists r, set_items c (match items with [] => None | _ => Some e end) l new = Ok r /\ Forall2 (fun item x => exists label, x = wrapped c label (TLam [e] item)) items' r).
  { destruct items as [|i items].
    - inversion F; subst. destruct items'; [|discriminate L]. exists []. split; [reflexivity|constructor].
    - now apply (set_items_spec c e (i :: items)). }
  destruct S as (r & E & G).
  destruct c; cbn [called tl firstn app]; rewrite E; cbn [obind]; eexists; (split; [reflexivity|]); exists r; auto.
Qed.

Lemma write_body c m e bs body t v p body' : let_tree c m e bs body t -> xview_of t = Ok v ->
  exists t', xset_body v (TLam [p] body') = Ok t' /\ let_tree c m e bs body' t'.
Proof. intros L V. destruct (let_read _ _ _ _ _ _ L) as [V' _]. rewrite V' in V. injection V as <-. eapply let_set_body; eassumption. Qed.
Lemma write_bindings c m e bs body t v ps bs' : let_tree c m e bs body t -> xview_of t = Ok v -> length ps = length bs' ->
  let new := TTup (map (fun pb => shown m (fst pb) (snd pb)) (combine ps bs')) in
  if length bs' =? length bs then exists t', xset_bindings v new = Ok t' /\ let_tree c m e bs' body t'
  else xset_bindings v new = Raise NotImplementedError.
Proof. intros L V. destruct (let_read _ _ _ _ _ _ L) as [V' _]. rewrite V' in V. injection V as <-. intros L2. now apply let_set_bindings. Qed.
Lemma write_bindings_decorator c m e bs t v ps bs' : dlet_tree c m e bs t -> xview_of t = Ok v -> length ps = length bs' ->
  let new := TTup (map (fun pb => shown m (fst pb) (snd pb)) (combine ps bs')) in
  if length bs' =? length bs then exists t', xset_bindings v new = Ok t' /\ dlet_tree c m e bs' t'
  else xset_bindings v new = Raise NotImplementedError.
Proof. intros L V. destruct (dlet_read _ _ _ _ _ L) as [V' _]. rewrite V' in V. injection V as <-. intros L2. now apply dlet_set_bindings. Qed.
Lemma write_do c e items t v ps items' : do_tree c e items t -> dview_of t = Ok v -> length ps = length items' ->
  let new := map (fun pi => TLam [fst pi] (snd pi)) (combine ps items') in
  if length items' =? length items then exists t', dset_body v new = Ok t' /\ do_tree c e items' t'
  else dset_body v new = Raise NotImplementedError.
Proof. intros D V. destruct (do_read _ _ _ _ D) as [V' _]. rewrite V' in V. injection V as <-. intros L2. now apply (do_set_body c e items). Qed.

Lemma isx_named t x : isx t x = true -> has_name x t.
Proof.
  unfold isx. induction t; cbn; try discriminate; try (intros E; apply String.eqb_eq in E; subst; constructor; fail).
  intros E. apply hn_done. now apply IHt.
Qed.
Lemma islet_only t k : xislet t = Ok (Some k) -> named_call "letter" t.
Proof.
  destruct t as [| | | | |f args kws| | | | | | | | | |]; try discriminate. cbn [xislet]. destruct (isx f "currycall") eqn:C.
  - destruct args as [|a args]; [discriminate|]. cbn [obind]. destruct (isx a "letter") eqn:A.
    + intros _. apply nc_curried; now apply isx_named.
    + cbn [negb andb]. destruct (isx f "letter") eqn:L; [|discriminate]. intros _. apply nc_plain. now apply isx_named.
  - cbn [obind negb andb]. destruct (isx f "letter") eqn:L; [|discriminate]. intros _. apply nc_plain. now apply isx_named.
Qed.
Lemma isdo_only t c : xisdo t = Ok (Some c) -> named_call "dof" t.
Proof.
  destruct t as [| | | | |f args kws| | | | | | | | | |]; try discriminate. cbn [xisdo]. destruct (isx f "currycall") eqn:C.
  - destruct args as [|a args]; [discriminate|]. cbn [obind]. destruct (isx a "dof") eqn:A.
    + intros _. apply nc_curried; now apply isx_named.
    + cbn [negb andb]. destruct (isx f "dof") eqn:L; [|discriminate]. intros _. apply nc_plain. now apply isx_named.
  - cbn [obind negb andb]. destruct (isx f "dof") eqn:L; [|discriminate]. intros _. apply nc_plain. now apply isx_named.
Qed.

(** ** What is rejected *)
Lemma not_named_x t x : ~ has_name x t -> isx t x = false.
Proof. intros N. destruct (isx t x) eqn:E; [|reflexivity]. destruct N. now apply isx_named. Qed.
Lemma rejects_let t : ~ named_call "letter" t ->
  xview_of t = Raise TypeError \/ exists f kws, has_name "currycall" f /\ t = TCall f [] kws /\ xview_of t = Raise IndexError.
Proof.
  intros N. destruct t as [| | | | |f args kws| | | | | | | | | |]; try (left; reflexivity).
  assert (L : isx f "letter" = false) by (apply not_named_x; intros H; apply N; now constructor).
  unfold xview_of. cbn [xislet]. destruct (isx f "currycall") eqn:C.
  - apply isx_named in C. destruct args as [|a args]; [right; exists f, kws; auto|].
    assert (La : isx a "letter" = false) by (apply not_named_x; intros H; apply N; now constructor). cbn [obind]. rewrite La, L. left. reflexivity.
  - cbn [obind]. rewrite L. left. reflexivity.
Qed.
Lemma rejects_do t : ~ named_call "dof" t ->
  dview_of t = Raise TypeError \/ exists f kws, has_name "currycall" f /\ t = TCall f [] kws /\ dview_of t = Raise IndexError.
Proof.
  intros N. destruct t as [| | | | |f args kws| | | | | | | | | |]; try (left; reflexivity).
  assert (L : isx f "dof" = false) by (apply not_named_x; intros H; apply N; now constructor).
  unfold dview_of. cbn [xisdo]. destruct (isx f "currycall") eqn:C.
  - apply isx_named in C. destruct args as [|a args]; [right; exists f, kws; auto|].
    assert (La : isx a "dof" = false) by (apply not_named_x; intros H; apply N; now constructor). cbn [obind]. rewrite La, L. left. reflexivity.
  - cbn [obind]. rewrite L. left. reflexivity.
Qed.
Lemma inject_rejects e t : no_lambda t -> inject e t = Raise TypeError.
Proof. intros N. destruct t; try reflexivity. destruct (N _ _ eq_refl). Qed.
Lemma rejects_body c m e bs body t v new : let_tree c m e bs body t -> xview_of t = Ok v -> no_lambda new -> xset_body v new = Raise TypeError.
Proof.
  intros D V N. destruct (let_read _ _ _ _ _ _ D) as [V' _]. rewrite V' in V. injection V as <-. unfold xset_body. cbn [xkind_of decorator xk]. now rewrite (inject_rejects _ _ N).
Qed.
Lemma rejects_body_decorator c m e bs t v new : dlet_tree c m e bs t -> xview_of t = Ok v -> xset_body v new = Raise TypeError.
Proof. intros D V. destruct (dlet_read _ _ _ _ _ D) as [V' _]. rewrite V' in V. injection V as <-. reflexivity. Qed.

Lemma pair_iff t : is_pair_tuple t = true <-> pair_tree t.
Proof.
  split.
  - destruct t; try discriminate. cbn. destruct l as [|a [|b [|? ?]]]; try discriminate. intros _. now exists a, b.
  - intros (a & b & ->). reflexivity.
Qed.
Lemma keyed_iff t : is_pair_tuple t = true -> ((match t with TTup (k :: _) => is_const k | _ => false end) = true <-> keyed t).
Proof.
  intros H. apply pair_iff in H. destruct H as (a & b & ->). split.
  - intros H. exists a, b. split; [reflexivity|]. destruct a; try discriminate; eauto.
  - intros (a' & b' & E & H). injection E as -> ->. destruct H as [[x ->]|[z ->]]; reflexivity.
Qed.
Lemma rejects_shape_any v (new : tree) : (forall nl, new = TTup nl -> ~ Forall pair_tree nl) -> xset_bindings v new = Raise TypeError.
Proof.
  intros N. destruct new as [| | | | | |nl| | | | | | | | |]; try reflexivity. cbn. specialize (N nl eq_refl).
  destruct (forallb is_pair_tuple nl) eqn:E; [|reflexivity]. destruct N. apply Forall_forall. intros x Hx. apply pair_iff. rewrite forallb_forall in E. auto.
Qed.
Lemma set_rec_rejects c d m e en : String.eqb m "letrec" = true -> forall bs bl, Forall2 (binding_tree c m e) bs bl -> forall nl,
  length nl = length bs -> Forall pair_tree nl ->
  (forall a b, In (TTup [a; b]) nl -> lambda_with b \/ no_lambda b) -> (exists a b, In (TTup [a; b]) nl /\ no_lambda b) ->
  set_rec (xk c d m) en bl nl = Raise TypeError.
Proof.
  intros M. induction 1 as [|b x bs bl B F IH]; intros nl L Fp Ok_ Bad.
  - destruct nl; [|discriminate L]. destruct Bad as (? & ? & [] & _).
  - destruct nl as [|nb nl]; [discriminate L|]. inversion Fp as [|? ? (a & y & ->) Fp']; subst. unfold binding_tree in B. rewrite M in B. destruct B as [label ->].
    cbn [set_rec elts obind two fst snd]. destruct (Ok_ a y (or_introl eq_refl)) as [(p & ps & z & ->)|N].
    + cbn [inject obind]. cbn [curried xk]. rewrite replace_wrapped. cbn [obind]. rewrite relabel_wrapped. cbn [obind].
      rewrite (IH nl); [reflexivity|cbn in L; lia|assumption| |].
      * intros a' b' Hin. apply (Ok_ a'). now right.
      * destruct Bad as (a' & b' & [E|Hin] & Nb); [|eauto]. injection E as <- <-. destruct (Nb (p :: ps) z eq_refl).
    + now rewrite (inject_rejects _ _ N).
Qed.
Lemma rejects_any c d m e en bs bl l kws nl : Forall2 (binding_tree c m e) bs bl -> length nl = length bs -> Forall pair_tree nl ->
  let v := mkX (called c "letter" (TTup bl :: l) kws) (xk c d m) en in
  (~ Forall keyed nl -> xset_bindings v (TTup nl) = Raise TypeError) /\
  (m = "letrec" -> (forall a b, In (TTup [a; b]) nl -> lambda_with b \/ no_lambda b) -> (exists a b, In (TTup [a; b]) nl /\ no_lambda b) ->
   xset_bindings v (TTup nl) = Raise TypeError).
Proof.
  intros F L Fp v. unfold xset_bindings. subst v. cbv beta iota zeta.
  assert (E : forallb is_pair_tuple nl = true) by (apply forallb_forall; intros x Hx; apply pair_iff; rewrite Forall_forall in Fp; auto). rewrite E. cbn [negb].
  unfold xbindings. cbn [xkind_of xtree]. rewrite (get_bindings_of c d m e bs bl l kws F). cbn [obind elts]. rewrite map_length, L, Nat.eqb_refl. cbn [negb].
  destruct (forallb (fun b => match b with TTup (k :: _) => is_const k | _ => false end) nl) eqn:K; [|split; reflexivity]. cbn [negb]. split.
  - intros N. destruct N. apply Forall_forall. intros x Hx. rewrite forallb_forall in K, E. apply keyed_iff; auto.
  - intros -> H1 H2. rewrite called_bindings. cbn [obind elts]. unfold is_letrec. cbn [mode xk envname]. rewrite String.eqb_refl.
    fold (xk c d "letrec"). rewrite (set_rec_rejects c d "letrec" e en eq_refl bs bl F nl); auto.
Qed.
Lemma rejects_bindings c m e bs body t v new : let_tree c m e bs body t -> xview_of t = Ok v ->
  ((forall nl, new = TTup nl -> ~ Forall pair_tree nl) -> xset_bindings v new = Raise TypeError) /\
  (forall nl, new = TTup nl -> Forall pair_tree nl -> length nl = length bs ->
     (~ Forall keyed nl -> xset_bindings v new = Raise TypeError) /\
     (m = "letrec" -> (forall a b, In (TTup [a; b]) nl -> lambda_with b \/ no_lambda b) -> (exists a b, In (TTup [a; b]) nl /\ no_lambda b) ->
      xset_bindings v new = Raise TypeError)).
Proof.
  intros D V. split; [apply rejects_shape_any|]. destruct (let_read _ _ _ _ _ _ D) as [V' _]. rewrite V' in V. injection V as <-.
  intros nl -> Fp L. destruct D as (bl & label & F & ->). now apply (rejects_any c false m e _ bs bl).
Qed.
Lemma rejects_bindings_decorator c m e bs t v new : dlet_tree c m e bs t -> xview_of t = Ok v ->
  ((forall nl, new = TTup nl -> ~ Forall pair_tree nl) -> xset_bindings v new = Raise TypeError) /\
  (forall nl, new = TTup nl -> Forall pair_tree nl -> length nl = length bs ->
     (~ Forall keyed nl -> xset_bindings v new = Raise TypeError) /\
     (m = "letrec" -> (forall a b, In (TTup [a; b]) nl -> lambda_with b \/ no_lambda b) -> (exists a b, In (TTup [a; b]) nl /\ no_lambda b) ->
      xset_bindings v new = Raise TypeError)).
Proof.
  intros D V. split; [apply rejects_shape_any|]. destruct (dlet_read _ _ _ _ _ D) as [V' _]. rewrite V' in V. injection V as <-.
  intros nl -> Fp L. destruct D as (bl & F & ->). now apply (rejects_any c true m e _ bs bl).
Qed.
Lemma set_items_rejects c e en items l : Forall2 (fun item x => exists label, x = wrapped c label (TLam [e] item)) items l -> forall nl,
  length nl = length items -> Forall (fun t => lambda_with t \/ no_lambda t) nl -> Exists no_lambda nl -> set_items c en l nl = Raise TypeError.
Proof.
  induction 1 as [|i x items l [label ->] F IH]; intros nl L G B.
  - destruct nl; [|discriminate L]. inversion B.
  - destruct nl as [|n nl]; [discriminate L|]. inversion G as [|? ? [(p & ps & z & ->)|N] G']; subst; cbn [set_items].
    + cbn [inject obind]. rewrite replace_wrapped. cbn [obind]. rewrite (IH nl); [reflexivity|cbn in L; lia|assumption|].
      inversion B as [? ? N|]; subst; [destruct (N (p :: ps) z eq_refl)|assumption].
    + now rewrite (inject_rejects _ _ N).
Qed.
Lemma rejects_do_body c e items t v nl : do_tree c e items t -> dview_of t = Ok v -> length nl = length items ->
  Forall (fun t => lambda_with t \/ no_lambda t) nl -> Exists no_lambda nl -> dset_body v nl = Raise TypeError.
Proof.
  intros D V L G B. pose proof (do_body_of _ _ _ _ D) as Eb. destruct (do_read _ _ _ _ D) as [V' _]. rewrite V' in V. injection V as <-.
  unfold dset_body, dbody. cbn [dcurried dtree]. rewrite Eb. cbn [obind]. rewrite map_length, L, Nat.eqb_refl. cbn [negb].
  destruct D as (l & F & ->). destruct c; cbn [called tl denvname]; now rewrite (set_items_rejects _ e _ items l F nl).
Qed.

(** ** Labels *)
Lemma number_nth {X} (l : list X) : forall i j x, nth_error l j = Some x -> nth_error (number i l) j = Some (i + j, x).
Proof. induction l as [|a l IH]; intros i [|j] x H; try discriminate; cbn in *; [injection H as ->; now rewrite Nat.add_0_r|]. rewrite (IH (S i) j x H). now rewrite Nat.add_succ_r. Qed.
Lemma label_bindings text e bs j x v : nth_error bs j = Some (x, v) ->
  exists bl, make_bindings text "letrec" e bs = TTup bl /\
    nth_error bl j = Some (TTup [TStr x; wrapped false ("letrec_binding" ++ text (S j) ++ "_" ++ x) (TLam [e] v)]).
Proof. intros H. eexists. split; [reflexivity|]. erewrite map_nth_error by (apply (number_nth bs 1); exact H). reflexivity. Qed.
Lemma label_body text m e bs body : exists b, make_let text m e bs body = TCall (TCap "letter") [b; wrapped false (m ++ "_body") (TLam [e] body)] [("mode", TStr m)].
Proof. eexists. reflexivity. Qed.
Lemma label_do text e items j t : nth_error items j = Some t ->
  exists l, make_do text e items = TCall (TCap "dof") l [] /\ nth_error l j = Some (wrapped false ("do_line" ++ text (S j)) (TLam [e] t)).
Proof. intros H. eexists. split; [reflexivity|]. erewrite map_nth_error by (apply (number_nth items 1); exact H). reflexivity. Qed.
Lemma labels text e : 
  (forall bs body j x v, nth_error bs j = Some (x, v) ->
     exists bl, make_let text "letrec" e bs body = TCall (TCap "letter") [TTup bl; wrapped false "letrec_body" (TLam [e] body)] [("mode", TStr "letrec")] /\
       nth_error bl j = Some (TTup [TStr x; wrapped false ("letrec_binding" ++ text (S j) ++ "_" ++ x) (TLam [e] v)])) /\
  (forall items j t, nth_error items j = Some t ->
     exists l, make_do text e items = TCall (TCap "dof") l [] /\ nth_error l j = Some (wrapped false ("do_line" ++ text (S j)) (TLam [e] t))).
Proof.
  split.
  - intros bs body j x v H. destruct (label_bindings text e bs j x v H) as (bl & E & N). exists bl. split; [|exact N]. unfold make_let. now rewrite E.
  - intros items j t H. now apply label_do.
Qed.
