(** Proofs about cond, aif and multilambda. *)
From Coq Require Import String List Bool Arith Lia.
From Verif Require Import Base BaseProofs CollModel EnvModel MletModel MletSpec MletProofs IfeModel IfeSpec.
Import ListNotations.
Open Scope string_scope.
Open Scope list_scope.
Open Scope nat_scope.

Section Ind.
Variable P : sx -> Prop.
Hypothesis HConst : forall v, P (SConst v).
Hypothesis HVar : forall x, P (SVar x).
Hypothesis HPrim : forall o l, Forall P l -> P (SPrim o l).
Hypothesis HCall : forall f l, P f -> Forall P l -> P (SCall f l).
Hypothesis HIf : forall a b c, P a -> P b -> P c -> P (SIf a b c).
Hypothesis HLam : forall ps b, P b -> P (SLam ps b).
Hypothesis HAsgn : forall x v, P v -> P (SAsgn x v).
Hypothesis HLocal : forall a, P a -> P (SLocal a).
Hypothesis HDelete : forall a, P a -> P (SDelete a).
Hypothesis HLet : forall m bs b, Forall P bs -> P b -> P (SLet m bs b).
Hypothesis HDo : forall l, Forall P l -> P (SDo l).
Hypothesis HBr : forall l, Forall P l -> P (SBr l).
Hypothesis HCond : forall t a l, P t -> P a -> Forall P l -> P (SCond t a l).
Hypothesis HAif : forall t a b, P t -> P a -> P b -> P (SAif t a b).
Fixpoint sx_ind' (t : sx) : P t :=
  let lst := fix lst (l : list sx) : Forall P l := match l with [] => Forall_nil P | t :: l => Forall_cons t (sx_ind' t) (lst l) end in
  match t with
  | SConst v => HConst v
  | SVar x => HVar x
  | SPrim o l => HPrim o l (lst l)
  | SCall f l => HCall f l (sx_ind' f) (lst l)
  | SIf a b c => HIf a b c (sx_ind' a) (sx_ind' b) (sx_ind' c)
  | SLam ps b => HLam ps b (sx_ind' b)
  | SAsgn x v => HAsgn x v (sx_ind' v)
  | SLocal a => HLocal a (sx_ind' a)
  | SDelete a => HDelete a (sx_ind' a)
  | SLet m bs b => HLet m bs b (lst bs) (sx_ind' b)
  | SDo l => HDo l (lst l)
  | SBr l => HBr l (lst l)
  | SCond t a l => HCond t a l (sx_ind' t) (sx_ind' a) (lst l)
  | SAif t a b => HAif t a b (sx_ind' t) (sx_ind' a) (sx_ind' b)
  end.
End Ind.

Section Multi.
Variable multi : bool.

(** ** The result, if there is one *)
Fixpoint low (seq : bool) (t : sx) {struct t} : ex :=
  match t with
  | SConst v => XConst v
  | SVar x => XVar x
  | SPrim o l => XPrim o (map (low false) l)
  | SCall f l => XCall (low false f) (map (low false) l)
  | SIf a b c => XIf (low false a) (low false b) (low false c)
  | SLam ps b => XLam ps (low multi b)
  | SAsgn x v => XAsgn x (low false v)
  | SLocal a => XLocal (low false a)
  | SDelete a => XDelete (low false a)
  | SLet m bs b => XLet m (map (low false) bs) (low true b)
  | SDo l => XDo false (map (low false) l)
  | SBr l => if seq then XDo true (map (low false) l) else XPrim oplist (map (low false) l)
  | SCond t a l =>
      XIf (low true t) (low true a)
        ((fix build (l : list sx) : ex :=
            match l with
            | [] => XDelete (XConst VNone)
            | [t] => low true t
            | t :: a :: more => XIf (low true t) (low true a) (build more)
            end) l)
  | SAif t a b => XLet MLet [XAsgn "it" (low true t)] (XIf (XVar "it") (low true a) (low true b))
  end.
Definition lbuild := fix build (l : list sx) : ex :=
  match l with
  | [] => XDelete (XConst VNone)
  | [t] => low true t
  | t :: a :: more => XIf (low true t) (low true a) (build more)
  end.
Definition lowers (inside : bool) := fix lowers (l : list sx) : outcome (list ex) :=
  match l with
  | [] => Ok []
  | t :: l => do t' <- lower multi inside false t ; do l' <- lowers l ; Ok (t' :: l')
  end.
Definition obuild (inside : bool) := fix build (l : list sx) : outcome ex :=
  match l with
  | [] => Raise SyntaxError
  | [t] => lower multi inside true t
  | t :: a :: more => do t' <- lower multi inside true t ; do a' <- lower multi inside true a ; do m <- build more ; Ok (XIf t' a' m)
  end.
Definition lspec (t : sx) : Prop := forall inside seq,
  lower multi inside seq t = if proper inside t then Ok (low seq t) else Raise SyntaxError.
Lemma lowers_spec inside l : Forall lspec l ->
  lowers inside l = if forallb (proper inside) l then Ok (map (low false) l) else Raise SyntaxError.
Proof.
  induction 1 as [|t l H _ IH]; cbn; [reflexivity|]. rewrite H, IH.
  destruct (proper inside t); cbn; [|reflexivity]. now destruct (forallb (proper inside) l).
Qed.
Lemma obuild_spec inside : forall n l, length l <= n -> Forall lspec l ->
  obuild inside l = if Nat.odd (length l) && forallb (proper inside) l then Ok (lbuild l) else Raise SyntaxError.
Proof.
  induction n as [|n IH]; intros l L F; (destruct l as [|t [|a l]]; [reflexivity| |]); try (cbn in L; lia).
  - inversion F; subst. cbn. rewrite (H1 inside true). now destruct (proper inside t).
  - inversion F as [|? ? H1 F']; subst. inversion F' as [|? ? H2 F'']; subst.
    change (obuild inside (t :: a :: l)) with
      (do t' <- lower multi inside true t ; do a' <- lower multi inside true a ; do m <- obuild inside l ; Ok (XIf t' a' m)).
    change (lbuild (t :: a :: l)) with (XIf (low true t) (low true a) (lbuild l)).
    change (Nat.odd (length (t :: a :: l))) with (Nat.odd (length l)).
    cbn [length] in L. rewrite (H1 inside true), (H2 inside true), IH by (assumption || lia). cbn [forallb].
    destruct (proper inside t), (proper inside a), (Nat.odd (length l)), (forallb (proper inside) l); reflexivity.
Qed.
Lemma lower_spec t : lspec t.
Proof.
  induction t using sx_ind'; intros inside seq.
  - reflexivity.
  - cbn. unfold is_it. destruct (String.eqb x "it"), inside; reflexivity.
  - change (lower multi inside seq (SPrim o l)) with (do l' <- lowers inside l ; Ok (XPrim o l')).
    rewrite lowers_spec by assumption. cbn. now destruct (forallb (proper inside) l).
  - change (lower multi inside seq (SCall t l)) with
      (do f' <- lower multi inside false t ; do l' <- lowers inside l ; Ok (XCall f' l')).
    rewrite lowers_spec, IHt by assumption. cbn. destruct (proper inside t); cbn; [|reflexivity]. now destruct (forallb (proper inside) l).
  - cbn. rewrite IHt1, IHt2, IHt3.
    destruct (proper inside t1); cbn; [|reflexivity]. destruct (proper inside t2); cbn; [|reflexivity]. now destruct (proper inside t3).
  - cbn. rewrite IHt. now destruct (proper inside t).
  - cbn. unfold is_it. destruct (String.eqb x "it"); cbn; [reflexivity|]. rewrite IHt. now destruct (proper inside t).
  - cbn. rewrite IHt. now destruct (proper inside t).
  - cbn. rewrite IHt. now destruct (proper inside t).
  - change (lower multi inside seq (SLet m bs t)) with
      (do bs' <- lowers inside bs ; do b' <- lower multi inside true t ; Ok (XLet m bs' b')).
    rewrite lowers_spec, IHt by assumption. cbn. destruct (forallb (proper inside) bs); cbn; [|reflexivity]. now destruct (proper inside t).
  - change (lower multi inside seq (SDo l)) with (do l' <- lowers inside l ; Ok (XDo false l')).
    rewrite lowers_spec by assumption. cbn. now destruct (forallb (proper inside) l).
  - change (lower multi inside seq (SBr l)) with (do l' <- lowers inside l ; Ok (if seq then XDo true l' else XPrim oplist l')).
    rewrite lowers_spec by assumption. cbn. now destruct (forallb (proper inside) l).
  - change (lower multi inside seq (SCond t1 t2 l)) with
      (do t' <- lower multi inside true t1 ; do a' <- lower multi inside true t2 ; do m <- obuild inside l ; Ok (XIf t' a' m)).
    change (low seq (SCond t1 t2 l)) with (XIf (low true t1) (low true t2) (lbuild l)).
    rewrite IHt1, IHt2, (obuild_spec _ (length l)) by (assumption || lia). cbn [proper].
    destruct (proper inside t1), (proper inside t2), (Nat.odd (length l)), (forallb (proper inside) l); reflexivity.
  - cbn. rewrite IHt1, IHt2, IHt3. destruct (proper inside t1), (proper true t2), (proper true t3); reflexivity.
Qed.

(** ** The names in a do *)
Lemma declares_low t : declares (low false t) = sdeclares t /\ match t with SAsgn _ v => declares (low false v) = sdeclares v | _ => True end.
Proof.
  induction t using sx_ind'; try (split; [reflexivity|exact I]).
  - split; [reflexivity|]. apply IHt.
  - split; [|exact I]. destruct IHt as [_ I2]. destruct t; cbn in *; try reflexivity. now rewrite I2.
Qed.
Lemma discards_low t : discards (low false t) = sdiscards t.
Proof. destruct t; try reflexivity. destruct t; reflexivity. Qed.
Lemma next_low names t : next_names names (low false t) = snext_names names t.
Proof. unfold next_names, snext_names. now rewrite discards_low, (proj1 (declares_low t)). Qed.
Definition snames_of (bs : list sx) : list string := flat_map (fun b => match b with SAsgn x _ => [x] | _ => [] end) bs.
Lemma names_low bs : names_of (map (low false) bs) = snames_of bs.
Proof. induction bs as [|b bs IH]; [reflexivity|]. cbn. unfold names_of in IH. rewrite IH. now destruct b. Qed.

Section Run.
Variable W : Type.
Variable prim : nat -> list value -> W -> outcome value * W.
Variable globals : string -> option value.
Notation xheap := (xheap W).
Notation sheap := (sheap W).
Definition lowh (h : xheap) : sheap :=
  mkS W (map (fun f => (fst f, low multi (snd f))) (xfuns W h)) (xframes W h) (xworld W h).
Definition lift {A} (r : option (outcome A * xheap)) : option (outcome A * sheap) :=
  match r with Some (o, h) => Some (o, lowh h) | None => None end.

Lemma slot_low k x h : slot W k x (lowh h) = xslot W k x h.
Proof. reflexivity. Qed.
Lemma store_low k x v h : store W k x v (lowh h) = lowh (xstore W k x v h).
Proof. unfold store, xstore, lowh. cbn. now destruct (nth_error (xframes W h) k). Qed.
Lemma remove_low k x h : remove W k x (lowh h) = lowh (xremove W k x h).
Proof. unfold remove, xremove, lowh. cbn. now destruct (nth_error (xframes W h) k). Qed.
Lemma new_low h : new_frame W (lowh h) = lowh (xnew_frame W h).
Proof. reflexivity. Qed.

Section Step.
Variable scl : value -> list value -> sheap -> option (outcome value * sheap).
Variable xcl : value -> list value -> xheap -> option (outcome value * xheap).
Hypothesis Hcall : forall g vs h, scl g vs (lowh h) = lift (xcl g vs h).
Notation xeval := (xeval W prim globals xcl).
Notation seval := (seval W prim globals scl).
Definition xevals (env : senv) := fix evals (l : list sx) (h : xheap) : option (outcome (list value) * xheap) :=
  match l with
  | [] => Some (Ok [], h)
  | t :: l =>
      match xeval false env t h with
      | Some (Ok v, h) => match evals l h with Some (Ok vs, h) => Some (Ok (v :: vs), h) | r => r end
      | Some (Raise x, h) => Some (Raise x, h)
      | None => None
      end
  end.
Definition xoperate (env : senv) (o : nat) (l : list sx) (h : xheap) :=
  match xevals env l h with
  | Some (Ok vs, h) => let (r, w) := prim o vs (xworld W h) in Some (r, mkX W (xfuns W h) (xframes W h) w)
  | Some (Raise x, h) => Some (Raise x, h)
  | None => None
  end.
Definition xitems (env : senv) (k : nat) := fix items (l : list sx) (names : list string) (last : outcome value) (h : xheap) : option (outcome value * xheap) :=
  match l with
  | [] => Some (last, h)
  | t :: l =>
      match xeval false (Vars true names k :: env) t h with
      | Some (Ok v, h) => items l (snext_names names t) (Ok v) h
      | r => r
      end
  end.
Definition xvalues (env : senv) := fix values (bs : list sx) (h : xheap) : option (outcome (list (string * value)) * xheap) :=
  match bs with
  | [] => Some (Ok [], h)
  | SAsgn x v :: bs =>
      match xeval false env v h with
      | Some (Ok v, h) => match values bs h with Some (Ok vs, h) => Some (Ok ((x, v) :: vs), h) | r => r end
      | Some (Raise y, h) => Some (Raise y, h)
      | None => None
      end
  | _ => Some (Raise SyntaxError, h)
  end.
Definition xnest (b : sx) := fix nest (bs : list sx) (env : senv) (h : xheap) : option (outcome value * xheap) :=
  match bs with
  | [] => xeval true env b h
  | SAsgn x v :: bs =>
      match xeval false env v h with
      | Some (Ok v, h) => let k := length (xframes W h) in nest bs (Vars false [x] k :: env) (xstore W k x v (xnew_frame W h))
      | r => r
      end
  | _ => Some (Raise SyntaxError, h)
  end.
Definition xrec (env' : senv) (k : nat) := fix fill (bs : list sx) (h : xheap) : option (outcome unit * xheap) :=
  match bs with
  | [] => Some (Ok tt, h)
  | SAsgn x v :: bs =>
      match xslot W k x h with
      | Some _ => Some (Raise AttributeError, h)
      | None =>
          match xeval false env' v h with
          | Some (Ok v, h) => fill bs (xstore W k x v h)
          | Some (Raise y, h) => Some (Raise y, h)
          | None => None
          end
      end
  | _ => Some (Raise SyntaxError, h)
  end.
Definition xclauses (env : senv) := fix clauses (l : list sx) (h : xheap) : option (outcome value * xheap) :=
  match l with
  | [] => Some (Raise SyntaxError, h)
  | [otherwise] => xeval true env otherwise h
  | test :: branch :: l =>
      match xeval true env test h with
      | Some (Ok v, h) => if truthy v then xeval true env branch h else clauses l h
      | r => r
      end
  end.
Lemma xeval_prim q env o l h : xeval q env (SPrim o l) h = xoperate env o l h.
Proof. reflexivity. Qed.
Lemma xeval_call q env f l h : xeval q env (SCall f l) h =
  match xeval false env f h with
  | Some (Ok g, h) =>
      match xevals env l h with
      | Some (Ok vs, h) => xcl g vs h
      | Some (Raise x, h) => Some (Raise x, h)
      | None => None
      end
  | r => r
  end.
Proof. reflexivity. Qed.
Lemma xeval_let q env bs b h : xeval q env (SLet MLet bs b) h =
  match xvalues env bs h with
  | Some (Ok vs, h) =>
      let k := length (xframes W h) in
      let h := xnew_frame W h in
      match sfill vs [] with
      | Some d => xeval true (Vars false (map fst vs) k :: env) b (mkX W (xfuns W h) (upd (xframes W h) k d) (xworld W h))
      | None => Some (Raise AttributeError, h)
      end
  | Some (Raise y, h) => Some (Raise y, h)
  | None => None
  end.
Proof. reflexivity. Qed.
Lemma xeval_letseq q env bs b h : xeval q env (SLet MLetseq bs b) h = xnest b bs env h.
Proof. reflexivity. Qed.
Lemma xeval_letrec q env bs b h : xeval q env (SLet MLetrec bs b) h =
  let k := length (xframes W h) in
  let env' := Vars false (snames_of bs) k :: env in
  match xrec env' k bs (xnew_frame W h) with
  | Some (Ok _, h) => xeval true env' b h
  | Some (Raise y, h) => Some (Raise y, h)
  | None => None
  end.
Proof. reflexivity. Qed.
Lemma xeval_do q env l h : xeval q env (SDo l) h = xitems env (length (xframes W h)) l [] (Raise UnboundLocalError) (xnew_frame W h).
Proof. reflexivity. Qed.
Lemma xeval_br q env l h : xeval q env (SBr l) h =
  if q then xitems env (length (xframes W h)) l [] (Raise UnboundLocalError) (xnew_frame W h) else xoperate env oplist l h.
Proof. reflexivity. Qed.
Lemma xeval_cond q env t a l h : xeval q env (SCond t a l) h = xclauses env (t :: a :: l) h.
Proof. reflexivity. Qed.

Definition sim (t : sx) : Prop := forall q env h, seval env (low q t) (lowh h) = lift (xeval q env t h).
Definition sim2 (t : sx) : Prop := sim t /\ match t with SAsgn _ v => sim v | _ => True end.

Ltac cases := match goal with |- context [lift ?r] => let v := fresh "v" in let y := fresh "y" in let h := fresh "h" in destruct r as [[[v|y] h]|]; cbn [lift]; try reflexivity end.
Lemma evals_sim env l : Forall sim2 l -> forall h, sevals W prim globals scl env (map (low false) l) (lowh h) = lift (xevals env l h).
Proof.
  induction 1 as [|t l [H _] _ IH]; intros h; [reflexivity|]. cbn. rewrite H. cases. rewrite IH. now cases.
Qed.
Lemma operate_sim env o l : Forall sim2 l -> forall h, seval env (XPrim o (map (low false) l)) (lowh h) = lift (xoperate env o l h).
Proof.
  intros F h. rewrite seval_prim, evals_sim by assumption. unfold xoperate. destruct (xevals env l h) as [[[vs|y] h1]|]; cbn [lift]; try reflexivity.
  cbn [lowh sworld]. destruct (prim o vs (xworld W h1)). reflexivity.
Qed.
Lemma items_sim env k l : Forall sim2 l -> forall names last h,
  sitems W prim globals scl env k (map (low false) l) names last (lowh h) = lift (xitems env k l names last h).
Proof.
  induction 1 as [|t l [H _] _ IH]; intros names last h; [reflexivity|]. cbn. rewrite H. cases. now rewrite next_low, IH.
Qed.
Lemma do_sim i env l h : Forall sim2 l ->
  seval env (XDo i (map (low false) l)) (lowh h) = lift (xitems env (length (xframes W h)) l [] (Raise UnboundLocalError) (xnew_frame W h)).
Proof. intros F. rewrite seval_do, new_low. now apply items_sim. Qed.
Lemma values_sim env l : Forall sim2 l -> forall h, svalues W prim globals scl env (map (low false) l) (lowh h) = lift (xvalues env l h).
Proof.
  induction 1 as [|t l [_ H] _ IH]; intros h; [reflexivity|]. destruct t; try reflexivity. cbn. rewrite H. cases. rewrite IH. now cases.
Qed.
Lemma nest_sim b : sim b -> forall l, Forall sim2 l -> forall env h,
  snest W prim globals scl (low true b) (map (low false) l) env (lowh h) = lift (xnest b l env h).
Proof.
  intros Hb. induction 1 as [|t l [_ H] _ IH]; intros env h; [apply Hb|]. destruct t; try reflexivity. cbn. rewrite H. cases.
  change (sframes W (lowh ?x)) with (xframes W x). now rewrite new_low, store_low, IH.
Qed.
Lemma rec_sim env k l : Forall sim2 l -> forall h, srec W prim globals scl env k (map (low false) l) (lowh h) = lift (xrec env k l h).
Proof.
  induction 1 as [|t l [_ H] _ IH]; intros h; [reflexivity|]. destruct t; try reflexivity. cbn. rewrite slot_low.
  destruct (xslot W k x h); [reflexivity|]. rewrite H. cases. now rewrite store_low, IH.
Qed.
Lemma clauses_sim env : forall n l, length l <= n -> Forall sim2 l -> forall h,
  seval env (lbuild l) (lowh h) = lift (xclauses env l h).
Proof.
  induction n as [|n IH]; intros l L F h; (destruct l as [|t [|a l]]; [reflexivity| |]); try (cbn in L; lia).
  - inversion F as [|? ? [H _] _]; subst. apply H.
  - inversion F as [|? ? [H1 _] F']; subst. inversion F' as [|? ? [H2 _] F'']; subst.
    change (lbuild (t :: a :: l)) with (XIf (low true t) (low true a) (lbuild l)). cbn [MletSpec.seval]. cbn [xclauses].
    rewrite H1. cases. cbn [length] in L. destruct (truthy v); [apply H2|]. apply IH; [lia|assumption].
Qed.

Lemma step_sim t : sim2 t.
Proof.
  induction t using sx_ind'; (split; [|try exact I]).
  - intros q env h. reflexivity.
  - intros q env h. cbn. destruct (find x env); reflexivity.
  - intros q env h. rewrite xeval_prim. now apply operate_sim.
  - intros q env h. cbn [low]. rewrite xeval_call, seval_call, (proj1 IHt). cases. rewrite evals_sim by assumption. cases. apply Hcall.
  - intros q env h. cbn. rewrite (proj1 IHt1). cases. destruct (truthy v); [apply IHt2|apply IHt3].
  - intros q env h. cbn [low MletSpec.seval IfeSpec.xeval lift]. unfold lowh. cbn. now rewrite map_length, map_app.
  - intros q env h. cbn. rewrite (proj1 IHt). cases.
    destruct (find x env) as [|isdo k|]; try reflexivity. rewrite slot_low. destruct isdo, (xslot W k x h0); rewrite ?store_low; reflexivity.
  - apply IHt.
  - intros q env h. destruct t; try reflexivity.
    destruct IHt as [_ IHt]. cbn. rewrite IHt. cases.
    destruct env as [|[l|isdo names k] env]; try reflexivity. now rewrite store_low.
  - intros q env h. destruct t; try reflexivity.
    cbn. destruct env as [|[l|isdo names k] env]; try reflexivity. rewrite slot_low. destruct (xslot W k x h); [|reflexivity]. now rewrite remove_low.
  - intros q env h. destruct m; cbn [low].
    + rewrite seval_let, xeval_let, values_sim by assumption. cases. cbv zeta. destruct (sfill v []) as [d|]; [|reflexivity].
      change (sframes W (lowh ?x)) with (xframes W x). exact (proj1 IHt true _ (mkX W (xfuns W h0) (upd (xframes W (xnew_frame W h0)) (length (xframes W h0)) d) (xworld W h0))).
    + rewrite seval_letseq, xeval_letseq. apply nest_sim; [apply IHt|assumption].
    + rewrite seval_letrec, xeval_letrec, names_low. cbv zeta. rewrite new_low, rec_sim by assumption.
      change (sframes W (lowh ?x)) with (xframes W x). cases. apply IHt.
  - intros q env h. rewrite xeval_do. now apply do_sim.
  - intros q env h. rewrite xeval_br. cbn [low]. destruct q; [now apply do_sim|now apply operate_sim].
  - intros q env h. rewrite xeval_cond. change (low q (SCond t1 t2 l)) with (lbuild (t1 :: t2 :: l)).
    apply (clauses_sim env (S (S (length l)))); [reflexivity|]. repeat constructor; try apply IHt1; try apply IHt2; assumption.
  - intros q env h. cbn [low]. rewrite seval_let. cbn [svalues]. rewrite (proj1 IHt1). cbn [IfeSpec.xeval]. cases.
    cbn [sfill dict_get]. cbv zeta. cbn [map fst]. change (sframes W (lowh ?x)) with (xframes W x).
    set (k := length (xframes W h0)).
    assert (E : mkS W (sfuns W (new_frame W (lowh h0))) (upd (sframes W (new_frame W (lowh h0))) k (dict_set String.eqb [] "it" v)) (sworld W (new_frame W (lowh h0)))
              = lowh (xstore W k "it" v (xnew_frame W h0))).
    { rewrite <- store_low, <- new_low. unfold store. cbn [new_frame sframes]. change (sframes W (lowh h0)) with (xframes W h0).
      rewrite nth_error_app2 by (subst k; lia). now replace (k - length (xframes W h0)) with 0 by (subst k; lia). }
    rewrite E. cbn [MletSpec.seval find mems existsb]. rewrite String.eqb_refl. cbn [orb]. rewrite slot_low.
    assert (S : xslot W k "it" (xstore W k "it" v (xnew_frame W h0)) = Some v).
    { rewrite <- slot_low, <- store_low, <- new_low. unfold store, slot. cbn [new_frame sframes]. change (sframes W (lowh h0)) with (xframes W h0).
      rewrite nth_error_app2 by (subst k; lia). replace (k - length (xframes W h0)) with 0 by (subst k; lia). cbn [nth_error sframes].
      rewrite nth_error_upd, Nat.eqb_refl, app_length. cbn [length].
      replace (k <? length (xframes W h0) + 1) with true by (symmetry; apply Nat.ltb_lt; subst k; lia). reflexivity. }
    rewrite S. destruct (truthy v); [apply IHt2|apply IHt3].
Qed.
End Step.

Lemma call_sim fuel : forall g vs h, scall W prim globals fuel g vs (lowh h) = lift (xcall multi W prim globals fuel g vs h).
Proof.
  induction fuel as [|fuel IH]; intros g vs h; [reflexivity|]. cbn. destruct g; try reflexivity.
  - rewrite nth_error_map. destruct (nth_error (xfuns W h) n) as [[[env ps] b]|]; [|reflexivity]. cbn [option_map fst snd].
    destruct (length ps =? length vs); [|reflexivity]. now apply (step_sim (scall W prim globals fuel) (xcall multi W prim globals fuel) IH b).
  - change (sworld W (lowh h)) with (xworld W h). now destruct (prim o vs (xworld W h)).
Qed.
Lemma run_sim fuel t w : srun W prim globals fuel (low false t) w = xrun multi W prim globals fuel t w.
Proof.
  unfold srun, xrun. pose proof (proj1 (step_sim _ _ (call_sim fuel) t) false [] (mkX W [] [] w)) as H. cbn in H. 
  change (mkS W [] [] w) with (lowh (mkX W [] [] w)). rewrite H.
  destruct (xeval W prim globals (xcall multi W prim globals fuel) false [] t (mkX W [] [] w)) as [[o h]|]; reflexivity.
Qed.
End Run.
End Multi.

Lemma meaning multi W prim globals t s fuel w :
  lower multi false false t = Ok s -> srun W prim globals fuel s w = xrun multi W prim globals fuel t w.
Proof.
  intros H. rewrite lower_spec in H. destruct (proper false t); [|discriminate H]. injection H as <-. apply run_sim.
Qed.
Lemma expanded multi W prim globals t s k n t' n' fuel w :
  lower multi false false t = Ok s -> scoped false [] s = true -> expand k n s = Some (Ok (t', n')) ->
  trun W prim globals fuel t' w = xrun multi W prim globals fuel t w.
Proof. intros L S E. rewrite (expand_sound W prim globals k n s t' n' fuel w S E). now apply meaning. Qed.
Lemma accepts multi t : (exists s, lower multi false false t = Ok s /\ written s = true) /\ proper false t = true \/
  lower multi false false t = Raise SyntaxError /\ proper false t = false.
Proof.
  pose proof (lower_spec multi t false false) as L. destruct (proper false t); [left|right; auto]. split; [|reflexivity]. exists (low multi false t). split; [exact L|].
  clear L. generalize false as q. assert (FF : forall l, Forall (fun t => forall q, written (low multi q t) = true) l -> forallb written (map (low multi false) l) = true).
  { induction 1 as [|x l H _ IH]; [reflexivity|]. cbn. now rewrite H, IH. }
  induction t using sx_ind'; intros q; cbn; rewrite ?IHt, ?IHt1, ?IHt2, ?IHt3, ?FF by assumption; try reflexivity.
  - destruct q; cbn; now apply FF.
  - change (written (lbuild multi l) = true). assert (G : forall n l, length l <= n -> Forall (fun t => forall q, written (low multi q t) = true) l -> written (lbuild multi l) = true).
    { induction n as [|n IH]; intros l0 L F; (destruct l0 as [|x [|a l0]]; [reflexivity| |]); try (cbn in L; lia).
      - inversion F; subst. apply H2.
      - inversion F as [|? ? H1 F']; subst. inversion F' as [|? ? H2 F'']; subst. change (written (XIf (low multi true x) (low multi true a) (lbuild multi l0)) = true).
        cbn. rewrite H1, H2. cbn in L. apply IH; [lia|assumption]. }
    now apply (G (length l)).
Qed.
