From Coq Require Import List Bool String Arith Lia.
From Verif Require Import Base SlmModel SlmSpec.
Import ListNotations.
Open Scope list_scope.

(** ** Induction on expressions *)
Section Ind.
Variable P : src -> Prop.
Hypothesis Hc : forall n, P (SConst n).
Hypothesis Hn : forall x, P (SName x).
Hypothesis Hl : forall xs b, P b -> P (SLam xs b).
Hypothesis Ha : forall f args, P f -> Forall P args -> P (SApp f args).
Hypothesis Hs : forall x e, P e -> P (SAssign x e).
Hypothesis Hi : forall c a b, P c -> P a -> P b -> P (SIf c a b).
Hypothesis Ht : forall a b, P a -> P b -> P (SThen a b).
Hypothesis Hy : forall e, P e -> P (SSay e).
Hypothesis Hf : forall k, P (SFail k).
Hypothesis Hlet : forall bs b, Forall (fun xe => P (snd xe)) bs -> P b -> P (SLet bs b).
Hypothesis Hseq : forall bs b, Forall (fun xe => P (snd xe)) bs -> P b -> P (SSeq bs b).
Fixpoint src_ind' (e : src) : P e :=
  let many := fix many (l : list (name * src)) : Forall (fun xe => P (snd xe)) l :=
    match l with [] => Forall_nil _ | xe :: r => Forall_cons xe (src_ind' (snd xe)) (many r) end in
  match e with
  | SConst n => Hc n
  | SName x => Hn x
  | SLam xs b => Hl xs b (src_ind' b)
  | SApp f args => Ha f args (src_ind' f)
      ((fix go (l : list src) : Forall P l :=
          match l with [] => Forall_nil _ | e :: r => Forall_cons e (src_ind' e) (go r) end) args)
  | SAssign x e => Hs x e (src_ind' e)
  | SIf c a b => Hi c a b (src_ind' c) (src_ind' a) (src_ind' b)
  | SThen a b => Ht a b (src_ind' a) (src_ind' b)
  | SSay e => Hy e (src_ind' e)
  | SFail k => Hf k
  | SLet bs b => Hlet bs b (many bs) (src_ind' b)
  | SSeq bs b => Hseq bs b (many bs) (src_ind' b)
  end.
End Ind.

Ltac inv H := inversion H; subst; clear H.

(** ** Expansion, by cases *)
Lemma obind_ok : forall A B (o : outcome A) (k : A -> outcome B) b,
  obind o k = Ok b -> exists a, o = Ok a /\ k a = Ok b.
Proof. intros A B [a|x] k b H; cbn in H; [eauto | discriminate]. Qed.

Lemma sequence_ok : forall A (l : list (outcome A)) vs, sequence l = Ok vs -> l = map Ok vs.
Proof.
  induction l as [|o l IH]; intros vs H; cbn in H; [inv H; reflexivity|].
  apply obind_ok in H. destruct H as [a [-> H]]. apply obind_ok in H. destruct H as [t [H1 H]]. inv H.
  cbn. f_equal. auto.
Qed.

Lemma seq_cons_eq : forall x e rest b,
  expand (SSeq ((x, e) :: rest) b)
  = (do v <- expand e ; do b' <- expand (SSeq rest b) ; Ok (let_tree [x] [v] b')).
Proof. reflexivity. Qed.

Lemma seq_inv : forall x e rest b t, expand (SSeq ((x, e) :: rest) b) = Ok t ->
  exists v b', expand e = Ok v /\ expand (SSeq rest b) = Ok b' /\ t = let_tree [x] [v] b'.
Proof.
  intros x e rest b t H. rewrite seq_cons_eq in H.
  apply obind_ok in H. destruct H as [v [H1 H]]. apply obind_ok in H. destruct H as [b' [H2 H]]. inv H. eauto.
Qed.

Definition expands (es : list src) (ts : list py) : Prop := Forall2 (fun e t => expand e = Ok t) es ts.

Lemma map_expands : forall es ts, map expand es = map Ok ts -> expands es ts.
Proof.
  induction es as [|e es IH]; intros [|t ts] H; cbn in H; try discriminate; constructor; inv H; auto.
  apply IH. assumption.
Qed.

Lemma let_inv : forall bs b t, expand (SLet bs b) = Ok t ->
  exists vs b', expands (map snd bs) vs /\ expand b = Ok b' /\ t = PApp (PLam (map fst bs) b') vs.
Proof.
  intros bs b t H. cbn in H. destruct (let_ok (map fst bs)); [|discriminate].
  apply obind_ok in H. destruct H as [vs [H1 H]]. apply obind_ok in H. destruct H as [b' [H2 H]]. inv H.
  exists vs, b'. split; [|split; auto].
  apply sequence_ok in H1. apply map_expands. rewrite map_map. assumption.
Qed.

Lemma app_inv : forall f args t, expand (SApp f args) = Ok t ->
  exists f' args', expand f = Ok f' /\ expands args args' /\ t = PApp f' args'.
Proof.
  intros f args t H. cbn in H. apply obind_ok in H. destruct H as [f' [H1 H]].
  apply obind_ok in H. destruct H as [args' [H2 H]]. inv H.
  exists f', args'. split; [auto|split; auto]. apply map_expands. apply sequence_ok. assumption.
Qed.

Ltac ob H := let a := fresh "t" in let E := fresh "E" in
  apply obind_ok in H; destruct H as [a [E H]].

(** ** Local variables *)
Lemma flat_expands : forall es ts,
  Forall (fun e => forall t, expand e = Ok t -> assigned t = sassigned e) es -> expands es ts ->
  flat_map assigned ts = flat_map sassigned es.
Proof.
  intros es ts HF HE. induction HE as [|e t es ts He HE IH]; [reflexivity|].
  inv HF. cbn. f_equal; auto.
Qed.

Lemma flat_map_snd : forall (bs : list (name * src)),
  flat_map (fun xe => sassigned (snd xe)) bs = flat_map sassigned (map snd bs).
Proof. induction bs as [|[x e] bs IH]; [reflexivity|]. cbn. f_equal. assumption. Qed.

Lemma assigned_expand : forall e t, expand e = Ok t -> assigned t = sassigned e.
Proof.
  induction e as [n|x|xs b IHb|f args IHf IHa|x e IHe|c a b IHc IHa IHb|a b IHa IHb|e IHe|k|bs b IHbs IHb|bs b IHbs IHb]
    using src_ind'; intros t H.
  - inv H. reflexivity.
  - inv H. reflexivity.
  - cbn in H. ob H. inv H. reflexivity.
  - apply app_inv in H. destruct H as [f' [args' [H1 [H2 ->]]]]. cbn. f_equal; auto. apply flat_expands; auto.
  - cbn in H. ob H. inv H. cbn. f_equal. auto.
  - cbn in H. ob H. ob H. ob H. inv H. cbn. repeat f_equal; auto.
  - cbn in H. ob H. ob H. inv H. cbn. f_equal; auto.
  - cbn in H. ob H. inv H. cbn. auto.
  - inv H. reflexivity.
  - apply let_inv in H. destruct H as [vs [b' [H1 [H2 ->]]]]. cbn. rewrite flat_map_snd.
    apply flat_expands; auto. apply Forall_map. assumption.
  - destruct bs as [|[x e] rest]; [apply IHb; assumption|].
    apply seq_inv in H. destruct H as [v [b' [H1 [H2 ->]]]]. cbn. rewrite app_nil_r. inv IHbs. auto.
Qed.

(** ** Frames *)
Definition same_opt (a : option (option (val src))) (b : option (option (val py))) : Prop :=
  match a, b with
  | None, None => True
  | Some None, Some None => True
  | Some (Some v), Some (Some v') => same_val v v'
  | _, _ => False
  end.

Lemma same_cellof : forall f f' x, Forall2 same_cell f f' -> same_opt (cell f x) (cell f' x).
Proof.
  intros f f' x H. induction H as [|[y u] [y' u'] f f' [H1 H2] H IH]; [exact I|].
  cbn in H1, H2. subst y'. cbn. destruct (String.eqb x y); [|assumption].
  destruct u, u'; cbn; auto.
Qed.

Lemma same_put : forall f f' x v v', Forall2 same_cell f f' -> same_val v v' ->
  Forall2 same_cell (put f x v) (put f' x v').
Proof.
  intros f f' x v v' H Hv. induction H as [|[y u] [y' u'] f f' [H1 H2] H IH].
  - constructor; [|constructor]. split; cbn; auto.
  - cbn in H1, H2. subst y'. cbn. destruct (String.eqb x y); constructor; auto; split; cbn; auto.
Qed.

Lemma same_nth : forall fs fs' i, Forall2 (Forall2 same_cell) fs fs' ->
  Forall2 same_cell (nth i fs []) (nth i fs' []).
Proof.
  intros fs fs' i H. revert i. induction H as [|f f' fs fs' Hf H IH]; intros [|i]; cbn; auto.
Qed.

Lemma same_put_nth : forall fs fs' i x v v', Forall2 (Forall2 same_cell) fs fs' -> same_val v v' ->
  Forall2 (Forall2 same_cell) (put_nth fs i x v) (put_nth fs' i x v').
Proof.
  intros fs fs' i x v v' H Hv. revert i. induction H as [|f f' fs fs' Hf H IH]; intros [|i]; cbn; auto.
  constructor; auto. apply same_put; assumption.
Qed.

Lemma same_find : forall env inner w w' x, same_world w w' -> same_res (find inner env w x) (find inner env w' x).
Proof.
  induction env as [|i env IH]; intros inner w w' x Hw; cbn; [constructor|].
  assert (H : same_opt (cell (nth i (frames w) []) x) (cell (nth i (frames w') []) x))
    by exact (same_cellof _ _ x (same_nth _ _ i (proj1 Hw))).
  destruct (cell (nth i (frames w) []) x) as [[v|]|], (cell (nth i (frames w') []) x) as [[v'|]|]; cbn in H;
    try contradiction.
  - constructor. assumption.
  - constructor.
  - apply IH. assumption.
Qed.

Lemma same_assign : forall env w w' x v v', same_world w w' -> same_val v v' ->
  same_world (assign env w x v) (assign env w' x v').
Proof.
  intros [|i env] w w' x v v' [H1 H2] Hv; split; cbn; auto. apply same_put_nth; assumption.
Qed.

Lemma same_say : forall w w' v v', same_world w w' -> same_val v v' -> same_world (say w v) (say w' v').
Proof.
  intros w w' v v' [H1 H2] Hv. split; cbn; [assumption|]. rewrite H2. destruct Hv; reflexivity.
Qed.

Lemma same_new_frame : forall xs vs vs' l, Forall2 same_val vs vs' ->
  Forall2 same_cell (new_frame xs vs l) (new_frame xs vs' l).
Proof.
  intros xs vs vs' l H. unfold new_frame. apply Forall2_app.
  - revert xs. induction H as [|v v' vs vs' Hv H IH]; intros [|x xs]; cbn; constructor; auto. split; cbn; auto.
  - induction l as [|x l IH]; cbn; constructor; auto. split; cbn; auto.
Qed.

Lemma same_push : forall w w' f f', same_world w w' -> Forall2 same_cell f f' -> same_world (push f w) (push f' w').
Proof.
  intros w w' f f' [H1 H2] Hf. split; cbn; [|assumption]. apply Forall2_app; auto.
Qed.

Lemma f2_length : forall A B (R : A -> B -> Prop) l l', Forall2 R l l' -> List.length l = List.length l'.
Proof. intros A B R l l' H. induction H; cbn; congruence. Qed.

Lemma same_length : forall w w', same_world w w' -> List.length (frames w) = List.length (frames w').
Proof. intros w w' [H _]. eapply f2_length. eassumption. Qed.

Lemma same_truthy : forall v v', same_val v v' -> truthy v = truthy v'.
Proof. intros v v' H. destruct H; reflexivity. Qed.

(** ** More fuel changes nothing *)
Lemma rbind_some : forall A B (r : res A) (k : A -> world py -> res B) b w, rbind r k = Some (b, w) ->
  (exists a w1, r = Some (Ok a, w1) /\ k a w1 = Some (b, w))
  \/ (exists x, r = Some (Raise x, w) /\ b = Raise x).
Proof.
  intros A B [[[a|x] w1]|] k b w H; cbn in H; [left; eauto | right; inv H; eauto | discriminate].
Qed.

Lemma pevals_ext : forall (f g : py -> world py -> res (val py)) es w r,
  (forall e w r, f e w = Some r -> g e w = Some r) -> pevals f es w = Some r -> pevals g es w = Some r.
Proof.
  intros f g es w r Hfg. revert w r. induction es as [|e es IH]; intros w [r w2] H; [assumption|].
  cbn in H |- *. apply rbind_some in H. destruct H as [[v [w1 [H1 H]]]|[x [H1 ->]]].
  - rewrite (Hfg _ _ _ H1). cbn. apply rbind_some in H. destruct H as [[vs [w3 [H2 H]]]|[x [H2 ->]]].
    + rewrite (IH _ _ H2). exact H.
    + rewrite (IH _ _ H2). reflexivity.
  - rewrite (Hfg _ _ _ H1). reflexivity.
Qed.

Lemma peval_S : forall n env e w r, peval n env e w = Some r -> peval (S n) env e w = Some r.
Proof.
  induction n as [|n IH]; intros env e w [r wr] H; [discriminate|].
  destruct e as [k|x|xs b|f args|x e|c a b|a b|e|k]; try exact H;
    remember (S n) as m eqn:Em; rewrite Em in H; cbn [peval] in H |- *; rewrite <- ?Em in *.
  - apply rbind_some in H. destruct H as [[g [w1 [H1 H]]]|[y [H1 ->]]]; [|subst m; rewrite (IH _ _ _ _ H1); reflexivity].
    apply rbind_some in H. destruct H as [[vs [w2 [H2 H]]]|[y [H2 ->]]].
    + subst m. rewrite (IH _ _ _ _ H1). cbn [rbind].
      rewrite (pevals_ext _ (peval (S n) env) _ _ _ (fun e w r => IH env e w r) H2). cbn [rbind].
      destruct g as [k|ys b cenv]; [exact H|]. destruct (Nat.eqb _ _); [apply IH|]; assumption.
    + subst m. rewrite (IH _ _ _ _ H1). cbn [rbind].
      rewrite (pevals_ext _ (peval (S n) env) _ _ _ (fun e w r => IH env e w r) H2). reflexivity.
  - apply rbind_some in H. subst m. destruct H as [[v [w1 [H1 H]]]|[y [H1 ->]]]; rewrite (IH _ _ _ _ H1); cbn [rbind]; auto.
  - apply rbind_some in H. subst m. destruct H as [[v [w1 [H1 H]]]|[y [H1 ->]]]; rewrite (IH _ _ _ _ H1); cbn [rbind]; auto.
  - apply rbind_some in H. subst m. destruct H as [[v [w1 [H1 H]]]|[y [H1 ->]]]; rewrite (IH _ _ _ _ H1); cbn [rbind]; auto.
  - apply rbind_some in H. subst m. destruct H as [[v [w1 [H1 H]]]|[y [H1 ->]]]; rewrite (IH _ _ _ _ H1); cbn [rbind]; auto.
Qed.

Lemma peval_le : forall n m env e w r, n <= m -> peval n env e w = Some r -> peval m env e w = Some r.
Proof. intros n m env e w r L H. induction L; [assumption|]. apply peval_S. assumption. Qed.

Lemma pevals_le : forall n m env es w r, n <= m ->
  pevals (peval n env) es w = Some r -> pevals (peval m env) es w = Some r.
Proof. intros n m env es w r L. apply pevals_ext. intros e w1 r1. apply peval_le. assumption. Qed.

(** ** From the meaning to the run *)
Inductive same_list : outcome (list (val src)) -> outcome (list (val py)) -> Prop :=
| sl_ok : forall vs vs', Forall2 same_val vs vs' -> same_list (Ok vs) (Ok vs')
| sl_raise : forall k, same_list (Raise k) (Raise k).

Definition fwd (env : list nat) (e : src) (w : world src) (r : outcome (val src)) (w1 : world src) : Prop :=
  forall t w', expand e = Ok t -> same_world w w' ->
  exists n r' w1', peval n env t w' = Some (r', w1') /\ same_res r r' /\ same_world w1 w1'.
Definition fwds (env : list nat) (es : list src) (w : world src) (r : outcome (list (val src))) (w1 : world src) : Prop :=
  forall ts w', expands es ts -> same_world w w' ->
  exists n r' w1', pevals (peval n env) ts w' = Some (r', w1') /\ same_list r r' /\ same_world w1 w1'.

Scheme ev_mut := Minimality for ev Sort Prop
  with evs_mut := Minimality for evs Sort Prop.
Combined Scheme ev_evs_ind from ev_mut, evs_mut.

Ltac use H Hw := let n := fresh "n" in let r := fresh "r'" in let w := fresh "w'" in
  let A := fresh "A" in let B := fresh "B" in let D := fresh "D" in
  destruct (H _ _ ltac:(eassumption) Hw) as [n [r [w [A [B D]]]]].

Lemma forward :
  (forall env e w r w1, ev env e w r w1 -> fwd env e w r w1) /\
  (forall env es w r w1, evs env es w r w1 -> fwds env es w r w1).
Proof.
  apply ev_evs_ind; unfold fwd, fwds.
  - intros env n w t w' E Hw. inv E. exists 1, (Ok (VNum n)), w'. repeat split; try apply Hw. constructor. constructor.
  - intros env x w t w' E Hw. inv E. exists 1, (find true env w' x), w'.
    split; [reflexivity|split; [apply same_find|]; assumption].
  - intros env xs b w t w' E Hw. cbn in E. ob E. inv E. eexists 1, _, w'. split; [reflexivity|].
    split; [|assumption]. constructor. constructor. assumption.
  - intros env k w t w' E Hw. inv E. exists 1, (Raise k), w'. split; [reflexivity|]. split; [constructor|assumption].
  - intros env x e w v w1 _ IH t w' E Hw. cbn in E. ob E. inv E. use IH Hw. inv B.
    eexists (S n), _, _. cbn [peval]. rewrite A. cbn [rbind]. split; [reflexivity|].
    split; [constructor; assumption | apply same_assign; assumption].
  - intros env x e w k w1 _ IH t w' E Hw. cbn in E. ob E. inv E. use IH Hw. inv B.
    eexists (S n), _, _. cbn [peval]. rewrite A. cbn [rbind]. split; [reflexivity|]. split; [constructor|assumption].
  - intros env e w v w1 _ IH t w' E Hw. cbn in E. ob E. inv E. use IH Hw. inv B.
    eexists (S n), _, _. cbn [peval]. rewrite A. cbn [rbind]. split; [reflexivity|].
    split; [constructor; assumption | apply same_say; assumption].
  - intros env e w k w1 _ IH t w' E Hw. cbn in E. ob E. inv E. use IH Hw. inv B.
    eexists (S n), _, _. cbn [peval]. rewrite A. cbn [rbind]. split; [reflexivity|]. split; [constructor|assumption].
  - intros env a b w v w1 r w2 _ IHa _ IHb t w' E Hw. cbn in E. ob E. ob E. inv E. use IHa Hw. inv B. use IHb D.
    exists (S (n + n0)), r', w'1. cbn [peval]. rewrite (peval_le n (n + n0) _ _ _ _ ltac:(lia) A). cbn [rbind].
    split; [eapply peval_le; [|eassumption]; lia|]. split; assumption.
  - intros env a b w k w1 _ IH t w' E Hw. cbn in E. ob E. ob E. inv E. use IH Hw. inv B.
    eexists (S n), _, _. cbn [peval]. rewrite A. cbn [rbind]. split; [reflexivity|]. split; [constructor|assumption].
  - intros env c a b w v w1 r w2 _ IHc _ IHb t w' E Hw. cbn in E. ob E. ob E. ob E. inv E. use IHc Hw. inv B.
    assert (X : expand (if truthy v then a else b) = Ok (if truthy v' then t1 else t2))
      by (rewrite (same_truthy _ _ H0); destruct (truthy v'); assumption).
    use IHb D.
    exists (S (n + n0)), r', w'1. cbn [peval]. rewrite (peval_le n (n + n0) _ _ _ _ ltac:(lia) A). cbn [rbind].
    split; [eapply peval_le; [|eassumption]; lia|]. split; assumption.
  - intros env c a b w k w1 _ IH t w' E Hw. cbn in E. ob E. ob E. ob E. inv E. use IH Hw. inv B.
    eexists (S n), _, _. cbn [peval]. rewrite A. cbn [rbind]. split; [reflexivity|]. split; [constructor|assumption].
  - intros env f args w xs b cenv w1 vs w2 r w3 _ IHf _ IHa L _ IHb t w' E Hw.
    apply app_inv in E. destruct E as [f' [args' [E1 [E2 ->]]]]. use IHf Hw. inv B. inv H0. use IHa D. inv B.
    assert (P : same_world (push (new_frame xs vs (sassigned b)) w2) (push (new_frame xs vs' (assigned b')) w'1)).
    { apply same_push; [assumption|]. rewrite (assigned_expand _ _ H4). apply same_new_frame. assumption. }
    use IHb P.
    exists (S (n + n0 + n1)), r', w'2. cbn [peval].
    rewrite (peval_le n (n + n0 + n1) _ _ _ _ ltac:(lia) A). cbn [rbind].
    rewrite (pevals_le n0 (n + n0 + n1) _ _ _ _ ltac:(lia) A0). cbn [rbind].
    rewrite L, (f2_length _ _ _ _ _ H0), Nat.eqb_refl. rewrite <- (same_length _ _ D0).
    split; [eapply peval_le; [|eassumption]; lia|]. split; assumption.
  - intros env f args w k w1 vs w2 _ IHf _ IHa t w' E Hw.
    apply app_inv in E. destruct E as [f' [args' [E1 [E2 ->]]]]. use IHf Hw. inv B. inv H0. use IHa D. inv B.
    eexists (S (n + n0)), _, _. cbn [peval].
    rewrite (peval_le n (n + n0) _ _ _ _ ltac:(lia) A). cbn [rbind].
    rewrite (pevals_le n0 (n + n0) _ _ _ _ ltac:(lia) A0). cbn [rbind].
    split; [reflexivity|]. split; [constructor|assumption].
  - intros env f args w xs b cenv w1 vs w2 _ IHf _ IHa L t w' E Hw.
    apply app_inv in E. destruct E as [f' [args' [E1 [E2 ->]]]]. use IHf Hw. inv B. inv H0. use IHa D. inv B.
    eexists (S (n + n0)), _, _. cbn [peval].
    rewrite (peval_le n (n + n0) _ _ _ _ ltac:(lia) A). cbn [rbind].
    rewrite (pevals_le n0 (n + n0) _ _ _ _ ltac:(lia) A0). cbn [rbind].
    rewrite (f2_length _ _ _ _ _ H0) in L. apply Nat.eqb_neq in L. rewrite L.
    split; [reflexivity|]. split; [constructor|assumption].
  - intros env f args w k w1 _ IHf t w' E Hw.
    apply app_inv in E. destruct E as [f' [args' [E1 [E2 ->]]]]. use IHf Hw. inv B.
    eexists (S n), _, _. cbn [peval]. rewrite A. cbn [rbind]. split; [reflexivity|]. split; [constructor|assumption].
  - intros env f args w g w1 k w2 _ IHf _ IHa t w' E Hw.
    apply app_inv in E. destruct E as [f' [args' [E1 [E2 ->]]]]. use IHf Hw. inv B. use IHa D. inv B.
    eexists (S (n + n0)), _, _. cbn [peval].
    rewrite (peval_le n (n + n0) _ _ _ _ ltac:(lia) A). cbn [rbind].
    rewrite (pevals_le n0 (n + n0) _ _ _ _ ltac:(lia) A0). cbn [rbind].
    split; [reflexivity|]. split; [constructor|assumption].
  - intros env bs b w vs w1 r w2 Hvs IHa _ IHb t w' E Hw.
    apply let_inv in E. destruct E as [ts [b' [E1 [E2 ->]]]]. use IHa Hw. inv B.
    assert (P : same_world (push (new_frame (map fst bs) vs (sassigned b)) w1)
                           (push (new_frame (map fst bs) vs' (assigned b')) w'0)).
    { apply same_push; [assumption|]. rewrite (assigned_expand _ _ E2). apply same_new_frame. assumption. }
    use IHb P.
    assert (L : List.length (map fst bs) = List.length vs').
    { transitivity (List.length vs); [|exact (f2_length _ _ _ _ _ H0)].
      transitivity (List.length (map snd bs)); [rewrite !map_length; reflexivity|].
      clear - Hvs. remember (map snd bs) as es eqn:X. clear X. revert w Hvs.
      assert (G : forall w r, evs env es w r w1 -> forall us, r = Ok us -> List.length es = List.length us).
      { induction es as [|e es IH]; intros w r H us ->; inv H; [reflexivity|]. cbn. f_equal. eapply IH; [eassumption|reflexivity]. }
      intros w Hvs. eapply G; [eassumption|reflexivity]. }
    exists (S (S (n + n0))), r', w'1. remember (S (n + n0)) as m eqn:Em. cbn [peval].
    rewrite Em at 1. cbn [peval rbind]. rewrite (pevals_le n m _ _ _ _ ltac:(lia) A). cbn [rbind].
    rewrite L, Nat.eqb_refl. rewrite <- (same_length _ _ D).
    split; [eapply peval_le; [|eassumption]; lia|]. split; assumption.
  - intros env bs b w k w1 _ IHa t w' E Hw.
    apply let_inv in E. destruct E as [ts [b' [E1 [E2 ->]]]]. use IHa Hw. inv B.
    eexists (S (S n)), _, _. remember (S n) as m eqn:Em. cbn [peval].
    rewrite Em at 1. cbn [peval rbind]. rewrite (pevals_le n m _ _ _ _ ltac:(lia) A). cbn [rbind].
    split; [reflexivity|]. split; [constructor|assumption].
  - intros env b w r w1 _ IH t w' E Hw. apply IH; assumption.
  - intros env x e rest b w v w1 r w2 _ IHe _ IHb t w' E Hw.
    apply seq_inv in E. destruct E as [ve [b' [E1 [E2 ->]]]]. use IHe Hw. inv B.
    assert (P : same_world (push (new_frame [x] [v] (sassigned (SSeq rest b))) w1)
                           (push (new_frame [x] [v'] (assigned b')) w'0)).
    { apply same_push; [assumption|]. rewrite (assigned_expand _ _ E2). apply same_new_frame. constructor; auto. }
    use IHb P.
    exists (S (S (n + n0))), r', w'1. remember (S (n + n0)) as m eqn:Em. unfold let_tree. cbn [peval].
    rewrite Em at 1. cbn [peval rbind pevals]. rewrite (peval_le n m _ _ _ _ ltac:(lia) A). cbn [rbind].
    cbn [List.length Nat.eqb]. rewrite <- (same_length _ _ D).
    split; [eapply peval_le; [|eassumption]; lia|]. split; assumption.
  - intros env x e rest b w k w1 _ IHe t w' E Hw.
    apply seq_inv in E. destruct E as [ve [b' [E1 [E2 ->]]]]. use IHe Hw. inv B.
    eexists (S (S n)), _, _. remember (S n) as m eqn:Em. unfold let_tree. cbn [peval].
    rewrite Em at 1. cbn [peval rbind pevals]. rewrite (peval_le n m _ _ _ _ ltac:(lia) A). cbn [rbind].
    split; [reflexivity|]. split; [constructor|assumption].
  - intros env w ts w' E Hw. inv E. exists 0, (Ok []), w'. split; [reflexivity|]. split; [constructor; constructor|assumption].
  - intros env e es w v w1 vs w2 _ IHe _ IHes ts w' E Hw. inv E. use IHe Hw. inv B. use IHes D. inv B.
    eexists (n + n0), _, _. cbn [pevals]. rewrite (peval_le n (n + n0) _ _ _ _ ltac:(lia) A). cbn [rbind].
    rewrite (pevals_le n0 (n + n0) _ _ _ _ ltac:(lia) A0). cbn [rbind]. split; [reflexivity|].
    split; [constructor; constructor; assumption|assumption].
  - intros env e es w k w1 _ IHe ts w' E Hw. inv E. use IHe Hw. inv B.
    eexists n, _, _. cbn [pevals]. rewrite A. cbn [rbind]. split; [reflexivity|]. split; [constructor|assumption].
  - intros env e es w v w1 k w2 _ IHe _ IHes ts w' E Hw. inv E. use IHe Hw. inv B. use IHes D. inv B.
    eexists (n + n0), _, _. cbn [pevals]. rewrite (peval_le n (n + n0) _ _ _ _ ltac:(lia) A). cbn [rbind].
    rewrite (pevals_le n0 (n + n0) _ _ _ _ ltac:(lia) A0). cbn [rbind]. split; [reflexivity|].
    split; [constructor|assumption].
Qed.

(** ** From the run to the meaning *)
Definition bwd (n : nat) : Prop := forall env e t w w' r' w1',
  expand e = Ok t -> same_world w w' -> peval n env t w' = Some (r', w1') ->
  exists r w1, ev env e w r w1 /\ same_res r r' /\ same_world w1 w1'.

Lemma backwards_list : forall n, bwd n -> forall env es ts w w' r' w1',
  expands es ts -> same_world w w' -> pevals (peval n env) ts w' = Some (r', w1') ->
  exists r w1, evs env es w r w1 /\ same_list r r' /\ same_world w1 w1'.
Proof.
  intros n IH env es ts w w' r' w1' E. revert w w' r' w1'.
  induction E as [|e t es ts He E IHE]; intros w w' r' w1' Hw H; cbn [pevals] in H.
  - inv H. exists (Ok []), w. split; [constructor|]. split; [constructor; constructor|assumption].
  - apply rbind_some in H. destruct H as [[v [w2 [H1 H]]]|[x [H1 ->]]].
    + destruct (IH _ _ _ _ _ _ _ He Hw H1) as [r [w3 [V [B D]]]]. inv B.
      apply rbind_some in H. destruct H as [[vs [w4 [H2 H]]]|[x [H2 ->]]].
      * destruct (IHE _ _ _ _ D H2) as [r [w5 [V2 [B2 D2]]]]. inv B2. inv H.
        eexists (Ok _), w5. split; [eapply evs_cons; eassumption|]. split; [constructor; constructor; assumption|assumption].
      * destruct (IHE _ _ _ _ D H2) as [r [w5 [V2 [B2 D2]]]]. inv B2.
        eexists (Raise _), w5. split; [eapply evs_rest; eassumption|]. split; [constructor|assumption].
    + destruct (IH _ _ _ _ _ _ _ He Hw H1) as [r [w3 [V [B D]]]]. inv B.
      eexists (Raise _), w3. split; [eapply evs_first; eassumption|]. split; [constructor|assumption].
Qed.

Ltac back IH H Hw := let r := fresh "r" in let w := fresh "w" in
  let V := fresh "V" in let B := fresh "B" in let D := fresh "D" in
  let X := fresh "X" in
  assert (X := fun e E => IH _ e _ _ _ _ _ E Hw H); edestruct X as [r [w [V [B D]]]]; [eassumption|]; clear X.

Lemma peval_let : forall n env xs b ts w r w1, peval (S n) env (PApp (PLam xs b) ts) w = Some (r, w1) ->
  rbind (pevals (peval n env) ts w) (fun vs w2 =>
    if Nat.eqb (List.length xs) (List.length vs) then
      peval n (List.length (frames w2) :: env) b (push (new_frame xs vs (assigned b)) w2)
    else Some (Raise TypeError, w2)) = Some (r, w1).
Proof.
  intros n env xs b ts w r w1 H. cbn [peval] in H. destruct n as [|n]; [discriminate|].
  remember (S n) as m eqn:Em. rewrite Em in H at 1. cbn [peval rbind] in H. exact H.
Qed.

Lemma evs_length : forall env es w r w1, evs env es w r w1 -> forall us, r = Ok us -> List.length es = List.length us.
Proof.
  intros env es. induction es as [|e es IH]; intros w r w1 H us ->; inv H; [reflexivity|].
  cbn. f_equal. eapply IH; [eassumption|reflexivity].
Qed.

Lemma backward : forall n, bwd n.
Proof.
  induction n as [|n IH]; [intros env e t w w' r' w1' _ _ H; discriminate|].
  intros env e. revert env.
  induction e as [k|x|xs b _|f args _ _|x e _|c a b _ _ _|a b _ _|e _|k|bs b _ _|bs b _ IHb]
    using src_ind'; intros env t w w' r' w1' E Hw H.
  - inv E. inv H. eexists _, w. split; [constructor|]. split; [constructor; constructor|assumption].
  - inv E. inv H. eexists _, w. split; [constructor|]. split; [apply same_find|]; assumption.
  - cbn in E. ob E. inv E. inv H. eexists _, w. split; [constructor|]. split; [constructor; constructor; assumption|assumption].
  - apply app_inv in E. destruct E as [f' [args' [E1 [E2 ->]]]]. cbn [peval] in H.
    apply rbind_some in H. destruct H as [[g [w2 [H1 H]]]|[y [H1 ->]]]; back IH H1 Hw; inv B.
    + apply rbind_some in H. destruct H as [[vs [w3 [H2 H]]]|[y [H2 ->]]];
        destruct (backwards_list n IH _ _ _ _ _ _ _ E2 D H2) as [r [w4 [V2 [B2 D2]]]]; inv B2.
      * match goal with X : Forall2 same_val _ _ |- _ => rename X into HF end.
        match goal with X : same_val _ g |- _ => inversion X as [k Hk1 Hk2|xs b b' cenv HE Hk1 Hk2]; subst end.
        -- inv H. eexists (Raise _), w4. split; [eapply ev_call_number; eassumption|]. split; [constructor|assumption].
        -- destruct (Nat.eqb _ _) eqn:L.
           ++ apply Nat.eqb_eq in L. rewrite <- (f2_length _ _ _ _ _ HF) in L.
              assert (P : same_world (push (new_frame xs vs0 (sassigned b)) w4) (push (new_frame xs vs (assigned b')) w3)).
              { apply same_push; [assumption|]. rewrite (assigned_expand _ _ HE). apply same_new_frame. assumption. }
              back IH H P. eexists _, _. split; [|split; eassumption].
              eapply ev_call; try eassumption. rewrite (same_length _ _ D2). eassumption.
           ++ inv H. apply Nat.eqb_neq in L. rewrite <- (f2_length _ _ _ _ _ HF) in L.
              eexists (Raise _), w4. split; [eapply ev_call_arity; eassumption|]. split; [constructor|assumption].
      * eexists (Raise _), w4. split; [eapply ev_args_raise; eassumption|]. split; [constructor|assumption].
    + eexists (Raise _), _. split; [eapply ev_call_raise; eassumption|]. split; [constructor|assumption].
  - cbn in E. ob E. inv E. cbn [peval] in H. apply rbind_some in H.
    destruct H as [[g [w2 [H1 H]]]|[y [H1 ->]]]; back IH H1 Hw; inv B.
    + inv H. eexists (Ok _), _. split; [eapply ev_assign; eassumption|].
      split; [constructor; assumption | apply same_assign; assumption].
    + eexists (Raise _), _. split; [eapply ev_assign_raise; eassumption|]. split; [constructor|assumption].
  - cbn in E. ob E. ob E. ob E. inv E. cbn [peval] in H. apply rbind_some in H.
    destruct H as [[g [w2 [H1 H]]]|[y [H1 ->]]]; back IH H1 Hw; inv B.
    + match goal with Y : same_val _ g |- _ => rename Y into HG end.
      assert (X : expand (if truthy v then a else b) = Ok (if truthy g then t1 else t2))
        by (rewrite (same_truthy _ _ HG); destruct (truthy g); assumption).
      back IH H D. eexists _, _. split; [eapply ev_if; eassumption|]. split; assumption.
    + eexists (Raise _), _. split; [eapply ev_if_raise; eassumption|]. split; [constructor|assumption].
  - cbn in E. ob E. ob E. inv E. cbn [peval] in H. apply rbind_some in H.
    destruct H as [[g [w2 [H1 H]]]|[y [H1 ->]]]; back IH H1 Hw; inv B.
    + back IH H D. eexists _, _. split; [eapply ev_then; eassumption|]. split; assumption.
    + eexists (Raise _), _. split; [eapply ev_then_raise; eassumption|]. split; [constructor|assumption].
  - cbn in E. ob E. inv E. cbn [peval] in H. apply rbind_some in H.
    destruct H as [[g [w2 [H1 H]]]|[y [H1 ->]]]; back IH H1 Hw; inv B.
    + inv H. eexists (Ok _), _. split; [eapply ev_say; eassumption|].
      split; [constructor; assumption | apply same_say; assumption].
    + eexists (Raise _), _. split; [eapply ev_say_raise; eassumption|]. split; [constructor|assumption].
  - inv E. inv H. eexists _, w. split; [constructor|]. split; [constructor|assumption].
  - apply let_inv in E. destruct E as [ts [b' [E1 [E2 ->]]]]. apply peval_let in H.
    apply rbind_some in H. destruct H as [[vs [w3 [H2 H]]]|[y [H2 ->]]];
      destruct (backwards_list n IH _ _ _ _ _ _ _ E1 Hw H2) as [r [w4 [V2 [B2 D2]]]]; inv B2.
    + match goal with Y : Forall2 same_val _ _ |- _ => rename Y into HF end.
      assert (L : List.length (map fst bs) = List.length vs).
      { rewrite <- (f2_length _ _ _ _ _ HF), <- (evs_length _ _ _ _ _ V2 _ eq_refl), !map_length. reflexivity. }
      rewrite L, Nat.eqb_refl in H.
      assert (P : same_world (push (new_frame (map fst bs) vs0 (sassigned b)) w4)
                             (push (new_frame (map fst bs) vs (assigned b')) w3)).
      { apply same_push; [assumption|]. rewrite (assigned_expand _ _ E2). apply same_new_frame. assumption. }
      back IH H P. eexists _, _. split; [|split; eassumption].
      eapply ev_let; try eassumption. rewrite (same_length _ _ D2). eassumption.
    + eexists (Raise _), w4. split; [eapply ev_let_raise; eassumption|]. split; [constructor|assumption].
  - destruct bs as [|[x e] rest].
    + destruct (IHb _ _ _ _ _ _ E Hw H) as [r [w1 [V [B D]]]]. exists r, w1. split; [constructor; assumption|split; assumption].
    + apply seq_inv in E. destruct E as [ve [b' [E1 [E2 ->]]]]. apply peval_let in H. cbn [pevals] in H.
      apply rbind_some in H. destruct H as [[vs [w3 [H2 H]]]|[y [H2 ->]]];
        apply rbind_some in H2; destruct H2 as [[v [w5 [H3 H2]]]|[z [H3 Hz]]].
      * inv H2. back IH H3 Hw. inv B. cbn [List.length Nat.eqb] in H.
        assert (P : same_world (push (new_frame [x] [v0] (sassigned (SSeq rest b))) w0)
                               (push (new_frame [x] [v] (assigned b')) w3)).
        { apply same_push; [assumption|]. rewrite (assigned_expand _ _ E2). apply same_new_frame. constructor; auto. }
        back IH H P. eexists _, _. split; [|split; eassumption].
        eapply ev_seq; try eassumption. rewrite (same_length _ _ D). eassumption.
      * discriminate.
      * discriminate.
      * inv Hz. back IH H3 Hw. inv B.
        eexists (Raise _), _. split; [eapply ev_seq_raise; eassumption|]. split; [constructor|assumption].
Qed.

(** ** The whole program *)
Lemma start_same : forall e t, expand e = Ok t ->
  same_world (mkw [new_frame [] [] (sassigned e)] []) (mkw [new_frame [] [] (assigned t)] []).
Proof.
  intros e t E. split; [|reflexivity]. cbn [frames]. constructor; [|constructor].
  rewrite (assigned_expand _ _ E). apply same_new_frame. constructor.
Qed.

Lemma meaning : forall e t, expand e = Ok t ->
  (forall r w, means e r w ->
     exists n r' w', prun n t = Some (r', w') /\ same_res r r' /\ same_world w w') /\
  (forall n r' w', prun n t = Some (r', w') ->
     exists r w, means e r w /\ same_res r r' /\ same_world w w').
Proof.
  intros e t E. split.
  - intros r w H. exact (proj1 forward _ _ _ _ _ H _ _ E (start_same e t E)).
  - intros n r' w' H. exact (backward n _ _ _ _ _ _ _ E (start_same e t E) H).
Qed.

Lemma anywhere : forall e t, expand e = Ok t -> forall env w w', same_world w w' ->
  (forall r w1, ev env e w r w1 ->
     exists n r' w1', peval n env t w' = Some (r', w1') /\ same_res r r' /\ same_world w1 w1') /\
  (forall n r' w1', peval n env t w' = Some (r', w1') ->
     exists r w1, ev env e w r w1 /\ same_res r r' /\ same_world w1 w1').
Proof.
  intros e t E env w w' Hw. split.
  - intros r w1 H. exact (proj1 forward _ _ _ _ _ H _ _ E Hw).
  - intros n r' w1' H. exact (backward n _ _ _ _ _ _ _ E Hw H).
Qed.

(** ** When expansion fails *)
Lemma unique_nodup : forall xs, unique xs = true <-> NoDup xs.
Proof.
  induction xs as [|x xs IH]; cbn; [split; auto; constructor|].
  rewrite andb_true_iff, negb_true_iff, IH. split.
  - intros [H1 H2]. constructor; [|assumption]. intro HI.
    assert (X : existsb (String.eqb x) xs = true) by (apply existsb_exists; exists x; split; [assumption|apply String.eqb_refl]).
    congruence.
  - intros H. inv H. split; [|assumption]. destruct (existsb (String.eqb x) xs) eqn:X; [|reflexivity].
    apply existsb_exists in X. destruct X as [y [HI Hy]]. apply String.eqb_eq in Hy. subst. contradiction.
Qed.

Definition decided (e : src) : Prop :=
  (exists t, expand e = Ok t /\ ~ bad e) \/ (expand e = Raise SyntaxError /\ bad e).

Lemma sequence_decided : forall es, Forall decided es ->
  (exists ts, sequence (map expand es) = Ok ts /\ forall e, In e es -> ~ bad e)
  \/ (sequence (map expand es) = Raise SyntaxError /\ exists e, In e es /\ bad e).
Proof.
  intros es H. induction H as [|e es He H IH]; [left; exists []; split; [reflexivity|intros e []]|].
  cbn. destruct He as [[t [-> N]]|[-> B]]; [|right; split; [reflexivity|exists e; split; [left; reflexivity|assumption]]].
  cbn [obind]. destruct IH as [[ts [-> N2]]|[-> [e2 [I2 B2]]]]; cbn [obind].
  - left. exists (t :: ts). split; [reflexivity|]. intros e2 [->|I2]; auto.
  - right. split; [reflexivity|]. exists e2. split; [right|]; assumption.
Qed.

Ltac dec1 D := let t := fresh "t" in let E := fresh "E" in let N := fresh "N" in let B := fresh "B" in
  destruct D as [[t [E N]]|[E B]]; cbn [expand]; rewrite ?E; cbn [obind].

Lemma decides : forall e, decided e.
Proof.
  induction e as [k|x|xs b IHb|f args IHf IHa|x e IHe|c a b IHc IHa IHb|a b IHa IHb|e IHe|k|bs b IHbs IHb|bs b IHbs IHb]
    using src_ind'; unfold decided.
  - left. eexists. split; [reflexivity|]. intro H; inv H.
  - left. eexists. split; [reflexivity|]. intro H; inv H.
  - dec1 IHb; [left; eexists; split; [reflexivity|]; intro H; inv H; auto | right; split; [reflexivity|]; constructor; assumption].
  - dec1 IHf; [|right; split; [reflexivity|]; apply bad_fun; assumption].
    destruct (sequence_decided _ IHa) as [[ts [-> N2]]|[-> [e2 [I2 B2]]]]; cbn [obind].
    + left. eexists. split; [reflexivity|]. intro H; inv H; [auto|]. eapply N2; eassumption.
    + right. split; [reflexivity|]. eapply bad_arg; eassumption.
  - dec1 IHe; [left; eexists; split; [reflexivity|]; intro H; inv H; auto | right; split; [reflexivity|]; constructor; assumption].
  - destruct IHc as [[t [E N]]|[E B]]; cbn [expand]; rewrite E; cbn [obind]; [|right; split; [reflexivity|]; apply bad_if; auto].
    destruct IHa as [[t2 [E2 N2]]|[E2 B]]; cbn [expand]; rewrite E2; cbn [obind]; [|right; split; [reflexivity|]; apply bad_if; auto].
    destruct IHb as [[t3 [E3 N3]]|[E3 B]]; cbn [expand]; rewrite E3; cbn [obind]; [|right; split; [reflexivity|]; apply bad_if; auto].
    left. eexists. split; [reflexivity|]. intro H; inv H. destruct H1 as [?|[?|?]]; auto.
  - destruct IHa as [[t2 [E2 N2]]|[E2 B]]; cbn [expand]; rewrite E2; cbn [obind]; [|right; split; [reflexivity|]; apply bad_then; auto].
    destruct IHb as [[t3 [E3 N3]]|[E3 B]]; cbn [expand]; rewrite E3; cbn [obind]; [|right; split; [reflexivity|]; apply bad_then; auto].
    left. eexists. split; [reflexivity|]. intro H; inv H. destruct H1 as [?|?]; auto.
  - dec1 IHe; [left; eexists; split; [reflexivity|]; intro H; inv H; auto | right; split; [reflexivity|]; constructor; assumption].
  - left. eexists. split; [reflexivity|]. intro H; inv H.
  - cbn [expand]. destruct (let_ok (map fst bs)) eqn:L.
    + assert (L2 : bs <> [] /\ NoDup (map fst bs)).
      { destruct bs as [|xe bs]; [discriminate|]. split; [discriminate|]. apply unique_nodup. exact L. }
      assert (F : Forall decided (map snd bs)) by (apply Forall_map; assumption).
      rewrite <- (map_map snd expand).
      destruct (sequence_decided _ F) as [[ts [-> N2]]|[-> [e2 [I2 B2]]]]; cbn [obind].
      * destruct IHb as [[t [-> N]]|[-> B]]; cbn [obind]; [|right; split; [reflexivity|]; apply bad_let_body; assumption].
        left. eexists. split; [reflexivity|]. intro H; inv H.
        -- destruct L2 as [L2 L3]. destruct H1; contradiction.
        -- eapply N2; [|eassumption]. apply in_map_iff. eexists. split; [|eassumption]. reflexivity.
        -- contradiction.
      * right. split; [reflexivity|]. apply in_map_iff in I2. destruct I2 as [[x e] [X I2]]. cbn in X. subst e2.
        eapply bad_let_value; eassumption.
    + right. split; [reflexivity|]. apply bad_let. destruct bs as [|xe bs]; [left; reflexivity|]. right.
      intro N. apply unique_nodup in N. cbn [let_ok map] in L, N. congruence.
  - induction IHbs as [|[x e] bs He IHbs IH].
    + destruct IHb as [[t [E N]]|[E B]]; [left; exists t|right]; cbn [expand]; (split; [assumption|]).
      * intro H; inv H; [contradiction | contradiction].
      * apply bad_seq_body. assumption.
    + cbn [snd] in He. rewrite seq_cons_eq.
      destruct He as [[t [-> N]]|[-> B]]; cbn [obind];
        [|right; split; [reflexivity|]; eapply bad_seq_value; [left; reflexivity|assumption]].
      destruct IH as [[t2 [-> N2]]|[-> B]]; cbn [obind].
      * left. eexists. split; [reflexivity|]. intro H; inv H.
        -- destruct H2 as [H2|H2]; [inv H2; contradiction|]. apply N2. eapply bad_seq_value; eassumption.
        -- apply N2. apply bad_seq_body. assumption.
      * right. split; [reflexivity|]. inv B; [eapply bad_seq_value; [right; eassumption|assumption]|].
        apply bad_seq_body. assumption.
Qed.

Lemma errors : forall e, (bad e -> expand e = Raise SyntaxError) /\ (~ bad e -> exists t, expand e = Ok t).
Proof.
  intros e. destruct (decides e) as [[t [E N]]|[E B]]; split; intro H; try contradiction; eauto.
Qed.

(** ** What stays *)
Lemma put_other : forall C (f : frame C) x y v, x <> y -> cell (put f y v) x = cell f x.
Proof.
  intros C f x y v N. induction f as [|[z u] f IH]; cbn.
  - destruct (String.eqb_spec x y); [contradiction|reflexivity].
  - destruct (String.eqb_spec y z) as [->|]; cbn.
    + destruct (String.eqb_spec x z); [contradiction|reflexivity].
    + rewrite IH. reflexivity.
Qed.

Lemma put_nth_length : forall C (fs : list (frame C)) i x v, List.length (put_nth fs i x v) = List.length fs.
Proof. intros C fs. induction fs as [|f fs IH]; intros [|i] x v; cbn; auto. Qed.

Lemma put_nth_cell : forall C (fs : list (frame C)) i j x y v, i <> j \/ x <> y ->
  cell (nth j (put_nth fs i y v) []) x = cell (nth j fs []) x.
Proof.
  intros C fs. induction fs as [|f fs IH]; intros [|i] [|j] x y v H; cbn; auto.
  - apply put_other. destruct H; [contradiction|assumption].
  - apply IH. destruct H; [left; lia | right; assumption].
Qed.

Definition kept (env : list nat) (l : list name) (w w1 : world py) : Prop :=
  List.length (frames w) <= List.length (frames w1) /\
  forall i x, i < List.length (frames w) -> hd_error env <> Some i \/ ~ In x l ->
    cell (nth i (frames w1) []) x = cell (nth i (frames w) []) x.

Lemma kept_refl : forall env l w, kept env l w w.
Proof. intros env l w. split; auto. Qed.

Lemma kept_trans : forall env l1 l2 l w w1 w2, kept env l1 w w1 -> kept env l2 w1 w2 ->
  incl l1 l -> incl l2 l -> kept env l w w2.
Proof.
  intros env l1 l2 l w w1 w2 [L1 K1] [L2 K2] I1 I2. split; [lia|]. intros i x Hi H.
  rewrite K2, K1; auto; try lia; destruct H as [H|H]; auto.
Qed.

Lemma kept_incl : forall env l l' w w1, kept env l w w1 -> incl l l' -> kept env l' w w1.
Proof. intros env l l' w w1 [L K] I. split; [assumption|]. intros i x Hi [H|H]; apply K; auto. Qed.

Lemma kept_call : forall env l cenv b f w w1,
  kept (List.length (frames w) :: cenv) b (push f w) w1 -> kept env l w w1.
Proof.
  intros env l cenv b f w w1 [L K]. unfold push in L, K. cbn [frames] in L, K. rewrite app_length in L, K. cbn in L, K. split; [lia|].
  intros i x Hi _. rewrite K.
  - rewrite app_nth1 by assumption. reflexivity.
  - lia.
  - left. cbn. intro X. injection X. lia.
Qed.

Lemma pevals_kept : forall n env es, 
  (forall e w r w1, peval n env e w = Some (r, w1) -> kept env (assigned e) w w1) ->
  forall w r w1, pevals (peval n env) es w = Some (r, w1) -> kept env (flat_map assigned es) w w1.
Proof.
  intros n env es IH. induction es as [|e es IHes]; intros w r w1 H; cbn [pevals] in H; [inv H; apply kept_refl|].
  apply rbind_some in H. destruct H as [[v [w2 [H1 H]]]|[x [H1 ->]]].
  - apply rbind_some in H. destruct H as [[vs [w3 [H2 H]]]|[x [H2 ->]]].
    + inv H. eapply kept_trans; [eapply IH; eassumption | eapply IHes; eassumption | |]; cbn; auto using incl_appl, incl_appr, incl_refl.
    + eapply kept_trans; [eapply IH; eassumption | eapply IHes; eassumption | |]; cbn; auto using incl_appl, incl_appr, incl_refl.
  - eapply kept_incl; [eapply IH; eassumption|]. cbn. auto using incl_appl, incl_refl.
Qed.

Lemma peval_kept : forall n env e w r w1, peval n env e w = Some (r, w1) -> kept env (assigned e) w w1.
Proof.
  induction n as [|n IH]; intros env e w r w1 H; [discriminate|].
  destruct e as [k|x|xs b|f args|x e|c a b|a b|e|k]; cbn [peval] in H;
    try (inv H; apply kept_refl).
  - apply rbind_some in H. destruct H as [[g [w2 [H1 H]]]|[y [H1 ->]]].
    + apply rbind_some in H. destruct H as [[vs [w3 [H2 H]]]|[y [H2 ->]]].
      * assert (K : kept env (assigned (PApp f args)) w w3).
        { eapply kept_trans; [eapply IH; eassumption | eapply pevals_kept; [intros; eapply IH; eassumption|eassumption] | |];
            cbn; auto using incl_appl, incl_appr, incl_refl. }
        destruct g as [k|xs b cenv]; [inv H; assumption|].
        destruct (Nat.eqb _ _); [|inv H; assumption].
        eapply kept_trans; [exact K | eapply kept_call with (l := []); eapply IH; eassumption | |]; auto using incl_refl, incl_nil_l.
      * eapply kept_trans; [eapply IH; eassumption | eapply pevals_kept; [intros; eapply IH; eassumption|eassumption] | |];
          cbn; auto using incl_appl, incl_appr, incl_refl.
    + eapply kept_incl; [eapply IH; eassumption|]. cbn. auto using incl_appl, incl_refl.
  - apply rbind_some in H. destruct H as [[g [w2 [H1 H]]]|[y [H1 ->]]].
    + inv H. eapply kept_trans with (l2 := [x]); [eapply IH; eassumption | | |].
      * split; [destruct env; cbn; rewrite ?put_nth_length; lia|].
        intros i y Hi Hy. destruct env as [|j env]; [reflexivity|]. cbn. apply put_nth_cell.
        destruct Hy as [Hy|Hy]; [left; intros ->; apply Hy; reflexivity | right; intros ->; apply Hy; left; reflexivity].
      * cbn. auto using incl_tl, incl_refl.
      * intros y [->|[]]. left. reflexivity.
    + eapply kept_incl; [eapply IH; eassumption|]. cbn. auto using incl_tl, incl_refl.
  - apply rbind_some in H. destruct H as [[g [w2 [H1 H]]]|[y [H1 ->]]].
    + eapply kept_trans; [eapply IH; eassumption | eapply IH; eassumption | |]; cbn; [auto using incl_appl, incl_refl|].
      apply incl_appr. destruct (truthy g); auto using incl_appl, incl_appr, incl_refl.
    + eapply kept_incl; [eapply IH; eassumption|]. cbn. auto using incl_appl, incl_refl.
  - apply rbind_some in H. destruct H as [[g [w2 [H1 H]]]|[y [H1 ->]]].
    + eapply kept_trans; [eapply IH; eassumption | eapply IH; eassumption | |]; cbn; auto using incl_appl, incl_appr, incl_refl.
    + eapply kept_incl; [eapply IH; eassumption|]. cbn. auto using incl_appl, incl_refl.
  - apply rbind_some in H. destruct H as [[g [w2 [H1 H]]]|[y [H1 ->]]].
    + inv H. apply (IH _ _ _ _ _ H1).
    + apply (IH _ _ _ _ _ H1).
Qed.

(** The variables around a let: only an assignment in the value of a binding can change one. *)
Lemma outside : forall bs b t n env w r w1 i x,
  expand (SLet bs b) = Ok t -> peval n env t w = Some (r, w1) -> i < List.length (frames w) ->
  (forall y e, In (y, e) bs -> ~ In x (sassigned e)) ->
  cell (nth i (frames w1) []) x = cell (nth i (frames w) []) x.
Proof.
  intros bs b t n env w r w1 i x E H Hi N. apply (proj2 (peval_kept _ _ _ _ _ _ H)); [assumption|].
  right. rewrite (assigned_expand _ _ E). cbn. intro I. apply in_flat_map in I. destruct I as [[y e] [I1 I2]].
  exact (N y e I1 I2).
Qed.

Lemma outside_seq : forall x1 e1 bs b t n env w r w1 i x,
  expand (SSeq ((x1, e1) :: bs) b) = Ok t -> peval n env t w = Some (r, w1) -> i < List.length (frames w) ->
  ~ In x (sassigned e1) ->
  cell (nth i (frames w1) []) x = cell (nth i (frames w) []) x.
Proof.
  intros x1 e1 bs b t n env w r w1 i x E H Hi N. apply (proj2 (peval_kept _ _ _ _ _ _ H)); [assumption|].
  right. rewrite (assigned_expand _ _ E). exact N.
Qed.

Lemma nested : forall env x e rest b w r w1,
  ev env (SSeq ((x, e) :: rest) b) w r w1 <-> ev env (SLet [(x, e)] (SSeq rest b)) w r w1.
Proof.
  intros env x e rest b w r w1. split; intro H.
  - inv H.
    + eapply ev_let; [|eassumption]. cbn. eapply evs_cons; [eassumption|constructor].
    + apply ev_let_raise. cbn. apply evs_first. assumption.
  - inv H.
    + match goal with X : evs _ _ _ _ _ |- _ => cbn in X; inv X end.
      match goal with X : evs _ [] _ _ _ |- _ => inv X end. eapply ev_seq; eassumption.
    + match goal with X : evs _ _ _ _ _ |- _ => cbn in X; inv X end; [apply ev_seq_raise; assumption|].
      match goal with X : evs _ [] _ _ _ |- _ => inv X end.
Qed.
