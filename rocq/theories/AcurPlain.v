(** A program that runs in plain Python runs the same under [with autocurry]. *)
From Coq Require Import String List Bool Arith Lia Permutation.
From Verif Require Import Base AcurModel AcurSpec AcurProofs.
Import ListNotations.
Open Scope list_scope.
Open Scope nat_scope.

Definition trp (m : option bool) (t : term) : term :=
  match m with None => t | Some hc => tr hc t end.
Inductive pv : val -> val -> Prop :=
| pv_data k : pv (VData k) (VData k)
| pv_ff f f' : pf f f' -> pv (VFn f) (VFn f')
| pv_fc f f' : pf f f' -> pv (VFn f) (VCur f')
| pv_cc f f' : pf f f' -> pv (VCur f) (VCur f')
| pv_vals l l' : pl l l' -> pv (VVals l) (VVals l')
with pf : fn -> fn -> Prop :=
| pf_clo m ps b rho rho' : src b -> pe rho rho' -> pf (Clo ps b rho) (Clo ps (trp m b) rho')
| pf_part f f' a a' : pf f f' -> pl a a' -> pf (Part f a) (Part f' a')
with pl : list val -> list val -> Prop :=
| pl_nil : pl [] []
| pl_cons v v' l l' : pv v v' -> pl l l' -> pl (v :: l) (v' :: l')
with pe : env -> env -> Prop :=
| pe_nil : pe [] []
| pe_cons x v v' l l' : pv v v' -> pe l l' -> pe ((x, v) :: l) ((x, v') :: l').

Lemma pl_length a a' : pl a a' -> length a = length a'.
Proof. induction 1; cbn; congruence. Qed.
Lemma pl_app a a' b b' : pl a a' -> pl b b' -> pl (a ++ b) (a' ++ b').
Proof. intros H K. induction H; cbn; [assumption|]. constructor; assumption. Qed.
Lemma pl_firstn a a' : pl a a' -> forall n, pl (firstn n a) (firstn n a').
Proof. induction 1; intros [|n]; cbn; constructor; auto. Qed.
Lemma pl_skipn a a' : pl a a' -> forall n, pl (skipn n a) (skipn n a').
Proof. induction 1; intros [|n]; cbn; try constructor; auto. Qed.
Lemma pe_app a a' b b' : pe a a' -> pe b b' -> pe (a ++ b) (a' ++ b').
Proof. intros H K. induction H; cbn; [assumption|]. constructor; assumption. Qed.
Lemma pe_combine ps a a' : pl a a' -> pe (combine ps a) (combine ps a').
Proof. intros H. revert ps. induction H; intros [|p ps]; cbn; constructor; auto. Qed.
Lemma pe_get rho rho' x : pe rho rho' ->
  match get rho x, get rho' x with
  | Some v, Some v' => pv v v' | None, None => True | _, _ => False end.
Proof. induction 1 as [|y v v' l l' Hv Hl IH]; cbn; [exact I|]. destruct (String.eqb y x); auto. Qed.
Lemma pf_arity : forall f f', pf f f' -> arity f = arity f'.
Proof.
  fix IH 3. intros f f' H. destruct H as [|f f' a a' Hf Ha]; [reflexivity|].
  cbn. rewrite (IH _ _ Hf), (pl_length _ _ Ha). reflexivity.
Qed.
Lemma pv_truthy v v' : pv v v' -> truthy v = truthy v'.
Proof. intros []; reflexivity. Qed.
Lemma pv_callable v v' : pv v v' -> callable v = callable v'.
Proof. intros []; reflexivity. Qed.

(** a plain call that does not fail with TypeError has the right number of arguments *)
Lemma apply_arity n : forall ctx g f args l o,
  apply n ctx g f args = Some (l, o) -> o <> Raise TypeError -> length args = arity f.
Proof.
  induction n as [|n IH]; intros ctx g f args l o E Ho; [discriminate|].
  destruct f as [ps b rho|f a]; cbn [apply arity] in *.
  - destruct (length args =? length ps) eqn:L; [apply Nat.eqb_eq, L|].
    injection E as <- <-. congruence.
  - apply IH in E; [|assumption]. rewrite app_length in E. lia.
Qed.

Definition P_eval n := forall m (ctx ctx' : bool) g rho g' rho' t k,
  (ctx = true -> ctx' = true) -> pe g g' -> pe rho rho' -> src t -> 2 * n <= k ->
  sim pv (eval n ctx g rho t) (eval k ctx' g' rho' (trp m t)).
Definition P_evals n := forall m (ctx ctx' : bool) g rho g' rho' ts k,
  (ctx = true -> ctx' = true) -> pe g g' -> pe rho rho' ->
  fold_right (fun t P => src t /\ P) True ts -> 2 * n <= k ->
  sim pl (evals n ctx g rho ts) (evals k ctx' g' rho' (map (trp m) ts)).
Definition P_apply n := forall (ctx ctx' : bool) g g' f f' a a' k,
  (ctx = true -> ctx' = true) -> pe g g' -> pf f f' -> pl a a' -> 2 * n <= k ->
  sim pv (apply n ctx g f a) (apply k ctx' g' f' a').
Definition P_ccall n := forall (ctx ctx' : bool) g g' f f' a a' k,
  (ctx = true -> ctx' = true) -> pe g g' -> pf f f' -> pl a a' -> 2 * n <= k ->
  sim pv (ccall n ctx g f a) (ccall k ctx' g' f' a').

Lemma apply_ccall n : P_apply n -> forall ctx ctx' g g' f f' a a' k,
  pe g g' -> pf f f' -> pl a a' -> 2 * n < k ->
  sim pv (apply n ctx g f a) (ccall k ctx' g' f' a').
Proof.
  intros IHa ctx ctx' g g' f f' a a' k Hg Hf Ha Hk l o E Ho.
  destruct k as [|k]; [lia|]. cbn [ccall].
  pose proof (apply_arity _ _ _ _ _ _ _ E Ho) as L.
  rewrite <- (pf_arity _ _ Hf), <- (pl_length _ _ Ha), L, Nat.ltb_irrefl, Nat.eqb_refl.
  apply (IHa ctx true g g' f f' a a' k); auto. lia.
Qed.

Lemma plain_all n : P_eval n /\ P_evals n /\ P_apply n /\ P_ccall n.
Proof.
  induction n as [|n (IHe & IHs & IHa & IHc)].
  { repeat split; red; intros; apply sim_none. }
  split; [|split; [|split]].
  - intros m ctx ctx' g rho g' rho' t k Hc Hg Hr Hs Hk. destruct k as [|k]; [lia|].
    destruct t as [j|x|a b|c a b|j|ps b|f l|f l|e|f l]; cbn [src] in Hs.
    + replace (trp m (ENum j)) with (ENum j) by (destruct m; reflexivity).
      apply sim_ret. constructor.
    + replace (trp m (EVar x)) with (EVar x) by (destruct m; reflexivity). cbn [eval].
      pose proof (pe_get _ _ x Hr) as G1. pose proof (pe_get _ _ x Hg) as G2.
      destruct (get rho x), (get rho' x); try contradiction; [apply sim_ret; exact G1|].
      destruct (get g x), (get g' x); try contradiction; [apply sim_ret; exact G2|apply sim_raise].
    + replace (trp m (EAdd a b)) with (EAdd (trp m a) (trp m b)) by (destruct m; reflexivity).
      cbn [eval]. destruct Hs as [Ha Hb].
      eapply sim_bind; [apply IHe; auto; lia|]. intros v v' Hv.
      eapply sim_bind; [apply IHe; auto; lia|]. intros w w' Hw.
      destruct Hv; try apply sim_type. destruct Hw; try apply sim_type. apply sim_ret. constructor.
    + replace (trp m (EIf c a b)) with (EIf (trp m c) (trp m a) (trp m b))
        by (destruct m; reflexivity). cbn [eval]. destruct Hs as (Hc1 & Ha & Hb).
      eapply sim_bind; [apply IHe; auto; lia|]. intros v v' Hv. rewrite (pv_truthy _ _ Hv).
      destruct (truthy v'); apply IHe; auto; lia.
    + replace (trp m (ETick j)) with (ETick j) by (destruct m; reflexivity).
      intros l o E _. injection E as <- <-. exists (Ok (VData 0)). split; [reflexivity|constructor].
    + destruct m as [[|]|]; cbn [trp tr].
      * cbn. apply sim_ret. constructor. apply (pf_clo (Some true)); assumption.
      * destruct k as [|k]; [lia|]. cbn. apply sim_ret. apply pv_fc.
        apply (pf_clo (Some false)); assumption.
      * cbn. apply sim_ret. apply pv_ff. apply (pf_clo None); assumption.
    + destruct Hs as [Hf Hl].
      assert (Et : exists m', (m' = None /\ trp m (ECall f l) = ECall (trp m' f) (map (trp m') l))
                   \/ trp m (ECall f l) = ECurryCall (trp m' f) (map (trp m') l)).
      { destruct m as [hc|].
        - exists (Some (hc || has_curry (ECall f l))). right. reflexivity.
        - exists None. left. split; [reflexivity|]. cbn [trp]. f_equal.
          change (trp None) with (fun t : term => t). rewrite map_id. reflexivity. }
      destruct Et as (m' & [[_ Et]|Et]); rewrite Et; cbn [eval];
        (eapply sim_bind; [apply IHe; auto; lia|]; intros v v' Hv);
        (eapply sim_bind; [apply IHs; auto; lia|]; intros vs vs' Hvs);
        destruct Hv as [j|h h' Hh|h h' Hh|h h' Hh|w w' Hw]; cbn; try apply sim_type.
      * apply IHa; auto; lia.
      * apply apply_ccall; auto; lia.
      * apply IHc; auto; lia.
      * apply apply_ccall; auto; lia.
      * apply apply_ccall; auto; lia.
      * apply IHc; auto; lia.
    + destruct Hs as [Hf Hl].
      assert (Et : exists m', trp m (EUCurry f l) = EUCurry (trp m' f) (map (trp m') l)).
      { destruct m as [hc|].
        - exists (Some (hc || has_curry (EUCurry f l))). reflexivity.
        - exists None. cbn [trp]. f_equal.
          change (trp None) with (fun t : term => t). rewrite map_id. reflexivity. }
      destruct Et as (m' & Et). rewrite Et. cbn [eval].
      eapply sim_bind; [apply IHe; auto; lia|]. intros v v' Hv.
      eapply sim_bind; [apply IHs; auto; lia|]. intros vs vs' Hvs.
      destruct Hv as [j|h h' Hh|h h' Hh|h h' Hh|w w' Hw]; cbn;
        try (apply sim_ret; constructor; assumption);
        destruct Hvs as [|u u' us us' Hu Hus]; try (apply sim_ret; constructor; assumption);
        (apply IHc; [assumption|assumption|assumption|constructor; assumption|lia]).
    + destruct Hs.
    + destruct Hs.
  - intros m ctx ctx' g rho g' rho' ts k Hc Hg Hr Hs Hk. destruct k as [|k]; [lia|].
    destruct ts as [|t ts]; cbn [evals map].
    + apply sim_ret. constructor.
    + destruct Hs as [H1 H2]. eapply sim_bind; [apply IHe; auto; lia|]. intros v v' Hv.
      eapply sim_bind; [apply IHs; auto; lia|]. intros vs vs' Hvs.
      apply sim_ret. constructor; assumption.
  - intros ctx ctx' g g' f f' a a' k Hc Hg Hf Ha Hk. destruct k as [|k]; [lia|].
    destruct Hf as [m ps b rho rho' Hs Hr|f f' c c' Hf Hd]; cbn [apply].
    + rewrite (pl_length _ _ Ha). destruct (length a' =? length ps); [|apply sim_type].
      apply IHe; auto; [|lia]. apply pe_app; [apply pe_combine|]; assumption.
    + apply IHa; auto; [|lia]. apply pl_app; assumption.
  - intros ctx ctx' g g' f f' a a' k Hc Hg Hf Ha Hk. destruct k as [|k]; [lia|].
    cbn [ccall]. rewrite (pl_length _ _ Ha), (pf_arity _ _ Hf).
    destruct (length a' <? arity f').
    { assert (W : sim pv (ret (VCur (Part f a))) (ret (VCur (Part f' a')))).
      { apply sim_ret. constructor. constructor; assumption. }
      destruct Hf as [|f f' c c' Hf Hd]; [exact W|].
      destruct Hf; [exact W|apply sim_type]. }
    destruct (length a' =? arity f'); [apply IHa; auto; lia|].
    eapply sim_bind; [apply IHa; auto; [apply pl_firstn; assumption|lia]|].
    intros v v' Hv. set (la := skipn (arity f') a). set (la' := skipn (arity f') a').
    assert (Hla : pl la la') by (apply pl_skipn; assumption).
    assert (Hend : forall x x', pl x x' ->
      sim pv (if ctx then ret (VVals x) else raise TypeError)
             (if ctx' then ret (VVals x') else raise TypeError)).
    { intros x x' Hx. destruct ctx; [|apply sim_type]. rewrite (Hc eq_refl). apply sim_ret.
      constructor. assumption. }
    destruct Hv as [j|h h' Hh|h h' Hh|h h' Hh|w w' Hw]; cbn [callable];
      try (apply IHc; auto; lia).
    + apply Hend. constructor; [constructor|assumption].
    + destruct Hw as [|u u' us us' Hu Hus]; [apply Hend; assumption|].
      rewrite (pv_callable _ _ Hu).
      destruct (callable u') eqn:C.
      * assert (Hl2 : pl (us ++ la) (us' ++ la')) by (apply pl_app; assumption).
        destruct Hu; try discriminate; (apply IHc; auto; lia).
      * apply Hend. constructor; [assumption|]. apply pl_app; assumption.
Qed.

(** statements related by expansion or equal *)
Definition srel (s s' : stmt) : Prop := src (stmt_term s) /\ (s' = s \/ s' = expand_stmt s).
Lemma plain_exec n ss ss' : Forall2 srel ss ss' -> forall g g' k, pe g g' -> 2 * n <= k ->
  sim pe (exec n g ss) (exec k g' ss').
Proof.
  induction 1 as [|s s' ss ss' [Hs Hx] Hss IH]; intros g g' k Hg Hk.
  { apply sim_ret. assumption. }
  assert (E0 : pe [] []) by constructor.
  assert (Sx : exists m, match s, s' with
    | SAssign x e, SAssign x' e' => x' = x /\ e' = trp m e
    | SExpr e, SExpr e' => e' = trp m e
    | SDef c x ps b, SDef c' x' ps' b' =>
        x' = x /\ ps' = ps /\ b' = trp m b /\ (c = true -> c' = true)
    | _, _ => False end).
  { destruct Hx as [->| ->].
    - exists None. destruct s; cbn; auto.
    - exists (Some false). destruct s; cbn; auto. }
  destruct Sx as (m & Sx).
  destruct s as [x e|e|c x ps b], s' as [x' e'|e'|c' x' ps' b']; try contradiction;
    cbn [exec stmt_term] in *.
  - destruct Sx as [-> ->]. eapply sim_bind; [apply plain_all; auto|]. intros v v' Hv.
    apply IH; [constructor; assumption|assumption].
  - subst e'. eapply sim_bind; [apply plain_all; auto|]. intros v v' Hv. apply IH; assumption.
  - destruct Sx as (-> & -> & -> & Cc). apply IH; [|assumption]. constructor; [|assumption].
    assert (Hf : pf (Clo ps b []) (Clo ps (trp m b) [])) by (constructor; assumption).
    destruct c; [rewrite (Cc eq_refl); constructor; assumption|].
    destruct c'; [apply pv_fc|apply pv_ff]; assumption.
Qed.
Lemma pv_see v v' : pv v v' -> see v = see v'.
Proof. intros []; try reflexivity. cbn. f_equal. apply pl_length. assumption. Qed.
Theorem plain_run n before block after l o :
  source before -> source block -> source after ->
  exec n [] (before ++ block ++ after) = Some (l, o) -> o <> Raise TypeError ->
  forall k, 2 * n <= k ->
  match o with
  | Ok g => exists g', run k before block after = Some (l, Ok g') /\
      forall x, option_map see (get g' x) = option_map see (get g x)
  | Raise e => run k before block after = Some (l, Raise e)
  end.
Proof.
  intros Hb Hk Ha E Ho k Hn.
  assert (So : forall ss, source ss -> Forall2 srel ss ss).
  { intros ss. induction 1; constructor; [split; auto|assumption]. }
  assert (Sb : Forall2 srel block (autocurry block)).
  { clear -Hk. unfold autocurry. induction Hk; cbn; constructor; [split; auto|assumption]. }
  assert (F : Forall2 srel (before ++ block ++ after) (before ++ autocurry block ++ after)).
  { apply Forall2_app; [auto|]. apply Forall2_app; auto. }
  destruct (plain_exec n _ _ F [] [] k (pe_nil) Hn l o E Ho) as (o' & E' & Ro).
  destruct o as [g|e], o' as [g'|e']; try contradiction; cbn in Ro.
  - exists g'. split; [exact E'|]. intros x. pose proof (pe_get _ _ x Ro) as G.
    destruct (get g x), (get g' x); try contradiction; cbn; [|reflexivity].
    f_equal. symmetry. apply pv_see. exact G.
  - subst e'. exact E'.
Qed.
