(** Regrouping the arguments of calls does not change what curried evaluation computes. *)
From Coq Require Import String List Bool Arith Lia Permutation.
From Verif Require Import Base AcurModel AcurSpec AcurProofs.
Import ListNotations.
Open Scope list_scope.
Open Scope nat_scope.

(** ** More fuel does not change the result *)
Definition le_res {A} (r r' : res A) : Prop := forall x, r = Some x -> r' = Some x.
Lemma le_refl_res {A} (r : res A) : le_res r r.
Proof. intros x. auto. Qed.
Lemma le_bind {A B} (r r' : res A) (k k' : A -> res B) :
  le_res r r' -> (forall v, le_res (k v) (k' v)) -> le_res (bind r k) (bind r' k').
Proof.
  intros H K x E. destruct r as [[l [v|e]]|]; cbn in E; [|rewrite (H _ eq_refl); exact E|discriminate].
  rewrite (H _ eq_refl). cbn. destruct (k v) as [y|] eqn:Ek; [|discriminate].
  rewrite (K v y Ek). exact E.
Qed.
Definition M_all n := forall m, n <= m ->
  (forall i g rho t, le_res (heval false n i g rho t) (heval false m i g rho t)) /\
  (forall i g rho ts, le_res (hevals false n i g rho ts) (hevals false m i g rho ts)) /\
  (forall g f a, le_res (happly false n g f a) (happly false m g f a)) /\
  (forall g f a, le_res (hcurried false n g f a) (hcurried false m g f a)).
Lemma mono n : M_all n.
Proof.
  induction n as [|n IH]; intros m Hm.
  { repeat split; intros; intros x E; discriminate. }
  destruct m as [|m]; [lia|].
  destruct (IH m ltac:(lia)) as (He & Hs & Ha & Hc).
  split; [|split; [|split]].
  - intros i g rho t. destruct t; cbn [heval]; try apply le_refl_res.
    + apply le_bind; [apply He|]. intros v. apply le_bind; [apply He|]. intros; apply le_refl_res.
    + apply le_bind; [apply He|]. intros v. apply He.
    + apply le_bind; [apply He|]. intros v. apply le_bind; [apply Hs|]. intros vs.
      destruct v as [|c h]; [apply le_refl_res|]. destruct (i || c); [apply Hc|apply Ha].
    + apply le_bind; [apply He|]. intros v. apply le_bind; [apply Hs|]. intros vs.
      destruct v as [|c h], vs; try apply le_refl_res. apply Hc.
  - intros i g rho ts. destruct ts; cbn [hevals]; [apply le_refl_res|].
    apply le_bind; [apply He|]. intros v. apply le_bind; [apply Hs|]. intros; apply le_refl_res.
  - intros g f a. destruct f; cbn [happly].
    + destruct (length a =? length ps); [apply He|apply le_refl_res].
    + apply Ha.
  - intros g f a. cbn [hcurried]. destruct (length a <? harity f); [apply le_refl_res|].
    destruct (length a =? harity f); [apply Ha|].
    apply le_bind; [apply Ha|]. intros [|c h]; [apply le_refl_res|apply Hc].
Qed.

(** With enough fuel, [F] returns [v] after the effects [l]. *)
Definition conv {A} (F : nat -> res A) (l : list nat) (v : A) : Prop :=
  exists n0, forall n, n0 <= n -> F n = Some (l, Ok v).
Lemma conv_bind {A B} (F : nat -> res A) (G : nat -> A -> res B) l v l' w :
  conv F l v -> conv (fun n => G n v) l' w -> conv (fun n => bind (F n) (G n)) (l ++ l') w.
Proof.
  intros [n1 H1] [n2 H2]. exists (max n1 n2). intros n Hn. rewrite H1 by lia. cbn.
  rewrite H2 by lia. reflexivity.
Qed.
Lemma conv_S {A} (F G : nat -> res A) l v :
  (forall n, F (S n) = G n) -> conv G l v -> conv F l v.
Proof.
  intros E [n0 H]. exists (S n0). intros [|n] Hn; [lia|]. rewrite E. apply H. lia.
Qed.
Lemma conv_ret {A} (v : A) : conv (fun _ => ret v) [] v.
Proof. exists 0. reflexivity. Qed.
Lemma conv_ext {A} (F G : nat -> res A) l v : (forall n, F n = G n) -> conv F l v -> conv G l v.
Proof. intros E [n0 H]. exists n0. intros n Hn. rewrite <- E. auto. Qed.
Lemma conv_some {A} (F : nat -> res A) l v : conv F l v -> exists n, F n = Some (l, Ok v).
Proof. intros [n H]. exists n. apply H. lia. Qed.
Lemma conv_apply n g f a l v :
  happly false n g f a = Some (l, Ok v) -> conv (fun k => happly false k g f a) l v.
Proof. intros E. exists n. intros m Hm. apply (mono n m Hm). exact E. Qed.
Lemma conv_curried n g f a l v :
  hcurried false n g f a = Some (l, Ok v) -> conv (fun k => hcurried false k g f a) l v.
Proof. intros E. exists n. intros m Hm. apply (mono n m Hm). exact E. Qed.

Lemma bind_ok {A B} (r : res A) (k : A -> res B) l w : bind r k = Some (l, Ok w) ->
  exists l1 v l2, r = Some (l1, Ok v) /\ k v = Some (l2, Ok w) /\ l = l1 ++ l2.
Proof.
  destruct r as [[l1 [v|e]]|]; cbn; try discriminate.
  destruct (k v) as [[l2 o]|] eqn:E; [|discriminate]. intros H. injection H as <- ->.
  eauto 10.
Qed.

(** ** Nested partial application *)
Fixpoint flat (f : hfn) : hfn * list hval :=
  match f with
  | HClo _ _ _ _ => (f, [])
  | HPart f a => let (c, xs) := flat f in (c, xs ++ a)
  end.
Definition feq (v w : hval) : Prop :=
  match v, w with
  | HData j, HData k => j = k
  | HFn c f, HFn c' f' => c = c' /\ flat f = flat f'
  | _, _ => False
  end.
Lemma feq_refl v : feq v v.
Proof. destruct v; cbn; auto. Qed.
Lemma flat_clo f : exists i ps b rho xs, flat f = (HClo i ps b rho, xs).
Proof.
  induction f as [i ps b rho|f IH a]; cbn; [eauto 10|].
  destruct IH as (i & ps & b & rho & xs & ->). eauto 10.
Qed.
Lemma harity_flat f : forall i ps b rho xs, flat f = (HClo i ps b rho, xs) ->
  harity f = length ps - length xs.
Proof.
  induction f as [i0 ps0 b0 rho0|f IH a]; intros i ps b rho xs E; cbn in *.
  - injection E as <- <- <- <- <-. cbn. lia.
  - destruct (flat f) as [c ys]. injection E as -> <-.
    rewrite (IH _ _ _ _ _ eq_refl), app_length. lia.
Qed.
Lemma happly_flat n : forall g f a x i ps b rho xs,
  happly false n g f a = Some x -> flat f = (HClo i ps b rho, xs) ->
  (length (xs ++ a) = length ps /\
   exists n', n' < n /\ heval false n' i g (combine ps (xs ++ a) ++ rho) b = Some x) \/
  x = ([], Raise TypeError).
Proof.
  induction n as [|n IH]; intros g f a x i ps b rho xs E F; [discriminate|].
  destruct f as [i0 ps0 b0 rho0|f c]; cbn in *.
  - injection F as -> -> -> -> <-. cbn. destruct (length a =? length ps) eqn:L.
    + left. split; [apply Nat.eqb_eq, L|]. exists n. split; [lia|exact E].
    + right. injection E as <-. reflexivity.
  - destruct (flat f) as [d ys] eqn:Ff. injection F as -> <-. rewrite <- app_assoc.
    destruct (IH _ _ _ _ _ _ _ _ _ E Ff) as [[L (n' & Hn & H)]|H]; [left|right; exact H].
    split; [exact L|]. exists n'. split; [lia|exact H].
Qed.
Lemma conv_happly g f : forall a i ps b rho xs l v,
  flat f = (HClo i ps b rho, xs) -> length (xs ++ a) = length ps ->
  conv (fun k => heval false k i g (combine ps (xs ++ a) ++ rho) b) l v ->
  conv (fun k => happly false k g f a) l v.
Proof.
  induction f as [i0 ps0 b0 rho0|f IH c]; intros a i ps b rho xs l v F L H; cbn in F.
  - injection F as -> -> -> -> <-. cbn in L, H. eapply conv_S; [|exact H].
    intros k. cbn. rewrite L, Nat.eqb_refl. reflexivity.
  - destruct (flat f) as [d ys] eqn:Ff. injection F as -> <-. rewrite <- app_assoc in L, H.
    eapply conv_S; [intros k; cbn; reflexivity|]. eapply IH; [reflexivity|exact L|exact H].
Qed.

(** ** One call with all arguments, or two *)
Lemma conv_call_waits g f a : length a < harity f ->
  conv (fun k => hcurried false k g f a) [] (HFn true (HPart f a)).
Proof.
  intros L. eapply conv_S; [|apply conv_ret]. intros k. cbn [hcurried]. apply Nat.ltb_lt in L.
  rewrite L. reflexivity.
Qed.
Lemma conv_call_exact g f a l v : length a = harity f ->
  conv (fun k => happly false k g f a) l v -> conv (fun k => hcurried false k g f a) l v.
Proof.
  intros L. apply conv_S. intros k. cbn [hcurried]. rewrite L, Nat.ltb_irrefl, Nat.eqb_refl. reflexivity.
Qed.
Lemma conv_call_surplus g f a l c h l' v : harity f < length a ->
  conv (fun k => happly false k g f (firstn (harity f) a)) l (HFn c h) ->
  conv (fun k => hcurried false k g h (skipn (harity f) a)) l' v ->
  conv (fun k => hcurried false k g f a) (l ++ l') v.
Proof.
  intros L H K. eapply conv_S.
  - intros k. cbn [hcurried].
    replace (length a <? harity f) with false by (symmetry; apply Nat.ltb_ge; lia).
    replace (length a =? harity f) with false by (symmetry; apply Nat.eqb_neq; lia).
    reflexivity.
  - eapply (conv_bind _ (fun n r => match r with HData _ => raise TypeError
                                    | HFn _ h0 => hcurried false n g h0 (skipn (harity f) a) end));
      [exact H|exact K].
Qed.
Lemma curried_inv n g f a l v : hcurried false (S n) g f a = Some (l, Ok v) ->
  (length a < harity f /\ l = [] /\ v = HFn true (HPart f a)) \/
  (length a = harity f /\ happly false n g f a = Some (l, Ok v)) \/
  (harity f < length a /\ exists l1 c h l2,
     happly false n g f (firstn (harity f) a) = Some (l1, Ok (HFn c h)) /\
     hcurried false n g h (skipn (harity f) a) = Some (l2, Ok v) /\ l = l1 ++ l2).
Proof.
  cbn [hcurried]. destruct (length a <? harity f) eqn:L1.
  { intros E. injection E as <- <-. left. apply Nat.ltb_lt in L1. auto. }
  apply Nat.ltb_ge in L1. destruct (length a =? harity f) eqn:L2.
  { intros E. apply Nat.eqb_eq in L2. right. left. auto. }
  apply Nat.eqb_neq in L2. intros E. right. right. split; [lia|].
  destruct (bind_ok _ _ _ _ E) as (l1 & r & l2 & E1 & E2 & ->).
  destruct r as [j|c h]; [discriminate|]. eauto 10.
Qed.
Lemma part_apply n g f a b l v : happly false n g (HPart f a) b = Some (l, Ok v) ->
  conv (fun k => happly false k g f (a ++ b)) l v.
Proof.
  destruct n as [|n]; [discriminate|]. cbn. intros E. eapply conv_apply. exact E.
Qed.
Lemma conv_part_apply g f a b l v : conv (fun k => happly false k g f (a ++ b)) l v ->
  conv (fun k => happly false k g (HPart f a) b) l v.
Proof. apply conv_S. reflexivity. Qed.

Lemma merge n : forall g f a l1 c w, hcurried false n g f a = Some (l1, Ok (HFn c w)) ->
  forall m b l2 r, b <> [] -> hcurried false m g w b = Some (l2, Ok r) ->
  exists r', conv (fun k => hcurried false k g f (a ++ b)) (l1 ++ l2) r' /\ feq r r'.
Proof.
  induction n as [|n IH]; intros g f a l1 c w E m b l2 r Hb K; [discriminate|].
  assert (Lb : 0 < length b) by (destruct b; [congruence|cbn; lia]).
  apply curried_inv in E. destruct E as [(L & -> & E)|[(L & E)|(L & l11 & d & h & l12 & E1 & E2 & ->)]].
  - injection E as -> ->. destruct m as [|m]; [discriminate|]. cbn [app].
    apply curried_inv in K. cbn [harity] in K.
    destruct K as [(M & -> & ->)|[(M & K)|(M & l21 & d & h & l22 & K1 & K2 & ->)]].
    + exists (HFn true (HPart f (a ++ b))). split.
      * apply conv_call_waits. rewrite app_length. lia.
      * cbn. split; [reflexivity|]. destruct (flat f). rewrite app_assoc. reflexivity.
    + exists r. split; [|apply feq_refl]. apply conv_call_exact; [rewrite app_length; lia|].
      eapply part_apply. exact K.
    + exists r. split; [|apply feq_refl].
      apply part_apply in K1. apply conv_curried in K2.
      eapply conv_call_surplus; [rewrite app_length; lia| |].
      * rewrite firstn_app. rewrite firstn_all2 by lia. exact K1.
      * rewrite skipn_app. rewrite skipn_all2 by lia. exact K2.
  - exists r. split; [|apply feq_refl].
    eapply conv_call_surplus; [rewrite app_length; lia| |].
    + rewrite firstn_app. replace (harity f - length a) with 0 by lia. rewrite <- L, firstn_all.
      cbn. rewrite app_nil_r. eapply conv_apply. exact E.
    + rewrite skipn_app. replace (harity f - length a) with 0 by lia. rewrite <- L, skipn_all.
      cbn. eapply conv_curried. exact K.
  - destruct (IH _ _ _ _ _ _ E2 m b l2 r Hb K) as (r' & C & F). exists r'. split; [|exact F].
    rewrite <- app_assoc. eapply conv_call_surplus; [rewrite app_length; lia| |].
    + rewrite firstn_app. replace (harity f - length a) with 0 by lia. cbn. rewrite app_nil_r.
      eapply conv_apply. exact E1.
    + rewrite skipn_app. replace (harity f - length a) with 0 by lia. cbn. exact C.
Qed.
Lemma split_call n : forall g f a b l r, b <> [] ->
  hcurried false n g f (a ++ b) = Some (l, Ok r) ->
  exists l1 c w l2 r', l = l1 ++ l2 /\ conv (fun k => hcurried false k g f a) l1 (HFn c w) /\
    conv (fun k => hcurried false k g w b) l2 r' /\ feq r r'.
Proof.
  induction n as [|n IH]; intros g f a b l r Hb E; [discriminate|].
  assert (Lb : 0 < length b) by (destruct b; [congruence|cbn; lia]).
  apply curried_inv in E. rewrite app_length in E.
  destruct (lt_eq_lt_dec (length a) (harity f)) as [[La|La]|La].
  - exists [], true, (HPart f a), l. 
    destruct E as [(L & -> & ->)|[(L & E)|(L & l1 & c & h & l2 & E1 & E2 & ->)]].
    + exists (HFn true (HPart (HPart f a) b)). split; [reflexivity|].
      split; [apply conv_call_waits; exact La|]. split; [apply conv_call_waits; cbn; lia|].
      cbn. split; [reflexivity|]. destruct (flat f). rewrite app_assoc. reflexivity.
    + exists r. split; [reflexivity|]. split; [apply conv_call_waits; exact La|].
      split; [|apply feq_refl]. apply conv_call_exact; [cbn; lia|]. apply conv_part_apply.
      eapply conv_apply. exact E.
    + exists r. split; [reflexivity|]. split; [apply conv_call_waits; exact La|].
      split; [|apply feq_refl]. rewrite firstn_app in E1. rewrite firstn_all2 in E1 by lia.
      rewrite skipn_app in E2. rewrite skipn_all2 in E2 by lia.
      eapply conv_call_surplus; [cbn; lia| |].
      * apply conv_part_apply. eapply conv_apply. exact E1.
      * eapply conv_curried. exact E2.
  - destruct E as [(L & _)|[(L & _)|(L & l1 & c & h & l2 & E1 & E2 & ->)]]; [lia|lia|].
    rewrite firstn_app in E1. rewrite skipn_app in E2.
    replace (harity f - length a) with 0 in E1, E2 by lia.
    rewrite <- La in E1, E2. rewrite firstn_all in E1. rewrite skipn_all in E2. cbn in E1, E2.
    rewrite app_nil_r in E1.
    exists l1, c, h, l2, r. split; [reflexivity|].
    split; [apply conv_call_exact; [exact La|eapply conv_apply; exact E1]|].
    split; [eapply conv_curried; exact E2|apply feq_refl].
  - destruct E as [(L & _)|[(L & _)|(L & l1 & c & h & l2 & E1 & E2 & ->)]]; [lia|lia|].
    rewrite firstn_app in E1. rewrite skipn_app in E2.
    replace (harity f - length a) with 0 in E1, E2 by lia. cbn in E1, E2.
    rewrite app_nil_r in E1.
    destruct (IH _ _ _ _ _ _ Hb E2) as (l3 & d & w & l4 & r' & -> & C1 & C2 & F).
    exists (l1 ++ l3), d, w, l4, r'. rewrite app_assoc. split; [reflexivity|].
    split; [|split; [exact C2|exact F]].
    eapply conv_call_surplus; [lia|eapply conv_apply; exact E1|exact C1].
Qed.

(** ** The simulation *)
Inductive rgm (i : bool) : term -> term -> Prop :=
| rm_num k : rgm i (ENum k) (ENum k)
| rm_var x : rgm i (EVar x) (EVar x)
| rm_add a a' b b' : rgm i a a' -> rgm i b b' -> rgm i (EAdd a b) (EAdd a' b')
| rm_if c c' a a' b b' : rgm i c c' -> rgm i a a' -> rgm i b b' -> rgm i (EIf c a b) (EIf c' a' b')
| rm_tick k : rgm i (ETick k) (ETick k)
| rm_lam ps b b' : rgm i b b' -> rgm i (ELam ps b) (ELam ps b')
| rm_call f f' a a' : rgm i f f' -> rgms i a a' -> rgm i (ECall f a) (ECall f' a')
| rm_curry f f' a a' : rgm i f f' -> rgms i a a' -> rgm i (EUCurry f a) (EUCurry f' a')
| rm_merge f f' a a' b b' : i = true ->
    rgm i f f' -> rgms i a a' -> rgms i b b' -> b <> [] ->
    rgm i (ECall (ECall f a) b) (ECall f' (a' ++ b'))
| rm_split f f' a a' b b' : i = true ->
    rgm i f f' -> rgms i a a' -> rgms i b b' -> b <> [] ->
    rgm i (ECall f (a ++ b)) (ECall (ECall f' a') b')
with rgms (i : bool) : list term -> list term -> Prop :=
| rms_nil : rgms i [] []
| rms_cons t t' ts ts' : rgm i t t' -> rgms i ts ts' -> rgms i (t :: ts) (t' :: ts').
Scheme regroup_mut := Minimality for regroup Sort Prop
  with regroups_mut := Minimality for regroups Sort Prop.
Combined Scheme regroup_both from regroup_mut, regroups_mut.
Lemma regroup_rgm :
  (forall t t', regroup t t' -> rgm true t t') /\ (forall l l', regroups l l' -> rgms true l l').
Proof.
  apply regroup_both; intros;
    first [solve [constructor; auto] | solve [apply rm_merge; auto] | solve [apply rm_split; auto]].
Qed.
Lemma rgm_refl i : forall t, src t -> rgm i t t.
Proof.
  induction t as [k|x|a b IHa IHb|c a b IHc IHa IHb|k|ps b IHb|f l IHf IHl|f l IHf IHl|e IHe|f l IHf IHl]
    using term_rect2; cbn; intros H; try contradiction; try (constructor; tauto).
  - destruct H as [H1 H2]. apply rm_call; [auto|].
    induction IHl as [|t l Ht Hl IH]; constructor; cbn in H2; [apply Ht, H2|apply IH, H2].
  - destruct H as [H1 H2]. apply rm_curry; [auto|].
    induction IHl as [|t l Ht Hl IH]; constructor; cbn in H2; [apply Ht, H2|apply IH, H2].
Qed.

Inductive gv : hval -> hval -> Prop :=
| gv_data k : gv (HData k) (HData k)
| gv_fn c f f' : gf f f' -> gv (HFn c f) (HFn c f')
with gf : hfn -> hfn -> Prop :=
| gf_intro f f' i ps b b' rho rho' xs xs' :
    flat f = (HClo i ps b rho, xs) -> flat f' = (HClo i ps b' rho', xs') ->
    rgm i b b' -> ge rho rho' -> gl xs xs' -> gf f f'
with gl : list hval -> list hval -> Prop :=
| gl_nil : gl [] []
| gl_cons v v' l l' : gv v v' -> gl l l' -> gl (v :: l) (v' :: l')
with ge : henv -> henv -> Prop :=
| ge_nil : ge [] []
| ge_cons x v v' l l' : gv v v' -> ge l l' -> ge ((x, v) :: l) ((x, v') :: l').
Lemma gl_length a a' : gl a a' -> length a = length a'.
Proof. induction 1; cbn; congruence. Qed.
Lemma gl_app a a' b b' : gl a a' -> gl b b' -> gl (a ++ b) (a' ++ b').
Proof. intros H K. induction H; cbn; [assumption|]. constructor; assumption. Qed.
Lemma gl_firstn a a' : gl a a' -> forall n, gl (firstn n a) (firstn n a').
Proof. induction 1; intros [|n]; cbn; constructor; auto. Qed.
Lemma gl_skipn a a' : gl a a' -> forall n, gl (skipn n a) (skipn n a').
Proof. induction 1; intros [|n]; cbn; try constructor; auto. Qed.
Lemma ge_app a a' b b' : ge a a' -> ge b b' -> ge (a ++ b) (a' ++ b').
Proof. intros H K. induction H; cbn; [assumption|]. constructor; assumption. Qed.
Lemma ge_combine ps a a' : gl a a' -> ge (combine ps a) (combine ps a').
Proof. intros H. revert ps. induction H; intros [|p ps]; cbn; constructor; auto. Qed.
Lemma ge_get rho rho' x : ge rho rho' ->
  match get rho x, get rho' x with
  | Some v, Some v' => gv v v' | None, None => True | _, _ => False end.
Proof. induction 1 as [|y v v' l l' Hv Hl IH]; cbn; [exact I|]. destruct (String.eqb y x); auto. Qed.
Lemma gf_arity f f' : gf f f' -> harity f = harity f'.
Proof.
  intros [? ? i ps b b' rho rho' xs xs' F F' _ _ L].
  rewrite (harity_flat _ _ _ _ _ _ F), (harity_flat _ _ _ _ _ _ F'), (gl_length _ _ L). reflexivity.
Qed.
Lemma gv_feq v w w' : gv v w -> feq w w' -> gv v w'.
Proof.
  intros H F. destruct H as [k|c f f' Hf].
  - destruct w'; cbn in F; [subst; constructor|contradiction].
  - destruct w' as [|c' f'']; cbn in F; [contradiction|]. destruct F as [<- F]. constructor.
    destruct Hf as [? ? i ps b b' rho rho' xs xs' F1 F2 B R L]. rewrite F in F2.
    econstructor; eauto.
Qed.
Lemma gf_part f f' a a' : gf f f' -> gl a a' -> gf (HPart f a) (HPart f' a').
Proof.
  intros [? ? i ps b b' rho rho' xs xs' F F' B R L] H.
  econstructor; [cbn; rewrite F; reflexivity|cbn; rewrite F'; reflexivity|exact B|exact R|].
  apply gl_app; assumption.
Qed.
Lemma gtruthy v v' : gv v v' -> htruthy v = htruthy v'.
Proof. intros []; reflexivity. Qed.

Definition goal {A} (R : A -> A -> Prop) (l : list nat) (v : A) (F : nat -> res A) : Prop :=
  exists l' v', conv F l' v' /\ Permutation l l' /\ R v v'.
Definition G_e n := forall i g rho g' rho' t t' l v,
  heval false n i g rho t = Some (l, Ok v) -> ge g g' -> ge rho rho' -> rgm i t t' ->
  goal gv l v (fun k => heval false k i g' rho' t').
Definition G_s n := forall i g rho g' rho' ts ts' l vs,
  hevals false n i g rho ts = Some (l, Ok vs) -> ge g g' -> ge rho rho' -> rgms i ts ts' ->
  goal gl l vs (fun k => hevals false k i g' rho' ts').
Definition G_a n := forall g g' f f' a a' l v,
  happly false n g f a = Some (l, Ok v) -> ge g g' -> gf f f' -> gl a a' ->
  goal gv l v (fun k => happly false k g' f' a').
Definition G_c n := forall g g' f f' a a' l v,
  hcurried false n g f a = Some (l, Ok v) -> ge g g' -> gf f f' -> gl a a' ->
  goal gv l v (fun k => hcurried false k g' f' a').

Lemma hevals_app n i g rho : forall a b l vs,
  hevals false n i g rho (a ++ b) = Some (l, Ok vs) ->
  exists la va lb vb, hevals false n i g rho a = Some (la, Ok va) /\
    hevals false n i g rho b = Some (lb, Ok vb) /\ l = la ++ lb /\ vs = va ++ vb.
Proof.
  induction n as [|n IH]; intros a b l vs E; [discriminate|].
  destruct a as [|t a]; cbn [app] in E.
  - exists [], [], l, vs. cbn [hevals]. auto.
  - cbn [hevals] in E. destruct (bind_ok _ _ _ _ E) as (l1 & v & l2 & E1 & E2 & ->).
    destruct (bind_ok _ _ _ _ E2) as (l3 & ws & l4 & E3 & E4 & ->). injection E4 as <- <-.
    destruct (IH _ _ _ _ E3) as (la & va & lb & vb & Ea & Eb & -> & ->).
    exists (l1 ++ la), (v :: va), lb, vb. cbn [hevals]. rewrite E1. cbn. rewrite Ea. cbn.
    rewrite !app_nil_r. split; [reflexivity|]. split; [|rewrite !app_assoc; auto].
    apply (mono n (S n)); [lia|exact Eb].
Qed.
Lemma conv_evals_app i g rho b lb vb : forall a la va,
  conv (fun k => hevals false k i g rho a) la va -> conv (fun k => hevals false k i g rho b) lb vb ->
  conv (fun k => hevals false k i g rho (a ++ b)) (la ++ lb) (va ++ vb).
Proof.
  induction a as [|t a IH]; intros la va [n1 Ha] Hb.
  - specialize (Ha (S n1) ltac:(lia)). cbn in Ha. injection Ha as <- <-. exact Hb.
  - cbn [app]. assert (E := Ha (S n1) ltac:(lia)). cbn [hevals] in E.
    destruct (bind_ok _ _ _ _ E) as (l1 & v & l2 & E1 & E2 & ->).
    destruct (bind_ok _ _ _ _ E2) as (l3 & ws & l4 & E3 & E4 & ->). injection E4 as <- <-.
    assert (C1 : conv (fun k => heval false k i g rho t) l1 v).
    { exists n1. intros m Hm. apply (mono n1 m Hm). exact E1. }
    assert (C2 : conv (fun k => hevals false k i g rho a) l3 ws).
    { exists n1. intros m Hm. apply (mono n1 m Hm). exact E3. }
    specialize (IH _ _ C2 Hb).
    eapply conv_S; [intros k; cbn [hevals]; reflexivity|].
    rewrite <- !app_assoc.
    eapply (conv_bind _ (fun n v => bind (hevals false n i g rho (a ++ b)) (fun vs => ret (v :: vs)))); [exact C1|].
    cbn [app]. rewrite <- (app_nil_r (l3 ++ lb)).
    eapply (conv_bind _ (fun n vs => ret (v :: vs))); [exact IH|]. apply conv_ret.
Qed.

Lemma gl_nonempty i g rho n b l vb vb' :
  hevals false n i g rho b = Some (l, Ok vb) -> b <> [] -> gl vb vb' -> vb' <> [].
Proof.
  intros E Hb H ->. inversion H; subst. destruct b as [|t b]; [congruence|].
  destruct n as [|n]; [discriminate|]. cbn [hevals] in E.
  destruct (bind_ok _ _ _ _ E) as (l1 & v & l2 & E1 & E2 & ->).
  destruct (bind_ok _ _ _ _ E2) as (l3 & ws & l4 & E3 & E4 & ->). discriminate.
Qed.
Lemma conv_call_in g rho f a lf c h la va l r :
  conv (fun k => heval false k true g rho f) lf (HFn c h) ->
  conv (fun k => hevals false k true g rho a) la va ->
  conv (fun k => hcurried false k g h va) l r ->
  conv (fun k => heval false k true g rho (ECall f a)) (lf ++ la ++ l) r.
Proof.
  intros C1 C2 C3. eapply conv_S; [intros k; cbn [heval orb]; reflexivity|].
  eapply (conv_bind _ (fun n v => bind (hevals false n true g rho a) (fun vs =>
    match v with HData _ => raise TypeError | HFn _ h => hcurried false n g h vs end))); [exact C1|].
  eapply (conv_bind _ (fun n vs => hcurried false n g h vs)); [exact C2|exact C3].
Qed.

Ltac perm :=
  repeat rewrite <- app_assoc;
  repeat first [reflexivity | apply Permutation_app; [assumption|]
               | apply Permutation_app_head ]; auto.

Lemma group_all n : G_e n /\ G_s n /\ G_a n /\ G_c n.
Proof.
  induction n as [|n (IHe & IHs & IHa & IHc)].
  { repeat split; red; intros; discriminate. }
  split; [|split; [|split]].
  - intros i g rho g' rho' t t' l v E Hg Hr T.
    destruct T as [j|x|a a' b b' Ta Tb|c c' a a' b b' Tc Ta Tb|j|ps b b' Tb
                  |f f' a a' Tf Ta|f f' a a' Tf Ta
                  |f f' a a' b b' -> Tf Ta Tb Hb|f f' a a' b b' -> Tf Ta Tb Hb]; cbn [heval] in E.
    + injection E as <- <-. exists [], (HData j).
      split; [eapply conv_S; [|apply conv_ret]; reflexivity|]. split; constructor.
    + pose proof (ge_get _ _ x Hr) as G1. pose proof (ge_get _ _ x Hg) as G2.
      destruct (get rho x) as [w|] eqn:X1.
      * injection E as <- <-. destruct (get rho' x) as [w'|] eqn:X2; [|contradiction].
        exists [], w'. split; [|split; [constructor|exact G1]].
        eapply conv_S; [|apply conv_ret]. intros k. cbn. rewrite X2. reflexivity.
      * destruct (get rho' x) as [w'|] eqn:X2; [contradiction|].
        destruct (get g x) as [w|] eqn:X3; [|discriminate].
        injection E as <- <-. destruct (get g' x) as [w'|] eqn:X4; [|contradiction].
        exists [], w'. split; [|split; [constructor|exact G2]].
        eapply conv_S; [|apply conv_ret]. intros k. cbn. rewrite X2, X4. reflexivity.
    + destruct (bind_ok _ _ _ _ E) as (l1 & v1 & l2 & E1 & E2 & ->).
      destruct (bind_ok _ _ _ _ E2) as (l3 & v2 & l4 & E3 & E4 & ->).
      destruct (IHe _ _ _ _ _ _ _ _ _ E1 Hg Hr Ta) as (m1 & w1 & C1 & P1 & R1).
      destruct (IHe _ _ _ _ _ _ _ _ _ E3 Hg Hr Tb) as (m2 & w2 & C2 & P2 & R2).
      destruct R1; [|discriminate]. destruct R2; [|discriminate]. injection E4 as <- <-.
      exists (m1 ++ m2 ++ []), (HData (k + k0)). split; [|split; [perm|constructor]].
      eapply conv_S; [intros q; cbn [heval]; reflexivity|].
      eapply (conv_bind _ (fun n v => bind (heval false n i g' rho' b') _)); [exact C1|].
      eapply (conv_bind _ (fun n w => _)); [exact C2|]. apply conv_ret.
    + destruct (bind_ok _ _ _ _ E) as (l1 & v1 & l2 & E1 & E2 & ->).
      destruct (IHe _ _ _ _ _ _ _ _ _ E1 Hg Hr Tc) as (m1 & w1 & C1 & P1 & R1).
      rewrite (gtruthy _ _ R1) in E2.
      assert (K : goal gv l2 v (fun k => heval false k i g' rho' (if htruthy w1 then a' else b'))).
      { destruct (htruthy w1); eapply IHe; eauto. }
      destruct K as (m2 & w2 & C2 & P2 & R2).
      exists (m1 ++ m2), w2. split; [|split; [apply Permutation_app; assumption|exact R2]].
      eapply conv_S; [intros q; cbn [heval]; reflexivity|].
      eapply (conv_bind _ (fun n v => heval false n i g' rho' (if htruthy v then a' else b'))); [exact C1|exact C2].
    + injection E as <- <-. exists [j], (HData 0).
      split; [exists 1; intros [|q]; [lia|reflexivity]|]. split; [reflexivity|constructor].
    + injection E as <- <-. exists [], (HFn i (HClo i ps b' rho')).
      split; [eapply conv_S; [|apply conv_ret]; reflexivity|]. split; [constructor|].
      constructor. econstructor; [reflexivity|reflexivity|exact Tb|exact Hr|constructor].
    + destruct (bind_ok _ _ _ _ E) as (l1 & v1 & l2 & E1 & E2 & ->).
      destruct (bind_ok _ _ _ _ E2) as (l3 & v2 & l4 & E3 & E4 & ->).
      destruct (IHe _ _ _ _ _ _ _ _ _ E1 Hg Hr Tf) as (m1 & w1 & C1 & P1 & R1).
      destruct (IHs _ _ _ _ _ _ _ _ _ E3 Hg Hr Ta) as (m2 & w2 & C2 & P2 & R2).
      destruct R1 as [k|c h h' Hh]; [discriminate|].
      assert (K : goal gv l4 v (fun k => if i || c then hcurried false k g' h' w2 else happly false k g' h' w2)).
      { destruct (i || c); [eapply IHc|eapply IHa]; eauto. }
      destruct K as (m3 & w3 & C3 & P3 & R3).
      exists (m1 ++ m2 ++ m3), w3. split; [|split; [perm|exact R3]].
      eapply conv_S; [intros q; cbn [heval]; reflexivity|].
      eapply (conv_bind _ (fun n v => bind (hevals false n i g' rho' a') _)); [exact C1|].
      eapply (conv_bind _ (fun n w => _)); [exact C2|exact C3].
    + destruct (bind_ok _ _ _ _ E) as (l1 & v1 & l2 & E1 & E2 & ->).
      destruct (bind_ok _ _ _ _ E2) as (l3 & v2 & l4 & E3 & E4 & ->).
      destruct (IHe _ _ _ _ _ _ _ _ _ E1 Hg Hr Tf) as (m1 & w1 & C1 & P1 & R1).
      destruct (IHs _ _ _ _ _ _ _ _ _ E3 Hg Hr Ta) as (m2 & w2 & C2 & P2 & R2).
      assert (K : goal gv l4 v (fun k => match w1, w2 with
          | HData _, [] => ret w1
          | HData _, _ :: _ => raise TypeError
          | HFn _ f, [] => ret (HFn true f)
          | HFn _ f, _ :: _ => hcurried false k g' f w2
          end)).
      { destruct R1 as [k|c h h' Hh]; destruct R2 as [|u u' us us' Hu Hus]; try discriminate.
        - injection E4 as <- <-. exists [], (HData k). split; [apply conv_ret|].
          split; constructor.
        - injection E4 as <- <-. exists [], (HFn true h'). split; [apply conv_ret|].
          split; constructor; assumption.
        - eapply IHc; eauto. constructor; assumption. }
      destruct K as (m3 & w3 & C3 & P3 & R3).
      exists (m1 ++ m2 ++ m3), w3. split; [|split; [perm|exact R3]].
      eapply conv_S; [intros q; cbn [heval]; reflexivity|].
      eapply (conv_bind _ (fun n v => bind (hevals false n i g' rho' a') _)); [exact C1|].
      eapply (conv_bind _ (fun n w => _)); [exact C2|exact C3].
    + destruct (bind_ok _ _ _ _ E) as (l0 & w & l00 & E0 & E00 & ->).
      destruct (bind_ok _ _ _ _ E00) as (lb & vb & l2 & Eb & E2 & ->).
      destruct w as [|c0 w]; [discriminate|]. cbn [orb] in E2.
      destruct n as [|n1]; [discriminate|]. cbn [heval orb] in E0.
      destruct (bind_ok _ _ _ _ E0) as (lf & vf & l01 & Ef & E01 & ->).
      destruct (bind_ok _ _ _ _ E01) as (la & va & l1 & Ea & E1 & ->).
      destruct vf as [|cf hf]; [discriminate|].
      assert (Hmn := mono n1 (S n1) ltac:(lia)). destruct Hmn as (Me & Ms & _ & Mc).
      apply Me in Ef. apply Ms in Ea. apply Mc in E1.
      destruct (IHe _ _ _ _ _ _ _ _ _ Ef Hg Hr Tf) as (m1 & w1 & C1 & P1 & R1).
      destruct (IHs _ _ _ _ _ _ _ _ _ Ea Hg Hr Ta) as (m2 & w2 & C2 & P2 & R2).
      destruct (IHs _ _ _ _ _ _ _ _ _ Eb Hg Hr Tb) as (m3 & w3 & C3 & P3 & R3).
      inversion R1 as [|c1 h1 h1' Hh1 X1 X2]; subst.
      destruct (IHc _ _ _ _ _ _ _ _ E1 Hg Hh1 R2) as (m4 & w4 & C4 & P4 & R4).
      inversion R4 as [|c2 h2 h2' Hh2 X3 X4]; subst.
      destruct (IHc _ _ _ _ _ _ _ _ E2 Hg Hh2 R3) as (m5 & w5 & C5 & P5 & R5).
      destruct (conv_some _ _ _ C4) as (q4 & D4). destruct (conv_some _ _ _ C5) as (q5 & D5).
      destruct (merge _ _ _ _ _ _ _ D4 _ _ _ _ (gl_nonempty _ _ _ _ _ _ _ _ Eb Hb R3) D5)
        as (r' & C & F).
      exists (m1 ++ (m2 ++ m3) ++ (m4 ++ m5)), r'.
      split; [|split; [|eapply gv_feq; eassumption]].
      * eapply conv_call_in; [exact C1| |exact C]. apply conv_evals_app; assumption.
      * rewrite <- !app_assoc. apply Permutation_app; [assumption|].
        apply Permutation_app; [assumption|].
        rewrite (Permutation_app_swap_app l1 lb l2). apply Permutation_app; [assumption|].
        apply Permutation_app; assumption.
    + destruct (bind_ok _ _ _ _ E) as (lf & vf & l00 & Ef & E00 & ->).
      destruct (bind_ok _ _ _ _ E00) as (lab & vab & l2 & Eab & E2 & ->).
      destruct vf as [|cf hf]; [discriminate|]. cbn [orb] in E2.
      destruct (hevals_app _ _ _ _ _ _ _ _ Eab) as (la & va & lb & vb & Ea & Eb & -> & ->).
      destruct (IHe _ _ _ _ _ _ _ _ _ Ef Hg Hr Tf) as (m1 & w1 & C1 & P1 & R1).
      destruct (IHs _ _ _ _ _ _ _ _ _ Ea Hg Hr Ta) as (m2 & w2 & C2 & P2 & R2).
      destruct (IHs _ _ _ _ _ _ _ _ _ Eb Hg Hr Tb) as (m3 & w3 & C3 & P3 & R3).
      inversion R1 as [|c1 h1 h1' Hh1 X1 X2]; subst.
      destruct (IHc _ _ _ _ _ _ _ _ E2 Hg Hh1 (gl_app _ _ _ _ R2 R3)) as (m4 & w4 & C4 & P4 & R4).
      destruct (conv_some _ _ _ C4) as (q4 & D4).
      destruct (split_call _ _ _ _ _ _ _ (gl_nonempty _ _ _ _ _ _ _ _ Eb Hb R3) D4)
        as (s1 & c & w & s2 & r' & -> & K1 & K2 & F).
      exists ((m1 ++ m2 ++ s1) ++ m3 ++ s2), r'.
      split; [|split; [|eapply gv_feq; eassumption]].
      * eapply conv_call_in; [|exact C3|exact K2]. eapply conv_call_in; eassumption.
      * rewrite <- !app_assoc. apply Permutation_app; [assumption|].
        apply Permutation_app; [assumption|].
        rewrite (Permutation_app_swap_app s1 m3 s2). apply Permutation_app; assumption.
  - intros i g rho g' rho' ts ts' l vs E Hg Hr T.
    destruct T as [|t t' ts ts' Tt Tts]; cbn [hevals] in E.
    + injection E as <- <-. exists [], []. split; [eapply conv_S; [|apply conv_ret]; reflexivity|].
      split; constructor.
    + destruct (bind_ok _ _ _ _ E) as (l1 & v1 & l2 & E1 & E2 & ->).
      destruct (bind_ok _ _ _ _ E2) as (l3 & v2 & l4 & E3 & E4 & ->). injection E4 as <- <-.
      destruct (IHe _ _ _ _ _ _ _ _ _ E1 Hg Hr Tt) as (m1 & w1 & C1 & P1 & R1).
      destruct (IHs _ _ _ _ _ _ _ _ _ E3 Hg Hr Tts) as (m2 & w2 & C2 & P2 & R2).
      exists (m1 ++ m2 ++ []), (w1 :: w2). split; [|split; [perm|constructor; assumption]].
      eapply conv_S; [intros q; cbn [hevals]; reflexivity|].
      eapply (conv_bind _ (fun n v => bind (hevals false n i g' rho' ts') _)); [exact C1|].
      eapply (conv_bind _ (fun n w => _)); [exact C2|]. apply conv_ret.
  - intros g g' f f' a a' l v E Hg Hf Ha.
    destruct Hf as [f f' i ps b b' rho rho' xs xs' F F' B R L].
    destruct (happly_flat _ _ _ _ _ _ _ _ _ _ E F) as [[Le (n' & Hn & E')]|X]; [|discriminate].
    assert (Hmn := mono n' n ltac:(lia)). destruct Hmn as (Me & _). apply Me in E'.
    assert (Hxa : gl (xs ++ a) (xs' ++ a')) by (apply gl_app; assumption).
    destruct (IHe i g _ g' (combine ps (xs' ++ a') ++ rho') b b' l v E' Hg) as (m1 & w1 & C1 & P1 & R1).
    { apply ge_app; [apply ge_combine|]; assumption. }
    { exact B. }
    exists m1, w1. split; [|split; assumption].
    eapply conv_happly; [exact F'| |exact C1]. rewrite <- (gl_length _ _ Hxa). exact Le.
  - intros g g' f f' a a' l v E Hg Hf Ha.
    pose proof (gf_arity _ _ Hf) as Har. pose proof (gl_length _ _ Ha) as Hle.
    apply curried_inv in E.
    destruct E as [(L & -> & ->)|[(L & E)|(L & l1 & c & h & l2 & E1 & E2 & ->)]].
    + exists [], (HFn true (HPart f' a')). split; [apply conv_call_waits; lia|].
      split; [constructor|]. constructor. apply gf_part; assumption.
    + destruct (IHa _ _ _ _ _ _ _ _ E Hg Hf Ha) as (m1 & w1 & C1 & P1 & R1).
      exists m1, w1. split; [apply conv_call_exact; [lia|exact C1]|]. split; assumption.
    + destruct (IHa _ _ _ _ _ _ _ _ E1 Hg Hf (gl_firstn _ _ Ha _)) as (m1 & w1 & C1 & P1 & R1).
      inversion R1 as [|c2 h2 h2' Hh2 X3 X4]; subst.
      destruct (IHc _ _ _ _ _ _ _ _ E2 Hg Hh2 (gl_skipn _ _ Ha _)) as (m2 & w2 & C2 & P2 & R2).
      rewrite Har in C1, C2.
      exists (m1 ++ m2), w2. split; [|split; [apply Permutation_app; assumption|exact R2]].
      eapply conv_call_surplus; [lia|exact C1|exact C2].
Qed.

(** ** Programs *)
Inductive sgm (i : bool) : stmt -> stmt -> Prop :=
| sm_assign x e e' : rgm i e e' -> sgm i (SAssign x e) (SAssign x e')
| sm_expr e e' : rgm i e e' -> sgm i (SExpr e) (SExpr e')
| sm_def c x ps b b' : rgm i b b' -> sgm i (SDef c x ps b) (SDef c x ps b').
Lemma group_exec n i ss ss' : Forall2 (sgm i) ss ss' ->
  forall g g' l h, hexec false n i g ss = Some (l, Ok h) -> ge g g' ->
  goal ge l h (fun k => hexec false k i g' ss').
Proof.
  induction 1 as [|s s' ss ss' Hs Hss IH]; intros g g' l h E Hg.
  { injection E as <- <-. exists [], g'. split; [apply conv_ret|]. split; [constructor|assumption]. }
  assert (E0 : ge [] []) by constructor.
  destruct Hs as [x e e' T|e e' T|c x ps b b' T]; cbn [hexec] in *.
  - destruct (bind_ok _ _ _ _ E) as (l1 & v1 & l2 & E1 & E2 & ->).
    destruct (group_all n) as (IHe & _).
    destruct (IHe _ _ _ _ _ _ _ _ _ E1 Hg E0 T) as (m1 & w1 & C1 & P1 & R1).
    destruct (IH _ ((x, w1) :: g') _ _ E2) as (m2 & w2 & C2 & P2 & R2); [constructor; assumption|].
    exists (m1 ++ m2), w2. split; [|split; [apply Permutation_app; assumption|exact R2]].
    eapply (conv_bind _ (fun n v => hexec false n i ((x, v) :: g') ss')); [exact C1|exact C2].
  - destruct (bind_ok _ _ _ _ E) as (l1 & v1 & l2 & E1 & E2 & ->).
    destruct (group_all n) as (IHe & _).
    destruct (IHe _ _ _ _ _ _ _ _ _ E1 Hg E0 T) as (m1 & w1 & C1 & P1 & R1).
    destruct (IH _ g' _ _ E2 Hg) as (m2 & w2 & C2 & P2 & R2).
    exists (m1 ++ m2), w2. split; [|split; [apply Permutation_app; assumption|exact R2]].
    eapply (conv_bind _ (fun n v => hexec false n i g' ss')); [exact C1|exact C2].
  - eapply IH; [exact E|]. constructor; [|assumption]. constructor.
    econstructor; [reflexivity|reflexivity|exact T|constructor|constructor].
Qed.
Lemma group_hrun n before block block' after l h :
  source before -> source after -> Forall2 regroup_stmt block block' ->
  hrun false n before block after = Some (l, Ok h) ->
  goal ge l h (fun k => hrun false k before block' after).
Proof.
  intros Hb Ha F E. unfold hrun in *.
  destruct (bind_ok _ _ _ _ E) as (l1 & g1 & l2 & E1 & E2 & ->).
  destruct (bind_ok _ _ _ _ E2) as (l3 & g2 & l4 & E3 & E4 & ->).
  assert (So : forall ss, source ss -> Forall2 (sgm false) ss ss).
  { intros ss. induction 1 as [|s ss Hs _ IH]; constructor; [|assumption].
    destruct s; constructor; apply rgm_refl; exact Hs. }
  assert (Sb : Forall2 (sgm true) block block').
  { clear -F. induction F as [|s s' ss ss' Hs _ IH]; constructor; [|assumption].
    destruct Hs; constructor; apply regroup_rgm; assumption. }
  destruct (group_exec _ _ _ _ (So _ Hb) [] [] _ _ E1 ge_nil) as (m1 & w1 & C1 & P1 & R1).
  destruct (group_exec _ _ _ _ Sb _ _ _ _ E3 R1) as (m2 & w2 & C2 & P2 & R2).
  destruct (group_exec _ _ _ _ (So _ Ha) _ _ _ _ E4 R2) as (m3 & w3 & C3 & P3 & R3).
  exists (m1 ++ m2 ++ m3), w3. split; [|split; [|exact R3]].
  - eapply (conv_bind _ (fun n g => bind (hexec false n true g block') (fun g => hexec false n false g after)));
      [exact C1|].
    eapply (conv_bind _ (fun n g => hexec false n false g after)); [exact C2|exact C3].
  - apply Permutation_app; [assumption|]. apply Permutation_app; assumption.
Qed.
Lemma gv_see v v' : gv v v' -> hsee v = hsee v'.
Proof. intros []; reflexivity. Qed.

(** ** With the limit, the result is the same or a TypeError *)
Definition lower {A} (r r' : res A) : Prop := r = r' \/ exists l, r = Some (l, Raise TypeError).
Lemma lower_refl {A} (r : res A) : lower r r.
Proof. left. reflexivity. Qed.
Lemma lower_bind {A B} (r r' : res A) (k k' : A -> res B) :
  lower r r' -> (forall v, lower (k v) (k' v)) -> lower (bind r k) (bind r' k').
Proof.
  intros [<-|[l ->]] K; [|right; exists l; reflexivity].
  destruct r as [[l [v|e]]|]; cbn; [|left; reflexivity|left; reflexivity].
  destruct (K v) as [<-|[l' ->]]; [left; reflexivity|]. right. exists (l ++ l'). reflexivity.
Qed.
Lemma lower_all n :
  (forall i g rho t, lower (heval true n i g rho t) (heval false n i g rho t)) /\
  (forall i g rho ts, lower (hevals true n i g rho ts) (hevals false n i g rho ts)) /\
  (forall g f a, lower (happly true n g f a) (happly false n g f a)) /\
  (forall g f a, lower (hcurried true n g f a) (hcurried false n g f a)).
Proof.
  induction n as [|n (He & Hs & Ha & Hc)].
  { repeat split; intros; apply lower_refl. }
  split; [|split; [|split]].
  - intros i g rho t. destruct t; cbn [heval]; try apply lower_refl.
    + apply lower_bind; [apply He|]. intros v. apply lower_bind; [apply He|].
      intros; apply lower_refl.
    + apply lower_bind; [apply He|]. intros v. apply He.
    + apply lower_bind; [apply He|]. intros v. apply lower_bind; [apply Hs|]. intros vs.
      destruct v as [|c h]; [apply lower_refl|]. destruct (i || c); [apply Hc|apply Ha].
    + apply lower_bind; [apply He|]. intros v. apply lower_bind; [apply Hs|]. intros vs.
      destruct v as [|c h], vs; try apply lower_refl. apply Hc.
  - intros i g rho [|t ts]; cbn [hevals]; [apply lower_refl|].
    apply lower_bind; [apply He|]. intros v. apply lower_bind; [apply Hs|].
    intros; apply lower_refl.
  - intros g [i ps b rho|f c] a; cbn [happly]; [|apply Ha].
    destruct (length a =? length ps); [apply He|apply lower_refl].
  - intros g f a. cbn [hcurried]. destruct (length a <? harity f).
    { destruct f as [|[|] c]; try apply lower_refl. right. exists []. reflexivity. }
    destruct (length a =? harity f); [apply Ha|].
    apply lower_bind; [apply Ha|]. intros [|c h]; [apply lower_refl|apply Hc].
Qed.
Lemma lower_exec n i ss : forall g, lower (hexec true n i g ss) (hexec false n i g ss).
Proof.
  induction ss as [|[x e|e|c x ps b] ss IH]; intros g; cbn [hexec]; [apply lower_refl| | |apply IH];
    (apply lower_bind; [apply lower_all|]; intros; apply IH).
Qed.
Lemma lower_hrun n before block after :
  lower (hrun true n before block after) (hrun false n before block after).
Proof.
  apply lower_bind; [apply lower_exec|]. intros g.
  apply lower_bind; [apply lower_exec|]. intros h. apply lower_exec.
Qed.
Lemma mono_exec n m i ss : n <= m -> forall g, le_res (hexec false n i g ss) (hexec false m i g ss).
Proof.
  intros Hm. destruct (mono n m Hm) as (He & _).
  induction ss as [|[x e|e|c x ps b] ss IH]; intros g; cbn [hexec]; [apply le_refl_res| | |apply IH];
    (apply le_bind; [apply He|]; intros; apply IH).
Qed.
Lemma mono_hrun n m before block after : n <= m ->
  le_res (hrun false n before block after) (hrun false m before block after).
Proof.
  intros Hm. apply le_bind; [apply mono_exec, Hm|]. intros g.
  apply le_bind; [apply mono_exec, Hm|]. intros h. apply mono_exec, Hm.
Qed.
Theorem regrouping n before block block' after l h m l' o :
  source before -> source after -> block_ok block -> block_ok block' ->
  Forall2 regroup_stmt block block' ->
  hrun true n before block after = Some (l, Ok h) ->
  hrun true m before block' after = Some (l', o) -> o <> Raise TypeError ->
  exists k0, forall k, k0 <= k -> exists g g',
    run k before block after = Some (l, Ok g) /\
    run k before block' after = Some (l', Ok g') /\
    Permutation l l' /\
    forall x, option_map see (get g' x) = option_map see (get g x).
Proof.
  intros Hb Ha K K' F E E' N.
  assert (E0 : hrun false n before block after = Some (l, Ok h)).
  { destruct (lower_hrun n before block after) as [<-|[lx X]]; [exact E|congruence]. }
  assert (E0' : hrun false m before block' after = Some (l', o)).
  { destruct (lower_hrun m before block' after) as [<-|[lx X]]; [exact E'|congruence]. }
  destruct (group_hrun _ _ _ _ _ _ _ Hb Ha F E0) as (l2 & h' & [n' C] & P & R).
  pose proof (mono_hrun m (m + n') before block' after ltac:(lia) _ E0') as Em.
  rewrite (C (m + n') ltac:(lia)) in Em. injection Em as -> <-.
  exists (2 * n + 2 * m). intros k Hk.
  destruct (curried_run _ _ _ _ _ _ Hb K Ha E ltac:(discriminate) k ltac:(lia)) as (g & X & Gx).
  destruct (curried_run _ _ _ _ _ _ Hb K' Ha E' ltac:(discriminate) k ltac:(lia)) as (g' & X' & Gx').
  exists g, g'. split; [exact X|]. split; [exact X'|]. split; [exact P|].
  intros x. rewrite Gx, Gx'. pose proof (ge_get _ _ x R) as G.
  destruct (get h x), (get h' x); try contradiction; cbn; [|reflexivity].
  f_equal. symmetry. apply gv_see. exact G.
Qed.
