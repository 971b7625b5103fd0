From Coq Require Import List Bool Arith Lia.
From Verif Require Import Base BaseProofs EcModel EcSpec.
Import ListNotations.
Open Scope nat_scope.
Open Scope list_scope.

Lemma tag_eqb_eq a b : tag_eqb a b = true <-> a = b.
Proof. destruct a, b; cbn; rewrite ?Nat.eqb_eq; split; congruence. Qed.

Lemma shouldcatch_ok ts u t a : hashable t ->
  exists b, shouldcatch (option_map (map User) ts) u t a = Ok b /\ (b = true <-> accepts ts u t a).
Proof.
  intros H. unfold shouldcatch, accepts. destruct ts as [ts|]; cbn [option_map].
  - destruct t as [t|].
    + assert (E : exists b, Ok b = match t with Unhashable _ => Raise TypeError
                 | _ => Ok (existsb (tag_eqb t) (map User ts)) end /\ b = existsb (tag_eqb t) (map User ts)).
      { destruct t; eauto. exfalso. eapply H; eauto. }
      destruct E as (b & <- & ->). eexists. split; [reflexivity|].
      rewrite existsb_exists. split.
      * intros (x & I & E). apply tag_eqb_eq in E. subst x. apply in_map_iff in I as (n & <- & I). eauto.
      * intros (n & -> & I). exists (User n). split; [now apply in_map|]. apply tag_eqb_eq. reflexivity.
    + eexists. split; [reflexivity|]. tauto.
  - destruct a, t as [t|].
    + exists true. split; [reflexivity|tauto].
    + exists true. split; [reflexivity|tauto].
    + exists false. rewrite andb_false_r. split; [reflexivity|]. split; discriminate.
    + exists u. rewrite andb_true_r. split; [reflexivity|]. intuition discriminate.
Qed.

Section P.
Context {D St : Type}.
Implicit Types (c : cmd D St) (s : state St) (fs : list (@frame St)).

(** [s'] extends [s]: what existed in [s] is unchanged *)
Definition ext s s' : Prop :=
  length (ecs s) <= length (ecs s') /\
  forall j, j < length (ecs s) -> nth_error (ecs s') j = nth_error (ecs s) j.
Lemma ext_refl s : ext s s. Proof. split; auto. Qed.
Lemma ext_trans s1 s2 s3 : ext s1 s2 -> ext s2 s3 -> ext s1 s3.
Proof. intros [L1 H1] [L2 H2]. split; [lia|]. intros j Hj. rewrite H2 by lia. auto. Qed.
Lemma ext_enter s : ext s (snd (enter_ec s)).
Proof.
  unfold enter_ec; cbn. split; cbn [ecs]; [rewrite app_length; lia|]. intros j Hj. apply nth_error_app1, Hj.
Qed.
Lemma leave_length i s : length (ecs (leave_ec i s)) = length (ecs s).
Proof.
  unfold leave_ec, set_valid. destruct (nth_error (ecs s) i) as [[u b]|]; cbn; [apply upd_length|reflexivity].
Qed.
Lemma leave_other i j s : j <> i -> nth_error (ecs (leave_ec i s)) j = nth_error (ecs s) j.
Proof.
  intros N. unfold leave_ec, set_valid. destruct (nth_error (ecs s) i) as [[u b]|]; cbn; [|reflexivity].
  rewrite nth_error_upd. destruct (Nat.eqb_spec i j); [congruence|]. reflexivity.
Qed.
Lemma ext_leave s0 i s : length (ecs s0) <= i -> ext s0 s -> ext s0 (leave_ec i s).
Proof.
  intros L [L1 H1]. split; [rewrite leave_length; exact L1|].
  intros j Hj. rewrite leave_other by lia. auto.
Qed.
Lemma leave_active i s : active (leave_ec i s) = pred (active s).
Proof. unfold leave_ec, set_valid. destruct (nth_error (ecs s) i) as [[u b]|]; reflexivity. Qed.

Lemma eval_ext c : forall s r s', eval c s = (r, s') -> ext s s' /\ active s' = active s.
Proof.
  induction c; intros s r s' E; cbn [eval] in E.
  - injection E as <- <-. split; [apply ext_refl|reflexivity].
  - destruct (g (user s)). injection E as <- <-. split; [split; cbn; auto|reflexivity].
  - destruct (eval c s) as [[v|v t a|e] s1] eqn:E1.
    + apply IHc in E1 as [X1 A1]. apply H in E as [X2 A2]. split; [eapply ext_trans; eauto|congruence].
    + injection E as <- <-. eapply IHc; eauto.
    + injection E as <- <-. eapply IHc; eauto.
  - injection E as <- <-. split; [apply ext_refl|reflexivity].
  - injection E as <- <-. split; [apply ext_refl|reflexivity].
  - destruct (eval c s) as [r1 s1] eqn:E1. injection E as <- <-. eapply IHc; eauto.
  - destruct (enter_ec s) as [i s1] eqn:Ee. destruct (eval (f (Ec i)) s1) as [r2 s2] eqn:E1.
    injection E as <- <-. apply H in E1 as [X1 A1].
    assert (s1 = snd (enter_ec s)) by (rewrite Ee; reflexivity). subst s1.
    assert (i = length (ecs s)) by (unfold enter_ec in Ee; congruence). subst i.
    split.
    + apply ext_leave; [lia|]. eapply ext_trans; [apply ext_enter|exact X1].
    + rewrite leave_active, A1. reflexivity.
  - destruct w; injection E as <- <-; (split; [apply ext_refl|reflexivity]).
  - destruct (eval c s) as [r1 s1] eqn:E1. injection E as <- <-. apply IHc in E1. exact E1.
  - destruct (eval c s) as [[v|v t a|e] s1] eqn:E1.
    + injection E as <- <-. eapply IHc; eauto.
    + injection E as <- <-. eapply IHc; eauto.
    + apply IHc in E1 as [X1 A1]. apply H in E as [X2 A2]. split; [eapply ext_trans; eauto|congruence].
Qed.

Lemma reaches_ext c s fs c' s' : reaches c s fs c' s' -> ext s s' /\ active s <= active s'.
Proof.
  induction 1 as [| |? ? ? ? ? ? ? ? E| | | | |? ? ? ? ? ? ? ? E].
  - split; [apply ext_refl|lia].
  - assumption.
  - apply eval_ext in E as [X A]. destruct IHreaches. split; [eapply ext_trans; eauto|lia].
  - assumption.
  - destruct IHreaches as [X A]. split; [eapply ext_trans; [apply ext_enter|exact X]|].
    cbn in A. lia.
  - assumption.
  - assumption.
  - apply eval_ext in E as [X A]. destruct IHreaches. split; [eapply ext_trans; eauto|lia].
Qed.

Lemma pass_catch ts u v t a : hashable t -> ~ accepts ts u t a ->
  catchpoint (D := D) (option_map (map User) ts) u (REsc v t a) = REsc v t a.
Proof.
  intros H N. cbn. destruct (shouldcatch_ok ts u t a H) as ([|] & -> & B); [|reflexivity].
  exfalso. apply N. apply B. reflexivity.
Qed.
Lemma hit_catch ts u v t a : hashable t -> accepts ts u t a ->
  catchpoint (D := D) (option_map (map User) ts) u (REsc v t a) = RVal v.
Proof.
  intros H N. cbn. destruct (shouldcatch_ok ts u t a H) as ([|] & -> & B); [reflexivity|].
  apply B in N. discriminate.
Qed.
Lemma pass_ec v t a w : hashable t -> t <> Some (Uid w) ->
  catchpoint (D := D) (Some [Uid w]) false (REsc v t a) = REsc v t a.
Proof.
  intros H N. cbn. destruct t as [[n|n|n]|]; cbn; try reflexivity.
  - exfalso. eapply H. reflexivity.
  - destruct (Nat.eqb_spec n w) as [->|]; [congruence|reflexivity].
Qed.
Lemma enter_uid s : uid_of (snd (enter_ec s)) (fst (enter_ec s)) = active s.
Proof.
  unfold uid_of, enter_ec; cbn. rewrite nth_error_app2, Nat.sub_diag by lia. reflexivity.
Qed.

Lemma esc_up c s fs c' s' : reaches c s fs c' s' ->
  forall v t a s2, eval c' s' = (REsc v t a, s2) ->
  Forall (passes t a) fs -> hashable t -> (forall u, t = Some (Uid u) -> u < active s) ->
  eval c s = (REsc v t a, unwind fs s2).
Proof.
  induction 1 as [c s|c k s fs c' s' R IH|c k s v0 s1 fs c' s' E R IH|ts u c s fs c' s' R IH|f s fs c' s' R IH|c g s fs c' s' R IH|c h s fs c' s' R IH|c h s e s1 fs c' s' E R IH];
    intros v t a s2 Ev P H U.
  - exact Ev.
  - cbn [eval]. rewrite (IH v t a s2) by assumption. reflexivity.
  - cbn [eval]. rewrite E. apply IH; auto. apply eval_ext in E as [_ A]. rewrite A. exact U.
  - inversion P; subst. cbn [eval]. rewrite (IH v t a s2) by assumption.
    rewrite pass_catch by assumption. reflexivity.
  - inversion P; subst. cbn [eval]. destruct (enter_ec s) as [i s1] eqn:Ee.
    assert (Ei : i = fst (enter_ec s)) by (rewrite Ee; reflexivity).
    assert (Es : s1 = snd (enter_ec s)) by (rewrite Ee; reflexivity).
    cbn [fst snd] in *.
    rewrite (IH v t a s2); try assumption.
    + rewrite pass_ec; [reflexivity|assumption|]. intros ->.
      specialize (U _ eq_refl). rewrite Ei, Es, enter_uid in U. lia.
    + intros u Hu. apply U in Hu. rewrite Es. cbn. lia.
  - inversion P; subst. cbn [eval]. rewrite (IH v t a s2) by assumption. reflexivity.
  - inversion P; subst. cbn [eval]. rewrite (IH v t a s2) by assumption. reflexivity.
  - cbn [eval]. rewrite E. apply IH; auto. apply eval_ext in E as [_ A]. rewrite A. exact U.
Qed.

Lemma throw_caught c s fs v t a s' ts u :
  program_tag t -> hashable t ->
  reaches c s fs (Throw v t a) s' -> Forall (passes t a) fs -> accepts ts u t a ->
  eval (Catch ts u c) s = (RVal v, unwind fs s').
Proof.
  intros T H R P A. cbn [eval]. rewrite (esc_up _ _ _ _ _ R v t a s' eq_refl P H).
  - rewrite hit_catch by assumption. reflexivity.
  - intros w E. exfalso. apply (T w E).
Qed.
Lemma throw_uncaught c s fs v t a s' :
  program_tag t -> hashable t ->
  reaches c s fs (Throw v t a) s' -> Forall (passes t a) fs ->
  eval c s = (REsc v t a, unwind fs s').
Proof.
  intros T H R P. apply (esc_up _ _ _ _ _ R v t a s' eq_refl P H).
  intros w E. exfalso. apply (T w E).
Qed.

Lemma ec_escapes (f : val D -> cmd D St) s fs v s' :
  let i := fst (enter_ec s) in
  reaches (f (Ec i)) (snd (enter_ec s)) fs (Invoke (Ec i) v) s' ->
  eval (CallEc f) s = (RVal v, leave_ec i (unwind fs s')).
Proof.
  intros i R. pose proof (reaches_ext _ _ _ _ _ R) as [[L X] _].
  assert (N : nth_error (ecs s') i = Some (active s, true)).
  { rewrite X by (unfold i, enter_ec; cbn; rewrite app_length; cbn; lia).
    unfold i, enter_ec. cbn. rewrite nth_error_app2, Nat.sub_diag by lia. reflexivity. }
  assert (Q : eval (Invoke (Ec i) v : cmd D St) s' = (REsc v (Some (Uid (active s))) false, s')).
  { cbn [eval]. unfold invoke_ec. rewrite N. reflexivity. }
  assert (U : eval (f (Ec i)) (snd (enter_ec s)) = (REsc v (Some (Uid (active s))) false, unwind fs s')).
  { eapply esc_up; [exact R|exact Q| | |].
    - apply Forall_forall. intros [ts u|j|g|] _; cbn; auto. destruct ts; [|discriminate].
      intros (n & E & _). discriminate.
    - intros n E. discriminate.
    - intros u [= <-]. cbn. lia. }
  cbn [eval]. destruct (enter_ec s) as [j s1] eqn:Ee. cbn [fst snd] in *. subst i. rewrite U.
  assert (E : uid_of s1 j = active s).
  { assert (j = fst (enter_ec s) /\ s1 = snd (enter_ec s)) as [-> ->] by (rewrite Ee; auto). apply enter_uid. }
  rewrite E. cbn. rewrite Nat.eqb_refl. reflexivity.
Qed.

Lemma ec_expired (f : val D -> cmd D St) s r s1 c fs v s2 :
  eval (CallEc f) s = (r, s1) ->
  reaches c s1 fs (Invoke (Ec (fst (enter_ec s))) v) s2 ->
  eval (Invoke (Ec (fst (enter_ec s))) v : cmd D St) s2 = (RExc RuntimeError, s2).
Proof.
  intros E R. cbn [eval] in E. destruct (enter_ec s) as [i s0] eqn:Ee. cbn [fst] in *.
  assert (Ei : i = length (ecs s)) by (unfold enter_ec in Ee; congruence).
  assert (Es : s0 = snd (enter_ec s)) by (rewrite Ee; reflexivity).
  destruct (eval (f (Ec i)) s0) as [r0 s3] eqn:E3. injection E as <- <-.
  pose proof (reaches_ext _ _ _ _ _ R) as [[_ X] _].
  apply eval_ext in E3 as [[L3 X3] _].
  assert (L0 : length (ecs s0) = S i) by (subst s0; unfold enter_ec; cbn; rewrite app_length; cbn; lia).
  assert (N : nth_error (ecs s2) i = Some (active s, false)).
  { rewrite X by (rewrite leave_length; lia).
    unfold leave_ec, set_valid. rewrite X3 by lia.
    assert (N0 : nth_error (ecs s0) i = Some (active s, true)).
    { subst s0 i. unfold enter_ec. cbn. rewrite nth_error_app2, Nat.sub_diag by lia. reflexivity. }
    rewrite N0. cbn [ecs]. rewrite nth_error_upd, Nat.eqb_refl. cbn [andb].
    destruct (Nat.ltb_spec i (length (ecs s3))); [reflexivity|lia]. }
  cbn [eval]. unfold invoke_ec. rewrite N. reflexivity.
Qed.
(** call_ec is otherwise transparent *)
Lemma ec_transparent (f : val D -> cmd D St) s r s1 :
  eval (f (Ec (fst (enter_ec s)))) (snd (enter_ec s)) = (r, s1) ->
  (forall v t a, r = REsc v t a -> hashable t /\ t <> Some (Uid (active s))) ->
  eval (CallEc f) s = (r, leave_ec (fst (enter_ec s)) s1).
Proof.
  intros E H. cbn [eval]. destruct (enter_ec s) as [i s0] eqn:Ee. cbn [fst snd] in *. rewrite E.
  assert (U : uid_of s0 i = active s).
  { assert (i = fst (enter_ec s) /\ s0 = snd (enter_ec s)) as [-> ->] by (rewrite Ee; auto). apply enter_uid. }
  rewrite U. destruct r as [v|v t a|e]; try reflexivity.
  destruct (H v t a eq_refl). rewrite pass_ec by assumption. reflexivity.
Qed.
End P.
