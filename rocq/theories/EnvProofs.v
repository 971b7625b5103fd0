From Coq Require Import String List Bool Lia Arith.
From Verif Require Import Base BaseProofs CollModel CollSpec CollProofs EnvModel EnvSpec.
Import ListNotations.
Open Scope string_scope.
Open Scope list_scope.

Lemma eqb_ok a b : String.eqb a b = true <-> a = b. Proof. apply String.eqb_eq. Qed.
#[local] Hint Resolve eqb_ok : core.

Lemma mem_in n l : mem n l = true <-> In n l.
Proof.
  unfold mem. rewrite existsb_exists. split.
  - intros (x & H & E). apply String.eqb_eq in E. now subst.
  - intro H. exists n. split; auto. apply String.eqb_refl.
Qed.
Lemma mem_false n l : mem n l = false <-> ~ In n l.
Proof. rewrite <- mem_in. destruct (mem n l); split; congruence || tauto. Qed.

Section Env.
Context {V : Type}.
Variable isid : name -> bool.
Variable de : envst V -> name -> V -> envst V.
Implicit Types (e : envst V) (n : name) (o : eop V).

Lemma has_bound e n : has e n = true <-> bound e n <> None.
Proof. unfold has, bound. destruct (dict_get _ _ _); split; congruence. Qed.
Lemma has_names e n : has e n = true <-> In n (names e).
Proof.
  rewrite has_bound. unfold bound, names. rewrite (get_none String.eqb eqb_ok).
  destruct (in_dec string_dec n (map fst (binds e))); tauto.
Qed.
Lemma has_false e n : has e n = false <-> bound e n = None.
Proof. unfold has, bound. destruct (dict_get _ _ _); split; congruence. Qed.

Lemma bound_set e n v n' : bound (with_binds e (dict_set String.eqb (binds e) n v)) n' = if String.eqb n n' then Some v else bound e n'.
Proof. unfold bound, with_binds; simpl. now apply get_set. Qed.

Lemma get_del (d : dict name V) n n' : NoDup (map fst d) ->
  dict_get String.eqb (dict_del String.eqb d n) n' = if String.eqb n n' then None else dict_get String.eqb d n'.
Proof.
  induction d as [|[k v] d IH]; simpl; intro H.
  - now destruct (String.eqb n n').
  - inversion H; subst. destruct (String.eqb k n) eqn:E.
    + apply String.eqb_eq in E. subst. destruct (String.eqb n n') eqn:E'; auto.
      apply String.eqb_eq in E'. subst. now apply (get_none String.eqb eqb_ok).
    + simpl. rewrite IH by auto. destruct (String.eqb k n') eqn:E'; auto.
      apply String.eqb_eq in E'. subst. now rewrite String.eqb_sym, E.
Qed.
Lemma get_del_ne (d : dict name V) n n' : n <> n' ->
  dict_get String.eqb (dict_del String.eqb d n) n' = dict_get String.eqb d n'.
Proof.
  intro Hn. induction d as [|[k v] d IH]; simpl; auto.
  destruct (String.eqb k n) eqn:E.
  - apply String.eqb_eq in E. subst. apply String.eqb_neq in Hn. now rewrite Hn.
  - simpl. now rewrite IH.
Qed.

(** ** assignment *)
Notation can_assign := (can_assign isid).

Lemma direct_reserved n : In n direct_write -> In n reserved_names.
Proof. unfold direct_write, reserved_names. simpl. intuition. Qed.

Lemma setattr_ok e n v : can_assign e n ->
  env_setattr isid de e n v = (Ok RNone, with_binds e (dict_set String.eqb (binds e) n v)).
Proof.
  intros (H1 & H2 & H3). unfold env_setattr.
  assert (mem n direct_write = false) as -> by (apply mem_false; intro C; apply H1; now apply direct_reserved).
  change reserved with reserved_names in H1. apply mem_false in H1. rewrite H1, H2. simpl.
  destruct H3 as [->|H3]; auto. apply has_bound in H3. now rewrite H3, andb_false_r.
Qed.
Lemma setattr_fails e n v : ~ In n direct_write -> ~ can_assign e n ->
  exists x, env_setattr isid de e n v = (Raise x, e) /\ (x = AttributeError \/ x = ValueError).
Proof.
  intros Hd H. unfold env_setattr. apply mem_false in Hd. rewrite Hd.
  destruct (mem n reserved_names) eqn:E; eauto.
  destruct (finalized e && negb (has e n)) eqn:E1; eauto.
  destruct (isid n) eqn:E2; simpl; eauto. exfalso. apply H. split; [now apply mem_false|]. split; auto.
  destruct (finalized e); auto. right. simpl in E1. apply negb_false_iff in E1. now apply has_bound.
Qed.
Lemma setattr_cases e n v : ~ In n direct_write ->
  can_assign e n /\ env_setattr isid de e n v = (Ok RNone, with_binds e (dict_set String.eqb (binds e) n v))
  \/ ~ can_assign e n /\ exists x, env_setattr isid de e n v = (Raise x, e).
Proof.
  intro Hd. unfold env_setattr, EnvSpec.can_assign. apply mem_false in Hd. rewrite Hd.
  destruct (mem n reserved_names) eqn:E.
  - apply mem_in in E. right. split; [tauto|eauto].
  - apply mem_false in E. destruct (finalized e && negb (has e n)) eqn:E1.
    + apply andb_true_iff in E1. destruct E1 as [E1 E2]. apply negb_true_iff, has_false in E2.
      right. split; [|eauto]. intros (_ & _ & [H|H]); congruence.
    + destruct (isid n); simpl.
      * left. repeat split; auto. destruct (finalized e); auto. simpl in E1. apply negb_false_iff in E1.
        right. now apply has_bound.
      * right. split; [|eauto]. intuition discriminate.
Qed.

Lemma assign_spec e n v : ~ In n direct_write ->
  (can_assign e n ->
     fst (env_step isid de e (ESetattr n v)) = Ok RNone
     /\ bound (snd (env_step isid de e (ESetattr n v))) n = Some v
     /\ (forall n', n' <> n -> bound (snd (env_step isid de e (ESetattr n v))) n' = bound e n')
     /\ finalized (snd (env_step isid de e (ESetattr n v))) = finalized e)
  /\ (~ can_assign e n -> exists x, env_step isid de e (ESetattr n v) = (Raise x, e) /\ (x = AttributeError \/ x = ValueError)).
Proof.
  intro Hd. split.
  - intro H. unfold env_step, step_gen. rewrite setattr_ok by auto. simpl. split; auto. split.
    + rewrite bound_set. now rewrite String.eqb_refl.
    + split; auto. intros n' Hn. rewrite bound_set.
      destruct (String.eqb n n') eqn:E; auto. apply String.eqb_eq in E. congruence.
  - intro H. now apply setattr_fails.
Qed.

(** ** frame *)
Lemma update_other (l : list (name * V)) : forall d n, ~ In n (map fst l) ->
  dict_get String.eqb (dict_update String.eqb d l) n = dict_get String.eqb d n.
Proof.
  unfold dict_update. induction l as [|[k v] l IH]; simpl; intros d n H; auto.
  rewrite IH by tauto. rewrite (get_set String.eqb eqb_ok). destruct (String.eqb k n) eqn:E; auto.
  apply String.eqb_eq in E. tauto.
Qed.

Lemma with_same e : with_binds e (binds e) = e. Proof. now destruct e. Qed.

Lemma step_frame e o n : public o -> ~ touches n o -> bound (snd (env_step isid de e o)) n = bound e n.
Proof.
  assert (S : forall n' v, ~ In n' direct_write -> n' <> n -> bound (snd (env_setattr isid de e n' v)) n = bound e n).
  { intros n' v Hd Hn. destruct (setattr_cases e n' v Hd) as [[_ ->]|[_ [x ->]]]; auto. simpl.
    rewrite bound_set. apply String.eqb_neq in Hn. now rewrite Hn. }
  destruct o; simpl; intros Hp Ht; auto; try tauto.
  - unfold env_delattr. destruct (negb (isid n0)); auto. destruct (finalized e); auto.
    destruct (negb (has e n0)); auto. simpl. now apply get_del_ne.
  - unfold env_pop. destruct (finalized e); auto. destruct (dict_get String.eqb (binds e) n0).
    + simpl. now apply get_del_ne.
    + destruct d; auto.
  - unfold env_update. rewrite map_app, in_app_iff in Ht.
    destruct ms as [|m [|m' ms]]; auto;
      repeat match goal with |- context [if ?b then _ else _] => destruct b; auto end;
      unfold bound; simpl; rewrite !update_other; auto.
  - unfold env_setdefault. destruct (finalized e && negb (has e n0)); auto.
    destruct (dict_get String.eqb (binds e) n0); auto. simpl. rewrite bound_set.
    apply String.eqb_neq in Ht. now rewrite Ht.
  - unfold env_set. destruct (negb (has e n0)); auto. specialize (S n0 v Hp Ht).
    destruct (env_setattr isid de e n0 v) as [[r|x] e']; auto.
Qed.

Lemma run_frame os n : forall e, (forall o, In o os -> public o /\ ~ touches n o) ->
  bound (run_ops (env_step isid de) e os) n = bound e n.
Proof.
  unfold run_ops. induction os as [|o os IH]; intros e H; simpl; auto.
  rewrite IH by (intros; apply H; now right). destruct (H o); [now left|]. now apply step_frame.
Qed.

Lemma read_back e n v os : can_assign e n -> ~ In n class_attrs ->
  (forall o, In o os -> public o /\ ~ touches n o) ->
  let e1 := snd (env_step isid de e (ESetattr n v)) in
  fst (env_step isid de (run_ops (env_step isid de) e1 os) (EGet n)) = Ok (RVal v).
Proof.
  intros H Hc Hos e1. simpl. unfold env_getattr. apply mem_false in Hc. rewrite Hc.
  destruct H as (H1 & H2 & H3). rewrite H2. simpl.
  change (match bound (run_ops (env_step isid de) e1 os) n with Some v0 => Ok (RVal v0) | None => Raise AttributeError end = Ok (RVal v)).
  rewrite run_frame by auto. unfold e1. simpl. rewrite setattr_ok by (split; auto).
  simpl. rewrite bound_set, String.eqb_refl. reflexivity.
Qed.

(** ** failed operations change nothing *)
Lemma failed e o x : public o -> fst (env_step isid de e o) = Raise x -> snd (env_step isid de e o) = e.
Proof.
  destruct o; simpl; auto; try discriminate.
  - intro Hd. destruct (setattr_cases e n v Hd) as [[_ ->]|[_ [y ->]]]; auto. discriminate.
  - intros _. unfold env_delattr. repeat match goal with |- context [if ?b then _ else _] => destruct b; auto end. discriminate.
  - intros _. unfold env_pop. destruct (finalized e); auto. destruct (dict_get _ _ _), d; auto; discriminate.
  - intros _. unfold env_popitem. destruct (finalized e); auto. destruct (rev (binds e)) as [|[? ?] ?]; auto. discriminate.
  - intros _. unfold env_clear. destruct (finalized e); auto. discriminate.
  - intros _. unfold env_update. destruct ms as [|m [|m' ms]]; auto;
      repeat match goal with |- context [if ?b then _ else _] => destruct b; auto end; discriminate.
  - intros _. unfold env_setdefault. destruct (finalized e && _); auto. destruct (dict_get _ _ _); auto; discriminate.
  - intro Hd. unfold env_set. destruct (negb (has e n)); auto.
    destruct (setattr_cases e n v Hd) as [[_ ->]|[_ [y ->]]]; auto. discriminate.
Qed.

(** ** finalize *)
Lemma set_names_bound (d : dict name V) n v : dict_get String.eqb d n <> None -> map fst (dict_set String.eqb d n v) = map fst d.
Proof.
  intro H. rewrite (set_keys String.eqb). 
  destruct (existsb _ _) eqn:E; [apply app_nil_r|]. exfalso. revert E. apply not_false_iff_true.
  apply existsb_exists. exists n. split; [|apply String.eqb_refl].
  destruct (in_dec string_dec n (map fst d)); auto. apply (get_none String.eqb eqb_ok) in n0. contradiction.
Qed.
Lemma update_names_bound (l : list (name * V)) : forall d, (forall n, In n (map fst l) -> dict_get String.eqb d n <> None) ->
  map fst (dict_update String.eqb d l) = map fst d.
Proof.
  unfold dict_update. induction l as [|[k v] l IH]; simpl; intros d H; auto.
  rewrite IH.
  - apply set_names_bound. auto.
  - intros n Hn. rewrite (get_set String.eqb eqb_ok). destruct (String.eqb k n); [discriminate|auto].
Qed.

Lemma existsb_new e (d : dict name V) : existsb (fun kv => negb (has e (fst kv))) d = false ->
  forall n, In n (map fst d) -> bound e n <> None.
Proof.
  intros H n Hn. apply in_map_iff in Hn. destruct Hn as ([k v] & <- & Hin). simpl.
  apply has_bound. destruct (has e k) eqn:E; auto. 
  assert (existsb (fun kv => negb (has e (fst kv))) d = true); [|congruence].
  apply existsb_exists. exists (k, v). split; auto. simpl. now rewrite E.
Qed.
Lemma has_new_false e m : has_new e m = false -> forall n, In n (map fst (pairs_of m)) -> bound e n <> None.
Proof.
  destruct m; simpl.
  - apply existsb_new.
  - destruct l; [simpl; tauto|discriminate].
Qed.

Lemma step_finalized e o : public o -> is_exit o = false -> finalized e = true ->
  names (snd (env_step isid de e o)) = names e /\ finalized (snd (env_step isid de e o)) = true.
Proof.
  intros Hp Hx Hf.
  assert (S : forall n v, ~ In n direct_write ->
     names (snd (env_setattr isid de e n v)) = names e /\ finalized (snd (env_setattr isid de e n v)) = true).
  { intros n v Hd. destruct (setattr_cases e n v Hd) as [[(_ & _ & [H|H]) ->]|[_ [x ->]]]; auto; [congruence|].
    simpl. split; auto. unfold names; simpl. now apply set_names_bound. }
  destruct o; simpl in *; auto; try discriminate.
  - unfold env_delattr. rewrite Hf. destruct (negb (isid n)); auto.
  - unfold env_pop. now rewrite Hf.
  - unfold env_popitem. now rewrite Hf.
  - unfold env_clear. now rewrite Hf.
  - unfold env_update. rewrite Hf. simpl.
    assert (G : forall ms, (ms = [] \/ exists m, ms = [m] /\ has_new e m = false) ->
       existsb (fun kv => negb (has e (fst kv))) b = false ->
       names (with_binds e (dict_update String.eqb (dict_update String.eqb (binds e) (flat_map pairs_of ms)) b)) = names e).
    { intros ms0 H0 H1. unfold names; simpl.
      assert (A : forall n, In n (map fst (flat_map pairs_of ms0)) -> dict_get String.eqb (binds e) n <> None).
      { destruct H0 as [->|(m & -> & Hm)]; simpl; [tauto|]. rewrite app_nil_r. exact (has_new_false e m Hm). }
      rewrite update_names_bound.
      - now apply update_names_bound.
      - intros n Hn. rewrite (update_get String.eqb eqb_ok). pose proof (existsb_new e b H1 n Hn) as Hb.
        unfold bound in Hb. destruct (last_for _ _ _); [discriminate|auto]. }
    destruct ms as [|m [|m' ms]]; simpl; auto.
    + destruct (existsb _ b) eqn:E; auto. split; auto. apply (G []); auto.
    + destruct (has_new e m) eqn:Em; simpl; auto. destruct (existsb _ b) eqn:E; auto. split; auto.
      apply (G [m]); eauto.
  - unfold env_setdefault. rewrite Hf. simpl. destruct (has e n) eqn:E; simpl; auto.
    unfold has in E. destruct (dict_get String.eqb (binds e) n); auto. discriminate.
  - unfold env_set. destruct (negb (has e n)); auto. specialize (S n v Hp).
    destruct (env_setattr isid de e n v) as [[r|x] e']; auto.
Qed.

Lemma run_finalized os : forall e, (forall o, In o os -> public o /\ is_exit o = false) -> finalized e = true ->
  names (run_ops (env_step isid de) e os) = names e /\ finalized (run_ops (env_step isid de) e os) = true.
Proof.
  unfold run_ops. induction os as [|o os IH]; intros e H Hf; simpl; auto.
  destruct (H o) as [H1 H2]; [now left|]. destruct (step_finalized e o H1 H2 Hf) as [A B].
  destruct (IH (snd (env_step isid de e o))) as [C D]; auto; [intros; apply H; now right|].
  split; auto. congruence.
Qed.

(** ** which names can be present *)
Notation validname := (validname isid).
Lemma set_names (d : dict name V) n v n' : In n' (map fst (dict_set String.eqb d n v)) -> n' = n \/ In n' (map fst d).
Proof.
  rewrite (set_keys String.eqb), in_app_iff. destruct (existsb _ _); simpl; intuition.
Qed.
Lemma del_names (d : dict name V) n n' : In n' (map fst (dict_del String.eqb d n)) -> In n' (map fst d).
Proof.
  induction d as [|[k v] d IH]; simpl; auto. destruct (String.eqb k n); simpl; intuition.
Qed.
Lemma step_valid e o : checked o -> (forall n, In n (names e) -> validname n) ->
  forall n, In n (names (snd (env_step isid de e o))) -> validname n.
Proof.
  intros Hp H.
  assert (S : forall n0 v, ~ In n0 direct_write -> forall n, In n (names (snd (env_setattr isid de e n0 v))) -> validname n).
  { intros n0 v Hd n. destruct (setattr_cases e n0 v Hd) as [[(C1 & C2 & _) ->]|[_ [x ->]]]; auto.
    simpl. unfold names; simpl. intro Hn. apply set_names in Hn. destruct Hn as [->|Hn]; auto. split; auto. }
  destruct o; simpl in *; auto; try tauto.
  - exact (S n v Hp).
  - unfold env_delattr. repeat match goal with |- context [if ?b then _ else _] => destruct b; try exact H end.
    unfold names; simpl. intros n' Hn. apply H. eapply del_names; eauto.
  - unfold env_pop. destruct (finalized e); try exact H. destruct (dict_get _ _ _); [|destruct d; exact H].
    unfold names; simpl; intros n' Hn; apply H; eapply del_names; eauto.
  - unfold env_popitem. destruct (finalized e); try exact H. destruct (rev (binds e)) as [|[k v] r] eqn:E; try exact H.
    unfold names; simpl. intros n Hn. apply H. unfold names.
    rewrite <- (rev_involutive (binds e)), E. simpl. rewrite map_app, in_app_iff. auto.
  - unfold env_clear. destruct (finalized e); try exact H. simpl. tauto.
  - unfold env_set. destruct (negb (has e n)); try exact H. specialize (S n v Hp).
    destruct (env_setattr isid de e n v) as [[r|x] e']; auto.
Qed.
Lemma run_valid os : forall e, (forall o, In o os -> checked o) -> (forall n, In n (names e) -> validname n) ->
  forall n, In n (names (run_ops (env_step isid de) e os)) -> validname n.
Proof.
  unfold run_ops. induction os as [|o os IH]; intros e H He; simpl; auto.
  apply IH; [intros; apply H; now right|]. apply step_valid; auto. apply H. now left.
Qed.

(** ** construction *)
Lemma init_fresh (b : list (name * V)) : forall e, finalized e = false ->
  (forall n, In n (map fst b) -> validname n) -> NoDup (names e ++ map fst b) ->
  env_init (env_setattr isid de) e b = Ok (with_binds e (binds e ++ b)).
Proof.
  induction b as [|[k v] b IH]; intros e Hf Hv Hn; simpl.
  - rewrite app_nil_r. now rewrite with_same.
  - rewrite setattr_ok by (destruct (Hv k); [now left|]; split; auto).
    assert (Hk : ~ In k (names e)).
    { intro C. simpl in Hn. apply NoDup_remove in Hn. destruct Hn as [_ Hn]. apply Hn. apply in_or_app; auto. }
    assert (dict_set String.eqb (binds e) k v = (binds e ++ [(k, v)])%list) as ->.
    { revert Hk. unfold names. clear. generalize (binds e). intros d Hk. induction d as [|[k' v'] d IH]; simpl in *; auto.
      destruct (String.eqb k' k) eqn:E; [apply String.eqb_eq in E; tauto|]. f_equal. tauto. }
    rewrite IH.
    + unfold with_binds; simpl. now rewrite <- app_assoc.
    + simpl. auto.
    + intros n Hin. apply Hv. now right.
    + unfold names; simpl. rewrite map_app. simpl. rewrite <- app_assoc. exact Hn.
Qed.
Lemma init_again (b : list (name * V)) : forall e, 
  (forall n v, In (n, v) b -> validname n /\ bound e n = Some v) -> NoDup (names e) ->
  env_init (env_setattr isid de) e b = Ok e.
Proof.
  induction b as [|[k v] b IH]; intros e H Hn; simpl; auto.
  destruct (H k v) as [[H1 H2] H3]; [now left|].
  rewrite setattr_ok by (split; auto; split; auto; right; congruence).
  assert (dict_set String.eqb (binds e) k v = binds e) as ->.
  { unfold bound in H3. clear -H3. revert H3. generalize (binds e). intro d. induction d as [|[k' v'] d IH]; simpl; [discriminate|].
    destruct (String.eqb k' k); [intro X; injection X as ->; reflexivity|]. intro. f_equal. auto. }
  rewrite with_same. apply IH; auto. intros; apply H; now right.
Qed.
Lemma construct_ok (b : list (name * V)) : (forall n, In n (map fst b) -> validname n) -> NoDup (map fst b) ->
  construct (env_setattr isid de) b = Ok (mkenv b false).
Proof.
  intros Hv Hn. unfold construct. rewrite init_fresh; auto. simpl.
  apply init_again; simpl; auto. intros n v Hin. split.
  - apply Hv. now apply (in_map fst) in Hin.
  - unfold bound; simpl. now apply (get_in String.eqb eqb_ok).
Qed.

(** ** assignonce *)
Lemma once_bound e n v : ~ In n direct_write -> bound e n <> None ->
  once_step isid de e (ESetattr n v) = (Raise AttributeError, e).
Proof.
  intros Hd Hb. simpl. unfold once_setattr. apply has_bound in Hb. rewrite Hb.
  destruct (mem n reserved_names) eqn:E; auto. simpl.
  unfold env_setattr. apply mem_false in Hd. now rewrite Hd, E.
Qed.
Lemma once_unbound e n v : bound e n = None -> once_step isid de e (ESetattr n v) = env_step isid de e (ESetattr n v).
Proof. intro H. simpl. unfold once_setattr. apply has_false in H. now rewrite H, orb_true_r. Qed.
Lemma once_set_spec e n v : ~ In n direct_write ->
  (bound e n = None -> once_step isid de e (ESet n v) = (Raise AttributeError, e))
  /\ (bound e n <> None -> validname n ->
      fst (once_step isid de e (ESet n v)) = Ok (RVal v) /\ bound (snd (once_step isid de e (ESet n v))) n = Some v
      /\ (forall n', n' <> n -> bound (snd (once_step isid de e (ESet n v))) n' = bound e n')
      /\ names (snd (once_step isid de e (ESet n v))) = names e).
Proof.
  intro Hd. split; intro H; simpl; unfold once_set.
  - apply has_false in H. now rewrite H.
  - intros [H1 H2]. pose proof H as Hb. apply has_bound in H. rewrite H. simpl. rewrite setattr_ok by (split; auto).
    simpl. rewrite bound_set, String.eqb_refl. repeat split.
    + intros n' Hn. rewrite bound_set. destruct (String.eqb n n') eqn:E; auto. apply String.eqb_eq in E. congruence.
    + unfold names; simpl. now apply set_names_bound.
Qed.

Lemma once_step_keeps e o n v : public o -> ~ touches_once n o -> bound e n = Some v ->
  bound (snd (once_step isid de e o)) n = Some v.
Proof.
  intros Hp Ht Hb.
  assert (E : (forall n' v', o <> ESetattr n' v') -> once_step isid de e o = env_step isid de e o).
  { intro H. destruct o; auto; try (exfalso; eapply H; reflexivity). }
  destruct o as [n0 v0|n0|n0 d|n0|n0|n0 d| | |ms b|n0 d|n0 v0| |]; simpl in Ht; try tauto;
    try (rewrite E by discriminate; rewrite step_frame; auto; fail).
  - simpl. unfold once_setattr. destruct (mem n0 reserved_names || negb (has e n0)) eqn:E1; auto.
    destruct (setattr_cases e n0 v0 Hp) as [[(C & _) ->]|[_ [x ->]]]; auto. simpl. rewrite bound_set.
    destruct (String.eqb n0 n) eqn:E2; auto. apply String.eqb_eq in E2. subst.
    change reserved with reserved_names in C. apply mem_false in C. rewrite C in E1. simpl in E1. apply negb_true_iff, has_false in E1. congruence.
  - simpl. unfold env_setdefault. destruct (finalized e && negb (has e n0)); auto.
    destruct (dict_get String.eqb (binds e) n0) eqn:E1; auto. simpl. rewrite bound_set.
    destruct (String.eqb n0 n) eqn:E2; auto. apply String.eqb_eq in E2. subst.
    unfold bound in Hb. congruence.
Qed.
Lemma once_run_keeps os n v : forall e, (forall o, In o os -> public o /\ ~ touches_once n o) -> bound e n = Some v ->
  bound (run_ops (once_step isid de) e os) n = Some v.
Proof.
  unfold run_ops. induction os as [|o os IH]; intros e H Hb; simpl; auto.
  apply IH; [intros; apply H; now right|]. destruct (H o); [now left|]. now apply once_step_keeps.
Qed.

Lemma once_init_names (b : list (name * V)) : forall e e', (forall n, In n (map fst b) -> ~ In n direct_write) ->
  env_init (once_setattr isid de) e b = Ok e' -> forall n, bound e n <> None \/ In n (map fst b) -> bound e' n <> None.
Proof.
  induction b as [|[k v] b IH]; simpl; intros e e' Hd H n Hn.
  - injection H as <-. tauto.
  - assert (Hk : ~ In k direct_write) by exact (Hd k (or_introl eq_refl)).
    unfold once_setattr in H at 1. destruct (mem k reserved_names || negb (has e k)); [|discriminate].
    destruct (setattr_cases e k v Hk) as [[_ Es]|[_ [x Es]]]; rewrite Es in H; [|discriminate].
    apply (IH _ _ (fun m Hm => Hd m (or_intror Hm)) H). rewrite bound_set. destruct (String.eqb k n) eqn:E.
    + left. discriminate.
    + destruct Hn as [Hn|[Hn|Hn]]; auto. subst. rewrite String.eqb_refl in E. discriminate.
Qed.
Lemma once_construct_fails (b : list (name * V)) : b <> [] -> (forall n, In n (map fst b) -> ~ In n direct_write) ->
  exists x, construct (once_setattr isid de) b = Raise x.
Proof.
  intros Hb Hd. unfold construct. destruct (env_init (once_setattr isid de) env0 b) as [e|x] eqn:E; simpl; eauto.
  destruct b as [|[k v] b]; [congruence|]. cbn [env_init].
  change (once_setattr isid de e k v) with (once_step isid de e (ESetattr k v)).
  rewrite once_bound; eauto.
  - apply Hd. now left.
  - eapply once_init_names; eauto. right. now left.
Qed.
Lemma once_init_fresh (b : list (name * V)) : forall e, finalized e = false ->
  (forall n, In n (map fst b) -> validname n) -> NoDup (names e ++ map fst b) ->
  env_init (once_setattr isid de) e b = Ok (with_binds e (binds e ++ b)).
Proof.
  intros e Hf Hv Hn. rewrite <- (init_fresh b e Hf Hv Hn).
  revert e Hf Hv Hn. induction b as [|[k v] b IH]; intros e Hf Hv Hn; auto.
  cbn [env_init]. assert (Hk : bound e k = None).
  { apply has_false. destruct (has e k) eqn:E; auto. apply has_names in E.
    simpl in Hn. apply NoDup_remove in Hn. destruct Hn as [_ Hn]. exfalso. apply Hn. apply in_or_app; auto. }
  pose proof (once_unbound e k v Hk) as Eu. simpl in Eu. rewrite Eu.
  rewrite setattr_ok by (destruct (Hv k); [now left|]; split; auto).
  apply IH.
  - auto.
  - intros n Hin. apply Hv. now right.
  - assert (dict_set String.eqb (binds e) k v = (binds e ++ [(k, v)])%list) as ->.
    { apply has_false in Hk. assert (Hk' : ~ In k (names e)) by (rewrite <- has_names; congruence).
      revert Hk'. unfold names. clear. generalize (binds e). intros d Hk'. induction d as [|[k' v'] d IH]; simpl in *; auto.
      destruct (String.eqb k' k) eqn:E; [apply String.eqb_eq in E; tauto|]. f_equal. tauto. }
    unfold names; simpl. rewrite map_app. simpl. rewrite <- app_assoc. exact Hn.
Qed.
Lemma once_construct_error (b : list (name * V)) : b <> [] -> (forall n, In n (map fst b) -> validname n) -> NoDup (map fst b) ->
  construct (once_setattr isid de) b = Raise AttributeError.
Proof.
  intros Hb Hv Hn. unfold construct. rewrite once_init_fresh by auto.
  destruct b as [|[k v] b]; [congruence|]. cbn [obind env_init].
  change (once_setattr isid de ?e k v) with (once_step isid de e (ESetattr k v)).
  rewrite once_bound; auto.
  - destruct (Hv k) as [_ H]; [now left|]. intro C. apply H. now apply direct_reserved.
  - unfold bound. simpl. rewrite String.eqb_refl. discriminate.
Qed.

(** ** let *)
Lemma init_pure lr e (i : init V) : reads_only i -> snd (init_value lr e i) = e.
Proof.
  unfold reads_only, init_value. destruct lr; auto. destruct (callable i) as [[ar f]|]; auto. destruct ar; auto.
Qed.
Lemma setitem_cases e k v : ~ In k direct_write ->
  validname k /\ (finalized e = false \/ bound e k <> None) /\ setitem isid de e k v = Ok (with_binds e (dict_set String.eqb (binds e) k v))
  \/ exists x, setitem isid de e k v = Raise x.
Proof.
  intro Hd. unfold setitem. destruct (setattr_cases e k v Hd) as [[(A & B & C) ->]|[_ [x ->]]]; eauto.
  left. repeat split; auto.
Qed.
Lemma set_unbound (d : dict name V) k v : ~ In k (map fst d) -> dict_set String.eqb d k v = (d ++ [(k, v)])%list.
Proof.
  intro Hk. induction d as [|[k' v'] d IH]; simpl in *; auto.
  destruct (String.eqb k' k) eqn:E; [apply String.eqb_eq in E; tauto|]. f_equal. tauto.
Qed.

Lemma let_loop_spec lr bs : forall e e', 
  (forall k i, In (k, i) bs -> ~ In k direct_write /\ reads_only i) -> NoDup (names e) ->
  let_loop isid de lr e bs = Ok e' ->
  exists vs, length vs = length bs /\ binds e' = (binds e ++ combine (map fst bs) vs)%list /\ finalized e' = finalized e
  /\ NoDup (names e ++ map fst bs)
  /\ forall j k i, nth_error bs j = Some (k, i) -> exists v, nth_error vs j = Some v
     /\ fst (init_value lr (with_binds e (binds e ++ combine (map fst (firstn j bs)) (firstn j vs))) i) = Ok v.
Proof.
  induction bs as [|[k i] bs IH]; simpl; intros e e' H Hn E.
  - injection E as <-. exists []. simpl. rewrite !app_nil_r. repeat split; auto.
    intros [|j] k i Hj; discriminate.
  - destruct (has e k) eqn:Ek; [discriminate|].
    destruct (H k i) as [Hd Hp]; [now left|].
    pose proof (init_pure lr e i Hp) as Hi. destruct (init_value lr e i) as [[v|x] e1] eqn:Ei; [|discriminate].
    simpl in Hi. subst e1. destruct (setitem_cases e k v Hd) as [(_ & _ & Es)|[x Es]]; rewrite Es in E; simpl in E; [|discriminate].
    assert (Hk : ~ In k (names e)) by (rewrite <- has_names; congruence).
    rewrite set_unbound in E by exact Hk.
    apply IH in E.
    + destruct E as (vs & L & B & F & N & P). exists (v :: vs). simpl in *. split; [lia|]. split; [now rewrite B, <- app_assoc|].
      split; auto. unfold names in N. simpl in N. rewrite map_app in N. simpl in N. rewrite <- app_assoc in N. simpl in N.
      split; auto. intros [|j] k' i' Hj; simpl in Hj.
      * injection Hj as <- <-. exists v. split; auto. simpl. now rewrite app_nil_r, with_same, Ei.
      * destruct (P j k' i' Hj) as (v' & A1 & A2). exists v'. split; auto. simpl. rewrite <- app_assoc in A2. exact A2.
    + intros k' i' Hin. apply H. now right.
    + unfold names; simpl. rewrite map_app. apply NoDup_Add with (a := k) (l := map fst (binds e)).
      * rewrite <- (app_nil_r (map fst (binds e))) at 1. apply Add_app.
      * split; auto.
Qed.

Lemma letrec_sees bs e : (forall k i, In (k, i) bs -> ~ In k direct_write /\ reads_only i) ->
  let_loop isid de true env0 bs = Ok e ->
  names e = map fst bs /\ NoDup (map fst bs)
  /\ forall j k i, nth_error bs j = Some (k, i) -> exists v, nth_error (binds e) j = Some (k, v)
     /\ fst (init_value true (mkenv (firstn j (binds e)) false) i) = Ok v.
Proof.
  intros H E. destruct (let_loop_spec true bs env0 e H (NoDup_nil _) E) as (vs & L & B & F & N & P).
  simpl in *. split; [|split; auto].
  - unfold names. rewrite B. clear -L. revert vs L. induction bs as [|[k i] bs IH]; intros [|v vs] L; simpl in *; try lia; auto.
    f_equal. apply IH. lia.
  - intros j k i Hj. destruct (P j k i Hj) as (v & A1 & A2). exists v. split.
    + rewrite B. clear -Hj A1. revert vs j Hj A1. induction bs as [|[k' i'] bs IH]; intros [|v' vs] [|j] Hj A1; simpl in *; try discriminate.
      * congruence.
      * apply IH; auto.
    + rewrite B. assert (firstn j (combine (map fst bs) vs) = combine (map fst (firstn j bs)) (firstn j vs)) as ->.
      { clear. revert j vs. induction bs as [|[k i] bs IH]; intros [|j] [|v vs]; simpl; auto. f_equal. apply IH. }
      exact A2.
Qed.

Lemma lispylet_eq lr bs b : (forall k i, In (k, i) bs -> ~ In k direct_write) ->
  lispylet isid de lr None bs b = let_ isid de lr bs b.
Proof.
  intro H. unfold let_.
  assert (G : forall e oe, (oe = None /\ e = env0 \/ oe = Some e /\ binds e <> []) ->
     lispylet isid de lr oe bs b = (do e' <- let_loop isid de lr e bs; run_body (finalize e') b)).
  { induction bs as [|[k i] bs IH]; intros e oe Ho.
    - destruct Ho as [[-> ->]|[-> He]]; auto. simpl. destruct (binds e); [congruence|auto].
    - assert (Ee : match oe with Some e0 => match binds e0 with [] => env0 | _ => e0 end | None => env0 end = e).
      { destruct Ho as [[-> ->]|[-> He]]; auto. destruct (binds e); [congruence|auto]. }
      cbn [lispylet let_loop]. rewrite Ee. destruct (has e k); auto.
      destruct (init_value lr e i) as [[v|x] e1]; auto.
      assert (Hd : ~ In k direct_write) by (eapply H; now left).
      destruct (setitem_cases e1 k v Hd) as [(_ & _ & ->)|[x ->]]; auto. cbn [obind].
      apply IH; [intros; eapply H; right; eauto|]. right. split; auto. simpl.
      destruct (binds e1) as [|[k' v'] d]; simpl; [discriminate|]. destruct (String.eqb k' k); discriminate. }
  apply G. auto.
Qed.

Lemma let_loop_app lr bs bs' : forall e, let_loop isid de lr e (bs ++ bs') = (do e1 <- let_loop isid de lr e bs ; let_loop isid de lr e1 bs').
Proof.
  induction bs as [|[k i] bs IH]; intro e; simpl; auto. destruct (has e k); auto.
  destruct (init_value lr e i) as [[v|x] e1]; auto. destruct (setitem isid de e1 k v) as [e2|x]; simpl; auto.
Qed.

Lemma let_duplicate lr bs bs' e k i b : let_loop isid de lr env0 bs = Ok e -> In k (names e) ->
  let_ isid de lr (bs ++ (k, i) :: bs') b = Raise AttributeError.
Proof.
  intros E Hk. unfold let_. rewrite let_loop_app, E. simpl. apply has_names in Hk. now rewrite Hk.
Qed.

Lemma let_forward attr lam bs bs' e k i0 b : let_loop isid de true env0 bs = Ok e ->
  ~ In i0 (names e) -> ~ In k (names e) -> isid k = true -> ~ In k class_attrs ->
  let_ isid de true (bs ++ (i0, mkinit lam (Some (true, read isid attr k))) :: bs') b = Raise AttributeError.
Proof.
  intros E H0 Hk Hid Hc. unfold let_. rewrite let_loop_app, E. simpl.
  assert (has e i0 = false) as -> by (destruct (has e i0) eqn:X; auto; apply has_names in X; contradiction).
  unfold init_value. simpl. unfold read, env_getattr. apply mem_false in Hc. rewrite Hc, Hid. simpl.
  assert (has e k = false) as Hh by (destruct (has e k) eqn:X; auto; apply has_names in X; contradiction).
  apply has_false in Hh. unfold bound in Hh. now rewrite Hh.
Qed.

Lemma let_plain bs : (forall n, In n (map fst bs) -> validname n) -> NoDup (map fst bs) ->
  let_loop isid de false env0 bs = Ok (mkenv (map (fun ki => (fst ki, obj (snd ki))) bs) false).
Proof.
  intros Hv Hn.
  assert (G : forall e, finalized e = false -> NoDup (names e ++ map fst bs) ->
     let_loop isid de false e bs = Ok (with_binds e (binds e ++ map (fun ki => (fst ki, obj (snd ki))) bs))).
  { clear Hn. induction bs as [|[k i] bs IH]; intros e Hf Hn; simpl.
    - now rewrite app_nil_r, with_same.
    - assert (Hk : ~ In k (names e)).
      { intro C. simpl in Hn. apply NoDup_remove in Hn. destruct Hn as [_ Hn]. apply Hn. apply in_or_app; auto. }
      assert (has e k = false) as -> by (destruct (has e k) eqn:X; auto; apply has_names in X; contradiction).
      unfold setitem. rewrite setattr_ok by (destruct (Hv k); [now left|]; split; auto). simpl.
      rewrite set_unbound by exact Hk. rewrite IH.
      + unfold with_binds; simpl. now rewrite <- app_assoc.
      + intros n Hin. apply Hv. now right.
      + auto.
      + unfold names; simpl. rewrite map_app. simpl. rewrite <- app_assoc. exact Hn. }
  rewrite G; auto.
Qed.

(** ** do *)
Lemma do_loop_app its its' : forall e l, do_loop isid de e l (its ++ its') =
  match sequence e (map (fun it e => do_item isid de e it) its) with
  | (Ok vs, e1) => do_loop isid de e1 (match rev vs with [] => l | v :: _ => Some v end) its'
  | (Raise x, e1) => (Raise x, e1)
  end.
Proof.
  induction its as [|it its IH]; intros e l; simpl; auto.
  destruct (do_item isid de e it) as [[v|x] e1]; auto. rewrite IH.
  destruct (sequence e1 _) as [[vs|x] e2]; auto.
  destruct (rev vs) as [|w r] eqn:Er; simpl; [|rewrite Er; reflexivity].
  rewrite Er. reflexivity.
Qed.
Lemma do_spec its : do_ isid de its =
  match sequence env0 (map (fun it e => do_item isid de e it) its) with
  | (Ok vs, e1) => (match rev vs with v :: _ => Ok v | [] => Raise UnboundLocalError end, e1)
  | (Raise x, e1) => (Raise x, e1)
  end.
Proof.
  unfold do_. rewrite <- (app_nil_r its) at 1. rewrite do_loop_app.
  destruct (sequence _ _) as [[vs|x] e1]; auto. simpl. now destruct (rev vs).
Qed.
Lemma leaves_sequence n its : forall e, Forall (leaves_alone isid de n) its ->
  exists vs e1, sequence e (map (fun it e => do_item isid de e it) its) = (Ok vs, e1) /\ bound e1 n = bound e n.
Proof.
  induction its as [|it its IH]; intros e H; simpl; [eauto|].
  inversion H as [|? ? Hit Hits]; subst. destruct (Hit e) as [[v Hv] Hb].
  destruct (do_item isid de e it) as [r e1]. simpl in *. subst r.
  destruct (IH e1 Hits) as (vs & e2 & -> & Hb2). exists (v :: vs), e2. split; auto. congruence.
Qed.

Lemma do0_first attr lam it its v e1 :
  isid do0_key = true ->
  match it with Item _ => True | Assign k _ => ~ In k class_attrs /\ ~ In k direct_write /\ k <> do0_key end ->
  do_item isid de env0 it = (Ok v, e1) -> finalized e1 = false ->
  Forall (leaves_alone isid de do0_key) its ->
  fst (do0_ isid de attr lam (it :: its)) = Ok v.
Proof.
  intros Hid Hk E Hf H. unfold do0_.
  assert (Hca : forall e, can_assign e do0_key <-> (finalized e = false \/ bound e do0_key <> None)).
  { intro e. unfold EnvSpec.can_assign. rewrite Hid. split; [tauto|]. intro; split; auto.
    unfold do0_key, reserved_names; simpl. intuition discriminate. }
  assert (T : forall e, bound e do0_key = Some v ->
     fst (do_loop isid de e None (its ++ [Item (mkinit lam (Some (true, read isid attr do0_key)))])) = Ok v
     /\ forall l, fst (do_loop isid de e l (its ++ [Item (mkinit lam (Some (true, read isid attr do0_key)))])) = Ok v).
  { intros e He.
    assert (G : forall l, fst (do_loop isid de e l (its ++ [Item (mkinit lam (Some (true, read isid attr do0_key)))])) = Ok v).
    { intro l. rewrite do_loop_app. destruct (leaves_sequence do0_key its e H) as (vs & e2 & -> & Hb).
      simpl. unfold maybe_call; simpl. unfold read, env_getattr. rewrite Hid. simpl.
      rewrite He in Hb. unfold bound in Hb. rewrite Hb. reflexivity. }
    auto. }
  destruct it as [k i|i].
  - destruct Hk as (Hk1 & Hk2 & Hk3). change ([Assign k i; Assign do0_key (mkinit lam (Some (true, read isid attr k)))] ++
      its ++ [Item (mkinit lam (Some (true, read isid attr do0_key)))])%list with
      (Assign k i :: Assign do0_key (mkinit lam (Some (true, read isid attr k))) :: (its ++ [Item (mkinit lam (Some (true, read isid attr do0_key)))])%list).
    unfold do_. cbn [do_loop]. rewrite E.
    assert (Hb : bound e1 k = Some v /\ isid k = true).
    { simpl in E. destruct (maybe_call env0 i) as [[w|x] e0]; [|discriminate].
      destruct (setitem_cases e0 k w Hk2) as [((A & _) & _ & Es)|[x Es]]; rewrite Es in E; [|discriminate].
      injection E as -> <-. split; auto. rewrite bound_set. now rewrite String.eqb_refl. }
    destruct Hb as [Hb Hkid].
    assert (E2 : do_item isid de e1 (Assign do0_key (mkinit lam (Some (true, read isid attr k)))) =
       (Ok v, with_binds e1 (dict_set String.eqb (binds e1) do0_key v))).
    { simpl. unfold maybe_call; simpl. unfold read, env_getattr. apply mem_false in Hk1. rewrite Hk1, Hkid. simpl.
      unfold bound in Hb. rewrite Hb. unfold setitem. rewrite setattr_ok by (apply Hca; auto). reflexivity. }
    rewrite E2. apply T. rewrite bound_set. now rewrite String.eqb_refl.
  - simpl in E. unfold do_. change ([Assign do0_key i] ++ its ++ [Item (mkinit lam (Some (true, read isid attr do0_key)))])%list
      with (Assign do0_key i :: (its ++ [Item (mkinit lam (Some (true, read isid attr do0_key)))])%list).
    cbn [do_loop do_item]. rewrite E. unfold setitem. rewrite setattr_ok by (apply Hca; auto).
    apply T. rewrite bound_set. now rewrite String.eqb_refl.
Qed.

(** ** The other operations *)
Lemma distinct_step e o : public o -> NoDup (names e) -> NoDup (names (snd (env_step isid de e o))).
Proof.
  intros P H. pose proof (fun k v (d : dict name V) => set_ok String.eqb eqb_ok d k v) as S. unfold okdict in S.
  assert (SA : forall n v, ~ In n direct_write -> NoDup (names (snd (env_setattr isid de e n v)))).
  { intros n v N. unfold env_setattr. apply mem_false in N. rewrite N. destruct (mem n reserved_names); [exact H|].
    destruct (finalized e && negb (has e n)); [exact H|]. destruct (negb (isid n)); [exact H|]. cbn. now apply S. }
  destruct o; cbn in P |- *; try exact H.
  - now apply SA.
  - unfold env_delattr. destruct (negb (isid n)); [exact H|]. destruct (finalized e); [exact H|]. destruct (negb (has e n)); [exact H|].
    cbn. now apply (del_ok String.eqb).
  - unfold env_pop. destruct (finalized e); [exact H|]. destruct (dict_get _ _ _); [|destruct d; exact H]. cbn. now apply (del_ok String.eqb).
  - unfold env_popitem. destruct (finalized e); [exact H|]. destruct (rev (binds e)) as [|[n v] r] eqn:E; [exact H|]. cbn.
    unfold names in *. rewrite <- (rev_involutive (binds e)), E in H. cbn [rev] in H. rewrite map_app in H. cbn in H. apply NoDup_remove in H as [H _].
    now rewrite app_nil_r in H.
  - unfold env_clear. destruct (finalized e); [exact H|]. constructor.
  - unfold env_update. assert (U : forall (m : list (name * V)) (d : dict name V), NoDup (map fst d) -> NoDup (map fst (dict_update String.eqb d m))).
    { induction m as [|[k v] m IH]; intros d Hd; [exact Hd|]. apply (IH (dict_set String.eqb d k v)). now apply S. }
    destruct ms as [|m [|]]; [| |exact H];
      (destruct (existsb _ _); [exact H|]); (destruct (finalized e && _); [exact H|]); cbn -[dict_update]; unfold names; cbn -[dict_update]; auto.
  - unfold env_setdefault. destruct (finalized e && _); [exact H|]. destruct (dict_get _ _ _); [exact H|]. cbn. now apply S.
  - unfold env_set. destruct (negb (has e n)); [exact H|]. specialize (SA n v P). destruct (env_setattr isid de e n v) as [[|] ?]; exact SA.
  - constructor.
Qed.
Lemma distinct_run os : forall e, (forall o, In o os -> public o) -> NoDup (names e) -> NoDup (names (run_ops (env_step isid de) e os)).
Proof.
  induction os as [|o os IH]; intros e P H; [exact H|]. cbn. apply IH; [intros; apply P; now right|]. apply distinct_step; [apply P; now left|assumption].
Qed.
Lemma lookup_spec e n d :
  env_step isid de e (EContains n) = (Ok (RBool (match bound e n with Some _ => true | None => false end)), e) /\
  (bound e n = None -> env_step isid de e (EGetDefault n d) = (Ok (RVal d), e)) /\
  (forall v, bound e n = Some v -> ~ In n class_attrs -> isid n = true ->
     env_step isid de e (EGet n) = (Ok (RVal v), e) /\ env_step isid de e (EGetDefault n d) = (Ok (RVal v), e)) /\
  (bound e n = None -> ~ In n class_attrs -> isid n = true -> env_step isid de e (EGet n) = (Raise AttributeError, e)).
Proof.
  unfold env_step, step_gen, env_getattr, has. fold (bound e n). split; [reflexivity|]. split; [now intros ->|]. split.
  - intros v -> C I. apply mem_false in C. now rewrite C, I.
  - intros -> C I. apply mem_false in C. now rewrite C, I.
Qed.
Lemma del_spec e n : NoDup (names e) -> isid n = true ->
  let r := env_step isid de e (EDel n) in
  if finalized e then r = (Raise TypeError, e)
  else match bound e n with
       | None => r = (Raise AttributeError, e)
       | Some _ => fst r = Ok RNone /\ finalized (snd r) = false /\ forall n', bound (snd r) n' = if String.eqb n n' then None else bound e n'
       end.
Proof.
  intros N I. cbn. unfold env_delattr. rewrite I. cbn [negb]. destruct (finalized e) eqn:F; [reflexivity|]. unfold has. fold (bound e n).
  destruct (bound e n); [|reflexivity]. cbn [negb fst snd]. split; [reflexivity|]. split; [exact F|]. intros n'. unfold bound. cbn. now apply get_del.
Qed.
Lemma pop_spec e n d : NoDup (names e) ->
  let r := env_step isid de e (EPop n d) in
  if finalized e then r = (Raise TypeError, e)
  else match bound e n, d with
       | Some v, _ => fst r = Ok (RVal v) /\ finalized (snd r) = false /\ forall n', bound (snd r) n' = if String.eqb n n' then None else bound e n'
       | None, Some d => r = (Ok (RVal d), e)
       | None, None => r = (Raise KeyError, e)
       end.
Proof.
  intros N. cbn. unfold env_pop. destruct (finalized e) eqn:F; [reflexivity|]. fold (bound e n).
  destruct (bound e n); [|destruct d; reflexivity]. cbn [fst snd]. split; [reflexivity|]. split; [exact F|]. intros n'. unfold bound. cbn. now apply get_del.
Qed.
Lemma popitem_spec e :
  let r := env_step isid de e EPopitem in
  if finalized e then r = (Raise TypeError, e)
  else (binds e = [] -> r = (Raise KeyError, e)) /\
       (forall b n v, binds e = b ++ [(n, v)] -> r = (Ok (RItem n v), mkenv b false)).
Proof.
  cbn. unfold env_popitem. destruct (finalized e) eqn:F; [reflexivity|]. split; [now intros ->|].
  intros b n v ->. rewrite rev_app_distr. cbn. rewrite rev_involutive. unfold with_binds. now rewrite F.
Qed.
Lemma update_spec e ms b :
  let r := env_step isid de e (EUpdate ms b) in
  let new := flat_map pairs_of ms ++ b in
  fst r = Ok RNone ->
  length ms <= 1 /\ finalized (snd r) = finalized e /\
  forall n, bound (snd r) n = match last_for String.eqb n new with Some v => Some v | None => bound e n end.
Proof.
  cbn. unfold env_update. destruct ms as [|m [|? ?]]; [| |discriminate];
    (destruct (existsb _ _); [discriminate|]); (destruct (finalized e && _); [discriminate|]); intros _; cbn [length snd]; (split; [lia|]); (split; [reflexivity|]);
    intros n; unfold bound; cbn [binds with_binds]; rewrite <- (update_app String.eqb); now rewrite (update_get String.eqb eqb_ok).
Qed.
Lemma update_accepted e ms b : length ms <= 1 -> finalized e = false -> fst (env_step isid de e (EUpdate ms b)) = Ok RNone.
Proof.
  intros L F. cbn. unfold env_update. destruct ms as [|m [|? ?]]; [| |cbn in L; lia]; cbn [existsb]; rewrite F; reflexivity.
Qed.
Lemma has_new_iff e m : has_new e m = false <->
  match m with UMapping d => forall n, In n (map fst d) -> bound e n <> None | UPairs l => l = [] end.
Proof.
  destruct m as [d|l]; cbn.
  - split.
    + intros H. apply (has_new_false e (UMapping d) H).
    + intros H. destruct (existsb _ d) eqn:E; auto. apply existsb_exists in E. destruct E as ((n & v) & I & N).
      exfalso. apply (H n); [apply in_map_iff; exists (n, v); auto|]. apply has_false. now apply negb_true_iff in N.
  - destruct l; split; congruence.
Qed.
Lemma update_finalized e ms b : finalized e = true ->
  let r := env_step isid de e (EUpdate ms b) in
  (2 <= length ms -> r = (Raise ValueError, e)) /\
  (length ms <= 1 ->
     (fst r = Ok RNone <->
       (forall m, In m ms -> match m with UMapping d => forall n, In n (map fst d) -> bound e n <> None | UPairs l => l = [] end) /\
       (forall n, In n (map fst b) -> bound e n <> None)) /\
     (fst r <> Ok RNone -> r = (Raise AttributeError, e))).
Proof.
  intros F. cbn [env_step step_gen]. unfold env_step, step_gen, env_update. pose proof (has_new_iff e (UMapping b)) as HB.
  destruct ms as [|m [|m2 ms]]; cbn [length existsb]; (split; [intros; auto; lia|]); intros L; try lia; rewrite F; cbn [andb orb].
  - destruct (has_new e (UMapping b)) eqn:E; cbn [fst].
    + split; [|auto]. split; [discriminate|]. intros [_ H]. apply HB in H. discriminate.
    + split; [|congruence]. split; [|auto]. intros _. split; [intros ? []|]. now apply HB.
  - pose proof (has_new_iff e m) as HM. rewrite orb_false_r. destruct (has_new e m) eqn:Em; cbn [fst].
    { split; [|auto]. split; [discriminate|]. intros [H _]. apply HM in H; [discriminate|]. now left. }
    destruct (has_new e (UMapping b)) eqn:E; cbn [fst].
    + split; [|auto]. split; [discriminate|]. intros [_ H]. apply HB in H. discriminate.
    + split; [|congruence]. split; [|auto]. intros _. split; [|now apply HB]. intros m' [<-|[]]. now apply HM.
Qed.
Lemma not_callable lr bs e i f (ob : V) : let_loop isid de lr env0 bs = Ok e ->
  (callable i = None \/ callable i = Some (false, f) -> let_ isid de lr bs (Body i) = Raise TypeError) /\
  (forall k bs' b, ~ In k (names e) -> lr = true -> let_ isid de lr (bs ++ (k, mkinit ob (Some (false, f))) :: bs') b = Raise TypeError).
Proof.
  intros E. split.
  - intros C. unfold let_. rewrite E. cbn. destruct C as [-> | ->]; reflexivity.
  - intros k bs' b H0 ->. unfold let_. rewrite let_loop_app, E. simpl.
    assert (has e k = false) as -> by (destruct (has e k) eqn:X; auto; apply has_names in X; contradiction). reflexivity.
Qed.
Lemma do_item_spec e (ob : V) :
  (forall f, do_item isid de e (Item (mkinit ob (Some (true, f)))) = f e) /\
  (forall f, do_item isid de e (Item (mkinit ob (Some (false, f)))) = (Raise ValueError, e)) /\
  do_item isid de e (Item (mkinit ob None)) = (Ok ob, e) /\
  (forall i k, ~ In k direct_write ->
     match do_item isid de e (Item i) with
     | (Raise x, e1) => do_item isid de e (Assign k i) = (Raise x, e1)
     | (Ok v, e1) =>
         (can_assign e1 k -> exists e2, do_item isid de e (Assign k i) = (Ok v, e2) /\ finalized e2 = finalized e1 /\
            forall n, bound e2 n = if String.eqb k n then Some v else bound e1 n) /\
         (~ can_assign e1 k -> exists x, do_item isid de e (Assign k i) = (Raise x, e1) /\ (x = AttributeError \/ x = ValueError))
     end).
Proof.
  repeat split. intros i k D. cbn [do_item]. destruct (maybe_call e i) as [[v|x] e1]; auto. unfold setitem.
  destruct (assign_spec e1 k v D) as [A B]. cbn [env_step step_gen] in A, B. unfold env_step, step_gen in A, B. split; intros C.
  - destruct (A C) as (O & Bk & Oth & Fi). destruct (env_setattr isid de e1 k v) as [[r|x] e2]; [|discriminate].
    exists e2. repeat split; auto. intros n. destruct (String.eqb_spec k n) as [<-|N]; auto.
  - destruct (B C) as (x & -> & X). exists x. auto.
Qed.
Lemma setdefault_spec e n d :
  let r := env_step isid de e (ESetdefault n d) in
  match bound e n with
  | Some v => r = (Ok (RVal v), e)
  | None => if finalized e then r = (Raise AttributeError, e)
            else fst r = Ok (RVal d) /\ finalized (snd r) = false /\ forall n', bound (snd r) n' = if String.eqb n n' then Some d else bound e n'
  end.
Proof.
  cbn. unfold env_setdefault, has. fold (bound e n). destruct (bound e n); cbn [negb]; [now rewrite andb_false_r|]. rewrite andb_true_r.
  destruct (finalized e) eqn:F; [reflexivity|]. cbn [fst snd]. split; [reflexivity|]. split; [exact F|]. intros n'. apply bound_set.
Qed.
Lemma clear_spec e :
  env_step isid de e EClear = if finalized e then (Raise TypeError, e) else (Ok RNone, mkenv [] false).
Proof. cbn. unfold env_clear. destruct (finalized e) eqn:F; [reflexivity|]. unfold with_binds. now rewrite F. Qed.
End Env.

Section Begin.
Context {V S : Type}.
Lemma run_all_sequence (bs : list (@bodyfn V S)) : forall s, run_all s bs =
  match sequence s bs with (Ok _, s1) => (Ok tt, s1) | (Raise x, s1) => (Raise x, s1) end.
Proof.
  induction bs as [|b bs IH]; intro s; simpl; auto. destruct (b s) as [[v|x] s1]; auto.
  rewrite IH. destruct (sequence s1 bs) as [[vs|x] s2]; auto.
Qed.
Lemma sequence_snoc (bs : list (@bodyfn V S)) b : forall s, sequence s (bs ++ [b]) =
  match sequence s bs with
  | (Ok vs, s1) => match b s1 with (Ok v, s2) => (Ok (vs ++ [v])%list, s2) | (Raise x, s2) => (Raise x, s2) end
  | r => r
  end.
Proof.
  induction bs as [|c bs IH]; intro s; simpl.
  - destruct (b s) as [[v|x] s1]; auto.
  - destruct (c s) as [[v|x] s1]; auto. rewrite IH. destruct (sequence s1 bs) as [[vs|x] s2]; auto.
    destruct (b s2) as [[w|x] s3]; auto.
Qed.
Lemma lazy_begin_eq (none : V) s (bs : list (@bodyfn V S)) : lazy_begin none s bs =
  match sequence s bs with (Ok vs, s1) => (Ok (last vs none), s1) | (Raise x, s1) => (Raise x, s1) end.
Proof.
  destruct bs as [|b0 bs]; auto.
  assert (Hs : exists init l, (b0 :: bs)%list = (init ++ [l])%list) by (destruct (exists_last (l := (b0 :: bs)%list)) as (i & l & ->); [discriminate|eauto]).
  destruct Hs as (init & l & Hs).
  assert (E : lazy_begin none s (b0 :: bs) = match run_all s (removelast (b0 :: bs)) with
         | (Ok _, s1) => (last (b0 :: bs) b0) s1
         | (Raise x, s1) => (Raise x, s1)
         end).
  { destruct bs; auto. }
  rewrite E, Hs. rewrite removelast_last, last_last, run_all_sequence, sequence_snoc.
  destruct (sequence s init) as [[vs|x] s1]; auto. destruct (l s1) as [[v|x] s2]; auto. now rewrite last_last.
Qed.
Lemma lazy_begin0_eq (none : V) s (bs : list (@bodyfn V S)) : lazy_begin0 none s bs =
  match sequence s bs with (Ok vs, s1) => (Ok (hd none vs), s1) | (Raise x, s1) => (Raise x, s1) end.
Proof.
  destruct bs as [|b [|b1 bs]]; auto.
  - simpl. destruct (b s) as [[v|x] s1]; auto.
  - cbn [lazy_begin0]. rewrite run_all_sequence || idtac. simpl sequence.
    destruct (b s) as [[v|x] s1]; auto. rewrite run_all_sequence. simpl.
    destruct (b1 s1) as [[w|x] s2]; auto. destruct (sequence s2 bs) as [[vs|x] s3]; auto.
Qed.
Lemma begin_last (none : V) vs v : begin none (vs ++ [v]) = v.
Proof. unfold begin. destruct (vs ++ [v])%list eqn:E; [destruct vs; discriminate|]. rewrite <- E. apply last_last. Qed.
End Begin.

Lemma read_back_items : exists (n : name), forall (isid : name -> bool) de, isid n = true ->
  exists e1, env_step isid de (@env0 nat) (ESetattr n 5) = (Ok RNone, e1)
  /\ fst (env_step isid de e1 (EGet n)) = Ok (RAttr n).
Proof.
  exists "items". intros isid de H. exists (mkenv [("items", 5)] false). split; [|reflexivity].
  simpl. unfold env_setattr. simpl. now rewrite H.
Qed.
Lemma exit_clears (V : Type) (isid : name -> bool) de (e : envst V) :
  fst (env_step isid de e EExit) = Ok RNone /\ forall n, bound (snd (env_step isid de e EExit)) n = None.
Proof. split; reflexivity. Qed.
Lemma update_any_name (isid : name -> bool) de (n : name) (v : nat) :
  bound (snd (env_step isid de env0 (EUpdate [UMapping [(n, v)]] []))) n = Some v
  /\ bound (snd (env_step isid de env0 (ESetdefault n v))) n = Some v.
Proof. split; unfold bound; simpl; now rewrite String.eqb_refl. Qed.
Lemma once_update_rebinds : exists (e : envst nat) v, forall isid de, bound e "x" = Some 1
  /\ bound (snd (once_step isid de e (EUpdate [] [("x", v)]))) "x" = Some v /\ v <> 1.
Proof. exists (mkenv [("x", 1)] false), 2. intros. repeat split. discriminate. Qed.
Lemma body_env (V : Type) (isid : name -> bool) de lr bs (e : envst V) o f :
  let_loop isid de lr env0 bs = Ok e ->
  let_ isid de lr bs (Body (mkinit o (Some (true, f)))) =
  match fst (f (mkenv (binds e) true)) with Ok v => Ok (LVal v) | Raise x => Raise x end.
Proof. intro E. unfold let_. now rewrite E. Qed.
Lemma do0_items (isid : name -> bool) de (attr : name -> nat) lam : isid "items" = true -> isid do0_key = true ->
  fst (do0_ isid de attr lam [Assign "items" (mkinit 17 None)]) = Ok (attr "items").
Proof.
  intros H H'. unfold do0_, do_. cbn [app do_loop do_item maybe_call callable obj].
  unfold setitem. rewrite setattr_ok by (split; [unfold reserved_names; simpl; intuition discriminate|split; auto]).
  cbn [do_loop do_item maybe_call callable obj]. unfold read at 1. unfold env_getattr. 
  change (mem "items" class_attrs) with true. cbv iota beta.
  rewrite setattr_ok by (split; [unfold reserved_names, do0_key; simpl; intuition discriminate|split; auto]).
  cbn [do_loop do_item maybe_call callable obj]. unfold read, env_getattr. rewrite H'.
  change (mem do0_key class_attrs) with false. reflexivity.
Qed.
