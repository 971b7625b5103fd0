From Coq Require Import String List Bool Arith Lia.
From Verif Require Import Base CollModel EnvModel EnvSpec EnvProofs DltModel DltSpec.
Import ListNotations.
Open Scope list_scope.

Section P.
Context {V : Type}.
Variable isid : name -> bool.
Variable de : envst V -> name -> V -> envst V.
Notation follows := (follows isid de).
Notation made := (made isid de).
Record inv (s : st V) : Prop := {
  i_funs : length (dfuns s) = length (envs s);
  i_defs : length (definitions (events s)) = length (envs s);
  i_env : forall f d, nth_error (dfuns s) f = Some d -> denv d = f;
  i_used : forall f, length (envs s) <= f -> uses f (events s) = [];
  i_ok : forall f l r bs, nth_error (definitions (events s)) f = Some (l, r, bs) ->
    exists e0 e, made l r bs e0 /\ nth_error (envs s) f = Some e /\ follows e0 (uses f (events s)) e }.
Lemma inv0 : inv st0.
Proof. constructor; try reflexivity; intros; destruct f; discriminate. Qed.
Lemma follows_app : forall l e e1 o e2, follows e l e1 -> env_step isid de e1 o = e2 -> follows e (l ++ [(o, fst e2)]) (snd e2).
Proof.
  induction l as [|[o1 r1] l IH]; intros e e1 o e2 H E.
  - cbn in *. subst. auto.
  - destruct H as [H1 H2]. cbn. split; [exact H1|]. eapply IH; eassumption.
Qed.
Lemma upd_nth : forall A (l : list A) i j a, nth_error (upd l i a) j = if Nat.eqb i j then match nth_error l j with Some _ => Some a | None => None end else nth_error l j.
Proof. intros A l. induction l as [|x l IH]; intros [|i] [|j] a; cbn; auto. destruct (Nat.eqb i j); reflexivity. Qed.
Lemma upd_len : forall A (l : list A) i a, length (upd l i a) = length l.
Proof. induction l; intros [|i] b; cbn; auto. Qed.
Lemma inv_use : forall s f e o, inv s -> nth_error (envs s) f = Some e ->
  inv (mkst (upd (envs s) f (snd (env_step isid de e o))) (dfuns s) (events s ++ [Did f o (fst (env_step isid de e o))])).
Proof.
  intros s f e o [I1 I2 I3 I4 I5] E.
  assert (L : f < length (envs s)) by (apply nth_error_Some; congruence).
  constructor; cbn; rewrite ?upd_len; auto.
  - unfold definitions. rewrite flat_map_app, app_length. cbn. fold (definitions (events s)). lia.
  - intros g G. unfold uses. rewrite flat_map_app. fold (uses g (events s)). rewrite (I4 g G). cbn.
    destruct (Nat.eqb_spec g f); [lia | reflexivity].
  - intros g l r bs D. unfold definitions in D. rewrite flat_map_app in D. cbn in D. rewrite app_nil_r in D.
    destruct (I5 g l r bs D) as (e0 & e1 & M & N & F). rewrite upd_nth. unfold uses. rewrite flat_map_app. fold (uses g (events s)). cbn.
    rewrite (Nat.eqb_sym g f). destruct (Nat.eqb_spec f g).
    + subst g. rewrite N. rewrite N in E. injection E as ->. exists e0. eexists. split; [exact M|]. split; [reflexivity|].
      eapply follows_app; [exact F | reflexivity].
    + exists e0, e1. rewrite app_nil_r. auto.
Qed.
Lemma nth_app_last : forall A (l : list A) a i x, nth_error (l ++ [a]) i = Some x -> nth_error l i = Some x \/ (i = length l /\ a = x).
Proof.
  intros A l a i x H. destruct (Nat.lt_ge_cases i (length l)) as [L|L].
  - rewrite nth_error_app1 in H by exact L. auto.
  - rewrite nth_error_app2 in H by exact L. destruct (i - length l) as [|k] eqn:E; cbn in H.
    + right. split; [lia | congruence].
    + destruct k; discriminate.
Qed.
Lemma inv_decorate : forall s l r n bs b x s', inv s -> decorate isid de l r n bs b s = (x, s') -> inv s'.
Proof.
  intros s l r n bs b x s' I E. unfold decorate in E.
  destruct (if l then _ else _) as [[e|v]|y] eqn:M; injection E as <- <-; try exact I.
  destruct I as [I1 I2 I3 I4 I5].
  constructor; cbn.
  - rewrite !app_length. cbn. lia.
  - unfold definitions. rewrite flat_map_app, !app_length. cbn. fold (definitions (events s)). lia.
  - intros f d D. apply nth_app_last in D as [D|[-> <-]]; [eauto | exact (eq_sym I1)].
  - intros f L. rewrite app_length in L. unfold uses. rewrite flat_map_app. fold (uses f (events s)). rewrite I4 by lia. reflexivity.
  - intros f l' r' bs' D. unfold definitions in D. rewrite flat_map_app in D. cbn in D.
    unfold uses. rewrite flat_map_app. fold (uses f (events s)). cbn. rewrite app_nil_r.
    apply nth_app_last in D as [D|[-> D]].
    + destruct (I5 _ _ _ _ D) as (e0 & e1 & M1 & N & F). exists e0, e1. split; [exact M1|]. split; [|exact F].
      rewrite nth_error_app1; [exact N|]. apply nth_error_Some. congruence.
    + injection D as <- <- <-. fold (definitions (events s)). exists e, e. split; [exact M|]. rewrite I2. split.
      * rewrite nth_error_app2 by lia. rewrite Nat.sub_diag. reflexivity.
      * rewrite I4 by lia. reflexivity.
Qed.
Definition meok (me : option (nat * nat)) : Prop := match me with Some (f, i) => f = i | None => True end.
Lemma inv_exec : forall calls, (forall f args kws s r s', inv s -> calls f args kws s = Some (r, s') -> inv s') ->
  forall p me s r s', meok me -> inv s -> exec isid de calls me p s = Some (r, s') -> inv s'.
Proof.
  intros calls C. induction p as [r0|o k IH|l r0 n bs b IHb k IH|f args kws k IH|l r0 n bs b IHb k IH]; intros me s r s' Hm I E; cbn in E.
  - injection E as <- <-. exact I.
  - destruct me as [[f i]|]; [|eapply IH; eassumption]. cbn in Hm. subst i.
    destruct (nth_error (envs s) f) as [e|] eqn:N; [|eapply IH; [|eassumption|eassumption]; reflexivity].
    pose proof (inv_use s f e o I N) as I'. destruct (env_step isid de e o) as [x e'] eqn:S. cbn in I'.
    eapply IH; [|exact I'|exact E]. reflexivity.
  - destruct (decorate isid de l r0 n bs b s) as [x s1] eqn:D. eapply IH; [exact Hm | eapply inv_decorate; eassumption | exact E].
  - destruct (calls f args kws s) as [[x s1]|] eqn:D; [|discriminate]. eapply IH; [exact Hm | eapply C; eassumption | exact E].
  - destruct (decorate isid de l r0 n bs b s) as [[f|x] s1] eqn:D; pose proof (inv_decorate _ _ _ _ _ _ _ _ I D) as I1.
    + destruct (calls f [] [] s1) as [[y s2]|] eqn:D2; [|discriminate]. eapply IH; [exact Hm | eapply C; eassumption | exact E].
    + eapply IH; eassumption.
Qed.
Lemma dict_get_set : forall A (d : list (name * A)) n a, dict_get String.eqb (dict_set String.eqb d n a) n = Some a.
Proof.
  intros A d n a. induction d as [|[k v] d IH]; cbn; [rewrite String.eqb_refl; reflexivity|].
  destruct (String.eqb k n) eqn:E; cbn; rewrite E; auto.
Qed.
Lemma its_env_withenv : forall (d : dfun V) kws, its_env (dname d) (withenv d kws) = Some (denv d).
Proof. intros d kws. unfold its_env, withenv. rewrite dict_get_set. reflexivity. Qed.
Lemma inv_calls : forall fuel f args kws s r s', inv s -> calls isid de fuel f args kws s = Some (r, s') -> inv s'.
Proof.
  induction fuel as [|fuel IH]; intros f args kws s r s' I E; [discriminate|]. cbn -[withenv its_env its_others] in E.
  destruct (nth_error (dfuns s) f) as [d|] eqn:D; [|injection E as <- <-; exact I].
  rewrite its_env_withenv in E. pose proof (i_env s I f d D) as Ed.
  refine (inv_exec (calls isid de fuel) IH _ (Some (f, denv d)) s r s' _ I E). exact (eq_sym Ed).
Qed.
Lemma state : forall fuel p r s, run isid de fuel p = Some (r, s) ->
  forall f l lr bs, nth_error (definitions (events s)) f = Some (l, lr, bs) ->
  exists e0 e, made l lr bs e0 /\ nth_error (envs s) f = Some e /\ follows e0 (uses f (events s)) e.
Proof.
  intros fuel p r s H. assert (I : inv s).
  { refine (inv_exec (calls isid de fuel) _ _ None st0 r s I inv0 H). intros; eapply inv_calls; eassumption. }
  exact (i_ok s I).
Qed.
Lemma follows_run : forall l e e', follows e l e' -> run_ops (env_step isid de) e (map fst l) = e'.
Proof. induction l as [|[o r] l IH]; intros e e' H; cbn in *; [exact H|]. destruct H as [_ H]. apply IH. exact H. Qed.
Lemma made_finalized : forall l lr bs e, made l lr bs e -> finalized e = true.
Proof.
  intros l lr bs e H. unfold DltSpec.made in H. destruct l.
  - revert H. generalize (None : option (envst V)). induction bs as [|[k i] bs IH]; intros env H; cbn in H.
    + injection H as <-. reflexivity.
    + destruct (has _ k); [discriminate|]. destruct (init_value _ _ _) as [[v|x] e1]; [|discriminate].
      destruct (setitem isid de e1 k v) as [e2|x]; [|discriminate]. cbn in H. eapply IH. exact H.
  - unfold let_ in H. destruct (let_loop isid de lr env0 bs) as [e1|x]; [|discriminate]. cbn in H. injection H as <-. reflexivity.
Qed.
Lemma names_stay : forall fuel p r s, run isid de fuel p = Some (r, s) ->
  forall f l lr bs e0 e, nth_error (definitions (events s)) f = Some (l, lr, bs) -> made l lr bs e0 -> nth_error (envs s) f = Some e ->
  (forall o x, In (o, x) (uses f (events s)) -> public o /\ is_exit o = false) -> names e = names e0.
Proof.
  intros fuel p r s H f l lr bs e0 e D M N P. destruct (state fuel p r s H f l lr bs D) as (e0' & e' & M' & N' & F).
  unfold DltSpec.made in *. rewrite M in M'. injection M' as <-. rewrite N in N'. injection N' as <-.
  apply follows_run in F. rewrite <- F. apply (run_finalized isid de); [|eapply made_finalized; exact M].
  intros o Ho. apply in_map_iff in Ho as ([o' x] & <- & Ho). exact (P o' x Ho).
Qed.
Lemma others_eq : forall (d : dfun V) kws, its_others (dname d) (withenv d kws) = filter (fun kw => negb (String.eqb (fst kw) (dname d))) kws.
Proof.
  intros d kws. unfold its_others, withenv.
  assert (A : forall kws : list (name * V), flat_map (fun kw : name * arg (V:=V) => match snd kw with AVal v => if String.eqb (fst kw) (dname d) then [] else [(fst kw, v)] | AEnv _ => [] end)
     (map (fun kw => (fst kw, AVal (snd kw))) kws) = filter (fun kw => negb (String.eqb (fst kw) (dname d))) kws).
  { clear. induction kws as [|[k v] kws IH]; cbn; auto. destruct (String.eqb k (dname d)); cbn; rewrite IH; reflexivity. }
  induction kws as [|[k v] kws IH]; cbn; auto.
  destruct (String.eqb k (dname d)) eqn:E; cbn; rewrite ?E; cbn.
  - apply A.
  - f_equal. exact IH.
Qed.
Lemma filter_none : forall A (p : A -> bool) l, (forall a, In a l -> p a = true) -> filter p l = l.
Proof. intros A p l H. induction l as [|a l IH]; cbn; auto. rewrite (H a) by (left; auto). f_equal. apply IH. intros; apply H; right; auto. Qed.
Lemma call_eq : forall fuel f d args kws s, nth_error (dfuns s) f = Some d -> (forall k v, In (k, v) kws -> k <> dname d) ->
  calls isid de (S fuel) f args kws s = exec isid de (calls isid de fuel) (Some (f, denv d)) (dbody d args kws) s.
Proof.
  intros fuel f d args kws s D H. cbn -[withenv its_env its_others]. rewrite D, its_env_withenv, others_eq, filter_none; [reflexivity|].
  intros [k v] Hk. apply negb_true_iff, String.eqb_neq. exact (H k v Hk).
Qed.
Lemma env_kw : forall fuel f d args kws kws' v s, nth_error (dfuns s) f = Some d ->
  calls isid de fuel f args (kws ++ (dname d, v) :: kws') s = calls isid de fuel f args (kws ++ kws') s.
Proof.
  intros [|fuel] f d args kws kws' v s D; [reflexivity|]. cbn -[withenv its_env its_others]. rewrite D, !its_env_withenv, !others_eq.
  rewrite !filter_app. cbn. rewrite String.eqb_refl. reflexivity.
Qed.
Lemma blet_eq : forall calls me l lr n bs b k s,
  exec isid de calls me (DefB l lr n bs b k) s =
  exec isid de calls me (DefD l lr n bs b (fun r => match r with Ok f => CallD f [] [] k | Raise x => k (Raise x) end)) s.
Proof. intros. cbn. destruct (decorate isid de l lr n bs b s) as [[f|x] s1]; reflexivity. Qed.
End P.
