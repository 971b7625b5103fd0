(** Proofs for the control channel (C109) and background jobs (C110). *)
From Coq Require Import String List ZArith Bool Arith Lia.
From Verif Require Import Base CollModel EnvModel MsgModel MsgSpec MsgProofs CtlModel CtlSpec.
Import ListNotations.
Open Scope string_scope.
Open Scope list_scope.
Open Scope nat_scope.

(** ** Dictionaries with integer keys *)
Section ZDict.
Context {V : Type}.
Implicit Types d : list (Z * V).
Lemma zget_set d k v : dict_get Z.eqb (dict_set Z.eqb d k v) k = Some v.
Proof.
  induction d as [|[a b] d IH]; cbn.
  - now rewrite Z.eqb_refl.
  - destruct (Z.eqb a k) eqn:E; cbn; rewrite E; auto.
Qed.
Lemma zget_set_ne d k v m : m <> k -> dict_get Z.eqb (dict_set Z.eqb d k v) m = dict_get Z.eqb d m.
Proof.
  intros N. induction d as [|[a b] d IH]; cbn.
  - destruct (Z.eqb_spec k m); [congruence|reflexivity].
  - destruct (Z.eqb_spec a k); cbn; destruct (Z.eqb_spec a m); try congruence; auto.
Qed.
Lemma zget_in d k : dict_get Z.eqb d k <> None <-> In k (map fst d).
Proof.
  induction d as [|[a b] d IH]; cbn.
  - split; [congruence|tauto].
  - destruct (Z.eqb_spec a k).
    + split; [auto|congruence].
    + rewrite IH. split; [auto|]. intros [H|H]; [congruence|auto].
Qed.
Lemma zset_in d k v m : In m (map fst (dict_set Z.eqb d k v)) <-> m = k \/ In m (map fst d).
Proof.
  rewrite <- !zget_in. destruct (Z.eq_dec m k) as [->|N].
  - rewrite zget_set. split; [auto|congruence].
  - rewrite zget_set_ne by auto. split; [auto|]. intros [H|H]; [congruence|auto].
Qed.
Lemma zset_nodup d k v : NoDup (map fst d) -> NoDup (map fst (dict_set Z.eqb d k v)).
Proof.
  induction d as [|[a b] d IH]; cbn; intros H.
  - repeat constructor; auto.
  - inversion H; subst. destruct (Z.eqb_spec a k); cbn.
    + constructor; auto.
    + constructor; auto. rewrite zset_in. intros [->|I']; [congruence|contradiction].
Qed.
Lemma zdel_in d k m : In m (map fst (dict_del Z.eqb d k)) -> In m (map fst d).
Proof.
  induction d as [|[a b] d IH]; cbn; auto. destruct (Z.eqb a k); cbn; intros H; auto. destruct H; auto.
Qed.
Lemma zdel_nodup d k : NoDup (map fst d) -> NoDup (map fst (dict_del Z.eqb d k)).
Proof.
  induction d as [|[a b] d IH]; cbn; intros H; auto. inversion H; subst. destruct (Z.eqb a k); auto. cbn.
  constructor; auto. intros X. apply zdel_in in X. auto.
Qed.
Lemma zget_del d k : NoDup (map fst d) -> dict_get Z.eqb (dict_del Z.eqb d k) k = None.
Proof.
  induction d as [|[a b] d IH]; cbn; intros H; auto. inversion H; subst. destruct (Z.eqb_spec a k).
  - subst. destruct (dict_get Z.eqb d k) eqn:E; auto. exfalso. apply H2, zget_in. congruence.
  - cbn. destruct (Z.eqb_spec a k); [congruence|auto].
Qed.
Lemma zget_del_ne d k m : m <> k -> dict_get Z.eqb (dict_del Z.eqb d k) m = dict_get Z.eqb d m.
Proof.
  intros N. induction d as [|[a b] d IH]; cbn; auto. destruct (Z.eqb_spec a k); cbn.
  - subst. destruct (Z.eqb_spec k m); [congruence|reflexivity].
  - destruct (Z.eqb a m); auto.
Qed.
End ZDict.

(** ** Histories *)
Lemma snoc_split {A} (h : list A) e a x b : h ++ [e] = a ++ x :: b ->
  (b = [] /\ a = h /\ x = e) \/ exists b', b = b' ++ [e] /\ h = a ++ x :: b'.
Proof.
  intros H.
  revert H; induction b as [|y b' _] using rev_ind; intros H.
  - left. apply app_inj_tail in H as [-> ->]. auto.
  - right. exists b'. change (a ++ x :: b' ++ [y]) with (a ++ (x :: b') ++ [y]) in H. rewrite app_assoc in H.
    apply app_inj_tail in H as [-> ->]. auto.
Qed.
Lemma opened_snoc h e : opened (h ++ [e]) = (opened h + if is_open e then 1 else 0)%Z.
Proof. unfold opened. rewrite filter_app, app_length. cbn. destruct (is_open e); cbn; lia. Qed.
Lemma opened_app a b : opened (a ++ b) = (opened a + opened b)%Z.
Proof. unfold opened. rewrite filter_app, app_length. lia. Qed.
Lemma opened_cons e b : opened (e :: b) = ((if is_open e then 1 else 0) + opened b)%Z.
Proof. unfold opened. cbn. destruct (is_open e); cbn [length]; lia. Qed.
Lemma opened_nonneg h : (0 <= opened h)%Z.
Proof. unfold opened. lia. Qed.
Lemma connected_snoc h e : connected (h ++ [e]) = connected h + if is_connect e then 1 else 0.
Proof. unfold connected. rewrite filter_app, app_length. cbn. destruct (is_connect e); cbn; lia. Qed.
(** the same Open *)
Lemma open_unique a b a' b' : a ++ Open :: b = a' ++ Open :: b' -> opened a = opened a' -> a = a' /\ b = b'.
Proof.
  revert a'. induction a as [|x a IH]; intros [|x' a'] H E; cbn [app] in H.
  - inversion H. auto.
  - inversion H; subst. rewrite opened_cons in E. change (opened []) with 0%Z in E. cbn [is_open] in E. pose proof (opened_nonneg a'). lia.
  - inversion H; subst. rewrite opened_cons in E. change (opened []) with 0%Z in E. cbn [is_open] in E. pose proof (opened_nonneg a). lia.
  - inversion H; subst. rewrite !opened_cons in E. destruct (IH a') as [-> ->]; auto. lia.
Qed.
Lemma alive_range h i : alive h i -> (1 <= i <= opened h)%Z.
Proof.
  intros (a & b & -> & -> & _). rewrite opened_app, opened_cons. cbn [is_open]. pose proof (opened_nonneg a). pose proof (opened_nonneg b). lia.
Qed.
Lemma alive_snoc h e i : alive (h ++ [e]) i <-> (e = Open /\ i = (opened h + 1)%Z) \/ (alive h i /\ e <> Close i).
Proof.
  split.
  - intros (a & b & H & E & N). apply snoc_split in H as [(-> & -> & <-)|(b' & -> & ->)].
    + left. auto.
    + right. split.
      * exists a, b'. repeat split; auto. intros X. apply N, in_or_app. auto.
      * intros ->. apply N, in_or_app. right. left. reflexivity.
  - intros [[-> ->]|[(a & b & -> & E & N) D]].
    + exists h, []. repeat split; auto.
    + exists a, (b ++ [e]). rewrite <- app_assoc. repeat split; auto. intros X. apply in_app_or in X as [X|[X|[]]]; auto.
Qed.
Lemma runs_alive h i t : runs_in h i t -> alive h i.
Proof.
  intros (a & b & c & -> & E & N & _). exists a, (b ++ Ready i t :: c). repeat split; auto. intros X. apply N.
  apply in_or_app. apply in_app_or in X as [X|[X|X]]; auto. discriminate.
Qed.
Lemma ready_dec (b : list event) i : (forall t, ~ In (Ready i t) b) \/ exists b1 t b2, b = b1 ++ Ready i t :: b2 /\ forall t', ~ In (Ready i t') b1.
Proof.
  induction b as [|e b IH].
  - left. intros t [].
  - assert (D : (exists t, e = Ready i t) \/ forall t, e <> Ready i t).
    { destruct e; try (right; intros; discriminate). destruct (Z.eq_dec i0 i) as [->|N]; [left; eauto|right; intros ? X; inversion X; auto]. }
    destruct D as [[t ->]|D].
    + right. exists [], t, b. split; auto.
    + destruct IH as [N|(b1 & t & b2 & -> & N)].
      * left. intros t [X|X]; [exact (D t X)|exact (N t X)].
      * right. exists (e :: b1), t, b2. split; auto. intros t' [X|X]; [exact (D _ X)|exact (N _ X)].
Qed.
Lemma runs_snoc h e i t : runs_in (h ++ [e]) i t <->
  (runs_in h i t /\ e <> Close i) \/ (e = Ready i t /\ alive h i /\ forall t', ~ runs_in h i t').
Proof.
  split.
  - intros (a & b & c & H & E & N & D).
    change (a ++ Open :: b ++ Ready i t :: c) with (a ++ (Open :: b) ++ Ready i t :: c) in H. rewrite app_assoc in H.
    apply snoc_split in H as [(-> & <- & <-)|(c' & -> & ->)].
    + right. rewrite app_nil_r in N. split; [auto|]. split; [exists a, b; auto|].
      intros t' (a' & b' & c' & H' & E' & N' & D'). apply open_unique in H' as [-> ->]; [|lia].
      apply (D t'), in_or_app. right. left. reflexivity.
    + left. split.
      * exists a, b, c'. rewrite <- app_assoc. repeat split; auto. intros X. apply N. rewrite app_assoc. apply in_or_app. auto.
      * intros ->. apply N. apply in_or_app. right. apply in_or_app. right. left. reflexivity.
  - intros [[(a & b & c & -> & E & N & D) X]|(-> & (a & b & -> & E & N) & F)].
    + exists a, b, (c ++ [e]). rewrite <- !app_assoc. cbn [app]. rewrite <- !app_assoc. repeat split; auto.
      rewrite app_assoc. intros Y. apply in_app_or in Y as [Y|[Y|[]]]; auto.
    + destruct (ready_dec b i) as [R|(b1 & t' & b2 & -> & R)].
      * exists a, b, []. rewrite <- app_assoc. cbn [app]. rewrite app_nil_r. auto.
      * exfalso. apply (F t'). exists a, b1, b2. repeat split; auto. intros Y. apply N. apply in_or_app. apply in_app_or in Y as [Y|Y]; auto.
        right. right. exact Y.
Qed.

Section Server.
Variable complete : json -> json -> outcome json.
Variable ps1 ps2 : json.
Let handle := handle complete ps1 ps2.
Let step := step complete ps1 ps2.
Let steps := steps complete ps1 ps2.
Lemma steps_snoc h e : steps (h ++ [e]) = step (steps h) e.
Proof. unfold steps, CtlModel.steps. now rewrite fold_left_app. Qed.

(** ** One request *)
Lemma key_names j k : key_of j = Ok (Some k) <-> names j k.
Proof.
  unfold names. destruct j as [|b|z|s|l|l]; cbn; split; intros H; try discriminate; try (intuition (discriminate || congruence)).
  - destruct b; inversion H; auto.
  - destruct H as [H|[[H H']|[H H']]]; inversion H; subst; reflexivity.
Qed.
Lemma names_inj j i i' : names j i -> names j i' -> i = i'.
Proof. rewrite <- !key_names. intros A B. rewrite A in B. congruence. Qed.
Lemma is_str_iff j s : is_str j s = true <-> j = JStr s.
Proof. destruct j; cbn; try (split; [discriminate|intros H; inversion H]). rewrite String.eqb_eq. split; [intros ->|intros H; inversion H]; auto. Qed.
Lemma is_str_not j s : is_str j s = false -> j <> JStr s.
Proof. intros H E. apply is_str_iff in E. congruence. Qed.
Lemma get_field j k : (forall v, getitem j k = Ok v <-> field j k = Some v).
Proof. destruct j; cbn; try (intros; split; discriminate). intros v. destruct (dict_get String.eqb l k); split; congruence. Qed.

Inductive case_of (a : sessions) (p : option json) (ar : outcome unit) (r : json) : handled -> Prop :=
| CaseNo rep : field rep "status" = Some (JStr "failed") -> field r "command" = None -> case_of a p ar r (Reply rep p None)
| CaseUnknown rep c : field rep "status" = Some (JStr "failed") -> field r "command" = Some c ->
    (forall s, In s ["DescribeServer"; "PairWithSession"; "TabComplete"; "KeyboardInterrupt"] -> c <> JStr s) -> case_of a p ar r (Reply rep p None)
| CaseDescribe rep : command r "DescribeServer" -> rep = describe ps1 ps2 -> case_of a p ar r (Reply rep p None)
| CasePairNo rep : command r "PairWithSession" -> field rep "status" = Some (JStr "failed") -> field r "id" = None -> case_of a p ar r (Reply rep p None)
| CasePairBad rep j : command r "PairWithSession" -> field rep "status" = Some (JStr "failed") -> field r "id" = Some j ->
    (forall k, names j k -> dict_get Z.eqb a k = None) -> case_of a p ar r (Reply rep p None)
| CasePair rep j k : command r "PairWithSession" -> field rep "status" = Some (JStr "ok") -> field r "id" = Some j ->
    names j k -> dict_get Z.eqb a k <> None -> case_of a p ar r (Reply rep (Some j) None)
| CaseTabNo rep : command r "TabComplete" -> field rep "status" = Some (JStr "failed") -> field r "text" = None \/ field r "state" = None -> case_of a p ar r (Reply rep p None)
| CaseTab rep t s x : command r "TabComplete" -> rep = JObj [("status", JStr "ok"); ("result", x)] ->
    field r "text" = Some t -> field r "state" = Some s -> complete t s = Ok x -> case_of a p ar r (Reply rep p None)
| CaseIntNo rep : command r "KeyboardInterrupt" -> field rep "status" = Some (JStr "failed") ->
    (forall j, p = Some j -> truthy j = true -> forall k, names j k -> forall t, dict_get Z.eqb a k = Some (Some t) -> ar <> Ok tt) -> case_of a p ar r (Reply rep p None)
| CaseInt rep j k t : command r "KeyboardInterrupt" -> field rep "status" = Some (JStr "ok") -> ar = Ok tt ->
    p = Some j -> truthy j = true -> names j k -> dict_get Z.eqb a k = Some (Some t) -> case_of a p ar r (Reply rep p (Some t))
| CaseEnd x : (~ sound complete r \/ ~ expected ar \/ exists j, p = Some j /\ forall k, ~ names j k) -> (x = Exit \/ exists e, x = Die e) -> case_of a p ar r x.
Lemma find_ok a j : match find_session a j with
  | Ok (Some o) => exists k, names j k /\ dict_get Z.eqb a k = Some o
  | Ok None => forall k, names j k -> dict_get Z.eqb a k = None
  | Raise _ => match j with JList _ | JObj _ => True | _ => False end /\ forall k, ~ names j k
  end.
Proof.
  unfold find_session, obind. destruct (key_of j) as [[k|]|x] eqn:E.
  - apply key_names in E. destruct (dict_get Z.eqb a k) eqn:G; [eauto|]. intros k' H. now rewrite (names_inj _ _ _ H E).
  - intros k H. apply key_names in H. congruence.
  - split; [destruct j; cbn in E; try discriminate; exact I|]. intros k H. apply key_names in H. congruence.
Qed.
Lemma contains_obj l k : contains k (JObj l) = Ok (match field (JObj l) k with Some _ => true | None => false end).
Proof. reflexivity. Qed.
Lemma getitem_obj l k v : field (JObj l) k = Some v -> getitem (JObj l) k = Ok v.
Proof. intros H. now apply get_field. Qed.
Lemma handle_case a p ar r : case_of a p ar r (handle a p ar r).
Proof.
  unfold handle, CtlModel.handle, orelse.
  destruct (truthy r) eqn:T; cbn [negb].
  2:{ apply CaseEnd; [left|left; reflexivity]. intros ((l & -> & N) & _). destruct l; [congruence|discriminate]. }
  assert (NO : (forall l, r <> JObj l) -> ~ sound complete r).
  { intros N ((l & -> & _) & _). now apply (N l). }
  destruct r as [|b|z|s|l|l];
    try solve [cbn [contains]; apply CaseEnd; [left; apply NO; discriminate|right; eauto]].
  - cbn [contains]. destruct (substring "command" s); cbn [negb].
    + cbn [getitem]. apply CaseEnd; [left; apply NO; discriminate|right; eauto].
    + apply CaseNo; reflexivity.
  - cbn [contains]. destruct (existsb _ l); cbn [negb].
    + cbn [getitem]. apply CaseEnd; [left; apply NO; discriminate|right; eauto].
    + apply CaseNo; reflexivity.
  - rewrite contains_obj. destruct (field (JObj l) "command") as [c|] eqn:C; cbn [negb].
    2:{ apply CaseNo; auto. }
    rewrite (getitem_obj _ _ _ C).
    destruct (is_str c "DescribeServer") eqn:E1.
    { apply is_str_iff in E1 as ->. now apply CaseDescribe. }
    destruct (is_str c "PairWithSession") eqn:E2.
    { apply is_str_iff in E2 as ->. rewrite contains_obj. destruct (field (JObj l) "id") as [j|] eqn:F; cbn [negb].
      2:{ now apply CasePairNo. }
      rewrite (getitem_obj _ _ _ F). pose proof (find_ok a j) as G. destruct (find_session a j) as [[o|]|x] eqn:FS.
      - destruct G as (k & G1 & G2). eapply CasePair; eauto. congruence.
      - eapply CasePairBad; eauto.
      - destruct G as [G _]. apply CaseEnd; [left|right; eauto]. intros (_ & S1 & _). specialize (S1 j C F). destruct j; auto. }
    destruct (is_str c "TabComplete") eqn:E3.
    { apply is_str_iff in E3 as ->. rewrite contains_obj. destruct (field (JObj l) "text") as [t|] eqn:F.
      2:{ cbn [negb]. apply CaseTabNo; auto. }
      rewrite contains_obj. destruct (field (JObj l) "state") as [s|] eqn:F'; cbn [negb].
      2:{ apply CaseTabNo; auto. }
      rewrite (getitem_obj _ _ _ F), (getitem_obj _ _ _ F'). destruct (complete t s) as [x|x] eqn:K.
      - eapply CaseTab; eauto.
      - apply CaseEnd; [left|right; eauto]. intros (_ & _ & S1). destruct (S1 t s C F F') as [y Y]. congruence. }
    destruct (is_str c "KeyboardInterrupt") eqn:E4.
    { apply is_str_iff in E4 as ->. destruct p as [j|].
      2:{ apply CaseIntNo; auto. intros; discriminate. }
      destruct (truthy j) eqn:TJ.
      2:{ apply CaseIntNo; auto. intros j' X. inversion X. congruence. }
      pose proof (find_ok a j) as G. destruct (find_session a j) as [[o|]|x] eqn:FS.
      - destruct G as (k & G1 & G2). destruct o as [t|].
        + destruct ar as [[]|x] eqn:A.
          * eapply CaseInt; eauto.
          * destruct (caught x) eqn:Q; [apply CaseIntNo; auto; intros; discriminate|].
            apply CaseEnd; [right; left|right; eauto]. intros X. cbn in X. destruct X as [->|[->|[->| ->]]]; discriminate.
        + apply CaseIntNo; auto. intros j' X _ k' N t G. inversion X; subst. rewrite (names_inj _ _ _ N G1) in G. congruence.
      - apply CaseIntNo; auto. intros j' X _ k' N t G'. inversion X; subst. rewrite (G _ N) in G'. discriminate.
      - apply CaseEnd; [right; right; exists j; split; [auto|apply G]|right; eauto]. }
    eapply CaseUnknown; eauto. cbn [In].
    intros s [<-|[<-|[<-|[<-|[]]]]]; now apply is_str_not.
Qed.

(** ** The sessions *)
Lemma active_ok h : counter (steps h) = (opened h + 1)%Z /\ NoDup (map fst (active (steps h))) /\
  (forall i, dict_get Z.eqb (active (steps h)) i <> None <-> alive h i) /\
  (forall i t, dict_get Z.eqb (active (steps h)) i = Some (Some t) <-> runs_in h i t).
Proof.
  induction h as [|e h IH] using rev_ind.
  - cbn. repeat split; try constructor; try congruence.
    + intros (a & b & H & _). destruct a; discriminate.
    + intros (a & b & c & H & _). destruct a; discriminate.
  - destruct IH as (C & N & A & R). rewrite steps_snoc, opened_snoc.
    assert (SAME : forall v, active v = active (steps h) -> counter v = counter (steps h) -> is_open e = false ->
      (forall i, e <> Close i) -> (forall i t, e <> Ready i t \/ dict_get Z.eqb (active (steps h)) i = None \/ exists t', dict_get Z.eqb (active (steps h)) i = Some (Some t')) ->
      counter v = (opened h + (if is_open e then 1 else 0) + 1)%Z /\ NoDup (map fst (active v)) /\
      (forall i, dict_get Z.eqb (active v) i <> None <-> alive (h ++ [e]) i) /\
      (forall i t, dict_get Z.eqb (active v) i = Some (Some t) <-> runs_in (h ++ [e]) i t)).
    { intros v -> -> O NC NR. rewrite O. repeat split; auto; try lia.
      - intros H. apply alive_snoc. right. split; [now apply A|apply NC].
      - intros H. apply alive_snoc in H as [[-> _]|[H _]]; [discriminate|now apply A].
      - intros H. apply runs_snoc. left. split; [now apply R|apply NC].
      - intros H. apply runs_snoc in H as [[H _]|(-> & AL & F)]; [now apply R|].
        destruct (NR i t) as [X|[X|[t' X]]]; [congruence| |].
        + apply A in AL. congruence.
        + apply R in X. exfalso. exact (F _ X). }
    destruct e as [|i t|i| |c ar r]; cbn [step CtlModel.step].
    + unfold step. cbn [CtlModel.step active counter is_open]. assert (FR : dict_get Z.eqb (active (steps h)) (counter (steps h)) = None).
      { destruct (dict_get Z.eqb (active (steps h)) (counter (steps h))) eqn:G; auto. exfalso.
        assert (X : alive h (counter (steps h))) by (apply A; congruence). apply alive_range in X. lia. }
      split; [lia|]. split; [now apply zset_nodup|]. split.
      * intros i. rewrite alive_snoc, C. destruct (Z.eq_dec i (opened h + 1)) as [->|NE].
        -- rewrite zget_set. split; [auto|congruence].
        -- rewrite zget_set_ne by auto. rewrite A. split; [intros; right; split; [auto|discriminate]|]. intros [[_ X]|[X _]]; [congruence|auto].
      * intros i t. rewrite runs_snoc, C. destruct (Z.eq_dec i (opened h + 1)) as [->|NE].
        -- rewrite zget_set. split; [discriminate|]. intros [[X _]|[X _]]; [|discriminate].
           apply runs_alive, alive_range in X. lia.
        -- rewrite zget_set_ne by auto. rewrite R. split; [intros; left; split; [auto|discriminate]|]. intros [[X _]|[X _]]; [auto|discriminate].
    + unfold step. cbn [CtlModel.step]. destruct (dict_get Z.eqb (active (steps h)) i) as [[t'|]|] eqn:G.
      * apply SAME; auto; try discriminate. intros i' u. destruct (Z.eq_dec i' i) as [->|NE]; [right; right; eauto|left; congruence].
      * cbn [active counter is_open]. split; [lia|]. split; [now apply zset_nodup|]. split.
        -- intros i'. rewrite alive_snoc. destruct (Z.eq_dec i' i) as [->|NE].
           ++ rewrite zget_set. split; [|congruence]. intros _. right. split; [apply A; congruence|discriminate].
           ++ rewrite zget_set_ne by auto. rewrite A. split; [intros; right; split; [auto|discriminate]|]. intros [[X _]|[X _]]; [discriminate|auto].
        -- intros i' t'. rewrite runs_snoc. destruct (Z.eq_dec i' i) as [->|NE].
           ++ rewrite zget_set. split.
              ** intros X. inversion X; subst. right. split; [auto|]. split; [apply A; congruence|]. intros u Y. apply R in Y. congruence.
              ** intros [[X _]|[X _]]; [apply R in X; congruence|congruence].
           ++ rewrite zget_set_ne by auto. rewrite R. split; [intros; left; split; [auto|discriminate]|]. intros [[X _]|[X _]]; [auto|congruence].
      * apply SAME; auto; try discriminate. intros i' u. destruct (Z.eq_dec i' i) as [->|NE]; [right; left; auto|left; congruence].
    + unfold step. cbn [CtlModel.step active counter is_open]. split; [lia|]. split; [now apply zdel_nodup|]. split.
      * intros i'. rewrite alive_snoc. destruct (Z.eq_dec i' i) as [->|NE].
        -- rewrite zget_del by auto. split; [congruence|]. intros [[X _]|[_ X]]; congruence.
        -- rewrite zget_del_ne by auto. rewrite A. split; [intros; right; split; [auto|congruence]|]. intros [[X _]|[X _]]; [discriminate|auto].
      * intros i' t'. rewrite runs_snoc. destruct (Z.eq_dec i' i) as [->|NE].
        -- rewrite zget_del by auto. split; [congruence|]. intros [[_ X]|[X _]]; congruence.
        -- rewrite zget_del_ne by auto. rewrite R. split; [intros; left; split; [auto|congruence]|]. intros [[X _]|[X _]]; [auto|discriminate].
    + apply SAME; auto; try discriminate. intros; left; discriminate.
    + apply SAME; try (intros; discriminate); auto; unfold step; cbn [CtlModel.step]; try (intros; left; discriminate);
        destruct (nth_error (ctls (steps h)) c) as [[p|]|]; auto; destruct (CtlModel.handle _ _ _ _ _ _ _); auto.
Qed.

(** ** The pairings *)
Lemma pairs_inj h e c i i' : pairs h e c i -> pairs h e c i' -> i = i'.
Proof.
  intros (ar & r & j & -> & _ & F & N & _) (ar' & r' & j' & E & _ & F' & N' & _). inversion E; subst. rewrite F in F'. inversion F'; subst.
  exact (names_inj _ _ _ N N').
Qed.
Lemma paired_snoc h e c i : paired_with (h ++ [e]) c i <-> pairs h e c i \/ (paired_with h c i /\ forall i', ~ pairs h e c i').
Proof.
  split.
  - intros (a & e' & b & H & P & L). apply snoc_split in H as [(-> & -> & ->)|(b' & -> & ->)]; [auto|]. right. split.
    + exists a, e', b'. repeat split; auto. intros b1 e1 b2 i' ->. apply (L b1 e1 (b2 ++ [e])). now rewrite <- app_assoc.
    + intros i'. apply (L b' e []). reflexivity.
  - intros [P|[(a & e' & b & -> & P & L) N]].
    + exists h, e, []. repeat split; auto. intros b1 e' b2 i' H. destruct b1; discriminate.
    + exists a, e', (b ++ [e]). rewrite <- app_assoc. repeat split; auto. intros b1 e1 b2 i' H.
      apply snoc_split in H as [(-> & -> & ->)|(b2' & -> & ->)]; [apply N|]. eapply L. reflexivity.
Qed.
Lemma paired_inj h c i i' : paired_with h c i -> paired_with h c i' -> i = i'.
Proof.
  induction h as [|e h IH] using rev_ind.
  - intros (a & e & b & H & _). destruct a; discriminate.
  - rewrite !paired_snoc. intros [P|[P N]] [P'|[P' N']]; [exact (pairs_inj _ _ _ _ _ P P')|exfalso; exact (N' _ P)|exfalso; exact (N _ P')|auto].
Qed.
Lemma paired_range h c i : paired_with h c i -> (1 <= i)%Z.
Proof. intros (a & e & b & -> & (ar & r & j & -> & _ & _ & _ & A & _) & _). now apply alive_range in A. Qed.
Lemma upd_length {A} (l : list A) n x : length (upd l n x) = length l.
Proof. revert n. induction l as [|y l IH]; intros [|n]; cbn; auto. Qed.
Lemma upd_nth {A} (l : list A) n x m : nth_error (upd l n x) m = if Nat.eqb n m then (if Nat.ltb m (length l) then Some x else None) else nth_error l m.
Proof.
  revert n m. induction l as [|y l IH]; intros [|n] [|m]; cbn; auto.
  - destruct (Nat.eqb n m); auto.
  - rewrite IH. destruct (Nat.eqb n m) eqn:E; auto.
Qed.
Lemma ctls_length h : length (ctls (steps h)) = connected h.
Proof.
  induction h as [|e h IH] using rev_ind; [reflexivity|]. rewrite steps_snoc, connected_snoc. destruct e as [|i t|i| |c ar r]; unfold step; cbn [CtlModel.step ctls is_connect].
  - lia.
  - destruct (dict_get Z.eqb (active (steps h)) i) as [[t'|]|]; cbn [ctls]; lia.
  - lia.
  - rewrite app_length. cbn. lia.
  - destruct (nth_error (ctls (steps h)) c) as [[p|]|]; try lia.
    destruct (CtlModel.handle _ _ _ _ _ _ _); cbn [ctls]; rewrite upd_length; lia.
Qed.
Definition pairing (h : list event) (c : nat) (p : option json) : Prop :=
  match p with None => forall i, ~ paired_with h c i | Some j => exists i, names j i /\ paired_with h c i end.
Lemma pairing_keep h e c p : (forall i, ~ pairs h e c i) -> pairing h c p -> pairing (h ++ [e]) c p.
Proof.
  intros N. destruct p as [j|]; cbn.
  - intros (i & A & B). exists i. split; auto. apply paired_snoc. auto.
  - intros F i H. apply paired_snoc in H as [H|[H _]]; [exact (N _ H)|exact (F _ H)].
Qed.
Lemma pairing_new h e c : connected h = c -> pairing (h ++ [e]) c None.
Proof.
  intros <-. cbn. intros i H. assert (G : forall h' c', connected h' <= c' -> ~ paired_with (h') c' i).
  { clear H. intros h'. induction h' as [|e' h' IH] using rev_ind; intros c' L.
    - intros (a & x & b & H & _). destruct a; discriminate.
    - rewrite connected_snoc in L. intros H. apply paired_snoc in H as [(ar & r & j & -> & _ & _ & _ & _ & X)|[H _]]; [cbn in L; lia|].
      revert H. apply IH. lia. }
  apply paired_snoc in H as [(ar & r & j & -> & _ & _ & _ & _ & X)|[H _]]; [lia|]. revert H. apply G. lia.
Qed.
Lemma pairing_ok h c p : nth_error (ctls (steps h)) c = Some (Some p) -> pairing h c p.
Proof.
  revert c p. induction h as [|e h IH] using rev_ind; intros c p; [destruct c; discriminate|]. rewrite steps_snoc.
  destruct (active_ok h) as (_ & _ & AL & _).
  destruct e as [|i t|i| |c' ar r]; unfold step; cbn [CtlModel.step ctls].
  - intros H. apply pairing_keep; [|auto]. intros i (ar & r & j & X & _). discriminate.
  - intros H. apply pairing_keep; [intros i' (ar & r & j & X & _); discriminate|].
    apply IH. destruct (dict_get Z.eqb (active (steps h)) i) as [[t'|]|]; auto.
  - intros H. apply pairing_keep; [|auto]. intros i' (ar & r & j & X & _). discriminate.
  - intros H. destruct (Nat.lt_ge_cases c (length (ctls (steps h)))) as [L|L].
    + rewrite nth_error_app1 in H by auto. apply pairing_keep; [|auto]. intros i (ar & r & j & X & _). discriminate.
    + rewrite nth_error_app2 in H by auto. destruct (c - length (ctls (steps h))) as [|k] eqn:K; cbn in H; [|destruct k; discriminate].
      inversion H; subst p. apply pairing_new. rewrite <- ctls_length. lia.
  - destruct (nth_error (ctls (steps h)) c') as [[p'|]|] eqn:E.
    2,3: intros H; apply pairing_keep; auto; intros i (ar' & r' & j & X & _ & _ & _ & _ & Y); inversion X; subst.
    2: congruence.
    2:{ apply nth_error_None in E. rewrite ctls_length in E. lia. }
    pose proof (handle_case (active (steps h)) p' ar r) as HC. fold handle. destruct (handle (active (steps h)) p' ar r) as [rep q hit| |x] eqn:HD; cbn [ctls];
      rewrite upd_nth.
    2,3: destruct (Nat.eqb_spec c' c) as [<-|NE]; [destruct (Nat.ltb _ _); discriminate|]; intros H; apply pairing_keep; auto; intros i (ar' & r' & j & X & _); inversion X; congruence.
    destruct (Nat.eqb_spec c' c) as [<-|NE].
    2:{ intros H. apply pairing_keep; auto. intros i (ar' & r' & j & X & _). inversion X; congruence. }
    assert (L : c' < length (ctls (steps h))) by (apply nth_error_Some; congruence). destruct (Nat.ltb_spec c' (length (ctls (steps h)))); [|lia].
    intros H'. inversion H'; subst q. specialize (IH _ _ E).
    assert (KEEP : ~ command r "PairWithSession" -> pairing (h ++ [Request c' ar r]) c' p').
    { intros NC. apply pairing_keep; auto. intros i (ar' & r' & j & X & CM & _). inversion X; subst. auto. }
    unfold command in *. inversion HC; subst; unfold command in *; try (apply KEEP; intros Y; congruence).
    + apply KEEP. intros Y. match goal with H0 : forall s, In s _ -> _ |- _ => apply (H0 "PairWithSession"); [cbn; auto|congruence] end.
    + apply pairing_keep; auto. intros i (ar' & r' & j & X & CM & F & _). inversion X; subst. congruence.
    + apply pairing_keep; auto. intros i (ar' & r' & j' & X & CM & F & NM & A & _). inversion X; subst.
      apply AL in A. apply A. match goal with H0 : forall k, names _ k -> _ |- _ => apply H0 end. congruence.
    + cbn. exists k. split; auto. apply paired_snoc. left. exists ar, r, j. repeat split; auto; [now apply AL|]. now rewrite <- ctls_length.
    + match goal with H0 : _ \/ _ |- _ => destruct H0 as [H0|[x H0]]; discriminate end.
Qed.

(** ** The theorems *)
Lemma truthy_names j i : names j i -> (1 <= i)%Z -> truthy j = true.
Proof. intros [->|[[-> ->]|[-> ->]]] L; auto; try lia. cbn. destruct (Z.eqb_spec i 0); [lia|reflexivity]. Qed.
Lemma step_reply h c p ar r : nth_error (ctls (steps h)) c = Some (Some p) ->
  steps (h ++ [Request c ar r]) =
  match handle (active (steps h)) p ar r with
  | Reply rep q hit => mkV (active (steps h)) (counter (steps h)) (upd (ctls (steps h)) c (Some q)) (hits (steps h) ++ match hit with Some t => [t] | None => [] end) (replies (steps h) ++ [(c, rep)])
  | _ => mkV (active (steps h)) (counter (steps h)) (upd (ctls (steps h)) c None) (hits (steps h)) (replies (steps h))
  end.
Proof. intros E. rewrite steps_snoc. unfold step. cbn [CtlModel.step]. rewrite E. fold handle. destruct (handle _ _ _ _); reflexivity. Qed.
Lemma step_gone h c ar r : (forall p, nth_error (ctls (steps h)) c <> Some (Some p)) -> steps (h ++ [Request c ar r]) = steps h.
Proof. intros E. rewrite steps_snoc. unfold step. cbn [CtlModel.step]. destruct (nth_error (ctls (steps h)) c) as [[p|]|]; auto. exfalso. exact (E p eq_refl). Qed.
(** the target of an interrupt *)
Lemma target h c p j k t : pairing h c p -> p = Some j -> names j k -> dict_get Z.eqb (active (steps h)) k = Some (Some t) ->
  paired_with h c k /\ runs_in h k t.
Proof.
  intros PG -> N G. destruct PG as (i & N' & P). rewrite (names_inj _ _ _ N N') in *. split; auto. now apply active_ok.
Qed.
Lemma target' h c p i t : pairing h c p -> paired_with h c i -> runs_in h i t ->
  exists j, p = Some j /\ truthy j = true /\ names j i /\ dict_get Z.eqb (active (steps h)) i = Some (Some t).
Proof.
  intros PG P R. destruct p as [j|]; cbn in PG; [|exfalso; exact (PG _ P)]. destruct PG as (i' & N & P').
  rewrite (paired_inj _ _ _ _ P' P) in N. exists j. split; auto. split; [apply (truthy_names _ _ N), (paired_range _ _ _ P)|].
  split; auto. now apply active_ok.
Qed.
Lemma self_app {A} (l : list A) x : l <> l ++ [x].
Proof. intros H. apply (f_equal (@length A)) in H. rewrite app_length in H. cbn in H. lia. Qed.
Lemma interrupt h e :
  (forall t, hits (steps (h ++ [e])) = hits (steps h) ++ [t] <->
     exists c r i, e = Request c (Ok tt) r /\ up (steps h) c /\ command r "KeyboardInterrupt" /\ paired_with h c i /\ runs_in h i t) /\
  (hits (steps (h ++ [e])) = hits (steps h) \/ exists t, hits (steps (h ++ [e])) = hits (steps h) ++ [t]).
Proof.
  assert (SAME : hits (steps (h ++ [e])) = hits (steps h) -> (forall c r p i t, e = Request c (Ok tt) r -> nth_error (ctls (steps h)) c = Some (Some p) -> command r "KeyboardInterrupt" -> paired_with h c i -> runs_in h i t -> False) ->
    (forall t, hits (steps (h ++ [e])) = hits (steps h) ++ [t] <->
     exists c r i, e = Request c (Ok tt) r /\ up (steps h) c /\ command r "KeyboardInterrupt" /\ paired_with h c i /\ runs_in h i t) /\
    (hits (steps (h ++ [e])) = hits (steps h) \/ exists t, hits (steps (h ++ [e])) = hits (steps h) ++ [t])).
  { intros -> F. split; [|auto]. intros t. split.
    - intros X. exfalso. exact (self_app _ _ X).
    - intros (c & r & i & E & [p U] & C & P & R). exfalso. eauto. }
  destruct e as [|i t|i| |c ar r]; try (apply SAME; [now rewrite steps_snoc|intros; discriminate]).
  { apply SAME; [|intros; discriminate]. rewrite steps_snoc. unfold step. cbn [CtlModel.step]. destruct (dict_get Z.eqb (active (steps h)) i) as [[t'|]|]; auto. }
  destruct (nth_error (ctls (steps h)) c) as [[p|]|] eqn:E.
  2,3: apply SAME; [now rewrite step_gone by (intros p X; congruence)|]; intros c' r' p i t X U; inversion X; subst; congruence.
  pose proof (pairing_ok _ _ _ E) as PG. pose proof (handle_case (active (steps h)) p ar r) as HC. pose proof (step_reply h c p ar r E) as ST.
  destruct (handle (active (steps h)) p ar r) as [rep q hit| |x] eqn:HD.
  - destruct hit as [t|].
    + assert (XX : command r "KeyboardInterrupt" /\ ar = Ok tt /\ exists j k, p = Some j /\ names j k /\ dict_get Z.eqb (active (steps h)) k = Some (Some t)).
      { inversion HC; subst; eauto 8. match goal with H0 : _ \/ (exists _, _ = Die _) |- _ => destruct H0 as [H0|[y H0]]; discriminate end. }
      destruct XX as (CM & -> & j & k & PJ & N & G). destruct (target _ _ _ _ _ _ PG PJ N G) as [P R].
      rewrite ST. cbn [hits]. split; [|right; eauto]. intros t'. split.
      * intros X. apply app_inv_head in X. inversion X; subst t'. exists c, r, k. repeat split; auto. exists p. auto.
      * intros (c' & r' & i & X & [p0 U] & C & P' & R'). inversion X; subst c' r'. rewrite (paired_inj _ _ _ _ P' P) in R'.
        apply active_ok in R'. congruence.
    + apply SAME; [rewrite ST; cbn [hits]; apply app_nil_r|].
      intros c' r' p0 i t X U C P R. inversion X; subst c' r' ar. assert (p0 = p) by congruence. subst p0.
      destruct (target' _ _ _ _ _ PG P R) as (j & PJ & TJ & N & G). clear ST. unfold command in *. inversion HC; subst; unfold command in *; try congruence.
      * match goal with H0 : forall s, In s _ -> _ |- _ => apply (H0 "KeyboardInterrupt"); [cbn; auto|congruence] end.
      * match goal with H0 : forall j, _ -> truthy j = true -> _ |- _ => exact (H0 j eq_refl TJ i N t G eq_refl) end.
      * match goal with H0 : _ \/ (exists _, _ = Die _) |- _ => destruct H0 as [H0|[y H0]]; discriminate end.
  - apply SAME; [now rewrite ST|]. intros c' r' p0 i t X U C P R. inversion X; subst c' r' ar. assert (p0 = p) by congruence. subst p0.
    destruct (target' _ _ _ _ _ PG P R) as (j & PJ & TJ & N & G). revert HD. clear - C PJ TJ N G. unfold handle, CtlModel.handle, orelse.
    assert (RO : exists l, r = JObj l) by (destruct r; cbn in C; try discriminate; eauto). destruct RO as [l ->].
    assert (T : truthy (JObj l) = true) by (destruct l; [discriminate|reflexivity]). rewrite T. cbn [negb]. rewrite contains_obj. unfold command in C. rewrite C, (getitem_obj _ _ _ C).
    cbn [negb]. change (is_str (JStr "KeyboardInterrupt") "DescribeServer") with false. change (is_str (JStr "KeyboardInterrupt") "PairWithSession") with false.
    change (is_str (JStr "KeyboardInterrupt") "TabComplete") with false. change (is_str (JStr "KeyboardInterrupt") "KeyboardInterrupt") with true. cbv iota. rewrite PJ, TJ.
    unfold find_session, obind. apply key_names in N. rewrite N, G. discriminate.
  - apply SAME; [now rewrite ST|]. intros c' r' p0 i t X U C P R. inversion X; subst c' r' ar. assert (p0 = p) by congruence. subst p0.
    destruct (target' _ _ _ _ _ PG P R) as (j & PJ & TJ & N & G). revert HD. clear - C PJ TJ N G. unfold handle, CtlModel.handle, orelse.
    assert (RO : exists l, r = JObj l) by (destruct r; cbn in C; try discriminate; eauto). destruct RO as [l ->].
    assert (T : truthy (JObj l) = true) by (destruct l; [discriminate|reflexivity]). rewrite T. cbn [negb]. rewrite contains_obj. unfold command in C. rewrite C, (getitem_obj _ _ _ C).
    cbn [negb]. change (is_str (JStr "KeyboardInterrupt") "DescribeServer") with false. change (is_str (JStr "KeyboardInterrupt") "PairWithSession") with false.
    change (is_str (JStr "KeyboardInterrupt") "TabComplete") with false. change (is_str (JStr "KeyboardInterrupt") "KeyboardInterrupt") with true. cbv iota. rewrite PJ, TJ.
    unfold find_session, obind. apply key_names in N. rewrite N, G. discriminate.
Qed.
Lemma reply h c ar r : up (steps h) c -> sound complete r -> expected ar ->
  exists rep, replies (steps (h ++ [Request c ar r])) = replies (steps h) ++ [(c, rep)] /\ up (steps (h ++ [Request c ar r])) c /\
    (succeeds h c ar r -> field rep "status" = Some (JStr "ok")) /\ (~ succeeds h c ar r -> field rep "status" = Some (JStr "failed")) /\
    (forall t s x, command r "TabComplete" -> field r "text" = Some t -> field r "state" = Some s -> complete t s = Ok x -> field rep "result" = Some x) /\
    (command r "DescribeServer" -> field rep "prompts" = Some (JObj [("ps1", ps1); ("ps2", ps2)])).
Proof.
  intros [p E] S1 X1. pose proof (pairing_ok _ _ _ E) as PG. pose proof (handle_case (active (steps h)) p ar r) as HC. pose proof (step_reply h c p ar r E) as ST.
  destruct (active_ok h) as (_ & _ & AL & _).
  assert (UP : forall q, nth_error (upd (ctls (steps h)) c (Some q)) c = Some (Some q)).
  { intros q. rewrite upd_nth, Nat.eqb_refl. destruct (Nat.ltb_spec c (length (ctls (steps h)))) as [L|L]; auto. apply nth_error_None in L. congruence. }
  assert (BAD : (~ sound complete r \/ ~ expected ar \/ exists j, p = Some j /\ forall k, ~ names j k) -> False).
  { intros [B|[B|(j & -> & B)]]; auto. destruct PG as (i & N & _). exact (B _ N). }
  destruct (handle (active (steps h)) p ar r) as [rep q hit| |x] eqn:HD.
  2,3: exfalso; inversion HC; subst; auto.
  exists rep. rewrite ST. cbn [replies]. split; [reflexivity|]. split; [exists q; apply UP|]. clear ST HD. unfold succeeds, command in *.
  inversion HC; subst; unfold command in *; try (exfalso; now apply BAD).
  - split; [|split; [auto|split; intros; congruence]]. intros [Q|[[Q _]|[[Q _]|[Q _]]]]; congruence.
  - match goal with H0 : forall s, In s _ -> _ |- _ => rename H0 into NN end.
    split; [|split; [auto|split; [intros t s x Q|intros Q]]].
    + intros [Q|[[Q _]|[[Q _]|[Q _]]]]; exfalso; [apply (NN "DescribeServer")|apply (NN "PairWithSession")|apply (NN "TabComplete")|apply (NN "KeyboardInterrupt")]; cbn; auto; congruence.
    + exfalso. apply (NN "TabComplete"); cbn; auto; congruence.
    + exfalso. apply (NN "DescribeServer"); cbn; auto; congruence.
  - split; [reflexivity|]. split; [|split; [intros; congruence|reflexivity]]. intros Q. exfalso. apply Q. auto.
  - split; [|split; [auto|split; intros; congruence]]. intros [Q|[[_ (j & i & Q & _)]|[[Q _]|[Q _]]]]; congruence.
  - split; [|split; [auto|split; intros; congruence]]. intros [Q|[[_ (j' & i & Q & N & A)]|[[Q _]|[Q _]]]]; try congruence.
    exfalso. apply AL in A. apply A. match goal with H0 : forall k, names _ k -> _ |- _ => apply H0 end. congruence.
  - split; [auto|]. split; [|split; intros; congruence]. intros Q. exfalso. apply Q. right. left. split; auto. exists j, k. split; auto. split; auto. now apply AL.
  - split; [|split; [auto|split; [|intros; congruence]]].
    + intros [Q|[[Q _]|[[_ [Q1 Q2]]|[Q _]]]]; try congruence. exfalso. match goal with H0 : _ = None \/ _ = None |- _ => destruct H0; auto end.
    + intros t s x _ Q1 Q2. exfalso. match goal with H0 : _ = None \/ _ = None |- _ => destruct H0; congruence end.
  - split; [reflexivity|]. split; [|split; [|intros; congruence]].
    + intros Q. exfalso. apply Q. right. right. left. repeat split; auto; congruence.
    + intros t' s' x' _ Q1 Q2 Q3. cbn. f_equal. congruence.
  - split; [|split; [auto|split; intros; congruence]]. intros [Q|[[Q _]|[[Q _]|(_ & -> & i & t & P & R)]]]; try congruence. exfalso.
    destruct (target' _ _ _ _ _ PG P R) as (j & PJ & TJ & N & G).
    match goal with H0 : forall j, _ -> truthy j = true -> _ |- _ => exact (H0 j PJ TJ i N t G eq_refl) end.
  - split; [auto|]. split; [|split; intros; congruence]. intros Q. exfalso. apply Q. right. right. right. split; auto. split; auto.
    exists k, t. eapply target; eauto.
Qed.
Lemma alone h c ar r : let v := steps h in let v' := steps (h ++ [Request c ar r]) in
  active v' = active v /\ (forall c', c' <> c -> nth_error (ctls v') c' = nth_error (ctls v) c') /\
  (replies v' = replies v \/ exists rep, replies v' = replies v ++ [(c, rep)]) /\
  (~ command r "KeyboardInterrupt" -> hits v' = hits v).
Proof.
  intros v v'. unfold v, v'. split; [|split; [|split]].
  - destruct (nth_error (ctls (steps h)) c) as [[p|]|] eqn:E.
    + rewrite (step_reply _ _ _ _ _ E). destruct (handle _ _ _ _); reflexivity.
    + rewrite step_gone; [auto|congruence].
    + rewrite step_gone; [auto|congruence].
  - intros c' NE. destruct (nth_error (ctls (steps h)) c) as [[p|]|] eqn:E.
    + rewrite (step_reply _ _ _ _ _ E). destruct (handle _ _ _ _); cbn [ctls]; rewrite upd_nth; destruct (Nat.eqb_spec c c'); congruence.
    + rewrite step_gone; [auto|congruence].
    + rewrite step_gone; [auto|congruence].
  - destruct (nth_error (ctls (steps h)) c) as [[p|]|] eqn:E.
    + rewrite (step_reply _ _ _ _ _ E). destruct (handle _ _ _ _); cbn [replies]; eauto.
    + rewrite step_gone; [auto|congruence].
    + rewrite step_gone; [auto|congruence].
  - intros NC. destruct (interrupt h (Request c ar r)) as [I1 [I2|[t I2]]]; auto.
    apply I1 in I2 as (c' & r' & i & X & _ & C & _). inversion X; subst. contradiction.
Qed.
Lemma ends h c ar r : up (steps h) c -> ~ up (steps (h ++ [Request c ar r])) c ->
  replies (steps (h ++ [Request c ar r])) = replies (steps h) /\ (~ sound complete r \/ ~ expected ar).
Proof.
  intros [p E] NU. pose proof (pairing_ok _ _ _ E) as PG. pose proof (handle_case (active (steps h)) p ar r) as HC. pose proof (step_reply h c p ar r E) as ST.
  assert (BAD : (~ sound complete r \/ ~ expected ar \/ exists j, p = Some j /\ forall k, ~ names j k) -> ~ sound complete r \/ ~ expected ar).
  { intros [B|[B|(j & -> & B)]]; auto. destruct PG as (i & N & _). exfalso. exact (B _ N). }
  destruct (handle (active (steps h)) p ar r) as [rep q hit| |x] eqn:HD; rewrite ST in *; cbn [replies].
  - exfalso. apply NU. exists q. cbn [ctls]. rewrite upd_nth, Nat.eqb_refl. destruct (Nat.ltb_spec c (length (ctls (steps h)))) as [L|L]; auto. apply nth_error_None in L. congruence.
  - split; auto. inversion HC; subst; auto.
  - split; auto. inversion HC; subst; auto.
Qed.
Lemma empty_request h c ar r : up (steps h) c -> In r [JNull; JBool false; JInt 0; JStr ""; JList []; JObj []] ->
  let v := steps (h ++ [Request c ar r]) in
  ~ up v c /\ replies v = replies (steps h) /\ hits v = hits (steps h) /\ active v = active (steps h) /\
  forall c', c' <> c -> nth_error (ctls v) c' = nth_error (ctls (steps h)) c'.
Proof.
  intros [p E] R. pose proof (step_reply h c p ar r E) as ST.
  assert (handle (active (steps h)) p ar r = Exit) as HD by (repeat (destruct R as [<-|R]; [reflexivity|]); destruct R).
  rewrite HD in ST. cbn zeta. rewrite ST. cbn [replies hits active ctls]. split; [|split; [auto|split; [auto|split; [auto|]]]].
  - intros [q H]. cbn [ctls] in H. rewrite upd_nth, Nat.eqb_refl in H. destruct (Nat.ltb c (length (ctls (steps h)))) eqn:L; discriminate.
  - intros c' N. rewrite upd_nth. destruct (Nat.eqb_spec c c'); [congruence|reflexivity].
Qed.
Lemma sessions_ok h i : (exists o, dict_get Z.eqb (active (steps h)) i = Some o) <-> alive h i.
Proof. destruct (active_ok h) as (_ & _ & A & _). rewrite <- A. destruct (dict_get Z.eqb (active (steps h)) i); split; eauto; try congruence. intros [o H]. discriminate. Qed.
Lemma never_again h h' i : alive (h ++ Close i :: h') i -> (opened h < i)%Z.
Proof.
  induction h' as [|e h' IH] using rev_ind; intros H.
  - apply alive_snoc in H as [[X _]|[_ X]]; [discriminate|congruence].
  - change (h ++ Close i :: h' ++ [e]) with (h ++ (Close i :: h') ++ [e]) in H. rewrite app_assoc in H. apply alive_snoc in H as [[_ ->]|[H _]]; auto.
    rewrite !opened_app. pose proof (opened_nonneg (Close i :: h')). lia.
Qed.

(** ** The wire *)
Section Wire.
Variable uni : bytes -> outcome Z.
Variable dumps : json -> bytes.
Variable loads : bytes -> outcome json.
Lemma recv_ok (buf : bytes) (src pieces : list bytes) j : buf ++ concat src = [] -> travels dumps loads pieces j ->
  exists buf' src', recv uni loads buf (src ++ pieces) = (Ok (Some j), buf', src') /\ buf' ++ concat src' = [].
Proof.
  intros Z0 (C & (F1 & F2) & NE & LD). apply app_eq_nil in Z0 as [-> Z0].
  destruct (round_trip uni (dumps j) (src ++ pieces)) as (b & s & E & R).
  - now rewrite concat_app, Z0.
  - split; auto. intros c H. apply in_app_or in H as [H|H]; [|auto]. assert (c = []) as ->.
    { clear - H Z0. induction src as [|x src IH]; [destruct H|]. cbn in Z0. apply app_eq_nil in Z0 as [-> Z0]. destruct H; auto. }
    exact F1.
  - exists b, s. unfold recv. rewrite E. split; auto. destruct (dumps j) as [|y z] eqn:D; [congruence|]. first [rewrite LD | rewrite <- D, LD]. reflexivity.
Qed.
Lemma result_ok j : client_result (Ok (Some j)) = match field j "status" with Some (JStr "ok") => Some j | _ => None end.
Proof.
  unfold client_result. destruct j as [|b|z|s|l|l]; try (destruct (truthy _); reflexivity). destruct l as [|x l]; [reflexivity|]. cbn [truthy negb].
  unfold getitem. change (field (JObj (x :: l)) "status") with (dict_get String.eqb (x :: l) "status"). destruct (dict_get String.eqb (x :: l) "status") as [v|]; auto.
  destruct v as [|b|z|s|m|m]; auto. unfold is_str. destruct (String.eqb_spec s "ok") as [->|N]; auto.
  do 2 (destruct s as [|[[][][][][][][][]] s]; auto). destruct s; auto. congruence.
Qed.
Lemma wire l : forall sbuf ssrc cbuf csrc paired, sbuf ++ concat ssrc = [] -> cbuf ++ concat csrc = [] ->
  arrives dumps loads complete ps1 ps2 paired l ->
  talk complete ps1 ps2 uni dumps loads sbuf ssrc cbuf csrc paired l = conversation complete ps1 ps2 paired l.
Proof.
  induction l as [|x l IH]; intros sbuf ssrc cbuf csrc paired S0 C0 A; [reflexivity|]. cbn [talk conversation arrives] in *.
  destruct A as [T A]. destruct (recv_ok _ _ _ _ S0 T) as (b & s & E & R). rewrite E.
  destruct (CtlModel.handle complete ps1 ps2 (at_active x) paired (at_raise x) (request x)) as [rep q hit| |e].
  - destruct A as [T' A]. destruct (recv_ok _ _ _ _ C0 T') as (b' & s' & E' & R'). unfold send. rewrite E', result_ok. now rewrite IH.
  - cbn. f_equal. clear. induction l; cbn; congruence.
  - cbn. f_equal. clear. induction l; cbn; congruence.
Qed.
Lemma complete_ok (paired : option json) a ar r t s x rep q hit : command r "TabComplete" -> field r "text" = Some t -> field r "state" = Some s -> complete t s = Ok x ->
  handle a paired ar r = Reply rep q hit -> client_complete (Ok (Some rep)) = Ok (Some x).
Proof.
  intros C T S1 K H. pose proof (handle_case a paired ar r) as HC. rewrite H in HC. unfold command in *. inversion HC; subst; unfold command in *; try congruence.
  - exfalso. match goal with H0 : forall s, In s _ -> _ |- _ => apply (H0 "TabComplete"); [cbn; auto|congruence] end.
  - exfalso. match goal with H0 : _ = None \/ _ = None |- _ => destruct H0; congruence end.
  - unfold client_complete. rewrite result_ok. cbn. do 2 f_equal. congruence.
  - match goal with H0 : _ \/ (exists _, _ = Die _) |- _ => destruct H0 as [H0|[y H0]]; discriminate end.
Qed.
End Wire.
End Server.

(** ** Background jobs *)
Lemma fg_thread res i : fg res (Thread i) = (Raise TypeError, res).
Proof. reflexivity. Qed.
Lemma jobs_snoc h e : jobs (h ++ [e]) = job_step (jobs h) e.
Proof. unfold jobs. now rewrite fold_left_app. Qed.
Lemma jobs_nodup h : NoDup (map fst (fst (jobs h))).
Proof.
  induction h as [|e h IH] using rev_ind; [constructor|]. rewrite jobs_snoc. destruct e as [i|i s|t]; cbn [job_step fst]; try now apply zset_nodup.
  unfold fg. destruct (has_ident t) as [[|]|]; auto. destruct (ident t) as [i|]; auto. destruct (dict_get Z.eqb (fst (jobs h)) i) as [[|v|x]|]; auto; now apply zdel_nodup.
Qed.
Lemma jobs_skip h i e : about i e = false -> dict_get Z.eqb (fst (jobs (h ++ [e]))) i = dict_get Z.eqb (fst (jobs h)) i.
Proof.
  intros A. rewrite jobs_snoc. destruct e as [k|k s|t]; cbn [job_step fst about] in *.
  - apply zget_set_ne. destruct (Z.eqb_spec k i); congruence.
  - apply zget_set_ne. destruct (Z.eqb_spec k i); congruence.
  - unfold fg. destruct t as [k|[[|]|x] [k|]]; cbn [has_ident ident about] in *; auto.
    destruct (Z.eqb_spec k i); [discriminate|]. destruct (dict_get Z.eqb (fst (jobs h)) k) as [[|v|x]|]; auto; apply zget_del_ne; congruence.
Qed.
Lemma jobs_skips h2 : forall h i, forallb (fun e => negb (about i e)) h2 = true -> dict_get Z.eqb (fst (jobs (h ++ h2))) i = dict_get Z.eqb (fst (jobs h)) i.
Proof.
  induction h2 as [|e h2 IH]; intros h i A.
  - now rewrite app_nil_r.
  - cbn in A. apply andb_true_iff in A as [A B]. replace (h ++ e :: h2) with ((h ++ [e]) ++ h2) by now rewrite <- app_assoc.
    rewrite IH by auto. apply jobs_skip. now apply negb_true_iff.
Qed.
Lemma job_done h h2 i s : forallb (fun e => negb (about i e)) h2 = true ->
  let h1 := h ++ Ended i s :: h2 in
  snd (jobs (h1 ++ [Fg (container i); Fg (container i)])) = snd (jobs h1) ++
    match s with Running => [Ok Itself; Ok Itself] | Success v => [Ok (Value v); Raise ValueError] | Fail x => [Raise x; Raise ValueError] end.
Proof.
  intros A h1. assert (G : dict_get Z.eqb (fst (jobs h1)) i = Some s).
  { unfold h1. replace (h ++ Ended i s :: h2) with ((h ++ [Ended i s]) ++ h2) by now rewrite <- app_assoc.
    rewrite jobs_skips by auto. rewrite jobs_snoc. cbn [job_step fst]. apply zget_set. }
  replace (h1 ++ [Fg (container i); Fg (container i)]) with ((h1 ++ [Fg (container i)]) ++ [Fg (container i)]) by now rewrite <- app_assoc.
  rewrite !jobs_snoc. pose proof (jobs_nodup h1) as N. destruct (jobs h1) as [res out]. cbn [fst snd] in *. unfold job_step, fg, container. cbn [fst snd has_ident ident]. rewrite G.
  destruct s; cbn [fst snd].
  - rewrite G. cbn [snd]. now rewrite <- app_assoc.
  - rewrite zget_del by auto. cbn [snd]. now rewrite <- app_assoc.
  - rewrite zget_del by auto. cbn [snd]. now rewrite <- app_assoc.
Qed.
Lemma job_thread h i : jobs (h ++ [Fg (Thread i)]) = (fst (jobs h), snd (jobs h) ++ [Raise TypeError]).
Proof. rewrite jobs_snoc. reflexivity. Qed.
Lemma job_stuck h i s h2 : (forall e, In e h2 -> exists k, e = Fg (Thread k)) -> dict_get Z.eqb (fst (jobs (h ++ Ended i s :: h2))) i = Some s /\
  snd (jobs (h ++ Ended i s :: h2)) = snd (jobs h) ++ map (fun _ => Raise TypeError) h2.
Proof.
  intros F. induction h2 as [|e h2 IH] using rev_ind.
  - rewrite jobs_snoc. cbn [job_step fst snd]. split; [apply zget_set|now rewrite app_nil_r].
  - destruct (F e) as [k ->]; [apply in_or_app; right; left; reflexivity|]. replace (h ++ Ended i s :: h2 ++ [Fg (Thread k)]) with ((h ++ Ended i s :: h2) ++ [Fg (Thread k)]) by now rewrite <- app_assoc.
    rewrite job_thread. cbn [fst snd]. destruct IH as [I1 I2]; [intros e H; apply F, in_or_app; auto|]. split; auto. rewrite I2, map_app, app_assoc. reflexivity.
Qed.
