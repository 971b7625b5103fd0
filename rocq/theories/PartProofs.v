(** Proofs for C96 and C97. *)
From Coq Require Import String List Bool Lia.
From Verif Require Import Base CollModel CollProofs BindModel BindSpec BindProofs BindSeesProofs CurryBindProofs
  TypeModel TypeSpec TypeProofs DispModel DispSpec DispProofs PartModel PartSpec PartBind.
Import ListNotations.
Open Scope list_scope.

(** * Which arguments a call can begin with *)
Definition split_pos (ps : sign) : Prop :=
  exists l1 l2, ps = l1 ++ l2 /\ (forall p, In p l1 -> p_kind p = PosOnly) /\ (forall p, In p l2 -> p_kind p <> PosOnly).
Lemma later_not_posonly : forall (ps : sign) st o, 1 <= st -> ordered st o ps = true -> forall p, In p ps -> p_kind p <> PosOnly.
Proof.
  induction ps as [|q ps IH]; intros st o Hs H p Hp; [destruct Hp|]. cbn [ordered] in H.
  destruct (p_kind q) eqn:E.
  - destruct st; [lia|]. discriminate.
  - apply andb_prop in H as [H H2]. destruct Hp as [<-|Hp]; [congruence|]. eapply IH; [|exact H2|exact Hp]. lia.
  - apply andb_prop in H as [H H2]. destruct Hp as [<-|Hp]; [congruence|]. eapply IH; [|exact H2|exact Hp]. lia.
  - destruct Hp as [<-|Hp]; [congruence|]. eapply IH; [|exact H|exact Hp]. lia.
  - apply andb_prop in H as [H H2]. destruct ps; [|discriminate]. destruct Hp as [<-|[]]. congruence.
Qed.
Lemma ordered_split : forall (ps : sign) o, ordered 0 o ps = true -> split_pos ps.
Proof.
  induction ps as [|q ps IH]; intros o H; [exists [], []; repeat split; intros p []|]. cbn [ordered] in H.
  assert (L : forall st o', 1 <= st -> ordered st o' ps = true -> p_kind q <> PosOnly -> split_pos (q :: ps)).
  { intros st o' Hs Ho Hq. exists [], (q :: ps). split; [reflexivity|]. split; [intros p []|].
    intros p [<-|Hp]; [exact Hq|]. eapply later_not_posonly; eauto. }
  destruct (p_kind q) eqn:E.
  - apply andb_prop in H as [_ H2]. destruct (IH _ H2) as (l1 & l2 & -> & A & B). exists (q :: l1), l2. split; [reflexivity|].
    split; [|exact B]. intros p [<-|Hp]; auto.
  - apply andb_prop in H as [_ H2]. eapply L; eauto. congruence.
  - apply andb_prop in H as [_ H2]. eapply L; [|exact H2|]; [lia|congruence].
  - eapply L; [|exact H|]; [lia|congruence].
  - apply andb_prop in H as [_ H2]. destruct ps; [|discriminate]. exists [], [q]. split; [reflexivity|]. split; [intros p []|].
    intros p [<-|[]]. congruence.
Qed.
Lemma split_skip : forall n (ps : sign), split_pos ps -> split_pos (skipn n ps).
Proof.
  induction n as [|n IH]; intros ps H; [exact H|]. destruct ps as [|q ps]; [exact H|]. cbn. apply IH.
  destruct H as ([|p l1] & l2 & E & A & B).
  - cbn in E. subst l2. exists [], ps. split; [reflexivity|]. split; [intros p []|]. intros p Hp. apply B. now right.
  - injection E as -> ->. exists l1, l2. split; [reflexivity|]. split; [|exact B]. intros r Hr. apply A. now right.
Qed.

Lemma in_skip_add {X} (l : list X) n m x : In x (skipn n l) -> In x (firstn (n + m) l) \/ In x (skipn (n + m) l).
Proof.
  intros H. rewrite <- in_app_iff, firstn_skipn. rewrite <- (firstn_skipn n l). apply in_app_iff. now right.
Qed.
Lemma in_skip_more (l : sign) n m x : In x (skipn (n + m) l) -> In x (skipn n l).
Proof.
  rewrite <- skip_skip. intros H. rewrite <- (firstn_skipn m (skipn n l)). apply in_app_iff. now right.
Qed.
Lemma in_first_more {X} (l : list X) n m x : In x (firstn n l) -> In x (firstn (n + m) l).
Proof.
  revert n. induction l as [|y l IH]; intros [|n]; cbn; try tauto. intros [<-|H]; [now left|right; auto].
Qed.
Lemma fits_less part (ps : sign) n m (K K' : kws) : NoDup (map p_name ps) ->
  fits part ps (n + m) (K ++ K') -> fits true ps n K.
Proof.
  intros Hn (Hl & Hp & Ho & Hi & _). split; [lia|]. split; [|split; [|split; [|discriminate]]].
  - intros p H. apply Hp. now apply in_first_more.
  - intros p H Hk. assert (G : kget (K ++ K') (p_name p) = None).
    { destruct (in_skip_add _ _ m _ H) as [H'|H']; [|auto]. exact (zone_unnamed _ _ _ Hn Hi p H'). }
    now apply kget_app_none in G.
  - intros x Hx. assert (G : In x (map p_name (skipn (n + m) ps))).
    { apply Hi. rewrite map_app. apply in_app_iff. now left. }
    apply in_map_iff in G as (p & <- & Hp'). apply in_map. now apply in_skip_more in Hp'.
Qed.

Definition fill (l : sign) (K : kws) (v : value) : kws :=
  map (fun p => (p_name p, v)) (filter (fun p => negb (khas K (p_name p))) l).
Lemma fill_names l (K : kws) v x : In x (map fst (fill l K v)) <-> In x (map p_name l) /\ kget K x = None.
Proof.
  unfold fill. rewrite map_map. cbn. rewrite !in_map_iff. split.
  - intros (p & <- & H). apply filter_In in H as [H E]. apply negb_true_iff in E. apply khas_false in E. split; [eauto|exact E].
  - intros [(p & <- & H) E]. exists p. split; [reflexivity|]. apply filter_In. split; [exact H|]. apply khas_false in E. now rewrite E.
Qed.
Lemma fill_nodup l (K : kws) v : NoDup (map p_name l) -> NoDup (map fst (fill l K v)).
Proof.
  intros H. unfold fill. rewrite map_map. cbn. induction l as [|p l IH]; cbn; [constructor|]. inversion H; subst.
  destruct (khas K (p_name p)); cbn; [now apply IH|]. constructor; [|now apply IH].
  intros X. apply in_map_iff in X as (q & E & Hq). apply filter_In in Hq as [Hq _].
  match goal with H : ~ _ |- _ => apply H end. rewrite <- E. now apply in_map.
Qed.
Lemma fits_complete (ps : sign) n (K : kws) : split_pos ps -> NoDup (map p_name ps) -> is_dict K -> fits true ps n K ->
  exists m K', is_dict (K ++ K') /\ fits false ps (n + m) (K ++ K').
Proof.
  intros Hs Hn Hd (Hl & Hp & Ho & Hi & _).
  destruct (split_skip n _ Hs) as (l1 & l2 & El & A & B).
  set (K' := fill l2 K (Obj CNone [] [])). exists (length l1), K'.
  assert (Hn2 : NoDup (map p_name (l1 ++ l2))) by (rewrite <- El; now apply nodup_skip).
  assert (Es : skipn (n + length l1) ps = l2).
  { rewrite <- skip_skip, El, skipn_app, skipn_all, PeanoNat.Nat.sub_diag. reflexivity. }
  assert (Ef : firstn (n + length l1) ps = firstn n ps ++ l1).
  { rewrite <- (firstn_skipn n ps) at 1. rewrite El, firstn_app, firstn_length_le by lia.
    rewrite firstn_all2 by (rewrite firstn_length_le; lia). f_equal.
    replace (n + length l1 - n) with (length l1 + 0) by lia. rewrite firstn_app_2. cbn. apply app_nil_r. }
  assert (Hn3 : NoDup (map p_name l2)).
  { rewrite map_app in Hn2. revert Hn2. generalize (map p_name l1). intros l. induction l as [|x l IH]; [auto|]. inversion 1; auto. }
  split.
  - unfold is_dict. rewrite map_app.
    assert (N2 : NoDup (map fst K')) by now apply fill_nodup.
    assert (Dj : forall x, In x (map fst K) -> ~ In x (map fst K')).
    { intros x Hx Hx'. apply fill_names in Hx' as [_ E]. apply kget_none in E. contradiction. }
    revert Hd Dj. unfold is_dict. generalize (map fst K). intros l. induction l as [|x l IH]; cbn; intros Hd Dj; [exact N2|].
    inversion Hd; subst. constructor; [|apply IH; auto].
    rewrite in_app_iff. intros [X|X]; [contradiction|]. apply (Dj x); auto.
  - split; [|split; [|split; [|split]]].
    + assert (length (skipn n ps) = length l1 + length l2) by now rewrite El, app_length. rewrite skipn_length in H. lia.
    + rewrite Ef. intros p H. apply in_app_iff in H as [H|H]; [auto|]. unfold is_pos. now rewrite (A p H).
    + rewrite Es. intros p H Hk. exfalso. exact (B p H Hk).
    + rewrite Es, map_app. intros x Hx. apply in_app_iff in Hx as [Hx|Hx].
      * specialize (Hi x Hx). rewrite El, map_app in Hi. apply in_app_iff in Hi as [Hi|Hi]; [|exact Hi].
        exfalso. apply in_map_iff in Hi as (p & <- & Hp'). assert (G := Ho p). rewrite El in G.
        specialize (G (proj2 (in_app_iff _ _ _) (or_introl Hp')) (A p Hp')). apply kget_none in G. contradiction.
      * now apply fill_names in Hx.
    + intros _ p H. right. rewrite Es in H. rewrite kget_app. destruct (kget K (p_name p)) eqn:E; [discriminate|].
      assert (G : In (p_name p) (map fst K')) by (apply fill_names; split; [now apply in_map|exact E]).
      intros X. apply kget_none in X. contradiction.
Qed.
Lemma bind_sig (ps : sign) A K : (exists b, py_call_bind ps A K = Ok b) <-> exists b, sig_bind false ps A K = Ok b.
Proof.
  unfold py_call_bind. destruct (sig_bind false ps A K); cbn; split; intros [b E]; eauto; discriminate.
Qed.
Lemma begin_fits f args kw : wf_sig (params f) -> no_varargs (params f) -> is_dict kw ->
  (can_begin f args kw <-> fits true (params f) (length args) kw).
Proof.
  intros [Ho Hn] Hv Hd. unfold can_begin. split.
  - intros (args' & kw' & b & Hd' & E).
    destruct (proj1 (bind_sig _ _ _) (ex_intro _ _ E)) as [b' E'].
    apply (sig_bind_fits false _ _ _ _ Hv Hn Hd') in E' as [F _]. rewrite app_length in F. now apply fits_less in F.
  - intros F. destruct (fits_complete _ _ _ (ordered_split _ _ Ho) Hn Hd F) as (m & K' & Hd' & F').
    exists (repeat (Obj CNone [] []) m), K'.
    assert (G : exists b, sig_bind false (params f) (args ++ repeat (Obj CNone [] []) m) (kw ++ K') = Ok b).
    { eexists. apply (sig_bind_fits false _ _ _ _ Hv Hn Hd'). split; [|reflexivity]. now rewrite app_length, repeat_length. }
    apply bind_sig in G as [b G]. exists b. auto.
Qed.

(** * The values and their types *)
Lemma given_bget f args kw n v : NoDup (map p_name (params f)) -> fits true (params f) (length args) kw ->
  (given f args kw n v <-> bget (pos (params f) args ++ named (skipn (length args) (params f)) kw) n = Some (BV v)).
Proof.
  intros Hn (Hl & Hp & Ho & Hi & _). rewrite bget_app, bget_named. unfold given.
  assert (Hpn := bget_pos (params f) args n). destruct (bget (pos (params f) args) n) as [w|] eqn:E.
  - destruct (proj1 (Hpn w Hn) eq_refl) as (i & p & x & H1 & H2 & H3 & ->). split.
    + intros [(i' & p' & G1 & G2 & G3)|G].
      * apply (Hpn (BV v) Hn). eauto 10.
      * exfalso. assert (X : In p (firstn (length args) (params f))).
        { assert (Li : i < length args) by (apply nth_error_Some; congruence).
          rewrite <- (firstn_skipn (length args) (params f)) in H1.
          rewrite nth_error_app1 in H1 by (rewrite firstn_length_le; lia). now apply nth_error_In in H1. }
        apply (zone_unnamed _ _ _ Hn Hi) in X. rewrite H3 in X. congruence.
    + intros H. injection H as ->. left. eauto.
  - assert (N : ~ exists i p, nth_error (params f) i = Some p /\ nth_error args i = Some v /\ p_name p = n).
    { intros (i & p & G1 & G2 & G3). assert (X : None = Some (BV v)) by (apply (Hpn (BV v) Hn); eauto 10). discriminate. }
    destruct (memb (map p_name (skipn (length args) (params f))) n) eqn:M.
    + split.
      * intros [G|G]; [contradiction|]. now rewrite G.
      * destruct (kget kw n) eqn:G; cbn; [|discriminate]. intros H. injection H as ->. now right.
    + split; [|discriminate]. intros [G|G]; [contradiction|]. exfalso. apply kget_in, Hi in G.
      unfold memb in M. rewrite (proj2 (existsb_exists _ _)) in M; [discriminate|]. exists n. split; [exact G|apply String.eqb_refl].
Qed.
Lemma all_bv (ps : sign) A K n w : NoDup (map p_name ps) -> bget (pos ps A ++ named (skipn (length A) ps) K) n = Some w ->
  exists v, w = BV v.
Proof.
  intros Hn. rewrite bget_app, bget_named. destruct (bget (pos ps A) n) as [x|] eqn:E.
  - intros H. injection H as ->. apply bget_pos in E as (i & p & y & _ & _ & _ & ->); eauto.
  - destruct (memb _ n); [|discriminate]. destruct (kget K n); cbn; [|discriminate]. intros H. injection H as <-. eauto.
Qed.
Lemma defaults_forall (ps : sign) (b : bindings value) (P : pname -> bval value -> Prop) : no_varargs ps ->
  (Forall (fun nv => P (fst nv) (snd nv)) (apply_defaults ps b) <->
   forall p, In p ps -> match bget b (p_name p) with
                        | Some w => P (p_name p) w
                        | None => match p_default p with Some d => P (p_name p) (BV d) | None => True end
                        end).
Proof.
  induction ps as [|p ps IH]; intros Hv; cbn [apply_defaults].
  - split; [intros _ p []|constructor].
  - specialize (IH (nov_tail _ _ Hv)). destruct (Hv p (or_introl eq_refl)) as [V1 V2].
    assert (G : forall w, Forall (fun nv => P (fst nv) (snd nv)) ((p_name p, w) :: apply_defaults ps b) <->
                P (p_name p) w /\ Forall (fun nv => P (fst nv) (snd nv)) (apply_defaults ps b)).
    { intros w. split; [inversion 1; auto|]. intros [A B]. now constructor. }
    split.
    + intros H q [<-|Hq].
      * destruct (bget b (p_name p)); [now apply G in H|]. destruct (p_default p); [now apply G in H|exact I].
      * apply IH; [|exact Hq]. destruct (bget b (p_name p)); [now apply G in H|]. destruct (p_default p); [now apply G in H|].
        destruct (p_kind p); try exact H; contradiction.
    + intros H. assert (T : Forall (fun nv => P (fst nv) (snd nv)) (apply_defaults ps b)).
      { apply IH. intros q Hq. apply H. now right. }
      assert (Hp := H p (or_introl eq_refl)).
      destruct (bget b (p_name p)); [now apply G|]. destruct (p_default p); [now apply G|].
      destruct (p_kind p); try exact T; contradiction.
Qed.

Section Typed.
Variable usub : nat -> cls -> bool.
Variable has_reversed : cls -> bool.
Variable kwname : pname -> value.
Notation of_type := (of_type usub has_reversed).
Notation good_start := (good_start usub has_reversed).
Notation applies := (applies usub has_reversed kwname).
Notation regular := (regular usub has_reversed).

Definition typed_given f args kw : Prop :=
  forall n v T, given f args kw n v -> hint (fhints f) n = Some T -> of_type T v.
Lemma annotation_type f n v : (forall T, hint (fhints f) n = Some T -> of_type T v) <-> of_type (annotation f n) v.
Proof.
  unfold annotation. destruct (hint (fhints f) n) as [T|].
  - split; [auto|]. intros H T' E. now injection E as <-.
  - split; [intros; constructor|discriminate].
Qed.
Definition typed_bindings f (b : bindings value) : Prop :=
  Forall (fun nv => of_type (annotation f (fst nv)) (bound_value kwname (snd nv))) b.
Lemma typed_given_bindings f args kw : regular f -> fits true (params f) (length args) kw ->
  (typed_bindings f (apply_defaults (params f) (pos (params f) args ++ named (skipn (length args) (params f)) kw))
   <-> typed_given f args kw).
Proof.
  intros ([Ho Hn] & Hv & _ & Hdf) F. unfold typed_bindings.
  rewrite (defaults_forall (params f) _ (fun n w => of_type (annotation f n) (bound_value kwname w)) Hv).
  set (b := pos (params f) args ++ named (skipn (length args) (params f)) kw).
  split.
  - intros H n v T Hg E. assert (Hb := proj1 (given_bget f args kw n v Hn F) Hg). fold b in Hb.
    assert (X : exists p, In p (params f) /\ p_name p = n).
    { destruct Hg as [(i & p & G1 & _ & G3)|G]; [exists p; split; [now apply nth_error_In in G1|exact G3]|].
      destruct F as (_ & _ & _ & Hi & _). apply kget_in, Hi, in_map_iff in G as (p & E' & Hp). exists p. split; [|exact E'].
      rewrite <- (firstn_skipn (length args) (params f)). apply in_app_iff. now right. }
    destruct X as (p & Hp & <-). specialize (H p Hp). rewrite Hb in H. cbn in H. now apply (proj2 (annotation_type _ _ _) H).
  - intros H p Hp. destruct (bget b (p_name p)) as [w|] eqn:E.
    + destruct (all_bv (params f) args kw (p_name p) w Hn E) as (v & ->). cbn. apply annotation_type. intros T.
      apply H. now apply given_bget.
    + destruct (p_default p) as [d|] eqn:Ed; [|exact I]. cbn. apply annotation_type. intros T. now apply Hdf.
Qed.
Lemma partial_names (ps : sign) args kw b : resolve_bindings_partial ps args kw = Ok b ->
  Forall (fun nv => exists p, In p ps /\ p_name p = fst nv) b.
Proof.
  unfold resolve_bindings_partial. destruct (sig_bind true ps args kw); cbn; [|discriminate]. intros H. injection H as <-.
  apply defaults_names.
Qed.
(** The check for one definition, when all parameters are annotated *)
Lemma check_good f args kw : annotated f = true -> regular f -> is_dict kw ->
  (exists b, (resolve_bindings_partial (params f) args kw = Ok b) /\
             decides (no_mismatch usub has_reversed kwname (type_signature f) b) (good_start f args kw)) \/
  (resolve_bindings_partial (params f) args kw = Raise TypeError /\ ~ good_start f args kw).
Proof.
  intros Ha R Hd. assert (R' := R). destruct R' as ([Ho Hn] & Hv & Hc & Hdf).
  unfold resolve_bindings_partial. destruct (sig_bind true (params f) args kw) as [b|e] eqn:E.
  - left. eexists. split; [reflexivity|]. assert (F := E). apply (sig_bind_fits true _ _ _ _ Hv Hn Hd) in F as [F ->].
    destruct (no_mismatch_decides usub has_reversed kwname f Ha Hc _ (defaults_names _ (pos (params f) args ++ named (skipn (length args) (params f)) kw)))
      as (x & -> & Hx).
    apply decides_ok. rewrite Hx. fold (typed_bindings f (apply_defaults (params f) (pos (params f) args ++ named (skipn (length args) (params f)) kw))).
    rewrite (typed_given_bindings f args kw R F). unfold PartSpec.good_start.
    assert (B : can_begin f args kw) by now apply begin_fits. unfold typed_given. tauto.
  - right. rewrite (sig_bind_error _ _ _ _ _ E). split; [reflexivity|]. intros [B _]. apply begin_fits in B; [|split; assumption|assumption|assumption].
    assert (G : exists b, sig_bind true (params f) args kw = Ok b).
    { eexists. apply (sig_bind_fits true _ _ _ _ Hv Hn Hd). split; [exact B|reflexivity]. }
    destruct G as [b G]. congruence.
Qed.
Lemma skip_decides f : checkable usub f -> forall b,
  decides (no_mismatch_skip usub has_reversed kwname (fhints f) b) (typed_bindings f b).
Proof.
  intros Hc. induction b as [|[n v] b IH]; cbn.
  - apply decides_ok. split; [constructor|reflexivity].
  - unfold typed_bindings. destruct (hint (fhints f) n) as [T|] eqn:E.
    + destruct (isoftype_decides usub has_reversed T (Hc n T E) (bound_value kwname v)) as (x & -> & Hx).
      destruct IH as (y & -> & Hy). cbn. apply decides_ok. rewrite andb_true_iff, Hx, Hy.
      assert (Ea : annotation f n = T) by (unfold annotation; now rewrite E). split.
      * intros [A B]. constructor; [cbn; now rewrite Ea|exact B].
      * inversion 1; subst. cbn in *. auto.
    + destruct IH as (y & -> & Hy). apply decides_ok. rewrite Hy. unfold typed_bindings. split; [|now inversion 1].
      intros H. constructor; [|exact H]. cbn. unfold annotation. rewrite E. constructor.
Qed.
Lemma applies_good f args kw args' kw' : regular f -> is_dict (kw ++ kw') -> applies f (args ++ args') (kw ++ kw') -> good_start f args kw.
Proof.
  intros R Hd (b & E & T). assert (R' := R). destruct R' as ([Ho Hn] & Hv & Hc & Hdf).
  assert (Hd1 : is_dict kw).
  { revert Hd. unfold is_dict. rewrite map_app. generalize (map fst kw) (map fst kw'). intros l l'. induction l as [|x l IH]; cbn; intros H; [constructor|].
    inversion H; subst. constructor; [|auto]. intros X. match goal with H : ~ _ |- _ => apply H end. apply in_app_iff. now left. }
  split; [exists args', kw', b; auto|].
  unfold py_call_bind in E. destruct (sig_bind false (params f) (args ++ args') (kw ++ kw')) as [b0|] eqn:E0; [|discriminate].
  injection E as <-. apply (sig_bind_fits false _ _ _ _ Hv Hn Hd) in E0 as [F ->].
  assert (Ft : fits true (params f) (length (args ++ args')) (kw ++ kw')).
  { destruct F as (A & B & C & D & _). repeat split; auto. discriminate. }
  assert (G := proj1 (typed_given_bindings f (args ++ args') (kw ++ kw') R Ft) T).
  intros n v Ty Hg. apply G. destruct Hg as [(i & p & H1 & H2 & H3)|H].
  - left. exists i, p. split; [exact H1|]. split; [|exact H3]. rewrite nth_error_app1; [exact H2|]. apply nth_error_Some. congruence.
  - right. now rewrite kget_app, H.
Qed.
Lemma applies_fits f args kw : regular f -> is_dict kw ->
  (applies f args kw <-> fits false (params f) (length args) kw /\ typed_given f args kw).
Proof.
  intros R Hd. assert (R' := R). destruct R' as ([Ho Hn] & Hv & Hc & Hdf).
  assert (W : fits false (params f) (length args) kw -> fits true (params f) (length args) kw).
  { intros (A & B & C & D & _). repeat split; auto. discriminate. }
  split.
  - intros (b & E & T). unfold py_call_bind in E. destruct (sig_bind false (params f) args kw) as [b0|] eqn:E0; [|discriminate].
    injection E as <-. apply (sig_bind_fits false _ _ _ _ Hv Hn Hd) in E0 as [F ->]. split; [exact F|].
    exact (proj1 (typed_given_bindings f args kw R (W F)) T).
  - intros [F T]. eexists. split.
    + unfold py_call_bind. rewrite (proj2 (sig_bind_fits false _ _ _ _ Hv Hn Hd) (conj F eq_refl)). reflexivity.
    + exact (proj2 (typed_given_bindings f args kw R (W F)) T).
Qed.

(** * partial *)
Variable truthy : value -> bool.
Variable self_class : value -> cls.
Variable mro : cls -> list cls.
Variable own : cls -> string -> option (option string).
Notation partial := (partial usub has_reversed truthy self_class mro own kwname).
Notation decide_generic := (decide_generic usub has_reversed truthy self_class mro own kwname).

Lemma partial_plain r f args kw : fhints f <> [] -> regular f -> is_dict kw ->
  (partial r (Fun (Plain f)) args kw = Ok (Par (Plain f) args kw) /\ good_start f args kw) \/
  (partial r (Fun (Plain f)) args kw = Raise TypeError /\ ~ good_start f args kw).
Proof.
  intros Hh R Hd. assert (R' := R). destruct R' as ([Ho Hn] & Hv & Hc & Hdf).
  unfold PartModel.partial. cbn [collected func_signature obind]. destruct (fhints f) as [|h hs] eqn:Eh; [contradiction|]. rewrite <- Eh.
  unfold resolve_bindings_partial. destruct (sig_bind true (params f) args kw) as [b|e] eqn:E; cbn [obind].
  - assert (F := E). apply (sig_bind_fits true _ _ _ _ Hv Hn Hd) in F as [F ->].
    set (b := apply_defaults (params f) (pos (params f) args ++ named (skipn (length args) (params f)) kw)).
    destruct (skip_decides f Hc b) as (x & -> & Hx). cbn [obind].
    assert (B : can_begin f args kw) by now apply begin_fits.
    assert (G : x = true <-> good_start f args kw).
    { rewrite Hx. unfold b. rewrite (typed_given_bindings f args kw R F). unfold PartSpec.good_start, typed_given. tauto. }
    destruct x; [left|right]; (split; [reflexivity|]); [now apply G|]. intros X. apply G in X. discriminate.
  - right. rewrite (sig_bind_error _ _ _ _ _ E). split; [reflexivity|]. intros [B _]. apply begin_fits in B; [|split; assumption|assumption|assumption].
    assert (G : exists b, sig_bind true (params f) args kw = Ok b).
    { eexists. apply (sig_bind_fits true _ _ _ _ Hv Hn Hd). split; [exact B|reflexivity]. }
    destruct G as [b G]. congruence.
Qed.
Lemma resolve_partial_good l args kw : is_dict kw -> Forall (fun m => mm_good m /\ regular (mm_fun m)) l ->
  (exists m, resolve_partial usub has_reversed kwname l args kw = Ok (Some m) /\ In m l /\ good_start (mm_fun m) args kw) \/
  (resolve_partial usub has_reversed kwname l args kw = Ok None /\ forall m, In m l -> ~ good_start (mm_fun m) args kw).
Proof.
  intros Hd. induction 1 as [|m l [[Hh Ha] R] _ IH]; cbn.
  - right. split; [reflexivity|intros m []].
  - rewrite Hh.
    assert (Z : ~ good_start (mm_fun m) args kw ->
      (exists m0, resolve_partial usub has_reversed kwname l args kw = Ok (Some m0) /\ (m = m0 \/ In m0 l) /\ good_start (mm_fun m0) args kw) \/
      (resolve_partial usub has_reversed kwname l args kw = Ok None /\ forall m0, m = m0 \/ In m0 l -> ~ good_start (mm_fun m0) args kw)).
    { intros N. destruct IH as [(m0 & E & Hi & G)|[E Hn]]; [left; eauto 6|right]. split; [exact E|]. intros m0 [<-|H]; auto. }
    destruct (check_good (mm_fun m) args kw Ha R Hd) as [(b & -> & x & E & Hx)|[-> N]]; cbn [obind]; [|now apply Z].
    rewrite E. destruct x; [|apply Z; intros X; apply Hx in X; discriminate].
    left. exists m. split; [reflexivity|]. split; [now left|now apply Hx].
Qed.
Lemma merge_dict (k1 k2 : kws) : is_dict k1 -> is_dict (merge k1 k2).
Proof.
  unfold merge, dict_update. revert k1. induction k2 as [|[n v] k2 IH]; intros k1 H; cbn; [exact H|]. apply IH. clear IH k2.
  unfold is_dict in *. induction k1 as [|[m w] k1 IH]; cbn; [repeat constructor; intros []|].
  inversion H; subst. destruct (String.eqb_spec m n) as [->|E]; cbn; [now constructor|]. constructor; [|auto].
  intros X. assert (Y : forall (l : kws), In m (map fst (dict_set String.eqb l n v)) -> m = n \/ In m (map fst l)).
  { clear. induction l as [|[a b] l IH]; cbn; [intuition|]. destruct (String.eqb_spec a n) as [->|E]; cbn; intuition. }
  destruct (Y _ X); [contradiction|contradiction].
Qed.

Section Defs.
Variable ops : list op.
Variable n : string.
Variable d : dispatcher.
Hypothesis Hr : forall f, In f (registered n false false ops) -> regular f.
Hypothesis Hd : rget (run ops) n = Some d.
Lemma methods_good : Forall (fun m => mm_good m /\ regular (mm_fun m)) (rev (methods d)).
Proof.
  apply Forall_rev. assert (Hm := good_run ops n d Hd). rewrite Forall_forall in *. intros m Hi. split; [exact (Hm m Hi)|].
  apply Hr. rewrite <- (run_methods ops n d Hd). now apply in_map.
Qed.
Lemma methods_in m : In m (rev (methods d)) -> In (mm_fun m) (registered n false false ops).
Proof. intros H. rewrite <- (run_methods ops n d Hd). apply in_map. now apply in_rev. Qed.
Lemma methods_of f : In f (registered n false false ops) -> exists m, In m (rev (methods d)) /\ mm_fun m = f.
Proof.
  intros H. rewrite <- (run_methods ops n d Hd) in H. apply in_map_iff in H as (m & E & Hi). exists m. split; [now apply -> in_rev|exact E].
Qed.
Lemma partial_generic p a k args kw : collected p args kw = (Gen d, a, k) -> is_dict k -> extract_self d a = Ok None ->
  (partial (run ops) p args kw = Ok (Par (Gen d) a k) /\ exists f, In f (registered n false false ops) /\ good_start f a k) \/
  (partial (run ops) p args kw = Raise TypeError /\ forall f, In f (registered n false false ops) -> ~ good_start f a k).
Proof.
  intros E Hk Hs. unfold PartModel.partial. rewrite E, Hs. cbn [obind]. unfold list_multimethods. rewrite app_nil_r.
  destruct (resolve_partial_good _ a k Hk methods_good) as [(m & -> & Hi & G)|[-> N]]; cbn [obind].
  - left. split; [reflexivity|]. exists (mm_fun m). split; [now apply methods_in|exact G].
  - right. split; [reflexivity|]. intros f Hf. destruct (methods_of f Hf) as (m & Hi & <-). auto.
Qed.
End Defs.
End Typed.

(** * Merging *)
Lemma set_comm (x : kws) n v m w : n <> m -> In n (map fst x) ->
  dict_set String.eqb (dict_set String.eqb x m w) n v = dict_set String.eqb (dict_set String.eqb x n v) m w.
Proof.
  intros Hn. induction x as [|[k u] x IH]; cbn; [intros []|]. intros Hi.
  destruct (String.eqb_spec k m) as [Em|Em]; destruct (String.eqb_spec k n) as [En|En]; subst; try contradiction; cbn.
  - rewrite String.eqb_refl. destruct (String.eqb_spec m n); [congruence|reflexivity].
  - rewrite String.eqb_refl. destruct (String.eqb_spec n m); [congruence|reflexivity].
  - destruct (String.eqb_spec k m); destruct (String.eqb_spec k n); try contradiction. f_equal. apply IH. now destruct Hi.
Qed.
Lemma set_in (x : kws) n v k : In k (map fst x) \/ k = n -> In k (map fst (dict_set String.eqb x n v)).
Proof.
  induction x as [|[m w] x IH]; cbn; [intuition|]. destruct (String.eqb_spec m n) as [->|E]; cbn; [intuition|]. intuition.
Qed.
Lemma set_set (x : kws) n v w : dict_set String.eqb (dict_set String.eqb x n w) n v = dict_set String.eqb x n v.
Proof.
  induction x as [|[m u] x IH]; cbn; [now rewrite String.eqb_refl|]. destruct (String.eqb_spec m n) as [->|E]; cbn.
  - now rewrite String.eqb_refl.
  - destruct (String.eqb_spec m n); [contradiction|]. now rewrite IH.
Qed.
Lemma merge_past (b x : kws) n v : In n (map fst x) -> ~ In n (map fst b) ->
  dict_set String.eqb (merge x b) n v = merge (dict_set String.eqb x n v) b.
Proof.
  unfold merge, dict_update. revert x. induction b as [|[m w] b IH]; intros x Hi Hb; cbn; [reflexivity|]. cbn in Hb.
  rewrite IH; [|apply set_in; now left|intuition]. rewrite set_comm; [reflexivity|intuition|exact Hi].
Qed.
Lemma merge_set (b : kws) n v : is_dict b -> forall x, merge x (dict_set String.eqb b n v) = dict_set String.eqb (merge x b) n v.
Proof.
  unfold is_dict. induction b as [|[m w] b IH]; intros Hd x; [reflexivity|]. inversion Hd; subst. cbn [dict_set].
  destruct (String.eqb_spec m n) as [->|E].
  - change (merge x ((n, v) :: b)) with (merge (dict_set String.eqb x n v) b).
    change (merge x ((n, w) :: b)) with (merge (dict_set String.eqb x n w) b).
    rewrite merge_past; [|apply set_in; now right|assumption]. now rewrite set_set.
  - change (merge x ((m, w) :: dict_set String.eqb b n v)) with (merge (dict_set String.eqb x m w) (dict_set String.eqb b n v)).
    change (merge x ((m, w) :: b)) with (merge (dict_set String.eqb x m w) b). now apply IH.
Qed.
Lemma merge_assoc (b c : kws) : is_dict b -> forall x, merge (merge x b) c = merge x (merge b c).
Proof.
  revert b. induction c as [|[n v] c IH]; intros b Hd x; [reflexivity|].
  change (merge (merge x b) ((n, v) :: c)) with (merge (dict_set String.eqb (merge x b) n v) c).
  change (merge b ((n, v) :: c)) with (merge (dict_set String.eqb b n v) c).
  rewrite <- merge_set by exact Hd. apply IH. exact (merge_dict b [(n, v)] Hd).
Qed.
Lemma partial_call usub has_reversed kwname truthy self_class mro own r p args kw q args2 kw2 :
  is_dict kw -> partial usub has_reversed truthy self_class mro own kwname r p args kw = Ok q ->
  collected q args2 kw2 = collected p (args ++ args2) (merge kw kw2).
Proof.
  intros Hd. unfold partial. destruct p as [c|c a k]; cbn [collected].
  - match goal with |- (do _ <- ?m; _) = _ -> _ => destruct m; cbn [obind]; [|discriminate] end.
    intros E. injection E as <-. reflexivity.
  - match goal with |- (do _ <- ?m; _) = _ -> _ => destruct m; cbn [obind]; [|discriminate] end.
    intros E. injection E as <-. cbn [collected]. now rewrite app_assoc, merge_assoc.
Qed.

(** * A function with [*args : int] *)
Open Scope string_scope.
Open Scope list_scope.
Lemma varargs_fail usub has_reversed kwname truthy self_class mro own r args kw : usub = (fun _ _ => false) ->
  partial usub has_reversed truthy self_class mro own kwname r
    (Fun (Plain (mkfun "f" "f" [mkparam "x" PosOrKw None; mkparam "args" VarPos None] [("args"%string, TClass CInt)] 0))) args kw = Raise TypeError.
Proof.
  intros ->. unfold partial. cbn [collected func_signature obind fhints params]. unfold resolve_bindings_partial.
  destruct (sig_bind true _ args kw) as [b|e] eqn:E; [|cbn; now rewrite (sig_bind_error _ _ _ _ _ E)].
  cbn [obind apply_defaults p_name p_default p_kind].
  assert (B : forall w, bget b "args" = Some w -> exists l, w = BTup l).
  { intros w Hw. unfold sig_bind in E. cbn [bind1] in E. cbn in E. destruct args as [|a args].
    - destruct (khas kw "x") eqn:Ek; cbn in E; unfold khas in Ek; destruct (kget kw "x") eqn:Eg; try discriminate; cbn in E.
      + destruct (kdel kw "x"); [|discriminate]. injection E as <-. discriminate.
      + destruct kw; [|discriminate]. injection E as <-. discriminate.
    - destruct (khas kw "x"); cbn in E; [discriminate|]. destruct args as [|a' args]; cbn in E; destruct kw; cbn in E; try discriminate;
        injection E as <-; [discriminate|]. cbn in Hw. injection Hw as <-. eauto. }
  assert (Ht : forall l, isoftype (fun _ _ => false) has_reversed (TClass CInt) (bound_value kwname (BTup l)) = Ok false) by reflexivity.
  assert (Z : forall w, (exists l, w = BTup l) -> no_mismatch_skip (fun _ _ => false) has_reversed kwname [("args"%string, TClass CInt)] [("args"%string, w)] = Ok false).
  { intros w (l & ->). cbn [no_mismatch_skip]. unfold hint. cbn [dict_get]. rewrite String.eqb_refl, Ht. reflexivity. }
  assert (Y : forall x b', no_mismatch_skip (fun _ _ => false) has_reversed kwname [("args"%string, TClass CInt)] (("x"%string, x) :: b')
     = no_mismatch_skip (fun _ _ => false) has_reversed kwname [("args"%string, TClass CInt)] b') by reflexivity.
  destruct (bget b "args") as [w|] eqn:Ew; destruct (bget b "x") as [x|]; rewrite ?Y, Z by eauto; reflexivity.
Qed.
