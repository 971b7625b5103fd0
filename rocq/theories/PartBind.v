(** Binding, completely or in part, for signatures without *args and **kwargs. *)
From Coq Require Import String List Bool Lia.
From Verif Require Import Base CollModel CollProofs BindModel BindSpec BindProofs BindSeesProofs CurryBindProofs
  TypeModel PartSpec.
Import ListNotations.
Open Scope list_scope.

Notation sign := (signature value).
Notation kws := (dict pname value).

Definition pos (ps : sign) (a : list value) : bindings value :=
  map (fun pa => (p_name (fst pa), BV (snd pa))) (combine ps a).
Definition named (ps : sign) (K : kws) : bindings value :=
  flat_map (fun p => match kget K (p_name p) with Some v => [(p_name p, BV v)] | None => [] end) ps.
Definition fits (part : bool) (ps : sign) (n : nat) (K : kws) : Prop :=
  n <= length ps /\
  (forall p, In p (firstn n ps) -> is_pos p = true) /\
  (forall p, In p (skipn n ps) -> p_kind p = PosOnly -> kget K (p_name p) = None) /\
  incl (map fst K) (map p_name (skipn n ps)) /\
  (part = false -> forall p, In p (skipn n ps) -> has_default p = true \/ kget K (p_name p) <> None).

Lemma nov_tail p ps : no_varargs (p :: ps) -> no_varargs ps.
Proof. intros H q Hq. apply H. now right. Qed.
Lemma nov_kinds (p : param value) : p_kind p <> VarPos /\ p_kind p <> VarKw ->
  kind_eqb (p_kind p) VarPos = false /\ kind_eqb (p_kind p) VarKw = false.
Proof. intros [A B]. destruct (p_kind p); auto; congruence. Qed.
Lemma nov_skip ps n : no_varargs ps -> no_varargs (skipn n ps).
Proof.
  intros H p Hp. apply H. rewrite <- (firstn_skipn n ps). apply in_app_iff. now right.
Qed.

(** *** first loop *)
Lemma bind1_ok part : forall ps a K, no_varargs ps ->
  length a <= length ps ->
  (forall p, In p (firstn (length a) ps) -> is_pos p = true) ->
  (forall p, In p (firstn (length a) ps) -> kget K (p_name p) = None) ->
  (forall p, In p (skipn (length a) ps) -> p_kind p = PosOnly -> kget K (p_name p) = None) ->
  (part = false -> forall p, In p (skipn (length a) ps) -> has_default p = true \/ kget K (p_name p) <> None) ->
  bind1 part ps a K = Ok (pos ps a, skipn (length a) ps).
Proof.
  induction ps as [|p ps IH]; intros a K Hv Hl Hp Hn Ho Hd.
  - destruct a; [reflexivity|cbn in Hl; lia].
  - destruct (nov_kinds p (Hv p (or_introl eq_refl))) as [V1 V2].
    destruct a as [|x a]; cbn [bind1].
    + rewrite V1, V2. cbn [orb length skipn] in *. unfold pos. cbn.
      destruct (khas K (p_name p)) eqn:E.
      * destruct (kind_eqb (p_kind p) PosOnly) eqn:E1; [|reflexivity].
        apply kind_eqb_ok in E1. specialize (Ho p (or_introl eq_refl) E1). apply khas_false in Ho. congruence.
      * destruct (has_default p) eqn:E2; [reflexivity|]. destruct part; [reflexivity|].
        destruct (Hd eq_refl p (or_introl eq_refl)) as [X|X]; [congruence|]. apply khas_false in E. contradiction.
    + cbn [length firstn skipn] in *. assert (Pp := Hp p (or_introl eq_refl)). assert (Np := Hn p (or_introl eq_refl)).
      assert (K2 : kind_eqb (p_kind p) KwOnly = false) by (unfold is_pos in Pp; destruct (p_kind p); auto; discriminate).
      rewrite V1, V2, K2. cbn [orb]. apply khas_false in Np. rewrite Np. cbn [andb].
      rewrite (IH a K (nov_tail _ _ Hv)); [reflexivity|lia| | |exact Ho|exact Hd]; intros q Hq; [apply Hp|apply Hn]; now right.
Qed.
Lemma bind1_inv part : forall ps a K b r, no_varargs ps -> bind1 part ps a K = Ok (b, r) ->
  b = pos ps a /\ r = skipn (length a) ps /\ length a <= length ps /\
  (forall p, In p (firstn (length a) ps) -> is_pos p = true).
Proof.
  induction ps as [|p ps IH]; intros a K b r Hv H.
  - cbn in H. destruct a; [|discriminate]. injection H as <- <-. cbn. split; [reflexivity|split; [reflexivity|split; [lia|intros p []]]].
  - destruct (nov_kinds p (Hv p (or_introl eq_refl))) as [V1 V2].
    destruct a as [|x a]; cbn [bind1] in H.
    + rewrite V1, V2 in H. cbn [orb] in H.
      assert (W : forall X, X = Ok ([], p :: ps) -> X = Ok (b, r) -> b = [] /\ r = p :: ps).
      { intros X -> E. injection E as <- <-. auto. }
      assert (G : b = [] /\ r = p :: ps).
      { destruct (khas K (p_name p)); [destruct (kind_eqb (p_kind p) PosOnly); [discriminate|]|destruct (has_default p); [|destruct part; [|discriminate]]];
          now apply (W _ eq_refl). }
      destruct G as [-> ->]. cbn. split; [reflexivity|split; [reflexivity|split; [lia|intros q []]]].
    + rewrite V1, V2 in H. cbn [orb] in H.
      destruct (kind_eqb (p_kind p) KwOnly) eqn:K2; [discriminate|].
      destruct (khas K (p_name p) && negb (kind_eqb (p_kind p) PosOnly)); [discriminate|].
      destruct (bind1 part ps a K) as [[b' r']|] eqn:E; [|discriminate]. cbn in H. injection H as <- <-.
      destruct (IH _ _ _ _ (nov_tail _ _ Hv) E) as (-> & -> & Hl & Hp). cbn [length firstn skipn].
      split; [reflexivity|split; [reflexivity|split; [cbn in *; lia|]]]. intros q [<-|Hq]; [|now apply Hp].
      unfold is_pos. destruct (p_kind p); auto; discriminate.
Qed.

(** *** second loop *)
Lemma named_ext ps K K' : (forall p, In p ps -> kget K (p_name p) = kget K' (p_name p)) -> named ps K = named ps K'.
Proof.
  intros H. unfold named. induction ps as [|p ps IH]; cbn; [reflexivity|]. rewrite (H p (or_introl eq_refl)), IH; [reflexivity|].
  intros q Hq. apply H. now right.
Qed.
Lemma left_cons (ps : sign) p (K : kws) : is_dict K -> leftovers (map p_name (p :: ps)) K = leftovers (map p_name ps) (kdel K (p_name p)).
Proof.
  intros Hd. rewrite kdel_filter by exact Hd. unfold leftovers. clear Hd. induction K as [|[m w] l IH]; cbn [filter fst]; auto.
  unfold memb in *. cbn [map existsb]. destruct (String.eqb m (p_name p)) eqn:E1; cbn [negb orb filter fst]; auto.
  destruct (existsb _ _); cbn [negb]; auto. f_equal. exact IH.
Qed.
Lemma kdel_dict (K : kws) n : is_dict K -> is_dict (kdel K n).
Proof. intros H. rewrite kdel_filter by exact H. apply is_dict_filter; exact H. Qed.
Lemma kdel_none (K : kws) n : is_dict K -> kget K n = None -> kdel K n = K.
Proof.
  intros Hd H. rewrite kdel_filter by exact Hd. clear Hd. apply kget_none in H. induction K as [|[m v] K IH]; cbn; [reflexivity|].
  destruct (String.eqb_spec m n) as [->|E]; [destruct H; now left|]. cbn. rewrite IH; [reflexivity|]. intros X. apply H. now right.
Qed.
Lemma bind2_ok part : forall Q K, no_varargs Q -> NoDup (map p_name Q) -> is_dict K ->
  (forall p, In p Q -> p_kind p = PosOnly -> kget K (p_name p) = None) ->
  (part = false -> forall p, In p Q -> has_default p = true \/ kget K (p_name p) <> None) ->
  bind2 part Q K = Ok (named Q K, None, leftovers (map p_name Q) K).
Proof.
  induction Q as [|p Q IH]; intros K Hv Hn Hd Ho Hf; cbn [bind2].
  - do 2 f_equal. unfold leftovers. cbn. clear. induction K as [|x l IH]; cbn; f_equal; auto.
  - destruct (nov_kinds p (Hv p (or_introl eq_refl))) as [V1 V2]. rewrite V1, V2.
    rewrite left_cons by exact Hd. cbn [map] in Hn. inversion Hn as [|x y Hx Hy]; subst x y.
    assert (Hk : forall q, In q Q -> kget (kdel K (p_name p)) (p_name q) = kget K (p_name q)).
    { intros q Hq. rewrite kget_kdel_ne; [reflexivity|]. intros E. apply Hx. rewrite E. now apply in_map. }
    assert (G : bind2 part Q (kdel K (p_name p)) = Ok (named Q K, None, leftovers (map p_name Q) (kdel K (p_name p)))).
    { rewrite (IH (kdel K (p_name p)) (nov_tail _ _ Hv) Hy (kdel_dict _ _ Hd)).
      - do 3 f_equal. now apply named_ext.
      - intros q Hq. rewrite (Hk q Hq). apply Ho. now right.
      - intros Hp q Hq. rewrite (Hk q Hq). apply Hf; auto. now right. }
    unfold named. cbn [flat_map]. fold (named Q K).
    destruct (kget K (p_name p)) as [v|] eqn:E.
    + destruct (kind_eqb (p_kind p) PosOnly) eqn:E1.
      { apply kind_eqb_ok in E1. rewrite (Ho p (or_introl eq_refl) E1) in E. discriminate. }
      rewrite G. reflexivity.
    + rewrite kdel_none in * by assumption. rewrite G.
      destruct part; [reflexivity|]. destruct (Hf eq_refl p (or_introl eq_refl)) as [->|X]; [reflexivity|congruence].
Qed.
Lemma bind2_inv part : forall Q K b kp K', no_varargs Q -> NoDup (map p_name Q) -> is_dict K ->
  bind2 part Q K = Ok (b, kp, K') ->
  (forall p, In p Q -> p_kind p = PosOnly -> kget K (p_name p) = None) /\
  (part = false -> forall p, In p Q -> has_default p = true \/ kget K (p_name p) <> None).
Proof.
  induction Q as [|p Q IH]; intros K b kp K' Hv Hn Hd H; cbn [bind2] in H.
  - split; [intros p []|intros _ p []].
  - destruct (nov_kinds p (Hv p (or_introl eq_refl))) as [V1 V2]. rewrite V1, V2 in H.
    cbn [map] in Hn. inversion Hn as [|x y Hx Hy]; subst x y.
    assert (Hk : forall q, In q Q -> kget (kdel K (p_name p)) (p_name q) = kget K (p_name q)).
    { intros q Hq. rewrite kget_kdel_ne; [reflexivity|]. intros E. apply Hx. rewrite E. now apply in_map. }
    assert (G : exists b kp K', bind2 part Q (kdel K (p_name p)) = Ok (b, kp, K')).
    { destruct (kget K (p_name p)) as [v|] eqn:E.
      - destruct (kind_eqb (p_kind p) PosOnly); [discriminate|]. destruct (bind2 part Q _) as [[[b' kp'] K'']|]; [eauto|discriminate].
      - rewrite kdel_none by assumption. destruct (negb part && _); [discriminate|eauto]. }
    destruct G as (b1 & kp1 & K1 & G).
    destruct (IH _ _ _ _ (nov_tail _ _ Hv) Hy (kdel_dict _ _ Hd) G) as [A B]. split.
    + intros q [<-|Hq] Hqk; [|rewrite <- (Hk q Hq); auto].
      destruct (kget K (p_name p)) as [v|] eqn:E; [|reflexivity]. rewrite Hqk in H. discriminate.
    + intros Hp q [<-|Hq]; [|rewrite <- (Hk q Hq); auto].
      destruct (kget K (p_name p)) as [v|] eqn:E; [right; discriminate|]. subst part. cbn [negb andb] in H.
      destruct (has_default p); [now left|discriminate].
Qed.
Lemma leftovers_nil' l (K : kws) : leftovers l K = [] -> incl (map fst K) l.
Proof.
  unfold leftovers. induction K as [|[m v] K IH]; cbn; [intros _ x []|].
  destruct (memb l m) eqn:E; cbn; [|discriminate]. intros H x [<-|Hx]; [|exact (IH H x Hx)].
  unfold memb in E. apply existsb_exists in E as (z & Hz & E). apply String.eqb_eq in E. now subst z.
Qed.

(** *** both *)
Lemma zone_unnamed (ps : sign) n (K : kws) : NoDup (map p_name ps) -> incl (map fst K) (map p_name (skipn n ps)) ->
  forall p, In p (firstn n ps) -> kget K (p_name p) = None.
Proof.
  intros Hn Hi p Hp. apply kget_none. intros X. apply Hi in X.
  rewrite <- (firstn_skipn n ps), map_app in Hn. apply (in_map p_name) in Hp.
  revert Hn X Hp. generalize (map p_name (firstn n ps)) (map p_name (skipn n ps)) (p_name p). clear.
  intros l1 l2 x. induction l1 as [|y l1 IH]; [intros _ _ []|]. cbn. intros Hn X [->|Hp]; inversion Hn; subst.
  - match goal with H : ~ _ |- _ => apply H end. apply in_app_iff. now right.
  - auto.
Qed.
Lemma sig_bind_fits part ps A K b : no_varargs ps -> NoDup (map p_name ps) -> is_dict K ->
  (sig_bind part ps A K = Ok b <->
   fits part ps (length A) K /\ b = pos ps A ++ named (skipn (length A) ps) K).
Proof.
  intros Hv Hn Hd. unfold sig_bind, fits. split.
  - destruct (bind1 part ps A K) as [[b1 r]|] eqn:E1; [|discriminate]. cbn [obind].
    destruct (bind1_inv _ _ _ _ _ _ Hv E1) as (-> & -> & Hl & Hp).
    destruct (bind2 part _ K) as [[[b2 kp] K']|] eqn:E2; [|discriminate]. cbn [obind].
    destruct (bind2_inv _ _ _ _ _ _ (nov_skip _ _ Hv) (nodup_skip _ _ Hn) Hd E2) as [Ho Hf].
    rewrite (bind2_ok part _ K (nov_skip _ _ Hv) (nodup_skip _ _ Hn) Hd Ho Hf) in E2. injection E2 as <- <- <-.
    destruct (leftovers _ K) eqn:EL; [|discriminate]. intros H. injection H as <-.
    apply leftovers_nil' in EL. repeat split; auto.
  - intros ((Hl & Hp & Ho & Hi & Hf) & ->).
    rewrite (bind1_ok part ps A K Hv Hl Hp (zone_unnamed _ _ _ Hn Hi) Ho Hf). cbn [obind].
    rewrite (bind2_ok part _ K (nov_skip _ _ Hv) (nodup_skip _ _ Hn) Hd Ho Hf). cbn [obind].
    rewrite leftovers_nil by exact Hi. reflexivity.
Qed.
Lemma sig_bind_error part (ps : sign) A K e : sig_bind part ps A K = Raise e -> e = TypeError.
Proof.
  assert (B1 : forall (ps : sign) args kw e, bind1 part ps args kw = Raise e -> e = TypeError).
  { clear. induction ps as [|p ps IH]; intros args kw e; cbn.
    - destruct args; [discriminate|]. now intros H; injection H.
    - destruct args as [|a args].
      + destruct (kind_eqb (p_kind p) VarPos); [discriminate|]. destruct (khas kw (p_name p)).
        * destruct (kind_eqb (p_kind p) PosOnly); [|discriminate]. now intros H; injection H.
        * destruct (_ || _); [discriminate|]. destruct part; [discriminate|]. now intros H; injection H.
      + destruct (_ || _); [now intros H; injection H|]. destruct (kind_eqb (p_kind p) VarPos); [discriminate|].
        destruct (khas kw (p_name p) && _); [now intros H; injection H|].
        destruct (bind1 part ps args kw) as [[b r]|e0] eqn:E; cbn; [discriminate|]. intros H. injection H as <-. eauto. }
  assert (B2 : forall (ps : sign) kw e, bind2 part ps kw = Raise e -> e = TypeError).
  { clear. induction ps as [|p ps IH]; intros kw e; cbn; [discriminate|].
    destruct (kind_eqb (p_kind p) VarKw).
    - destruct (bind2 part ps kw) as [[[b k] r]|e0] eqn:E; cbn; [discriminate|]. intros H. injection H as <-. eauto.
    - destruct (kind_eqb (p_kind p) VarPos); [now apply IH|].
      destruct (kget kw (p_name p)).
      + destruct (kind_eqb (p_kind p) PosOnly); [now intros H; injection H|].
        destruct (bind2 part ps (kdel kw (p_name p))) as [[[b k] r]|e0] eqn:E; cbn; [discriminate|]. intros H. injection H as <-. eauto.
      + destruct (negb part && _); [now intros H; injection H|now apply IH]. }
  unfold sig_bind.
  destruct (bind1 part ps A K) as [[b r]|e0] eqn:E1; cbn; [|intros H; injection H as <-; eauto].
  destruct (bind2 part r K) as [[[b' k] r']|e0] eqn:E2; cbn; [|intros H; injection H as <-; eauto].
  destruct r'; cbn; [discriminate|]. destruct k; cbn; [discriminate|]. now intros H; injection H.
Qed.

(** *** what a parameter gets *)
Lemma bget_app (b1 b2 : bindings value) n : bget (b1 ++ b2) n = match bget b1 n with Some v => Some v | None => bget b2 n end.
Proof. induction b1 as [|[m v] b1 IH]; cbn; [reflexivity|]. destruct (String.eqb m n); auto. Qed.
Lemma bget_pos (ps : sign) A n v : NoDup (map p_name ps) ->
  (bget (pos ps A) n = Some v <-> exists i p x, nth_error ps i = Some p /\ nth_error A i = Some x /\ p_name p = n /\ v = BV x).
Proof.
  revert A. induction ps as [|p ps IH]; intros A Hn.
  - cbn. split; [discriminate|]. intros ([|i] & q & x & H & _); discriminate.
  - destruct A as [|a A].
    + cbn. split; [discriminate|]. intros ([|i] & q & x & _ & H & _); discriminate.
    + unfold pos. cbn [combine map fst snd bget]. fold (pos ps A). inversion Hn as [|x y Hx Hy]; subst x y.
      destruct (String.eqb_spec (p_name p) n) as [E|E].
      * split.
        -- intros H. injection H as <-. exists 0, p, a. auto.
        -- intros ([|i] & q & x & H1 & H2 & H3 & ->).
           ++ injection H2 as ->. reflexivity.
           ++ cbn in H1. apply nth_error_In in H1. destruct Hx. rewrite E, <- H3. now apply in_map.
      * rewrite (IH A Hy). split.
        -- intros (i & q & x & H). exists (S i), q, x. exact H.
        -- intros ([|i] & q & x & H1 & H2 & H3 & H4).
           ++ injection H1 as ->. contradiction.
           ++ exists i, q, x. auto.
Qed.
Lemma bget_named (ps : sign) (K : kws) n : bget (named ps K) n = if memb (map p_name ps) n then option_map BV (kget K n) else None.
Proof.
  unfold named. induction ps as [|p ps IH]; cbn [flat_map]; [reflexivity|]. rewrite bget_app, IH. unfold memb. cbn [map existsb].
  rewrite (String.eqb_sym n (p_name p)).
  destruct (String.eqb_spec (p_name p) n) as [<-|E]; cbn [orb].
  - destruct (kget K (p_name p)) eqn:G; cbn; [now rewrite String.eqb_refl|]. unfold memb. now destruct (existsb _ _).
  - destruct (kget K (p_name p)) eqn:G; cbn; [|reflexivity]. destruct (String.eqb_spec (p_name p) n); [contradiction|reflexivity].
Qed.
