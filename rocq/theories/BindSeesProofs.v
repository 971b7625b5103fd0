From Coq Require Import String List Bool ZArith Lia.
From Verif Require Import Base CollModel CollProofs BindModel BindSpec BindProofs.
Import ListNotations.
Open Scope list_scope.

Section P.
Context {V : Type}.
Implicit Types (ps : signature V) (p : param V) (args : list V) (kw : dict pname V).
Implicit Types (bb b : bindings V).

Lemma kdel_filter : forall kw n, is_dict kw ->
  kdel kw n = filter (fun kv => negb (String.eqb (fst kv) n)) kw.
Proof.
  unfold kdel, is_dict. induction kw as [| [k v] kw IH]; intros n H; cbn [dict_del filter fst]; auto.
  cbn [map fst] in H. inversion H as [| x y Hx Hy]; subst.
  destruct (String.eqb k n) eqn:E; cbn [negb].
  - apply String.eqb_eq in E. subst n. clear IH H.
    induction kw as [| [k2 v2] kw IH]; cbn [filter fst]; auto.
    cbn [map fst] in Hx, Hy.
    destruct (String.eqb k2 k) eqn:E2.
    + apply String.eqb_eq in E2. subst. destruct Hx. left; auto.
    + cbn [negb]. f_equal. apply IH; [intros Hi; apply Hx; right; auto | inversion Hy; auto].
  - f_equal. apply IH; auto.
Qed.
Lemma is_dict_filter : forall kw f, is_dict kw -> is_dict (filter f kw).
Proof.
  unfold is_dict. induction kw as [| kv kw IH]; intros f H; cbn; auto.
  cbn [map] in H. inversion H as [| x y Hx Hy]; subst.
  destruct (f kv); cbn [map]; auto. constructor; auto.
  intros Hi. apply Hx. apply in_map_iff in Hi as [z [Hz1 Hz2]]. apply filter_In in Hz2 as [Hz2 _].
  apply in_map_iff. exists z; auto.
Qed.
Lemma kget_kdel_ne : forall kw n m, n <> m -> kget (kdel kw n) m = kget kw m.
Proof.
  unfold kget, kdel. induction kw as [| [k v] kw IH]; intros n m H; cbn; auto.
  destruct (String.eqb k n) eqn:E; cbn.
  - apply String.eqb_eq in E. subst k. destruct (String.eqb n m) eqn:E2; auto.
    apply String.eqb_eq in E2. congruence.
  - destruct (String.eqb k m); auto.
Qed.
Lemma kget_in : forall kw n v, kget kw n = Some v -> In n (map fst kw).
Proof.
  unfold kget. induction kw as [| [k w] kw IH]; intros n v H; cbn in *; [discriminate|].
  destruct (String.eqb k n) eqn:E; [apply String.eqb_eq in E; auto | right; eauto].
Qed.
Lemma kget_none : forall kw n, kget kw n = None <-> ~ In n (map fst kw).
Proof.
  unfold kget. induction kw as [| [k w] kw IH]; intros n; cbn; [intuition|].
  destruct (String.eqb k n) eqn:E.
  - apply String.eqb_eq in E. split; [discriminate | intuition].
  - apply String.eqb_neq in E. rewrite IH. intuition.
Qed.
Lemma khas_false : forall kw n, khas kw n = false <-> kget kw n = None.
Proof. intros kw n. unfold khas. destruct (kget kw n); split; congruence. Qed.
Lemma khas_true : forall kw n, khas kw n = true <-> In n (map fst kw).
Proof.
  intros kw n. unfold khas. destruct (kget kw n) eqn:E.
  - split; auto. intros _. exact (kget_in _ _ _ E).
  - apply kget_none in E. split; [discriminate | intuition].
Qed.

Lemma bget_none : forall b n, bget b n = None <-> ~ In n (map fst b).
Proof.
  induction b as [| [k w] b IH]; intros n; cbn; [intuition|].
  destruct (String.eqb k n) eqn:E.
  - apply String.eqb_eq in E. split; [discriminate | intuition].
  - apply String.eqb_neq in E. rewrite IH. intuition.
Qed.
Lemma bget_app : forall b1 b2 n,
  bget (b1 ++ b2) n = match bget b1 n with Some v => Some v | None => bget b2 n end.
Proof.
  induction b1 as [| [k w] b IH]; intros b2 n; cbn; auto. destruct (String.eqb k n); auto.
Qed.
Lemma bget_cons_ne : forall b n m v, n <> m -> bget ((n, v) :: b) m = bget b m.
Proof.
  intros b n m v H. cbn. destruct (String.eqb n m) eqn:E; auto. apply String.eqb_eq in E. congruence.
Qed.
Lemma bget_cons_eq : forall b n v, bget ((n, v) :: b) n = Some v.
Proof. intros b n v. cbn. rewrite String.eqb_refl. reflexivity. Qed.

Lemma ordered_tail : forall p ps st opt, ordered st opt (p :: ps) = true ->
  exists st' opt', ordered st' opt' ps = true.
Proof.
  intros p ps st opt H. cbn [ordered] in H. destruct (p_kind p).
  - apply andb_true_iff in H as [_ H]; eauto.
  - apply andb_true_iff in H as [_ H]; eauto.
  - apply andb_true_iff in H as [_ H]; eauto.
  - eauto.
  - apply andb_true_iff in H as [_ H]. destruct ps; [exists 0, false; reflexivity | discriminate].
Qed.
Lemma ordered_var : forall p ps st opt, ordered st opt (p :: ps) = true ->
  p_kind p = VarPos \/ p_kind p = VarKw -> p_default p = None.
Proof.
  intros p ps st opt H [E|E]; cbn [ordered] in H; rewrite E in H.
  - apply andb_true_iff in H as [H _]. apply andb_true_iff in H as [_ H].
    unfold has_default in H. destruct (p_default p); [discriminate|reflexivity].
  - apply andb_true_iff in H as [H _].
    unfold has_default in H. destruct (p_default p); [discriminate|reflexivity].
Qed.
Lemma ordered_varkw : forall p ps st opt, ordered st opt (p :: ps) = true ->
  p_kind p = VarKw -> ps = [].
Proof.
  intros p ps st opt H E; cbn [ordered] in H; rewrite E in H.
  apply andb_true_iff in H as [_ H]. destruct ps; [reflexivity|discriminate].
Qed.

Definition nonvar (p : param V) : bool :=
  negb (kind_eqb (p_kind p) VarKw) && negb (kind_eqb (p_kind p) VarPos).
Definition memb (l : list pname) (n : pname) : bool := existsb (String.eqb n) l.
Definition leftovers (all : list pname) kw : dict pname V :=
  filter (fun kv => negb (memb all (fst kv))) kw.

Lemma bind2_left : forall part ps kw b kp kw',
  bind2 part ps kw = Ok (b, kp, kw') -> is_dict kw ->
  kw' = leftovers (map p_name (filter nonvar ps)) kw.
Proof.
  intros part. induction ps as [| p ps IH]; intros kw b kp kw' H Hd; cbn [bind2] in H.
  - injection H as _ _ <-. unfold leftovers. cbn.
    clear Hd. induction kw as [| x kw IH]; cbn; f_equal; auto.
  - cbn [filter]. unfold nonvar at 1.
    destruct (kind_eqb (p_kind p) VarKw).
    { cbn [negb andb]. destruct (bind2 part ps kw) as [[[b' kp'] k']|] eqn:E; [|discriminate].
      cbn in H. injection H as _ _ <-. eauto. }
    destruct (kind_eqb (p_kind p) VarPos). { cbn [negb andb]. eauto. }
    cbn [negb andb map].
    destruct (kget kw (p_name p)) as [v|] eqn:Eg.
    + destruct (kind_eqb (p_kind p) PosOnly); [discriminate|].
      destruct (bind2 part ps (kdel kw (p_name p))) as [[[b' kp'] k']|] eqn:E; [|discriminate].
      cbn in H. injection H as _ _ <-.
      assert (Hd' : is_dict (kdel kw (p_name p))).
      { rewrite kdel_filter by exact Hd. apply is_dict_filter; exact Hd. }
      rewrite (IH _ _ _ _ E Hd'), kdel_filter by exact Hd.
      unfold leftovers. clear. induction kw as [| [k v] kw IH]; cbn [filter fst]; auto.
      unfold memb in *. cbn [existsb].
      destruct (String.eqb k (p_name p)) eqn:E1; cbn [negb orb filter fst]; auto.
      destruct (existsb _ _); cbn [negb]; auto. f_equal. exact IH.
    + destruct (negb part && negb (has_default p)); [discriminate|].
      rewrite (IH _ _ _ _ H Hd). unfold leftovers. apply filter_ext_in.
      intros [k v] Hi. cbn [fst]. unfold memb. cbn [existsb].
      destruct (String.eqb k (p_name p)) eqn:E1; auto.
      apply String.eqb_eq in E1. subst k. apply kget_none in Eg. destruct Eg.
      apply in_map_iff. exists (p_name p, v); auto.
Qed.
Lemma bind2_names : forall part ps kw b kp kw',
  bind2 part ps kw = Ok (b, kp, kw') ->
  (forall n, In n (map fst b) -> In n (map p_name ps)) /\
  (forall n, kp = Some n -> In n (map p_name ps)).
Proof.
  intros part. induction ps as [| p ps IH]; intros kw b kp kw' H; cbn [bind2] in H.
  - injection H as <- <- _. split; [intros n [] | discriminate].
  - cbn [map]. destruct (kind_eqb (p_kind p) VarKw).
    { destruct (bind2 part ps kw) as [[[b' kp'] k']|] eqn:E; [|discriminate].
      cbn in H. injection H as <- <- _. destruct (IH _ _ _ _ E) as [A B]. split.
      - intros n Hn. right; auto.
      - intros n Hn. destruct kp' as [q|]; [right; apply B; exact Hn | injection Hn as <-; left; auto]. }
    destruct (kind_eqb (p_kind p) VarPos).
    { destruct (IH _ _ _ _ H) as [A B]. split; intros n Hn; right; auto. }
    destruct (kget kw (p_name p)) as [v|] eqn:Eg.
    + destruct (kind_eqb (p_kind p) PosOnly); [discriminate|].
      destruct (bind2 part ps (kdel kw (p_name p))) as [[[b' kp'] k']|] eqn:E; [|discriminate].
      cbn in H. injection H as <- <- _. destruct (IH _ _ _ _ E) as [A B]. split.
      * intros n [Hn|Hn]; [left; auto | right; auto].
      * intros n Hn; right; auto.
    + destruct (negb part && negb (has_default p)); [discriminate|].
      destruct (IH _ _ _ _ H) as [A B]. split; intros n Hn; right; auto.
Qed.

Definition tail_of (kp : option pname) kw' : bindings V :=
  match kw' with
  | [] => []
  | _ :: _ => match kp with Some n => [(n, BDict kw')] | None => [] end
  end.
Definition somes2 (b : bindings V) : list (pname * option (bval V)) :=
  map (fun nb => (fst nb, Some (snd nb))) b.

Lemma tail_names : forall kp kw' n, In n (map fst (tail_of kp kw')) -> kp = Some n.
Proof.
  intros kp kw' n H. unfold tail_of in H. destruct kw'; [destruct H|]. destruct kp; [|destruct H].
  destruct H as [H|[]]. cbn in H. congruence.
Qed.
(** a name of no remaining parameter is not bound by the second loop *)
Lemma bind2_unbound : forall part ps kwc b kp kw' n,
  bind2 part ps kwc = Ok (b, kp, kw') -> ~ In n (map p_name ps) ->
  bget (b ++ tail_of kp kw') n = None.
Proof.
  intros part ps kwc b kp kw' n H Hn. destruct (bind2_names _ _ _ _ _ _ H) as [A B].
  apply bget_none. rewrite map_app, in_app_iff. intros [Hi|Hi].
  - exact (Hn (A n Hi)).
  - exact (Hn (B n (tail_names _ _ _ Hi))).
Qed.

Lemma bind2_sees : forall ps st opt all kw kwc b kp kw' bb,
  ordered st opt ps = true -> NoDup (map p_name ps) ->
  bind2 false ps kwc = Ok (b, kp, kw') ->
  (forall p, In p ps -> kget kwc (p_name p) = kget kw (p_name p)) ->
  (forall n, In n (map p_name ps) -> bget bb n = bget (b ++ tail_of kp kw') n) ->
  kw' = leftovers all kw ->
  somes2 (apply_defaults ps bb) = sees all ps [] kw.
Proof.
  induction ps as [| p ps IH]; intros st opt all kw kwc b kp kw' bb Ho Hn H Hkw Hbb Hl.
  { reflexivity. }
  destruct (ordered_tail _ _ _ _ Ho) as [st' [opt' Ho']].
  cbn [map] in Hn. inversion Hn as [| x y Hx Hy]; subst x y.
  assert (Hp := Hbb (p_name p) (or_introl eq_refl)).
  assert (Hbb' : forall n, In n (map p_name ps) -> bget bb n = bget (b ++ tail_of kp kw') n)
    by (intros n Hi; apply Hbb; right; exact Hi).
  assert (Hkw' : forall q, In q ps -> kget kwc (p_name q) = kget kw (p_name q))
    by (intros q Hq; apply Hkw; right; exact Hq).
  assert (Hvar := ordered_var _ _ _ _ Ho).
  assert (Hvk := ordered_varkw _ _ _ _ Ho).
  cbn [bind2] in H. cbn [apply_defaults sees].
  destruct (kind_eqb (p_kind p) VarKw) eqn:E1.
  { apply kind_eqb_ok in E1. rewrite (Hvk E1) in *. rewrite E1 in *. cbn [bind2 obind] in H.
    injection H as <- <- Hkk. subst kwc.
    rewrite (Hvar (or_intror eq_refl)). rewrite Hp. cbn [app tail_of].
    destruct kw' as [| x kw'].
    - cbn [bget]. cbn. change (filter _ kw) with (leftovers all kw). rewrite <- Hl. reflexivity.
    - unfold tail_of; rewrite bget_cons_eq. cbn. change (filter _ kw) with (leftovers all kw).
      rewrite <- Hl. reflexivity. }
  destruct (kind_eqb (p_kind p) VarPos) eqn:E2.
  { apply kind_eqb_ok in E2. rewrite E2 in *.
    rewrite (Hvar (or_introl eq_refl)).
    rewrite (bind2_unbound _ _ _ _ _ _ _ H Hx) in Hp. rewrite Hp.
    cbn [somes2 map fst snd]. f_equal.
    exact (IH _ _ _ _ _ _ _ _ _ Ho' Hy H Hkw' Hbb' Hl). }
  assert (Hs : forall (r1 r2 r3 : list (pname * option (bval V))),
      (forall k, p_kind p = k -> k <> VarKw /\ k <> VarPos) ->
      match p_kind p with PosOnly | PosOrKw => r1 | VarPos => r2 | KwOnly => r1 | VarKw => r3 end = r1).
  { intros r1 r2 r3 F. destruct (p_kind p); auto; destruct (F _ eq_refl); congruence. }
  rewrite Hs.
  2:{ intros k Hk. split; intros ->; [rewrite Hk in E1 | rewrite Hk in E2]; discriminate. }
  unfold by_name. rewrite <- (Hkw p (or_introl eq_refl)).
  destruct (kget kwc (p_name p)) as [v|] eqn:Eg.
  - destruct (kind_eqb (p_kind p) PosOnly) eqn:E3; [discriminate|].
    destruct (bind2 false ps (kdel kwc (p_name p))) as [[[b' kp'] k']|] eqn:E; [|discriminate].
    cbn [obind] in H. injection H as <- <- <-.
    cbn [app] in Hp. rewrite bget_cons_eq in Hp. rewrite Hp. cbn [somes2 map fst snd]. f_equal.
    apply (IH _ _ _ _ _ _ _ _ bb Ho' Hy E); auto.
    + intros q Hq. rewrite kget_kdel_ne; auto. intros Heq. apply Hx. rewrite Heq.
      apply in_map; exact Hq.
    + intros n Hi. rewrite (Hbb' n Hi). cbn [app]. rewrite bget_cons_ne; auto.
      intros Heq; subst n. exact (Hx Hi).
  - destruct (has_default p) eqn:Ed; [|discriminate]. cbn [negb andb] in H.
    rewrite (bind2_unbound _ _ _ _ _ _ _ H Hx) in Hp. rewrite Hp.
    unfold has_default in Ed. destruct (p_default p) as [d|]; [|discriminate].
    cbn [somes2 map fst snd option_map]. f_equal.
    exact (IH _ _ _ _ _ _ _ _ _ Ho' Hy H Hkw' Hbb' Hl).
Qed.

(** the first loop *)
Lemma bind1_sees : forall ps st opt all args kw b1 rest b kp kw' bb,
  ordered st opt ps = true -> NoDup (map p_name ps) ->
  bind1 false ps args kw = Ok (b1, rest) ->
  bind2 false rest kw = Ok (b, kp, kw') ->
  (forall n, In n (map p_name ps) -> bget bb n = bget (b1 ++ b ++ tail_of kp kw') n) ->
  kw' = leftovers all kw ->
  somes2 (apply_defaults ps bb) = sees all ps args kw.
Proof.
  induction ps as [| p ps IH]; intros st opt all args kw b1 rest b kp kw' bb Ho Hn H H2 Hbb Hl.
  { reflexivity. }
  destruct (ordered_tail _ _ _ _ Ho) as [st' [opt' Ho']].
  assert (Hn0 := Hn). cbn [map] in Hn. inversion Hn as [| x y Hx Hy]; subst x y.
  destruct args as [| a args].
  - (* positional arguments ran out *)
    cbn [bind1] in H. destruct (kind_eqb (p_kind p) VarPos) eqn:E2.
    { injection H as <- <-. cbn [app] in Hbb.
      cbn [apply_defaults sees]. apply kind_eqb_ok in E2. rewrite E2.
      rewrite (ordered_var _ _ _ _ Ho (or_introl E2)).
      rewrite (Hbb (p_name p) (or_introl eq_refl)), (bind2_unbound _ _ _ _ _ _ _ H2 Hx).
      cbn [somes2 map fst snd]. f_equal.
      apply (bind2_sees _ _ _ _ _ _ _ _ _ bb Ho' Hy H2); auto.
      intros n Hi. apply Hbb. right; exact Hi. }
    assert (Hr : b1 = [] /\ rest = p :: ps).
    { destruct (khas kw (p_name p)).
      - destruct (kind_eqb (p_kind p) PosOnly); [discriminate|]. injection H as <- <-; auto.
      - destruct (kind_eqb (p_kind p) VarKw || has_default p); [injection H as <- <-; auto|discriminate]. }
    destruct Hr as [-> ->]. cbn [app] in Hbb.
    exact (bind2_sees _ _ _ _ _ _ _ _ _ _ Ho Hn0 H2 (fun q Hq => eq_refl) Hbb Hl).
  - cbn [bind1] in H.
    destruct (kind_eqb (p_kind p) VarKw || kind_eqb (p_kind p) KwOnly) eqn:E0; [discriminate|].
    destruct (kind_eqb (p_kind p) VarPos) eqn:E2.
    { injection H as <- <-. apply kind_eqb_ok in E2.
      cbn [apply_defaults sees]. rewrite E2.
      rewrite (Hbb (p_name p) (or_introl eq_refl)). cbn [app]. rewrite bget_cons_eq.
      cbn [somes2 map fst snd]. f_equal.
      apply (bind2_sees _ _ _ _ _ _ _ _ _ bb Ho' Hy H2); auto.
      intros n Hi. rewrite (Hbb n (or_intror Hi)). cbn [app]. rewrite bget_cons_ne; auto.
      intros Heq; subst n. exact (Hx Hi). }
    destruct (khas kw (p_name p) && negb (kind_eqb (p_kind p) PosOnly)); [discriminate|].
    destruct (bind1 false ps args kw) as [[b' r']|] eqn:E; [|discriminate].
    cbn [obind] in H. injection H as <- <-.
    cbn [apply_defaults sees].
    rewrite (Hbb (p_name p) (or_introl eq_refl)). cbn [app]. rewrite bget_cons_eq.
    assert (Hs : forall (r1 r2 r3 r4 : list (pname * option (bval V))),
      match p_kind p with PosOnly | PosOrKw => r1 | VarPos => r2 | KwOnly => r3 | VarKw => r4 end = r1).
    { intros r1 r2 r3 r4. destruct (p_kind p); auto; discriminate. }
    rewrite Hs. cbn [somes2 map fst snd]. f_equal.
    apply (IH _ _ all args kw _ _ _ _ _ bb Ho' Hy E H2); auto.
    intros n Hi. rewrite (Hbb n (or_intror Hi)). cbn [app]. rewrite bget_cons_ne; auto.
    intros Heq; subst n. exact (Hx Hi).
Qed.

(** what is left of the named arguments *)
Lemma bind1_left : forall part ps args kw b1 rest,
  bind1 part ps args kw = Ok (b1, rest) ->
  (forall p, In p ps -> In p rest \/ p_kind p = VarPos \/ p_kind p = PosOnly \/
                        kget kw (p_name p) = None) /\
  (forall p, In p rest -> In p ps).
Proof.
  intros part. induction ps as [| p ps IH]; intros args kw b1 rest H; cbn [bind1] in H.
  - destruct args; [|discriminate]. injection H as <- <-. split; intros p [].
  - destruct args as [| a args].
    + destruct (kind_eqb (p_kind p) VarPos) eqn:E2.
      { injection H as <- <-. apply kind_eqb_ok in E2. split.
        - intros q [<- | Hq]; auto.
        - intros q Hq; right; auto. }
      assert (Hr : rest = p :: ps).
      { destruct (khas kw (p_name p)).
        - destruct (kind_eqb (p_kind p) PosOnly); [discriminate|]. injection H as <- <-; auto.
        - destruct (kind_eqb (p_kind p) VarKw || has_default p);
            [injection H as <- <-; auto|].
          destruct part; [injection H as <- <-; auto|discriminate]. }
      subst rest. split; auto.
    + destruct (kind_eqb (p_kind p) VarKw || kind_eqb (p_kind p) KwOnly) eqn:E0; [discriminate|].
      destruct (kind_eqb (p_kind p) VarPos) eqn:E2.
      { injection H as <- <-. apply kind_eqb_ok in E2. split.
        - intros q [<- | Hq]; auto.
        - intros q Hq; right; auto. }
      destruct (khas kw (p_name p) && negb (kind_eqb (p_kind p) PosOnly)) eqn:Ek; [discriminate|].
      destruct (bind1 part ps args kw) as [[b' r']|] eqn:E; [|discriminate].
      cbn [obind] in H. injection H as <- <-. destruct (IH _ _ _ _ E) as [A B]. split.
      * intros q [<- | Hq]; auto. apply andb_false_iff in Ek as [Ek|Ek].
        -- apply khas_false in Ek. auto.
        -- apply negb_false_iff, kind_eqb_ok in Ek. auto.
      * intros q Hq; right; auto.
Qed.
Lemma bind2_posonly : forall part ps kwc kw b kp kw' p,
  bind2 part ps kwc = Ok (b, kp, kw') -> NoDup (map p_name ps) ->
  (forall p, In p ps -> kget kwc (p_name p) = kget kw (p_name p)) ->
  In p ps -> p_kind p = PosOnly -> kget kw (p_name p) = None.
Proof.
  intros part. induction ps as [| q ps IH]; intros kwc kw b kp kw' p H Hn Hkw Hp Hk; [destruct Hp|].
  cbn [map] in Hn. inversion Hn as [| x y Hx Hy]; subst x y.
  cbn [bind2] in H. destruct Hp as [-> | Hp].
  - rewrite Hk in H. cbn [kind_eqb] in H. rewrite <- (Hkw p (or_introl eq_refl)).
    destruct (kget kwc (p_name p)); [discriminate|reflexivity].
  - assert (Hkw' : forall r, In r ps -> kget kwc (p_name r) = kget kw (p_name r))
      by (intros r Hr; apply Hkw; right; exact Hr).
    destruct (kind_eqb (p_kind q) VarKw).
    { destruct (bind2 part ps kwc) as [[[b' kp'] k']|] eqn:E; [|discriminate]. eauto. }
    destruct (kind_eqb (p_kind q) VarPos); [eauto|].
    destruct (kget kwc (p_name q)) as [v|] eqn:Eg.
    + destruct (kind_eqb (p_kind q) PosOnly); [discriminate|].
      destruct (bind2 part ps (kdel kwc (p_name q))) as [[[b' kp'] k']|] eqn:E; [|discriminate].
      apply (IH _ kw _ _ _ p E Hy); auto.
      intros r Hr. rewrite kget_kdel_ne; auto. intros Heq. apply Hx. rewrite Heq. apply in_map; auto.
    + destruct (negb part && negb (has_default q)); [discriminate|]. eauto.
Qed.

Lemma nodup_incl_sub : forall ps rest part args kw b1,
  bind1 part ps args kw = Ok (b1, rest) -> NoDup (map p_name ps) -> NoDup (map p_name rest).
Proof.
  induction ps as [| p ps IH]; intros rest part args kw b1 H Hn; cbn [bind1] in H.
  - destruct args; [|discriminate]. injection H as <- <-. constructor.
  - assert (Hn0 := Hn). cbn [map] in Hn. inversion Hn as [| x y Hx Hy]; subst x y.
    destruct args as [| a args].
    + destruct (kind_eqb (p_kind p) VarPos); [injection H as <- <-; auto|].
      destruct (khas kw (p_name p)).
      * destruct (kind_eqb (p_kind p) PosOnly); [discriminate|]. injection H as <- <-; auto.
      * destruct (kind_eqb (p_kind p) VarKw || has_default p); [injection H as <- <-; auto|].
        destruct part; [injection H as <- <-; auto|discriminate].
    + destruct (kind_eqb (p_kind p) VarKw || kind_eqb (p_kind p) KwOnly); [discriminate|].
      destruct (kind_eqb (p_kind p) VarPos); [injection H as <- <-; auto|].
      destruct (khas kw (p_name p) && negb (kind_eqb (p_kind p) PosOnly)); [discriminate|].
      destruct (bind1 part ps args kw) as [[b' r']|] eqn:E; [|discriminate].
      cbn [obind] in H. injection H as <- <-. eauto.
Qed.

Lemma call_sees : forall ps args kw b,
  wf_sig ps -> is_dict kw ->
  py_call_bind ps args kw = Ok b ->
  somes2 b = body_sees ps args kw.
Proof.
  intros ps args kw b [Ho Hn] Hd H. unfold py_call_bind, sig_bind in H.
  destruct (bind1 false ps args kw) as [[b1 rest]|] eqn:E1; [|discriminate]. cbn [obind] in H.
  destruct (bind2 false rest kw) as [[[b2 kp] kw']|] eqn:E2; [|discriminate]. cbn [obind] in H.
  assert (Hb : b = apply_defaults ps (b1 ++ b2 ++ tail_of kp kw')).
  { unfold tail_of. destruct kw' as [| x kw']; cbn [obind] in H.
    - injection H as <-. rewrite app_nil_r. reflexivity.
    - destruct kp; cbn [obind] in H; [|discriminate]. injection H as <-. reflexivity. }
  subst b. unfold body_sees.
  apply (bind1_sees ps _ _ _ args kw b1 rest b2 kp kw' _ Ho Hn E1 E2); auto.
  rewrite (bind2_left _ _ _ _ _ _ E2 Hd). unfold leftovers. apply filter_ext_in.
  intros [k v] Hi. cbn [fst]. f_equal. unfold memb.
  destruct (bind1_left _ _ _ _ _ _ E1) as [A B].
  assert (Hin : In k (map fst kw)) by (apply in_map_iff; exists (k, v); auto).
  apply eq_true_iff_eq. rewrite !existsb_exists. split; intros [n [Hx Hy]]; exists n; split; auto.
  - apply String.eqb_eq in Hy. subst n. apply in_map_iff in Hx as [p [Hp1 Hp2]].
    apply filter_In in Hp2 as [Hp2 Hp3]. unfold named_params. apply in_map_iff. exists p.
    split; auto. apply filter_In. split; auto.
    unfold nonvar in Hp3. destruct (p_kind p) eqn:Ek; try discriminate; auto.
    exfalso. rewrite <- Hp1 in Hin. apply kget_none in Hin; auto.
    refine (bind2_posonly _ _ _ _ _ _ _ p E2 (nodup_incl_sub _ _ _ _ _ _ E1 Hn) _ Hp2 Ek).
    auto.
  - apply String.eqb_eq in Hy. subst n. unfold named_params in Hx.
    apply in_map_iff in Hx as [p [Hp1 Hp2]].
    apply filter_In in Hp2 as [Hp2 Hp3]. apply in_map_iff. exists p. split; auto.
    apply filter_In. split.
    + destruct (A p Hp2) as [F|[F|[F|F]]]; auto; exfalso.
      * rewrite F in Hp3; discriminate.
      * rewrite F in Hp3; discriminate.
      * rewrite Hp1 in F. apply kget_none in F. auto.
    + unfold nonvar. destruct (p_kind p); try discriminate; auto.
Qed.

(** ** memoization keys *)
Definition no_items (b : bindings V) : Prop := forall n d, ~ In (n, BDict d) b.
Lemma tuplify_inj : forall b b' : bindings V, tuplify b = tuplify b' -> b = b'.
Proof.
  induction b as [| [n v] b IH]; intros [| [n' v'] b'] H; cbn in H; try discriminate; auto.
  injection H as H1 H2 H3. subst n'. f_equal; [|apply IH; exact H3].
  f_equal. destruct v, v'; congruence.
Qed.
Lemma somes2_inj : forall b b' : bindings V, somes2 b = somes2 b' -> b = b'.
Proof.
  induction b as [| [n v] b IH]; intros [| [n' v'] b'] H; cbn in H; try discriminate; auto.
  injection H as H1 H2 H3. subst. f_equal. apply IH; exact H3.
Qed.

Lemma key_iff_sees : forall ps a1 k1 a2 k2 key1 key2,
  wf_sig ps -> is_dict k1 -> is_dict k2 ->
  memo_key ps a1 k1 = Ok key1 -> memo_key ps a2 k2 = Ok key2 ->
  (key1 = key2 <-> body_sees ps a1 k1 = body_sees ps a2 k2).
Proof.
  intros ps a1 k1 a2 k2 key1 key2 Hw H1 H2 E1 E2.
  unfold memo_key in E1, E2.
  change (resolve_bindings ps a1 k1) with (py_call_bind ps a1 k1) in E1.
  change (resolve_bindings ps a2 k2) with (py_call_bind ps a2 k2) in E2.
  destruct (py_call_bind ps a1 k1) as [b1|] eqn:B1; [|discriminate].
  destruct (py_call_bind ps a2 k2) as [b2|] eqn:B2; [|discriminate].
  cbn [obind] in E1, E2. injection E1 as <-. injection E2 as <-.
  rewrite <- (call_sees _ _ _ _ Hw H1 B1), <- (call_sees _ _ _ _ Hw H2 B2).
  split; intros H.
  - apply tuplify_inj in H. subst; reflexivity.
  - apply somes2_inj in H. subst; reflexivity.
Qed.

Lemma same_value_refl : forall x : option (bval V), same_value x x.
Proof. intros [[v|l|d]|]; cbn; auto. Qed.
Lemma key_sound : forall ps a1 k1 a2 k2 key,
  wf_sig ps -> is_dict k1 -> is_dict k2 ->
  memo_key ps a1 k1 = Ok key -> memo_key ps a2 k2 = Ok key -> seen_alike ps a1 k1 a2 k2.
Proof.
  intros ps a1 k1 a2 k2 key Hw H1 H2 E1 E2. unfold seen_alike.
  rewrite (proj1 (key_iff_sees _ _ _ _ _ _ _ Hw H1 H2 E1 E2) eq_refl).
  generalize (body_sees ps a2 k2). intros l. induction l as [| x l IH]; constructor; auto.
  split; [reflexivity | apply same_value_refl].
Qed.
Lemma sees_no_dict : forall all ps args kw n d, no_var_kw ps ->
  ~ In (n, Some (BDict d)) (sees all ps args kw).
Proof.
  intros all. induction ps as [| p ps IH]; intros args kw n d Hv H; cbn [sees] in H; [exact H|].
  assert (Hv' : no_var_kw ps) by (intros q Hq; apply Hv; right; exact Hq).
  assert (Hb : forall k, by_name p k <> Some (BDict d)).
  { intros k. unfold by_name. destruct (kget k (p_name p)); [|destruct (p_default p)]; cbn; congruence. }
  specialize (Hv p (or_introl eq_refl)).
  destruct (p_kind p); try congruence.
  - destruct args as [| a args]; destruct H as [H|H]; try (injection H as _ H); try congruence;
      try (exact (IH _ _ _ _ Hv' H)).
  - destruct args as [| a args]; destruct H as [H|H]; try (injection H as _ H); try congruence;
      try (exact (IH _ _ _ _ Hv' H)).
  - destruct H as [H|H]; try (injection H as _ H); try congruence; exact (IH _ _ _ _ Hv' H).
  - destruct H as [H|H]; try (injection H as _ H); try (exact (Hb _ H)); exact (IH _ _ _ _ Hv' H).
Qed.
Lemma key_complete : forall ps a1 k1 a2 k2 key1 key2,
  wf_sig ps -> no_var_kw ps -> is_dict k1 -> is_dict k2 ->
  memo_key ps a1 k1 = Ok key1 -> memo_key ps a2 k2 = Ok key2 ->
  seen_alike ps a1 k1 a2 k2 -> key1 = key2.
Proof.
  intros ps a1 k1 a2 k2 key1 key2 Hw Hv H1 H2 E1 E2 Hs.
  apply (key_iff_sees _ _ _ _ _ _ _ Hw H1 H2 E1 E2).
  unfold seen_alike in Hs.
  assert (Hd : forall n d, ~ In (n, Some (BDict d)) (body_sees ps a1 k1))
    by (intros n d; apply sees_no_dict; exact Hv).
  revert Hs Hd. generalize (body_sees ps a1 k1), (body_sees ps a2 k2).
  induction 1 as [| [n x] [m y] l l' [Hx Hy] Hl IH]; intros Hd; auto.
  cbn in Hx, Hy. subst m. f_equal.
  - f_equal. destruct x as [[v|t|d]|]; cbn in Hy; auto.
    destruct (Hd n d). left; reflexivity.
  - apply IH. intros k d Hi. apply (Hd k d). right; exact Hi.
Qed.
End P.
