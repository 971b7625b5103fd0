From Coq Require Import String List Bool ZArith Lia.
From Verif Require Import Base CollModel CollProofs BindModel BindSpec.
Import ListNotations.
Open Scope list_scope.

Lemma kind_eqb_ok : forall a b, kind_eqb a b = true <-> a = b.
Proof. destruct a, b; simpl; split; congruence. Qed.

Section P.
Context {V : Type}.
Implicit Types (ps : signature V) (p : param V) (args : list V) (kw : dict pname V).

(** ** arities *)
Definition npos ps : nat := length (filter is_pos ps).
Definition nreq ps : nat := length (filter (fun p => is_pos p && negb (has_default p)) ps).
Definition hasvp ps : bool := existsb (fun p => kind_eqb (p_kind p) VarPos) ps.

Lemma arity_fold : forall ps l u,
  fold_left arity_step ps (l, u) =
  ((l + Z.of_nat (nreq ps))%Z,
   if hasvp ps then None else option_map (fun x => (x + Z.of_nat (npos ps))%Z) u).
Proof.
  induction ps as [| p ps IH]; intros l u; cbn [fold_left].
  - cbn. destruct u; cbn; repeat f_equal; lia.
  - unfold arity_step at 2.
    unfold nreq, npos, hasvp in *. cbn [filter existsb].
    destruct (is_pos p) eqn:E.
    + assert (Hk : kind_eqb (p_kind p) VarPos = false)
        by (unfold is_pos in E; destruct (p_kind p); cbn in *; congruence).
      rewrite Hk. cbn [orb]. rewrite IH. cbn [andb length].
      destruct (has_default p); cbn [negb length]; f_equal; try lia;
        destruct (existsb _ ps); auto; destruct u; cbn [option_map]; auto; f_equal; lia.
    + cbn [andb].
      destruct (kind_eqb (p_kind p) VarPos) eqn:E2; cbn [orb].
      * rewrite IH. destruct (existsb _ ps); auto.
      * rewrite IH. reflexivity.
Qed.

Lemma bind2_nokw : forall ps,
  (forall p, In p ps -> p_kind p = VarPos \/ p_kind p = VarKw \/ has_default p = true) ->
  exists kp, bind2 false ps [] = Ok ([], kp, []).
Proof.
  induction ps as [| p ps IH]; intros H; cbn [bind2].
  - eexists; reflexivity.
  - destruct (IH (fun q Hq => H q (or_intror Hq))) as [kp Hk].
    destruct (kind_eqb (p_kind p) VarKw) eqn:E1.
    + rewrite Hk. cbn. eexists; reflexivity.
    + destruct (kind_eqb (p_kind p) VarPos) eqn:E2; [eauto|].
      cbn [kget dict_get negb andb].
      destruct (H p (or_introl eq_refl)) as [F|[F|F]].
      * rewrite F in E2; discriminate.
      * rewrite F in E1; discriminate.
      * rewrite F. cbn. eauto.
Qed.

Lemma ordered_opt : forall ps st, ordered st true ps = true ->
  forall p, In p ps -> is_pos p = true -> has_default p = true.
Proof.
  assert (H2 : forall ps b p, ordered 2 b ps = true -> In p ps -> is_pos p = true -> False).
  { induction ps as [| q ps IH]; intros b p H Hi Hp; [destruct Hi|].
    cbn in H. destruct (p_kind q) eqn:E; try discriminate;
      destruct Hi as [<- | Hi];
      try (unfold is_pos in Hp; rewrite E in Hp; discriminate).
    - exact (IH _ _ H Hi Hp).
    - destruct ps; [destruct Hi | apply andb_true_iff in H as [_ H]; discriminate]. }
  induction ps as [| q ps IH]; intros st H p Hi Hp; [destruct Hi|].
  cbn in H. destruct (p_kind q) eqn:E.
  - apply andb_true_iff in H as [H H']. apply andb_true_iff in H as [_ H]. cbn in H.
    destruct Hi as [<- | Hi]; auto. rewrite H in H'. exact (IH _ H' p Hi Hp).
  - apply andb_true_iff in H as [H H']. apply andb_true_iff in H as [_ H]. cbn in H.
    destruct Hi as [<- | Hi]; auto. rewrite H in H'. exact (IH _ H' p Hi Hp).
  - apply andb_true_iff in H as [H H'].
    destruct Hi as [<- | Hi]; [unfold is_pos in Hp; rewrite E in Hp; discriminate|].
    destruct (H2 _ _ _ H' Hi Hp).
  - destruct Hi as [<- | Hi]; [unfold is_pos in Hp; rewrite E in Hp; discriminate|].
    destruct (H2 _ _ _ H Hi Hp).
  - destruct Hi as [<- | Hi]; [unfold is_pos in Hp; rewrite E in Hp; discriminate|].
    destruct ps; [destruct Hi | apply andb_true_iff in H as [_ H]; discriminate].
Qed.
Lemma ordered2_nopos : forall ps b p, ordered 2 b ps = true -> In p ps ->
  is_pos p = false /\ p_kind p <> VarPos.
Proof.
  induction ps as [| q ps IH]; intros b p H Hi; [destruct Hi|].
  cbn in H. destruct (p_kind q) eqn:E; try discriminate; destruct Hi as [<- | Hi];
    try (unfold is_pos; rewrite E; split; [reflexivity | congruence]).
  - exact (IH _ _ H Hi).
  - destruct ps; [destruct Hi | apply andb_true_iff in H as [_ H]; discriminate].
Qed.
Lemma ordered2_counts : forall ps b, ordered 2 b ps = true ->
  npos ps = 0 /\ nreq ps = 0 /\ hasvp ps = false.
Proof.
  intros ps b H.
  assert (A : forall l (f : param V -> bool), (forall p, In p l -> f p = false) -> filter f l = []).
  { induction l as [| x l IH]; intros f Hf; cbn; auto.
    rewrite (Hf x (or_introl eq_refl)). apply IH. intros p Hp; apply Hf; right; exact Hp. }
  split; [|split].
  - unfold npos. rewrite A; auto. intros p Hp. exact (proj1 (ordered2_nopos _ _ _ H Hp)).
  - unfold nreq. rewrite A; auto. intros p Hp.
    rewrite (proj1 (ordered2_nopos _ _ _ H Hp)); auto.
  - unfold hasvp. destruct (existsb _ ps) eqn:E; auto. apply existsb_exists in E as [p [Hp E]].
    apply kind_eqb_ok in E. destruct (proj2 (ordered2_nopos _ _ _ H Hp) E).
Qed.
Lemma nreq0 : forall ps st, ordered st true ps = true -> nreq ps = 0.
Proof.
  intros ps st H. unfold nreq.
  assert (A : forall l, (forall p, In p l -> is_pos p = true -> has_default p = true) ->
     filter (fun p => is_pos p && negb (has_default p)) l = []).
  { induction l as [| x l IH]; intros Hl; cbn; auto.
    destruct (is_pos x) eqn:E; cbn.
    - rewrite (Hl x (or_introl eq_refl) E). cbn. apply IH. intros q Hq; apply Hl; right; auto.
    - apply IH. intros q Hq; apply Hl; right; auto. }
  rewrite A; auto. exact (ordered_opt _ _ H).
Qed.

Definition okb {A} (o : outcome A) : bool := match o with Ok _ => true | Raise _ => false end.

Lemma sig_bind_count : forall ps st opt args,
  ordered st opt ps = true -> no_required_kwonly ps ->
  (okb (sig_bind false ps args []) = true <->
   nreq ps <= length args /\ (hasvp ps = true \/ length args <= npos ps)).
Proof.
  induction ps as [| p ps IH]; intros st opt args Ho Hk.
  { destruct args; unfold sig_bind; cbn; unfold nreq, npos; cbn; split; intuition; try lia; try discriminate. }
  assert (Hk' : no_required_kwonly ps) by (intros q Hq; apply Hk; right; auto).
  assert (Hrest : forall q b st, ordered st b (p :: ps) = true -> In q (p :: ps) ->
            is_pos q = true -> True) by auto.
  (* the part after the positional arguments ran out, at a parameter with a default *)
  unfold sig_bind. cbn [bind1].
  cbn [ordered] in Ho.
  destruct (p_kind p) eqn:E.
  1,2: (apply andb_true_iff in Ho as [Ho1 Ho2]; apply andb_true_iff in Ho1 as [Ho0 Ho1];
    assert (Hpos : is_pos p = true) by (unfold is_pos; rewrite E; reflexivity);
    assert (Hn : npos (p :: ps) = S (npos ps)) by (unfold npos; cbn [filter]; rewrite Hpos; reflexivity);
    assert (Hv : hasvp (p :: ps) = hasvp ps) by (unfold hasvp; cbn [existsb]; rewrite E; reflexivity);
    assert (Hr : nreq (p :: ps) = (if has_default p then 0 else 1) + nreq ps)
      by (unfold nreq; cbn [filter]; rewrite Hpos; cbn [andb]; destruct (has_default p); reflexivity);
    rewrite Hn, Hv, Hr;
    destruct args as [| a args];
    [ cbn [kind_eqb khas kget dict_get orb];
      destruct (has_default p) eqn:Ed;
      [ cbn [obind bind2]; rewrite E; cbn [kind_eqb kget dict_get negb andb]; rewrite Ed; cbn [negb];
        rewrite (nreq0 _ _ Ho2);
        destruct (bind2_nokw ps) as [kp Hb];
        [ intros q Hq; destruct (p_kind q) eqn:Eq; auto; right; right;
          try (apply (ordered_opt _ _ Ho2 q Hq); unfold is_pos; rewrite Eq; reflexivity);
          destruct (p_default q) eqn:Edq; [unfold has_default; rewrite Edq; reflexivity
             | destruct (Hk' q Hq Eq Edq)]
        | rewrite Hb; cbn; split; auto; intros _; split; [lia| right; lia] ]
      | cbn; split; [discriminate | lia] ]
    | cbn [kind_eqb khas kget dict_get orb andb];
      specialize (IH _ _ args Ho2 Hk'); unfold sig_bind in IH;
      destruct (bind1 false ps args []) as [[b r]|e] eqn:Eb; cbn [obind okb] in IH |- *;
      [ destruct (bind2 false r []) as [[[b2 kp] kw2]|e2] eqn:Eb2; cbn [obind okb] in IH |- *;
        [ destruct kw2; [|destruct kp]; cbn [okb] in IH |- *; rewrite IH; cbn [length];
          (destruct (has_default p) eqn:Ed; cbn [Nat.add]; [pose proof (nreq0 _ _ Ho2); intuition lia | intuition lia])
        | rewrite IH; cbn [length]; (destruct (has_default p) eqn:Ed; cbn [Nat.add]; [pose proof (nreq0 _ _ Ho2); intuition lia | intuition lia]) ]
      | rewrite IH; cbn [length]; (destruct (has_default p) eqn:Ed; cbn [Nat.add]; [pose proof (nreq0 _ _ Ho2); intuition lia | intuition lia]) ] ]).
  - (* VarPos *)
    apply andb_true_iff in Ho as [Ho1 Ho2]. apply andb_true_iff in Ho1 as [_ Ho1].
    destruct (ordered2_counts _ _ Ho2) as [A [B C]].
    assert (Hv : hasvp (p :: ps) = true) by (unfold hasvp; cbn [existsb]; rewrite E; reflexivity).
    assert (Hr : nreq (p :: ps) = nreq ps).
    { unfold nreq. cbn [filter]. unfold is_pos at 1. rewrite E. reflexivity. }
    rewrite Hv, Hr, B.
    assert (Hb : exists kp, bind2 false ps [] = Ok ([], kp, [])).
    { apply bind2_nokw. intros q Hq. destruct (ordered2_nopos _ _ _ Ho2 Hq) as [Q1 Q2].
      destruct (p_kind q) eqn:Eq; auto; unfold is_pos in Q1; rewrite Eq in Q1; try discriminate.
      right; right. unfold has_default. destruct (p_default q) eqn:Edq; auto.
      destruct (Hk' q Hq Eq Edq). }
    destruct Hb as [kp Hb].
    destruct args; cbn [kind_eqb orb obind]; rewrite Hb; cbn; split; auto; intros _; split; auto; lia.
  - (* KwOnly *)
    destruct (ordered2_counts (p :: ps) opt) as [A [B C]].
    { cbn [ordered]. rewrite E. exact Ho. }
    rewrite A, B, C.
    assert (Hd : has_default p = true).
    { unfold has_default. destruct (p_default p) eqn:Ed; auto.
      destruct (Hk p (or_introl eq_refl) E Ed). }
    destruct args as [| a args]; cbn [kind_eqb orb khas kget dict_get]; [rewrite Hd; cbn [obind]|].
    + destruct (bind2_nokw (p :: ps)) as [kp Hb].
      { intros q [<- | Hq]; [auto|].
        destruct (ordered2_nopos _ _ _ Ho Hq) as [Q1 Q2].
        destruct (p_kind q) eqn:Eq; auto; unfold is_pos in Q1; rewrite Eq in Q1; try discriminate.
        right; right. unfold has_default. destruct (p_default q) eqn:Edq; auto.
        destruct (Hk' q Hq Eq Edq). }
      rewrite Hb. cbn. split; auto.
    + cbn [obind okb length]. split; [discriminate|]. intros [_ [H|H]]; [discriminate|lia].
  - (* VarKw *)
    apply andb_true_iff in Ho as [_ Ho]. destruct ps; [|discriminate].
    destruct args as [| a args]; cbn [kind_eqb orb khas kget dict_get obind bind2].
    + rewrite E. cbn. unfold nreq, npos, hasvp. cbn. unfold is_pos. rewrite E. cbn. split; auto.
    + cbn. unfold nreq, npos, hasvp. cbn. unfold is_pos. rewrite E. cbn.
      split; [discriminate|]. intros [_ [H|H]]; [discriminate|lia].
Qed.

Lemma accepts_okb : forall ps args, accepts ps args <-> okb (sig_bind false ps args []) = true.
Proof.
  intros ps args. unfold accepts, py_call_bind.
  destruct (sig_bind false ps args []) as [b|e]; cbn; split; intros H; auto.
  - eexists; reflexivity.
  - destruct H as [b H]; discriminate.
  - discriminate.
Qed.

Lemma arity_includes_ok : forall bound ps self args,
  wf_sig ps -> no_required_kwonly ps ->
  (arity_includes bound ps (zlen args) = true <->
   accepts ps (if bound : bool then self :: args else args)).
Proof.
  intros bound ps self args [Ho _] Hk.
  rewrite accepts_okb, (sig_bind_count ps _ _ _ Ho Hk).
  unfold arity_includes, arities. rewrite arity_fold. unfold zlen.
  destruct bound, (hasvp ps); cbn [option_map length];
    rewrite andb_true_iff, Z.leb_le; try rewrite Z.leb_le; intuition; try lia; try discriminate.
Qed.

Lemma generic_covers : forall bound methods ps n,
  In ps methods -> arity_includes bound ps n = true ->
  generic_arity_includes bound methods n = true.
Proof.
  intros bound methods ps n.
  assert (G : forall (ms : list (signature V)) l u,
    let '(l', u') := fold_left (fun (lu : option Z * option Z) (q : signature V) =>
               let '(l, u) := lu in
               let '(lower, upper) := arities bound q in
               (Some (omin l lower), omax u upper)) ms (l, u) in
    (forall x, l = Some x -> exists y, l' = Some y /\ (y <= x)%Z) /\
    (forall x, u' = Some x -> exists y, u = Some y /\ (y <= x)%Z) /\
    (forall q, In q ms -> let '(lo, up) := arities bound q in
       (exists y, l' = Some y /\ (y <= lo)%Z) /\
       (forall x, u' = Some x -> exists y, up = Some y /\ (y <= x)%Z))).
  { induction ms as [| q ms IH]; intros l u; cbn [fold_left].
    - split; [|split].
      + intros x Hx. exists x. split; [exact Hx | lia].
      + intros x Hx. exists x. split; [exact Hx | lia].
      + intros q [].
    - destruct (arities bound q) as [lo up] eqn:Eq.
      specialize (IH (Some (omin l lo)) (omax u up)).
      destruct (fold_left _ ms _) as [l' u']. destruct IH as [H1 [H2 H3]].
      destruct (H1 _ eq_refl) as [y [Hy1 Hy2]].
      assert (Hmin : (omin l lo <= lo)%Z /\ forall x, l = Some x -> (omin l lo <= x)%Z).
      { destruct l as [x|]; cbn.
        - destruct (lo <? x)%Z eqn:E; [apply Z.ltb_lt in E | apply Z.ltb_ge in E];
            split; try lia; intros z Hz; injection Hz as <-; lia.
        - split; [lia | discriminate]. }
      assert (Hmax : forall x, u' = Some x -> (exists z, u = Some z /\ (z <= x)%Z) /\
                                            (exists z, up = Some z /\ (z <= x)%Z)).
      { intros x Hx. destruct (H2 x Hx) as [z [Hz1 Hz2]].
        destruct u as [a|], up as [b|]; cbn in Hz1; try discriminate.
        destruct (a <? b)%Z eqn:E; [apply Z.ltb_lt in E | apply Z.ltb_ge in E]; injection Hz1 as <-;
          split; eexists; split; try reflexivity; lia. }
      split; [|split].
      + intros x Hx. exists y. split; auto. pose proof (proj2 Hmin x Hx). lia.
      + intros x Hx. exact (proj1 (Hmax x Hx)).
      + intros r [<- | Hr].
        * rewrite Eq. split; [exists y; split; auto; lia|]. intros x Hx. exact (proj2 (Hmax x Hx)).
        * exact (H3 r Hr). }
  intros Hin Hinc. unfold generic_arity_includes, generic_arities.
  specialize (G methods None (Some 0%Z)).
  destruct (fold_left _ methods _) as [l' u']. destruct G as [_ [_ G]]. specialize (G ps Hin).
  unfold arity_includes in Hinc. destruct (arities bound ps) as [lo up].
  destruct G as [[y [-> Hy]] Hu].
  apply andb_true_iff in Hinc as [A B]. apply Z.leb_le in A.
  apply andb_true_iff. split; [apply Z.leb_le; lia|].
  destruct u' as [x|]; auto. destruct (Hu x eq_refl) as [z [-> Hz]].
  apply Z.leb_le in B. apply Z.leb_le. lia.
Qed.

Lemma kwargs_of_ok : forall opt ps n,
  In n (kwargs_of opt ps) <->
  exists p, In p ps /\ p_name p = n /\ p_kind p = KwOnly /\
            (if opt : bool then p_default p <> None else p_default p = None).
Proof.
  intros opt ps n. unfold kwargs_of. rewrite in_map_iff. split.
  - intros [p [<- Hp]]. apply filter_In in Hp as [Hp H]. apply andb_true_iff in H as [H1 H2].
    apply kind_eqb_ok in H1. exists p. repeat split; auto.
    unfold has_default in H2. destruct opt, (p_default p); cbn in *; congruence.
  - intros [p [Hp [<- [Hk Hd]]]]. exists p. split; auto. apply filter_In. split; auto.
    rewrite Hk. cbn. unfold has_default. destruct opt, (p_default p); cbn in *; congruence.
Qed.
End P.
