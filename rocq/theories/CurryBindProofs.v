(** Binding against the signature of a partially applied function with fixed parameters. *)
From Coq Require Import String List Bool ZArith Lia.
From Verif Require Import Base CollModel CollProofs BindModel BindSpec BindProofs BindSeesProofs.
Import ListNotations.
Open Scope list_scope.

Section P.
Context {V : Type}.
Implicit Types (ps P Q : signature V) (p : param V) (a args : list V) (kw k K : dict pname V).

(** the signature after [n] positional arguments and the named ones [K] *)
Fixpoint eff (n : nat) (K : dict pname V) (tk : bool) (P : signature V) : signature V :=
  match P with
  | [] => []
  | p :: P' =>
      match n with
      | S n' => eff n' K tk P'
      | O =>
          match kget K (p_name p) with
          | Some v => mkparam (p_name p) KwOnly (Some v)
                        :: eff 0 K (tk || kind_eqb (p_kind p) PosOrKw) P'
          | None => mkparam (p_name p) (if tk && kind_eqb (p_kind p) PosOrKw then KwOnly else p_kind p)
                      None :: eff 0 K tk P'
          end
      end
  end.
(** [n] positional arguments and the named ones [K] fit, so far *)
Fixpoint pv (n : nat) (P : signature V) (K : dict pname V) : Prop :=
  match P with
  | [] => n = 0
  | p :: P' =>
      match n with
      | S n' => is_pos p = true /\ kget K (p_name p) = None /\ pv n' P' K
      | O => (p_kind p = PosOnly -> kget K (p_name p) = None) /\ pv 0 P' K
      end
  end.
Definition complete (n : nat) P K : Prop :=
  forall p, In p (skipn n P) -> kget K (p_name p) <> None.
Definition zone (n : nat) P a : bindings V :=
  map (fun pa => (p_name (fst pa), BV (snd pa))) (combine (skipn n P) a).

Lemma kget_app : forall K k n,
  kget (K ++ k) n = match kget K n with Some v => Some v | None => kget k n end.
Proof.
  unfold kget. induction K as [| [m v] K IH]; intros k n; cbn; auto. destruct (String.eqb m n); auto.
Qed.
Lemma kget_app_none : forall K k n, kget (K ++ k) n = None -> kget K n = None /\ kget k n = None.
Proof. intros K k n. rewrite kget_app. destruct (kget K n); [discriminate|auto]. Qed.
Lemma disjoint : forall K k n v, is_dict (K ++ k) -> kget K n = Some v -> kget k n = None.
Proof.
  unfold is_dict. intros K k n v H Hg. apply kget_none. intros Hi. apply kget_in in Hg.
  rewrite map_app in H. clear v. induction K as [| [m w] K IH]; [destruct Hg|].
  cbn in H, Hg. inversion H as [| x y Hx Hy]; subst.
  destruct Hg as [-> | Hg]; [|auto].
  apply Hx. apply in_app_iff. auto.
Qed.
Lemma pv0 : forall P K, pv 0 P K <-> forall p, In p P -> p_kind p = PosOnly -> kget K (p_name p) = None.
Proof.
  induction P as [| q P IH]; intros K; cbn.
  - split; auto. intros _ p [].
  - rewrite IH. split.
    + intros [A B] p [<- | Hp]; auto.
    + intros H. split; auto.
Qed.
Lemma pv_rest : forall P n K, pv n P K -> pv 0 (skipn n P) K.
Proof.
  induction P as [| p P IH]; intros [| n] K H; cbn in *; auto. apply IH. apply H.
Qed.
Lemma pv_zone : forall P n K, pv n P K ->
  forall p, In p (firstn n P) -> is_pos p = true /\ kget K (p_name p) = None.
Proof.
  induction P as [| q P IH]; intros [| n] K H p Hp; cbn in *; try contradiction.
  destruct H as [A [B C]]. destruct Hp as [<- | Hp]; auto. exact (IH _ _ C p Hp).
Qed.
Lemma pv_le : forall P n K, pv n P K -> n <= length P.
Proof.
  induction P as [| q P IH]; intros [| n] K H; cbn in *; try lia.
  destruct H as [A [B C]]. specialize (IH _ _ C). lia.
Qed.
Lemma pv_mono : forall P n m K k, pv (n + m) P (K ++ k) -> pv n P K.
Proof.
  induction P as [| q P IH]; intros n m K k H; cbn in *; [lia|].
  destruct n as [| n]; cbn in H.
  - destruct m as [| m].
    + destruct H as [A B]. split; [intros E; exact (proj1 (kget_app_none _ _ _ (A E)))|].
      exact (IH 0 0 K k B).
    + destruct H as [A [B C]]. split; [intros _; exact (proj1 (kget_app_none _ _ _ B))|].
      exact (IH 0 m K k C).
  - destruct H as [A [B C]]. split; auto. split; [exact (proj1 (kget_app_none _ _ _ B))|].
    exact (IH n m K k C).
Qed.

Lemma eff_start : forall P, fixed P -> eff 0 [] false P = P.
Proof.
  induction P as [| p P IH]; intros H; cbn; auto.
  rewrite IH by (intros q Hq; apply H; right; exact Hq). f_equal.
  destruct (H p (or_introl eq_refl)) as [A _]. destruct p as [n kd d]; cbn in *. congruence.
Qed.
Lemma eff_names : forall P n K tk, map p_name (eff n K tk P) = map p_name (skipn n P).
Proof.
  induction P as [| p P IH]; intros n K tk; destruct n as [| n]; cbn; auto.
  destruct (kget K (p_name p)); cbn; f_equal; apply (IH 0).
Qed.
Lemma eff_skip : forall P n m K tk, eff m K tk (skipn n P) = eff (n + m) K tk P.
Proof.
  induction P as [| p P IH]; intros n m K tk; destruct n as [| n]; cbn; auto.
Qed.

Lemma skip_skip : forall (l : list (param V)) n m, skipn m (skipn n l) = skipn (n + m) l.
Proof. induction l as [| x l IH]; intros [| n] m; cbn; auto; destruct m; reflexivity. Qed.

(** *** the positional zone *)
Lemma bind1_zone : forall part P n a K k, fixed P -> pv (n + length a) P (K ++ k) ->
  bind1 part (eff n K false P) a k =
  (do (b, r) <- bind1 part (eff (n + length a) K false P) [] k; Ok (zone n P a ++ b, r)).
Proof.
  intros part. induction P as [| p P IH]; intros n a K k Hf H.
  - cbn in H. assert (n = 0) by lia. assert (length a = 0) by lia. subst n.
    destruct a; [|discriminate]. reflexivity.
  - assert (Hf' : fixed P) by (intros q Hq; apply Hf; right; exact Hq).
    destruct n as [| n].
    + destruct a as [| x a].
      * cbn [length Nat.add]. unfold zone. cbn [skipn combine map app].
        destruct (bind1 part _ [] k) as [[b r]|]; auto.
      * cbn [length Nat.add pv] in H. destruct H as [A [B C]].
        apply kget_app_none in B as [B1 B2].
        cbn [length Nat.add eff]. rewrite B1. cbn [andb].
        cbn [bind1 p_kind p_name]. unfold is_pos in A.
        assert (Hk : khas k (p_name p) = false) by (apply khas_false; exact B2).
        rewrite Hk. cbn [andb].
        specialize (IH 0 a K k Hf' C). cbn [Nat.add] in IH.
        destruct (p_kind p); try discriminate; cbn [kind_eqb orb];
          rewrite IH; destruct (bind1 part (eff (length a) K false P) [] k) as [[b r]|];
          cbn [obind]; auto; unfold zone; cbn [skipn combine map fst snd app]; reflexivity.
    + cbn [Nat.add pv] in H. destruct H as [A [B C]].
      cbn [Nat.add eff]. rewrite (IH n a K k Hf' C). reflexivity.
Qed.
Lemma ubind1_zone : forall P n a K k, fixed P -> pv (n + length a) P (K ++ k) ->
  ubind1 (eff n K false P) a k =
  (do (b, u, e, r) <- ubind1 (eff (n + length a) K false P) [] k; Ok (zone n P a ++ b, u, e, r)).
Proof.
  induction P as [| p P IH]; intros n a K k Hf H.
  - cbn in H. assert (n = 0) by lia. assert (length a = 0) by lia. subst n.
    destruct a; [|discriminate]. reflexivity.
  - assert (Hf' : fixed P) by (intros q Hq; apply Hf; right; exact Hq).
    destruct n as [| n].
    + destruct a as [| x a].
      * cbn [length Nat.add]. unfold zone. cbn [skipn combine map app].
        destruct (ubind1 _ [] k) as [[[[b u] e] r]|]; auto.
      * cbn [length Nat.add pv] in H. destruct H as [A [B C]].
        apply kget_app_none in B as [B1 B2].
        cbn [length Nat.add eff]. rewrite B1. cbn [andb].
        cbn [ubind1 p_kind p_name]. unfold is_pos in A.
        assert (Hk : khas k (p_name p) = false) by (apply khas_false; exact B2).
        rewrite Hk. cbn [andb].
        specialize (IH 0 a K k Hf' C). cbn [Nat.add] in IH.
        destruct (p_kind p); try discriminate; cbn [kind_eqb orb];
          rewrite IH; destruct (ubind1 (eff (length a) K false P) [] k) as [[[[b u] e] r]|];
          cbn [obind]; auto; unfold zone; cbn [skipn combine map fst snd app]; reflexivity.
    + cbn [Nat.add pv] in H. destruct H as [A [B C]].
      cbn [Nat.add eff]. rewrite (IH n a K k Hf' C). reflexivity.
Qed.

(** *** after the positional zone *)
(** the parameters [eff 0 K tk P]: no *args or **kwargs; positional-only ones not named *)
Definition plain Q k : Prop :=
  forall q, In q Q -> (p_kind q = PosOnly \/ p_kind q = PosOrKw \/ p_kind q = KwOnly) /\
                      (p_kind q = PosOnly -> kget k (p_name q) = None).
Lemma eff_plain : forall P K k tk, fixed P -> pv 0 P (K ++ k) -> plain (eff 0 K tk P) k.
Proof.
  induction P as [| p P IH]; intros K k tk Hf H q Hq; [destruct Hq|].
  assert (Hf' : fixed P) by (intros r Hr; apply Hf; right; exact Hr).
  destruct (Hf p (or_introl eq_refl)) as [_ Hk].
  cbn [pv] in H. destruct H as [A B]. cbn [eff] in Hq.
  destruct (kget K (p_name p)) as [v|] eqn:E.
  - destruct Hq as [<- | Hq]; [cbn; split; auto; discriminate | exact (IH _ _ _ Hf' B q Hq)].
  - destruct Hq as [<- | Hq]; [|exact (IH _ _ _ Hf' B q Hq)].
    cbn. destruct (tk && kind_eqb (p_kind p) PosOrKw); [split; auto; discriminate|].
    split; auto. intros Hp. exact (proj2 (kget_app_none _ _ _ (A Hp))).
Qed.
Lemma plain_tail : forall q Q k, plain (q :: Q) k -> plain Q k.
Proof. intros q Q k H r Hr. apply H. right; exact Hr. Qed.
Lemma bind1_rest : forall Q k, plain Q k -> bind1 true Q [] k = Ok ([], Q).
Proof.
  intros [| q Q] k H; cbn [bind1]; auto.
  destruct (H q (or_introl eq_refl)) as [A B].
  destruct (khas k (p_name q)) eqn:E.
  - assert (p_kind q <> PosOnly).
    { intros F. specialize (B F). apply khas_false in B. congruence. }
    destruct (p_kind q); cbn [kind_eqb]; auto; try congruence; intuition discriminate.
  - destruct (p_kind q); cbn [kind_eqb orb]; try reflexivity; try (intuition discriminate);
      destruct (has_default q); reflexivity.
Qed.
Lemma bind2_rest : forall Q k kwc, plain Q k -> NoDup (map p_name Q) ->
  (forall q, In q Q -> kget kwc (p_name q) = kget k (p_name q)) ->
  exists b kw', bind2 true Q kwc = Ok (b, None, kw') /\
    (forall n, bget b n = if memb (map p_name Q) n then option_map BV (kget k n) else None).
Proof.
  induction Q as [| q Q IH]; intros k kwc Hp Hn Hk; cbn [bind2].
  - exists [], kwc. split; auto.
  - cbn [map] in Hn. inversion Hn as [| x y Hx Hy]; subst x y.
    destruct (Hp q (or_introl eq_refl)) as [A B].
    assert (E1 : kind_eqb (p_kind q) VarKw = false) by (destruct (p_kind q); auto; intuition discriminate).
    assert (E2 : kind_eqb (p_kind q) VarPos = false) by (destruct (p_kind q); auto; intuition discriminate).
    rewrite E1, E2. rewrite (Hk q (or_introl eq_refl)).
    assert (Hmem : memb (map p_name Q) (p_name q) = false).
    { unfold memb. destruct (existsb _ _) eqn:E; auto. apply existsb_exists in E as [z [Hz1 Hz2]].
      apply String.eqb_eq in Hz2. subst z. contradiction. }
    destruct (kget k (p_name q)) as [v|] eqn:Eg.
    + assert (E3 : kind_eqb (p_kind q) PosOnly = false).
      { destruct (p_kind q); auto. specialize (B eq_refl). discriminate. }
      rewrite E3.
      destruct (IH k (kdel kwc (p_name q)) (plain_tail _ _ _ Hp) Hy) as [b [kw' [Hb1 Hb2]]].
      { intros r Hr. rewrite kget_kdel_ne; [apply Hk; right; exact Hr|].
        intros Heq. apply Hx. rewrite Heq. apply in_map; exact Hr. }
      rewrite Hb1. cbn [obind]. eexists _, kw'. split; [reflexivity|].
      intros n. cbn [bget]. unfold memb in *. cbn [map existsb].
      rewrite (String.eqb_sym n (p_name q)).
      destruct (String.eqb (p_name q) n) eqn:E; cbn [orb]; [|apply Hb2].
      apply String.eqb_eq in E. subst n. rewrite Eg. reflexivity.
    + cbn [negb andb].
      destruct (IH k kwc (plain_tail _ _ _ Hp) Hy) as [b [kw' [Hb1 Hb2]]].
      { intros r Hr. apply Hk; right; exact Hr. }
      exists b, kw'. split; auto. intros n. rewrite Hb2. unfold memb in *. cbn [map existsb].
      rewrite (String.eqb_sym n (p_name q)).
      destruct (String.eqb (p_name q) n) eqn:E; cbn [orb]; auto.
      apply String.eqb_eq in E. subst n. rewrite Hmem, Eg. reflexivity.
Qed.
Definition unb k (q : param V) : bool := negb (has_default q) && negb (khas k (p_name q)).
Lemma ubind2_rest : forall Q k kwc, plain Q k -> NoDup (map p_name Q) -> is_dict kwc ->
  (forall q, In q Q -> kget kwc (p_name q) = kget k (p_name q)) ->
  exists b, ubind2 Q kwc = Ok (b, filter (unb k) Q, None, leftovers (map p_name Q) kwc).
Proof.
  induction Q as [| q Q IH]; intros k kwc Hp Hn Hd Hk; cbn [ubind2].
  - exists []. f_equal. f_equal. unfold leftovers. cbn.
    clear. induction kwc as [| x l IH]; cbn; f_equal; auto.
  - cbn [map] in Hn. inversion Hn as [| x y Hx Hy]; subst x y.
    destruct (Hp q (or_introl eq_refl)) as [A B].
    assert (E1 : kind_eqb (p_kind q) VarKw = false) by (destruct (p_kind q); auto; intuition discriminate).
    assert (E2 : kind_eqb (p_kind q) VarPos = false) by (destruct (p_kind q); auto; intuition discriminate).
    rewrite E1, E2. rewrite (Hk q (or_introl eq_refl)).
    cbn [filter].
    assert (Hu : unb k q = negb (has_default q) && negb (khas k (p_name q))) by reflexivity.
    rewrite Hu. unfold khas.
    destruct (kget k (p_name q)) as [v|] eqn:Eg.
    + assert (E3 : kind_eqb (p_kind q) PosOnly = false).
      { destruct (p_kind q); auto. specialize (B eq_refl). discriminate. }
      rewrite E3. cbn [negb]. rewrite andb_false_r.
      assert (Hd' : is_dict (kdel kwc (p_name q))).
      { rewrite kdel_filter by exact Hd. apply is_dict_filter; exact Hd. }
      destruct (IH k (kdel kwc (p_name q)) (plain_tail _ _ _ Hp) Hy Hd') as [b Hb].
      { intros r Hr. rewrite kget_kdel_ne; [apply Hk; right; exact Hr|].
        intros Heq. apply Hx. rewrite Heq. apply in_map; exact Hr. }
      rewrite Hb. cbn [obind]. eexists. do 2 f_equal.
      rewrite kdel_filter by exact Hd. unfold leftovers. clear.
      induction kwc as [| [m w] l IH]; cbn [filter fst]; auto.
      unfold memb in *. cbn [map existsb].
      destruct (String.eqb m (p_name q)) eqn:E1; cbn [negb orb filter fst]; auto.
      destruct (existsb _ _); cbn [negb]; auto. f_equal. exact IH.
    + destruct (IH k kwc (plain_tail _ _ _ Hp) Hy Hd) as [b Hb].
      { intros r Hr. apply Hk; right; exact Hr. }
      rewrite Hb. cbn [obind negb]. eexists.
      assert (HL : leftovers (map p_name Q) kwc = leftovers (map p_name (q :: Q)) kwc).
      { unfold leftovers. apply filter_ext_in. intros [m w] Hi. unfold memb. cbn [fst map existsb].
        destruct (String.eqb m (p_name q)) eqn:E; auto. apply String.eqb_eq in E. subst m.
        rewrite <- (Hk q (or_introl eq_refl)) in Eg. apply kget_none in Eg. destruct Eg.
        apply in_map_iff. exists (p_name q, w); auto. }
      rewrite <- HL. rewrite andb_true_r.
      destruct (has_default q); reflexivity.
Qed.
Lemma ubind1_rest : forall Q k, plain Q k ->
  exists u r, ubind1 Q [] k = Ok ([], u, [], r) /\ Q = u ++ r /\ forall q, In q u -> unb k q = true.
Proof.
  induction Q as [| q Q IH]; intros k Hp; cbn [ubind1].
  - exists [], []. repeat split; auto.
  - destruct (Hp q (or_introl eq_refl)) as [A B].
    assert (E1 : kind_eqb (p_kind q) VarKw = false) by (destruct (p_kind q); auto; intuition discriminate).
    assert (E2 : kind_eqb (p_kind q) VarPos = false) by (destruct (p_kind q); auto; intuition discriminate).
    rewrite E1, E2. cbn [orb].
    destruct (khas k (p_name q)) eqn:Eh.
    + assert (E3 : kind_eqb (p_kind q) PosOnly = false).
      { destruct (p_kind q); auto. specialize (B eq_refl). apply khas_false in B. congruence. }
      rewrite E3. exists [], (q :: Q). repeat split; auto.
    + destruct (has_default q) eqn:Ed.
      * exists [], (q :: Q). repeat split; auto.
      * destruct (IH k (plain_tail _ _ _ Hp)) as [u [r [H1 [H2 H3]]]]. rewrite H1. cbn [obind].
        exists (q :: u), r. repeat split; auto.
        -- cbn. rewrite H2. reflexivity.
        -- intros s [<- | Hs]; auto. unfold unb. rewrite Ed, Eh. reflexivity.
Qed.

Lemma leftovers_nil : forall l k, (forall n, In n (map fst k) -> In n l) -> leftovers l k = [].
Proof.
  intros l k. unfold leftovers. induction k as [| [m v] k IH]; intros H; cbn [filter fst]; auto.
  assert (E : memb l m = true).
  { unfold memb. apply existsb_exists. exists m. split; [apply H; left; auto | apply String.eqb_refl]. }
  rewrite E. cbn [negb]. apply IH. intros n Hn. apply H. right; exact Hn.
Qed.

(** the names that fit belong to the parameters after the positional zone *)
Lemma names_rest : forall P n K, pv n P K -> incl (map fst K) (map p_name P) ->
  incl (map fst K) (map p_name (skipn n P)).
Proof.
  intros P n K H Hi m Hm. specialize (Hi m Hm).
  rewrite <- (firstn_skipn n P), map_app in Hi. apply in_app_iff in Hi as [Hi|Hi]; auto.
  apply in_map_iff in Hi as [p [<- Hp]]. destruct (pv_zone _ _ _ H p Hp) as [_ E].
  apply kget_none in E. contradiction.
Qed.
Lemma nodup_skip : forall P n, NoDup (map p_name P) -> NoDup (map p_name (skipn n P)).
Proof.
  induction P as [| p P IH]; intros [| n] H; cbn; auto. apply IH. cbn in H. inversion H; auto.
Qed.

(** Lemma: [_bind] on a fitting call *)
Lemma ubind_fits : forall P n a K k,
  fixed P -> NoDup (map p_name P) -> is_dict (K ++ k) ->
  pv (n + length a) P (K ++ k) -> incl (map fst (K ++ k)) (map p_name P) ->
  exists b, ubind (eff n K false P) a k =
    Ok (mkanalysis b (filter (unb k) (eff (n + length a) K false P)) [] []).
Proof.
  intros P n a K k Hf Hn Hd Hpv Hi. unfold ubind.
  rewrite (ubind1_zone _ _ _ _ _ Hf Hpv).
  set (Q := eff (n + length a) K false P).
  assert (HpQ : plain Q k).
  { unfold Q. rewrite <- (Nat.add_0_r (n + length a)), <- eff_skip. apply eff_plain.
    - intros q Hq. apply Hf. rewrite <- (firstn_skipn (n + length a) P). apply in_app_iff. auto.
    - apply pv_rest. exact Hpv. }
  assert (HnQ : NoDup (map p_name Q)) by (unfold Q; rewrite eff_names; apply nodup_skip; exact Hn).
  destruct (ubind1_rest Q k HpQ) as [u [r [H1 [H2 H3]]]]. rewrite H1. cbn [obind].
  assert (Hdk : is_dict k).
  { unfold is_dict in *. rewrite map_app in Hd. clear -Hd. induction (map fst K); auto.
    apply IHl. inversion Hd; auto. }
  assert (Hpr : plain r k) by (intros q Hq; apply HpQ; rewrite H2; apply in_app_iff; auto).
  assert (Hnr : NoDup (map p_name r)).
  { rewrite H2, map_app in HnQ. clear -HnQ. induction (map p_name u); auto. apply IHl. inversion HnQ; auto. }
  destruct (ubind2_rest r k k Hpr Hnr Hdk) as [b2 Hb2]; auto. rewrite Hb2. cbn [obind].
  rewrite leftovers_nil.
  2:{ intros m Hm.
      assert (Hq : In m (map p_name Q)).
      { unfold Q. rewrite eff_names. apply (names_rest _ _ _ Hpv Hi). rewrite map_app.
        apply in_app_iff. auto. }
      rewrite H2, map_app in Hq. apply in_app_iff in Hq as [Hq|Hq]; auto.
      apply in_map_iff in Hq as [q [<- Hq]]. specialize (H3 q Hq).
      unfold unb in H3. apply andb_true_iff in H3 as [_ H3].
      apply khas_true in Hm. rewrite Hm in H3. discriminate. }
  eexists. do 2 f_equal. rewrite H2, filter_app. f_equal.
  clear -H3. induction u as [| q u IH]; cbn; auto. rewrite (H3 q (or_introl eq_refl)). f_equal.
  apply IH. intros s Hs. apply H3. right; exact Hs.
Qed.
Lemma unb_complete : forall P n K k, fixed P ->
  (filter (unb k) (eff n K false P) = [] <-> complete n P (K ++ k)).
Proof.
  assert (G : forall P K k tk, fixed P ->
    (filter (unb k) (eff 0 K tk P) = [] <-> forall p, In p P -> kget (K ++ k) (p_name p) <> None)).
  { induction P as [| p P IH]; intros K k tk Hf; cbn [eff].
    - cbn. split; auto.
    - assert (Hf' : fixed P) by (intros r Hr; apply Hf; right; exact Hr).
      assert (X : forall Q, (forall q, In q (p :: P) -> kget (K ++ k) (p_name q) <> None) <->
                 (kget (K ++ k) (p_name p) <> None /\ forall q, In q P -> kget (K ++ k) (p_name q) <> None)).
      { intros _. split; [intros H; split; [apply H; left; auto | intros q Hq; apply H; right; auto]
          | intros [A B] q [<- | Hq]; auto]. }
      rewrite (X P). rewrite kget_app.
      destruct (kget K (p_name p)) as [v|] eqn:E; cbn [filter]; unfold unb at 1;
        cbn [has_default p_default negb andb p_name].
      + rewrite (IH K k _ Hf'). split; [intros H; split; [discriminate|exact H] | intros [_ H]; exact H].
      + unfold khas. destruct (kget k (p_name p)) as [w|]; cbn [negb].
        * rewrite (IH K k _ Hf'). split; [intros H; split; [discriminate|exact H] | intros [_ H]; exact H].
        * split; [discriminate | intros [H _]; congruence]. }
  intros P n K k Hf. rewrite <- (Nat.add_0_r n) at 1. rewrite <- eff_skip.
  rewrite G; [reflexivity|].
  intros q Hq. apply Hf. rewrite <- (firstn_skipn n P). apply in_app_iff. auto.
Qed.

(** Lemma: the signature of a partial application that fits *)
Lemma params_rest : forall P K k tk1 tk2 ba,
  fixed P -> is_dict (K ++ k) -> pv 0 P (K ++ k) ->
  (forall p, In p P -> bget ba (p_name p) = option_map BV (kget k (p_name p))) ->
  partial_params (eff 0 K tk1 P) ba k tk2 = eff 0 (K ++ k) (tk1 || tk2) P.
Proof.
  induction P as [| p P IH]; intros K k tk1 tk2 ba Hf Hd Hpv Hba; cbn [eff]; auto.
  assert (Hf' : fixed P) by (intros r Hr; apply Hf; right; exact Hr).
  assert (Hba' : forall q, In q P -> bget ba (p_name q) = option_map BV (kget k (p_name q)))
    by (intros q Hq; apply Hba; right; exact Hq).
  destruct Hpv as [Hpo Hpv]. specialize (Hba p (or_introl eq_refl)).
  destruct (Hf p (or_introl eq_refl)) as [_ Hk].
  rewrite kget_app.
  destruct (kget K (p_name p)) as [v|] eqn:E.
  - rewrite (disjoint _ _ _ _ Hd E) in Hba. cbn [option_map] in Hba.
    cbn [partial_params p_name p_kind p_default]. rewrite Hba. cbn [p_kind].
    rewrite (IH K k _ tk2 ba Hf' Hd Hpv Hba').
    assert (Htk : tk1 || kind_eqb (p_kind p) PosOrKw || tk2 = tk1 || tk2 || kind_eqb (p_kind p) PosOrKw)
      by (destruct tk1, tk2, (kind_eqb (p_kind p) PosOrKw); reflexivity).
    rewrite Htk. destruct tk2; reflexivity.
  - cbn [partial_params p_name p_kind p_default]. rewrite Hba.
    destruct (kget k (p_name p)) as [w|] eqn:Ek; cbn [option_map].
    + assert (Hnp : p_kind p <> PosOnly).
      { intros F. specialize (Hpo F). rewrite kget_app, E, Ek in Hpo. discriminate. }
      assert (Hh : khas k (p_name p) = true) by (unfold khas; rewrite Ek; reflexivity).
      destruct Hk as [Hk|[Hk|Hk]]; [congruence| |]; rewrite Hk; cbn [kind_eqb andb].
      * rewrite andb_true_r. destruct tk1; cbn [p_kind p_name p_default orb].
        -- rewrite (IH K k _ tk2 ba Hf' Hd Hpv Hba'). cbn [orb]. destruct tk2; reflexivity.
        -- rewrite Hh. cbn [p_kind p_name p_default].
           rewrite (IH K k _ true ba Hf' Hd Hpv Hba'). cbn [orb].
           rewrite orb_true_r. reflexivity.
      * rewrite andb_false_r. cbn [p_kind p_name p_default].
        rewrite (IH K k _ tk2 ba Hf' Hd Hpv Hba'). rewrite orb_false_r. destruct tk2; reflexivity.
    + rewrite (IH K k _ tk2 ba Hf' Hd Hpv Hba').
      cbn [p_kind p_name p_default].
      destruct Hk as [Hk|[Hk|Hk]]; rewrite Hk; cbn [kind_eqb]; rewrite ?andb_false_r, ?andb_true_r;
        destruct tk1, tk2; cbn [orb]; reflexivity.
Qed.
Lemma zone_get : forall P a n, NoDup (map p_name P) -> length a <= length P ->
  bget (zone 0 P a) n <> None <-> In n (map p_name (firstn (length a) P)).
Proof.
  induction P as [| p P IH]; intros a n Hn Hl.
  - destruct a; cbn in Hl; [|lia]. cbn. intuition.
  - destruct a as [| x a]; [cbn; intuition|].
    cbn [map] in Hn. inversion Hn as [| z y Hx Hy]; subst z y.
    unfold zone in *. cbn [skipn combine map fst snd length firstn bget] in *.
    destruct (String.eqb (p_name p) n) eqn:E.
    + apply String.eqb_eq in E. split; [left; auto | discriminate].
    + apply String.eqb_neq in E. rewrite IH by (auto; lia). cbn. intuition.
Qed.
Lemma params_zone : forall P n a K k ba,
  pv (n + length a) P (K ++ k) -> NoDup (map p_name P) ->
  (forall p, In p (firstn (length a) (skipn n P)) -> exists v, bget ba (p_name p) = Some (BV v)) ->
  partial_params (eff n K false P) ba k false =
  partial_params (eff (n + length a) K false P) ba k false.
Proof.
  induction P as [| p P IH]; intros n a K k ba Hpv Hn Hba.
  - cbn in Hpv. replace (n + length a) with 0 by lia. replace n with 0 by lia. reflexivity.
  - cbn [map] in Hn. inversion Hn as [| z y Hx Hy]; subst z y.
    destruct n as [| n].
    + destruct a as [| x a]; [reflexivity|].
      cbn [length Nat.add pv] in Hpv. destruct Hpv as [A [B C]].
      apply kget_app_none in B as [B1 B2].
      cbn [length Nat.add]. cbn [eff]. rewrite B1. cbn [andb].
      destruct (Hba p (or_introl eq_refl)) as [v Hv].
      cbn [partial_params p_name p_kind]. rewrite Hv.
      assert (Hh : khas k (p_name p) = false) by (apply khas_false; exact B2).
      unfold is_pos in A.
      change (eff (length a) K false P) with (eff (0 + length a) K false P); rewrite <- (IH 0 a K k ba C Hy).
      * destruct (p_kind p); try discriminate; [|rewrite Hh]; reflexivity.
      * intros q Hq. apply Hba. cbn [skipn firstn length]. right. exact Hq.
    + cbn [Nat.add pv] in Hpv. destruct Hpv as [A [B C]].
      cbn [Nat.add eff]. apply (IH n a K k ba C Hy). exact Hba.
Qed.

Lemma partial_signature_fits : forall P n a K k,
  fixed P -> NoDup (map p_name P) -> is_dict (K ++ k) ->
  pv (n + length a) P (K ++ k) -> incl (map fst (K ++ k)) (map p_name P) ->
  partial_signature (eff n K false P) a k = Ok (eff (n + length a) (K ++ k) false P).
Proof.
  intros P n a K k Hf Hn Hd Hpv Hi. unfold partial_signature, sig_bind.
  rewrite (bind1_zone _ _ _ _ _ _ Hf Hpv).
  set (R := skipn (n + length a) P).
  assert (HfR : fixed R).
  { intros q Hq. apply Hf. rewrite <- (firstn_skipn (n + length a) P). apply in_app_iff. auto. }
  assert (HQ : eff (n + length a) K false P = eff 0 K false R)
    by (unfold R; rewrite eff_skip, Nat.add_0_r; reflexivity).
  assert (HpR : pv 0 R (K ++ k)) by (apply pv_rest; exact Hpv).
  assert (HpQ : plain (eff 0 K false R) k) by (apply eff_plain; auto).
  assert (HnR : NoDup (map p_name R)) by (apply nodup_skip; exact Hn).
  assert (HnQ : NoDup (map p_name (eff 0 K false R))) by (rewrite eff_names; exact HnR).
  rewrite HQ, (bind1_rest _ _ HpQ). cbn [obind]. rewrite app_nil_r.
  destruct (bind2_rest _ k k HpQ HnQ) as [b2 [kw' [Hb Hg]]]; auto. rewrite Hb. cbn [obind].
  assert (Hdk : is_dict k).
  { unfold is_dict in *. rewrite map_app in Hd. clear -Hd. induction (map fst K); auto.
    apply IHl. inversion Hd; auto. }
  assert (Hkw' : kw' = []).
  { rewrite (bind2_left _ _ _ _ _ _ Hb Hdk). apply leftovers_nil. intros m Hm.
    assert (Hq : In m (map p_name (eff 0 K false R))).
    { rewrite eff_names. apply (names_rest _ _ _ Hpv Hi). rewrite map_app. apply in_app_iff. auto. }
    apply in_map_iff in Hq as [q [Hq1 Hq2]]. apply in_map_iff. exists q. split; auto.
    apply filter_In. split; auto. unfold nonvar. destruct (HpQ q Hq2) as [A _].
    destruct (p_kind q); auto; intuition discriminate. }
  rewrite Hkw'. f_equal.
  assert (Hle : n + length a <= length P) by (exact (pv_le _ _ _ Hpv)).
  (* what the partial binds *)
  assert (Hsplit : firstn (length a) (skipn n P) = firstn (length a) (skipn n P)) by reflexivity.
  assert (HPn : NoDup (map p_name (skipn n P))) by (apply nodup_skip; exact Hn).
  assert (Hlen : length a <= length (skipn n P)) by (rewrite skipn_length; lia).
  assert (Hz : forall m, bget (zone n P a) m <> None <-> In m (map p_name (firstn (length a) (skipn n P)))).
  { intros m. exact (zone_get (skipn n P) a m HPn Hlen). }
  assert (Hzv : forall m w, bget (zone n P a) m = Some w -> exists v, w = BV v).
  { intros m w. unfold zone. generalize (combine (skipn n P) a).
    induction l as [| [p x] l IH]; cbn; [discriminate|].
    destruct (String.eqb (p_name p) m); auto. intros H; injection H as <-. eauto. }
  assert (HR : skipn (length a) (skipn n P) = R) by (unfold R; rewrite skip_skip; reflexivity).
  rewrite (params_zone P n a K k _ Hpv Hn).
  - rewrite HQ, (params_rest R K k false false _ HfR Hd HpR).
    + cbn [orb]. unfold R. rewrite eff_skip, Nat.add_0_r. reflexivity.
    + intros p Hp. rewrite bget_app.
      assert (E : bget (zone n P a) (p_name p) = None).
      { destruct (bget (zone n P a) (p_name p)) eqn:E; auto. exfalso.
        assert (In (p_name p) (map p_name (firstn (length a) (skipn n P)))) as Hin.
        { apply Hz. rewrite E. discriminate. }
        rewrite <- (firstn_skipn (length a) (skipn n P)), map_app in HPn. rewrite HR in HPn.
        assert (Hin2 : In (p_name p) (map p_name R)) by (apply in_map; exact Hp).
        clear -HPn Hin Hin2. induction (map p_name (firstn (length a) (skipn n P))) as [| z l IH];
          [destruct Hin|].
        cbn in HPn. inversion HPn as [| z' y Hx Hy]; subst.
        destruct Hin as [-> | Hin]; [apply Hx; apply in_app_iff; auto | auto]. }
      rewrite E, Hg. rewrite eff_names. cbn [skipn].
      assert (Hm : memb (map p_name R) (p_name p) = true).
      { unfold memb. apply existsb_exists. exists (p_name p). split; [apply in_map; exact Hp | apply String.eqb_refl]. }
      rewrite Hm. reflexivity.
  - intros p Hp. rewrite bget_app.
    destruct (bget (zone n P a) (p_name p)) as [w|] eqn:E.
    + destruct (Hzv _ _ E) as [v ->]. eauto.
    + exfalso. apply (proj2 (Hz (p_name p))); auto. apply in_map; exact Hp.
Qed.

(** Lemma: a call Python accepts fits and is complete *)
Lemma call_fits : forall P A K b, fixed P -> NoDup (map p_name P) -> is_dict K ->
  py_call_bind P A K = Ok b ->
  pv (length A) P K /\ complete (length A) P K /\ incl (map fst K) (map p_name P).
Proof.
  intros P A K b Hf Hn Hd H. unfold py_call_bind, sig_bind in H.
  destruct (bind1 false P A K) as [[b1 rest]|] eqn:E1; [|discriminate]. cbn [obind] in H.
  destruct (bind2 false rest K) as [[[b2 kp] kw']|] eqn:E2; [|discriminate]. cbn [obind] in H.
  assert (Hnr := nodup_incl_sub _ _ _ _ _ _ E1 Hn).
  assert (Hpo : forall p, In p rest -> p_kind p = PosOnly -> kget K (p_name p) = None).
  { intros p Hp Hk. exact (bind2_posonly _ _ _ _ _ _ _ p E2 Hnr (fun q Hq => eq_refl) Hp Hk). }
  assert (Hsub : forall p, In p rest -> In p P) by (exact (proj2 (bind1_left _ _ _ _ _ _ E1))).
  assert (Hkp : kp = None).
  { assert (Hfr : fixed rest) by (intros q Hq; apply Hf; auto).
    clear -E2 Hfr. revert K b2 kp kw' E2. induction rest as [| q r IH]; intros K b2 kp kw' E2; cbn [bind2] in E2.
    - congruence.
    - assert (Hfr' : fixed r) by (intros s Hs; apply Hfr; right; exact Hs).
      destruct (Hfr q (or_introl eq_refl)) as [_ Hk].
      assert (E1 : kind_eqb (p_kind q) VarKw = false) by (destruct (p_kind q); auto; intuition discriminate).
      assert (E3 : kind_eqb (p_kind q) VarPos = false) by (destruct (p_kind q); auto; intuition discriminate).
      rewrite E1, E3 in E2. destruct (kget K (p_name q)).
      + destruct (kind_eqb (p_kind q) PosOnly); [discriminate|].
        destruct (bind2 false r (kdel K (p_name q))) as [[[b' kp'] k']|] eqn:E; [|discriminate].
        cbn [obind] in E2. injection E2 as _ <- _. eauto.
      + destruct (negb false && negb (has_default q)); [discriminate|]. eauto. }
  assert (Hkw : kw' = []) by (destruct kw'; auto; rewrite Hkp in H; discriminate).
  assert (Hin : forall m, In m (map fst K) -> In m (map p_name rest)).
  { intros m Hm. assert (L := bind2_left _ _ _ _ _ _ E2 Hd). rewrite Hkw in L.
    destruct (in_dec string_dec m (map p_name rest)) as [F|F]; auto. exfalso.
    apply in_map_iff in Hm as [[m' v] [Hm1 Hm2]]. cbn in Hm1. subst m'.
    assert (In (m, v) (leftovers (map p_name (filter nonvar rest)) K)) as X.
    { unfold leftovers. apply filter_In. split; auto. cbn [fst].
      destruct (memb _ m) eqn:E; auto. unfold memb in E. apply existsb_exists in E as [z [Hz1 Hz2]].
      apply String.eqb_eq in Hz2. subst z. apply in_map_iff in Hz1 as [q [Hq1 Hq2]].
      apply filter_In in Hq2 as [Hq2 _]. destruct F. rewrite <- Hq1. apply in_map; exact Hq2. }
    rewrite <- L in X. destruct X. }
  assert (G : forall P A b1, fixed P -> NoDup (map p_name P) -> bind1 false P A K = Ok (b1, rest) ->
             pv (length A) P K /\ rest = skipn (length A) P).
  { clear P A b1 b b2 kp kw' Hf Hn E1 E2 H Hnr Hsub Hkp Hkw.
    induction P as [| p P IH]; intros A b1 Hf Hn H; assert (H0 := H); cbn [bind1] in H.
    - destruct A; [|discriminate]. injection H as <- <-. cbn. auto.
    - assert (Hf' : fixed P) by (intros r Hr; apply Hf; right; exact Hr).
      cbn [map] in Hn. inversion Hn as [| x y Hx Hy]; subst x y.
      destruct (Hf p (or_introl eq_refl)) as [Hdf Hk].
      destruct A as [| a A].
      + assert (E2 : kind_eqb (p_kind p) VarPos = false) by (destruct (p_kind p); auto; intuition discriminate).
        assert (E1 : kind_eqb (p_kind p) VarKw = false) by (destruct (p_kind p); auto; intuition discriminate).
        rewrite E2, E1 in H. unfold has_default in H. rewrite Hdf in H. cbn [orb] in H.
        destruct (khas K (p_name p)); [|discriminate].
        destruct (kind_eqb (p_kind p) PosOnly); [discriminate|].
        assert (rest = p :: P) by congruence. subst rest.
        split; [|reflexivity]. apply pv0. exact Hpo.
      + destruct (kind_eqb (p_kind p) VarKw || kind_eqb (p_kind p) KwOnly) eqn:E0; [discriminate|].
        destruct (kind_eqb (p_kind p) VarPos) eqn:E2.
        { apply kind_eqb_ok in E2. rewrite E2 in Hk. intuition discriminate. }
        destruct (khas K (p_name p) && negb (kind_eqb (p_kind p) PosOnly)) eqn:Ek; [discriminate|].
        destruct (bind1 false P A K) as [[b' r']|] eqn:E; [|discriminate].
        cbn [obind] in H. assert (r' = rest) by congruence. subst r'.
        destruct (IH _ _ Hf' Hy E) as [G1 G2].
        cbn [length pv skipn]. split; [|exact G2]. split; [|split; auto].
        * unfold is_pos. destruct (p_kind p); auto; discriminate.
        * apply kget_none. intros Hm. apply Hin in Hm. apply Hx.
          apply in_map_iff in Hm as [q [Hq1 Hq2]]. rewrite <- Hq1. apply in_map.
          exact (proj2 (bind1_left _ _ _ _ _ _ E) q Hq2). }
  destruct (G P A b1 Hf Hn E1) as [G1 G2]. split; [exact G1|]. split.
  - unfold complete. rewrite <- G2. clear -E2 Hnr Hf Hsub.
    assert (Hfr : fixed rest) by (intros q Hq; apply Hf; auto). clear Hf Hsub.
    assert (X : forall rest kwc b2 kp kw', fixed rest -> NoDup (map p_name rest) ->
              bind2 false rest kwc = Ok (b2, kp, kw') ->
              (forall q, In q rest -> kget kwc (p_name q) = kget K (p_name q)) ->
              forall p, In p rest -> kget K (p_name p) <> None).
    { clear. induction rest as [| q r IH]; intros kwc b2 kp kw' Hfr Hn E2 Hkw p Hp; [destruct Hp|].
      cbn [bind2] in E2. cbn [map] in Hn. inversion Hn as [| x y Hx Hy]; subst x y.
      assert (Hfr' : fixed r) by (intros s Hs; apply Hfr; right; exact Hs).
      destruct (Hfr q (or_introl eq_refl)) as [Hdf Hk].
      assert (E1 : kind_eqb (p_kind q) VarKw = false) by (destruct (p_kind q); auto; intuition discriminate).
      assert (E3 : kind_eqb (p_kind q) VarPos = false) by (destruct (p_kind q); auto; intuition discriminate).
      rewrite E1, E3 in E2. rewrite (Hkw q (or_introl eq_refl)) in E2.
      unfold has_default in E2. rewrite Hdf in E2. cbn [negb andb] in E2.
      destruct (kget K (p_name q)) eqn:Eg; [|discriminate].
      destruct (kind_eqb (p_kind q) PosOnly); [discriminate|].
      destruct (bind2 false r (kdel kwc (p_name q))) as [[[b' kp'] k']|] eqn:E; [|discriminate].
      destruct Hp as [<- | Hp]; [congruence|].
      refine (IH _ _ _ _ Hfr' Hy E _ p Hp).
      intros s Hs. rewrite kget_kdel_ne; [apply Hkw; right; exact Hs|].
      intros Heq. apply Hx. rewrite Heq. apply in_map; exact Hs. }
    exact (X rest K b2 kp kw' Hfr Hnr E2 (fun q Hq => eq_refl)).
  - intros m Hm. apply Hin in Hm. apply in_map_iff in Hm as [q [<- Hq]]. apply in_map. auto.
Qed.

(** Lemma: more arguments for a complete call do not fit *)
Lemma complete_no_more : forall P n m K k,
  is_dict (K ++ k) -> pv (n + m) P (K ++ k) -> incl (map fst (K ++ k)) (map p_name P) ->
  complete n P K -> m = 0 /\ k = [].
Proof.
  intros P n m K k Hd Hpv Hi Hc.
  assert (Hm : m = 0).
  { destruct m as [| m]; auto. exfalso. assert (Hl := pv_le _ _ _ Hpv).
    destruct (skipn n P) as [| p r] eqn:E.
    - assert (length (skipn n P) = 0) by (rewrite E; reflexivity). rewrite skipn_length in H. lia.
    - assert (Hp : In p (firstn (n + S m) P)).
      { rewrite <- (firstn_skipn n P) at 1. rewrite E.
        assert (Hfl : length (firstn n P) = n) by (apply firstn_length_le; lia).
        rewrite firstn_app, Hfl. apply in_app_iff. right.
        replace (n + S m - n) with (S m) by lia. left; reflexivity. }
      destruct (pv_zone _ _ _ Hpv p Hp) as [_ F]. apply kget_app_none in F as [F _].
      apply (Hc p); auto. rewrite E. left; reflexivity. }
  subst m. split; auto. destruct k as [| [x v] k]; auto. exfalso.
  assert (Hx : In x (map fst (K ++ (x, v) :: k))) by (rewrite map_app; apply in_app_iff; right; left; reflexivity).
  assert (Hx2 := names_rest _ _ _ Hpv Hi x Hx). rewrite Nat.add_0_r in Hx2.
  apply in_map_iff in Hx2 as [p [Hp1 Hp2]]. specialize (Hc p Hp2). rewrite Hp1 in Hc.
  destruct (kget K x) eqn:E; [|congruence].
  assert (F := disjoint _ _ _ _ Hd E). unfold kget in F. cbn in F. rewrite String.eqb_refl in F. discriminate.
Qed.
End P.
