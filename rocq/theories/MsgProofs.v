From Coq Require Import List Bool ZArith Lia.
From Verif Require Import Base BaseProofs MsgModel MsgSpec.
Import ListNotations.
Open Scope Z_scope.

Lemma zlen_app {A} (a b : list A) : zlen (a ++ b) = zlen a + zlen b.
Proof. unfold zlen. rewrite app_length. lia. Qed.
Lemma zlen_cons {A} (x : A) l : zlen (x :: l) = 1 + zlen l.
Proof. unfold zlen. simpl length. lia. Qed.
Lemma zlen_nonneg {A} (a : list A) : 0 <= zlen a. Proof. unfold zlen. lia. Qed.

Lemma nth_error_firstn' {A} (l : list A) : forall n i, nth_error (firstn n l) i = if (i <? n)%nat then nth_error l i else None.
Proof.
  induction l as [|x l IH]; intros [|n] [|i]; simpl; auto.
  - now destruct (_ <? _)%nat.
  - rewrite IH. reflexivity.
Qed.
Lemma nth_error_skipn' {A} (l : list A) : forall n i, nth_error (skipn n l) i = nth_error l (n + i).
Proof. induction l as [|x l IH]; intros [|n] i; simpl; auto. now destruct i. Qed.

(** decimal digits *)
Lemma digits_digit f : forall n, 0 <= n -> forall b, In b (digits f n) -> is_digit b = true.
Proof.
  induction f as [|f IH]; intros n Hn b; [intros []|]. cbn [digits]. destruct (Z.ltb_spec n 10).
  - intros [<-|[]]. unfold is_digit. apply andb_true_iff. split; apply Z.leb_le; lia.
  - intro H'. apply in_app_or in H' as [H'|[<-|[]]].
    + apply (IH (n / 10)); [apply Z.div_pos; lia|assumption].
    + pose proof (Z.mod_pos_bound n 10 ltac:(lia)). unfold is_digit. apply andb_true_iff. split; apply Z.leb_le; lia.
Qed.
Lemma more_digits_snoc l : (forall b, In b l -> is_digit b = true) -> forall acc v d, more_digits acc l = Ok v ->
  is_digit d = true -> more_digits acc (l ++ [d]) = Ok (10 * v + (d - 48)).
Proof.
  induction l as [|b l IH]; intros H acc v d Hv Hd.
  - cbn [more_digits app] in *. rewrite Hd. assert (acc = v) by congruence. now subst.
  - cbn [more_digits app] in *. rewrite (H b (or_introl eq_refl)) in *. apply IH; auto. intros; apply H; now right.
Qed.
Lemma digits_value f : forall n, 0 <= n < 2 ^ Z.of_nat f -> more_digits 0 (digits f n) = Ok n.
Proof.
  induction f as [|f IH]; intros n Hn; [simpl in Hn; assert (n = 0) by lia; subst; reflexivity|].
  cbn [digits]. destruct (Z.ltb_spec n 10).
  - cbn [more_digits]. assert (D : is_digit (48 + n) = true) by (apply andb_true_iff; split; apply Z.leb_le; lia).
    rewrite D. f_equal. lia.
  - assert (0 <= n / 10 < 2 ^ Z.of_nat f).
    { split; [apply Z.div_pos; lia|]. apply Z.div_lt_upper_bound; [lia|].
      rewrite Nat2Z.inj_succ, Z.pow_succ_r in Hn by lia. lia. }
    pose proof (Z.mod_pos_bound n 10 ltac:(lia)).
    rewrite (more_digits_snoc _ (digits_digit f (n / 10) ltac:(lia)) 0 (n / 10)); [|auto|].
    + f_equal. pose proof (Z.div_mod n 10 ltac:(lia)). lia.
    + apply andb_true_iff. split; apply Z.leb_le; lia.
Qed.
Lemma digits_nonempty f n : digits (S f) n <> [].
Proof. cbn [digits]. destruct (n <? 10); [discriminate|]. intro H. apply app_eq_nil in H as [_ H]. discriminate. Qed.
Lemma str_int_spec n : 0 <= n -> (forall b, In b (str_int n) -> is_digit b = true) /\ str_int n <> [] /\
  more_digits 0 (str_int n) = Ok n.
Proof.
  intro H. unfold str_int. split; [apply digits_digit; assumption|]. split; [apply digits_nonempty|].
  apply digits_value. split; [assumption|]. rewrite Nat2Z.inj_succ. pose proof (Z.log2_nonneg n). rewrite Z2Nat.id by assumption.
  destruct (Z.eq_dec n 0) as [->|]; [simpl; lia|]. apply Z.log2_spec. lia.
Qed.

Section S.
Context (uni : bytes -> outcome Z).
Notation parse_int := (parse_int uni).
Notation read_header := (read_header uni).
Notation decode_loop := (decode_loop uni).
Notation decode := (decode uni).

Lemma digit_range b : is_digit b = true -> 48 <= b <= 57.
Proof. unfold is_digit. rewrite andb_true_iff, !Z.leb_le. tauto. Qed.
Lemma digit_not_space b : is_digit b = true -> is_space b = false.
Proof.
  intro H. apply digit_range in H. unfold is_space.
  destruct (Z.leb_spec 9 b), (Z.leb_spec b 13), (Z.leb_spec 28 b), (Z.leb_spec b 32); simpl; auto; lia.
Qed.
Lemma lstrip_digits l : (forall b, In b l -> is_digit b = true) -> lstrip l = l.
Proof. destruct l as [|b l]; intro H; [reflexivity|]. simpl. now rewrite digit_not_space by (apply H; now left). Qed.
Lemma parse_digits l n : (forall b, In b l -> is_digit b = true) -> l <> [] -> more_digits 0 l = Ok n -> parse_int l = Ok n.
Proof.
  intros H N V. unfold MsgModel.parse_int.
  assert (E : existsb (fun b => 128 <=? b) l = false).
  { destruct (existsb _ l) eqn:E; [|reflexivity]. apply existsb_exists in E as (b & Hb & Q). apply Z.leb_le in Q.
    apply H, digit_range in Hb. lia. }
  rewrite E, (lstrip_digits l H).
  rewrite (lstrip_digits (rev l)) by (intros b Hb; apply H; now apply in_rev). rewrite rev_involutive.
  destruct l as [|b l]; [congruence|]. pose proof (H b (or_introl eq_refl)) as D. pose proof (digit_range b D) as R.
  assert (U : unsigned (b :: l) = Ok n).
  { simpl. rewrite D. cbn [more_digits] in V. rewrite D in V. replace (10 * 0 + (b - 48)) with (b - 48) in V by lia. exact V. }
  assert (C : b = 48 \/ b = 49 \/ b = 50 \/ b = 51 \/ b = 52 \/ b = 53 \/ b = 54 \/ b = 55 \/ b = 56 \/ b = 57) by lia.
  repeat (destruct C as [->|C]; [exact U|]). subst b. exact U.
Qed.

(** find *)
Lemma find_from_spec b l : forall i, 0 <= i ->
  (find_from b i l = -1 /\ ~ In b l) \/
  (exists j, find_from b i l = i + Z.of_nat j /\ nth_error l j = Some b /\ ~ In b (firstn j l)).
Proof.
  induction l as [|x l IH]; intros i Hi; simpl; [left; auto|]. destruct (Z.eqb_spec x b) as [->|N].
  - right. exists 0%nat. simpl. split; [lia|auto].
  - destruct (IH (i + 1)) as [[E H]|(j & E & H1 & H2)]; [lia| |].
    + left. split; [assumption|]. intros [?|?]; auto.
    + right. exists (S j). split; [lia|]. split; [assumption|]. simpl. intros [?|?]; auto.
Qed.
Lemma find_spec b l :
  (find b l = -1 /\ ~ In b l) \/
  (exists j, find b l = Z.of_nat j /\ nth_error l j = Some b /\ ~ In b (firstn j l)).
Proof. unfold find. destruct (find_from_spec b l 0) as [H|(j & E & H)]; [lia|auto|]. right. exists j. split; [lia|assumption]. Qed.
Lemma find_app b l l' j : nth_error l j = Some b -> ~ In b (firstn j l) -> find b (l ++ l') = Z.of_nat j.
Proof.
  intros H N. destruct (find_spec b (l ++ l')) as [[E F]|(k & E & H1 & H2)].
  - exfalso. apply F. apply in_or_app. left. eapply nth_error_In, H.
  - rewrite E. f_equal. assert (Lj : (j < length l)%nat) by (apply nth_error_Some; congruence).
    destruct (Nat.lt_trichotomy j k) as [L|[->|L]]; [|reflexivity|].
    + exfalso. apply H2. rewrite firstn_app. apply in_or_app. left.
      apply (nth_error_In _ j). rewrite nth_error_firstn'. destruct (Nat.ltb_spec j k); [assumption|lia].
    + exfalso. apply N. apply (nth_error_In _ k). rewrite nth_error_firstn'. destruct (Nat.ltb_spec k j); [|lia].
      rewrite nth_error_app1 in H1 by lia. assumption.
Qed.

Context (B : Z) (HB : 0 <= B).
Notation small := (Forall (fun c : bytes => zlen c <= B)).

Lemma read_until_ok n : forall src val, n <= zlen (val ++ concat src) -> small src ->
  exists val' src', read_until n val src = Val tt val' src' /\ val' ++ concat src' = val ++ concat src /\
    n <= zlen val' /\ small src' /\ zlen val' <= Z.max (zlen val) (n - 1 + B) /\ (exists l, val' = val ++ l).
Proof.
  induction src as [|c src IH]; intros val Hn Hs; cbn [read_until].
  - rewrite zlen_app in Hn. unfold zlen in Hn at 2. simpl in Hn. rewrite Z.add_0_r in Hn.
    destruct (Z.leb_spec n (zlen val)); [|lia]. exists val, []. repeat (split; [solve [auto]|]).
    split; [lia|]. exists []. now rewrite app_nil_r.
  - destruct (Z.leb_spec n (zlen val)).
    + exists val, (c :: src). repeat (split; [solve [auto]|]). split; [lia|]. exists []. now rewrite app_nil_r.
    + inversion Hs as [|? ? Hc Hs']; subst. cbn [concat] in *. rewrite app_assoc in Hn.
      destruct (IH (val ++ c) Hn Hs') as (v' & s' & E & C & L & S' & M & l & V). exists v', s'. rewrite app_assoc.
      repeat (split; [solve [auto]|]). split; [rewrite zlen_app in M; lia|]. exists (c ++ l). now rewrite app_assoc.
Qed.
Lemma read_until_eof n : forall src val, zlen (val ++ concat src) < n -> read_until n val src = EOF (val ++ concat src).
Proof.
  induction src as [|c src IH]; intros val Hn; cbn [read_until concat] in *; rewrite zlen_app in Hn.
  - change (zlen (@nil Z)) with 0 in Hn. destruct (Z.leb_spec n (zlen val)); [lia|]. now rewrite app_nil_r.
  - pose proof (zlen_nonneg (concat src)).
    destruct (Z.leb_spec n (zlen val)); [rewrite zlen_app in Hn; pose proof (zlen_nonneg c); lia|].
    rewrite IH; [now rewrite app_assoc|]. rewrite <- app_assoc, zlen_app. assumption.
Qed.

Lemma find_pre b pre post : ~ In b pre -> find b (pre ++ b :: post) = zlen pre.
Proof.
  intro N. change (pre ++ b :: post) with (pre ++ [b] ++ post). rewrite app_assoc. apply find_app.
  - rewrite nth_error_app2 by lia. now rewrite Nat.sub_diag.
  - rewrite firstn_app, firstn_all, Nat.sub_diag. simpl. now rewrite app_nil_r.
Qed.
Lemma find_none b l : ~ In b l -> find b l = -1.
Proof. intro N. destruct (find_spec b l) as [[E _]|(j & _ & H & _)]; [assumption|]. exfalso. eapply N, nth_error_In, H. Qed.
Lemma find_in b l : In b l -> 0 <= find b l.
Proof. intro N. destruct (find_spec b l) as [[_ E]|(j & -> & H & _)]; [contradiction|lia]. Qed.
Lemma skipn_pre {A} (a b : list A) : skipn (length a) (a ++ b) = b.
Proof. rewrite skipn_app, skipn_all, Nat.sub_diag. reflexivity. Qed.
Lemma firstn_pre {A} (a b : list A) : firstn (length a) (a ++ b) = a.
Proof. rewrite firstn_app, firstn_all, Nat.sub_diag. simpl. apply app_nil_r. Qed.

(** Splitting [a ++ b = pre ++ x :: post]. *)
Lemma app_split {A} (a b pre post : list A) x : a ++ b = pre ++ x :: post ->
  (exists t, a = pre ++ x :: t /\ t ++ b = post) \/ (exists t, pre = a ++ t /\ b = t ++ x :: post).
Proof.
  revert pre. induction a as [|y a IH]; intros pre H.
  - right. exists pre. auto.
  - destruct pre as [|z pre]; simpl in H.
    + inversion H; subst. left. exists a. auto.
    + inversion H as [[E H']]; subst. destruct (IH _ H') as [(t & -> & T)|(t & -> & T)].
      * left. exists t. auto.
      * right. exists t. auto.
Qed.

Lemma sync_ok : forall src val pre post, val ++ concat src = pre ++ 255 :: post -> ~ In 255 pre -> small src ->
  exists val' src', synchronize val src = Val tt (255 :: val') src' /\ val' ++ concat src' = post /\ small src' /\
    1 + zlen val' <= Z.max (zlen val) B.
Proof.
  induction src as [|c src IH]; intros val pre post H N Hs.
  - cbn [synchronize concat] in *. rewrite app_nil_r in H. subst val. rewrite (find_pre _ _ _ N).
    destruct (Z.leb_spec 0 (zlen pre)); [|pose proof (zlen_nonneg pre); lia].
    unfold zlen at 1. rewrite Nat2Z.id, skipn_pre. exists post, []. split; [reflexivity|]. cbn [concat]. rewrite app_nil_r.
    repeat (split; [solve [auto]|]). rewrite zlen_app, zlen_cons. pose proof (zlen_nonneg pre). lia.
  - cbn [synchronize]. destruct (app_split _ _ _ _ _ H) as [(t & -> & T)|(t & -> & T)].
    + rewrite (find_pre _ _ _ N). destruct (Z.leb_spec 0 (zlen pre)); [|pose proof (zlen_nonneg pre); lia].
      unfold zlen at 1. rewrite Nat2Z.id, skipn_pre. exists t, (c :: src). repeat (split; [solve [auto]|]).
      rewrite zlen_app, zlen_cons. pose proof (zlen_nonneg pre). lia.
    + assert (Nv : ~ In 255 val) by (intro; apply N, in_or_app; now left).
      rewrite (find_none _ _ Nv). simpl Z.leb. cbn iota. inversion Hs as [|? ? Hc Hs']; subst. cbn [concat] in T.
      destruct (IH c t post T) as (v' & s' & E & C & S' & M); [intro; apply N, in_or_app; now right|assumption|].
      exists v', s'. repeat (split; [solve [auto]|]). lia.
Qed.
Lemma sync_eof : forall src val, ~ In 255 (val ++ concat src) -> synchronize val src = EOF [].
Proof.
  induction src as [|c src IH]; intros val N; cbn [synchronize concat] in *.
  - rewrite app_nil_r in N. now rewrite (find_none _ _ N).
  - rewrite find_none by (intro; apply N, in_or_app; now left). simpl Z.leb. cbn iota. apply IH. intro; apply N, in_or_app; now right.
Qed.

Lemma term_ok : forall src val h post j, val ++ concat src = h ++ semicolon :: post -> ~ In semicolon h -> small src ->
  zlen h + 1 + B <= 4096 -> zlen val < 4096 ->
  exists t src', find_terminator j val src = Val (Some (zlen h)) (h ++ semicolon :: t) src' /\ t ++ concat src' = post /\ small src' /\
    zlen (h ++ semicolon :: t) <= Z.max (zlen val) (zlen h + B).
Proof.
  induction src as [|c src IH]; intros val h post j H N Hs Hh Hv; cbn [find_terminator];
    (destruct (Z.ltb_spec (zlen val) 4096); [|lia]); cbv zeta.
  - cbn [concat] in H. rewrite app_nil_r in H. subst val. rewrite (find_pre _ _ _ N).
    destruct (Z.eqb_spec (zlen h) (-1)) as [E|_]; [pose proof (zlen_nonneg h); lia|]. cbn [negb].
    exists post, []. split; [reflexivity|]. cbn [concat]. rewrite app_nil_r. repeat (split; [solve [auto]|]). lia.
  - destruct (app_split _ _ _ _ _ H) as [(t & -> & T)|(t & -> & T)].
    + rewrite (find_pre _ _ _ N). destruct (Z.eqb_spec (zlen h) (-1)) as [E|_]; [pose proof (zlen_nonneg h); lia|]. cbn [negb].
      exists t, (c :: src). repeat (split; [solve [auto]|]). lia.
    + rewrite (find_none _ val) by (intro; apply N, in_or_app; now left). simpl Z.eqb. cbn [negb].
      inversion Hs as [|? ? Hc Hs']; subst. cbn [concat] in T. rewrite zlen_app in *. pose proof (zlen_nonneg t).
      destruct (IH (val ++ c) (val ++ t) post (Some (-1))) as (v' & s' & E & C & S' & M); auto.
      * rewrite <- !app_assoc. now rewrite T.
      * rewrite zlen_app. lia.
      * rewrite zlen_app. lia.
      * exists v', s'. rewrite zlen_app in E. repeat (split; [solve [auto]|]). rewrite !zlen_app in *. lia.
Qed.
Lemma term_eof : forall src val j, ~ In semicolon (val ++ concat src) -> zlen (val ++ concat src) < 4096 ->
  find_terminator j val src = EOF (val ++ concat src).
Proof.
  induction src as [|c src IH]; intros val j N H; cbn [find_terminator concat] in *; rewrite zlen_app in H;
    (rewrite find_none by (intro; apply N, in_or_app; now left)).
  - change (zlen (@nil Z)) with 0 in H. destruct (Z.ltb_spec (zlen val) 4096); [|lia]. simpl. now rewrite app_nil_r.
  - rewrite zlen_app in H. pose proof (zlen_nonneg (concat src)). pose proof (zlen_nonneg c). destruct (Z.ltb_spec (zlen val) 4096); [|lia]. simpl.
    rewrite app_assoc in *. apply IH; [assumption|]. rewrite !zlen_app. lia.
Qed.

Definition hdr (m : bytes) : bytes := magic ++ str_int (zlen m).
Lemma encode_hdr m : encodemsg m = hdr m ++ semicolon :: m.
Proof. unfold encodemsg, hdr. rewrite <- app_assoc. reflexivity. Qed.
Lemma header_len_hdr m : header_len m = zlen (hdr m) + 1.
Proof. unfold header_len. rewrite encode_hdr, zlen_app, zlen_cons. lia. Qed.
Lemma hdr_no_semicolon m : ~ In semicolon (hdr m).
Proof.
  unfold hdr, semicolon. intro H. apply in_app_or in H as [H|H].
  - simpl in H. intuition lia.
  - apply (proj1 (str_int_spec _ (zlen_nonneg m))), digit_range in H. lia.
Qed.
Lemma hdr_ge m : 5 <= zlen (hdr m).
Proof. unfold hdr. rewrite zlen_app. pose proof (zlen_nonneg (str_int (zlen m))). change (zlen magic) with 5. lia. Qed.
Lemma beqb_refl l : beqb l l = true.
Proof. unfold beqb. destruct (list_eq_dec _ l l); congruence. Qed.
Lemma beqb_neq l l' : l <> l' -> beqb l l' = false.
Proof. unfold beqb. destruct (list_eq_dec _ l l'); congruence. Qed.
Lemma firstn5_app (a b : bytes) : 5 <= zlen a -> firstn 5 (a ++ b) = firstn 5 a.
Proof. intro H. rewrite firstn_app. replace (5 - length a)%nat with 0%nat by (unfold zlen in H; lia). simpl firstn at 2. apply app_nil_r. Qed.
Lemma firstn5_hdr m r : firstn 5 (hdr m ++ r) = magic.
Proof. unfold hdr. rewrite <- app_assoc. reflexivity. Qed.
Lemma parse_hdr m : parse_int (skipn 5 (hdr m)) = Ok (zlen m).
Proof. change (skipn 5 (hdr m)) with (str_int (zlen m)). destruct (str_int_spec _ (zlen_nonneg m)) as (H1 & H2 & H3). now apply parse_digits. Qed.

Lemma read_header_val h t val src val1 src1 src' :
  read_until 5 val src = Val tt val1 src1 -> firstn 5 val1 = magic -> ~ In semicolon h ->
  find_terminator None val1 src1 = Val (Some (zlen h)) (h ++ semicolon :: t) src' ->
  read_header val src = match parse_int (skipn 5 h) with Ok n => Val n t src' | Raise e => Exc e (h ++ semicolon :: t) src' end.
Proof.
  intros E F N T. unfold MsgModel.read_header. rewrite E, F, beqb_refl. simpl negb. cbn iota. rewrite T.
  destruct (Z.eqb_spec (zlen h) (-1)) as [Q|_]; [pose proof (zlen_nonneg h); lia|].
  rewrite (find_pre _ _ _ N). unfold zlen. rewrite Nat2Z.id, firstn_pre.
  replace (skipn (S (length h)) (h ++ semicolon :: t)) with t; [reflexivity|].
  rewrite skipn_app. rewrite skipn_all2 by lia. replace (S (length h) - length h)%nat with 1%nat by lia. reflexivity.
Qed.

Lemma read_header_ok val src m rest : val ++ concat src = encodemsg m ++ rest -> zlen val <= B + 4 -> small src ->
  header_len m + B <= 4096 ->
  exists val' src', read_header val src = Val (zlen m) val' src' /\ val' ++ concat src' = m ++ rest /\ small src' /\ zlen val' <= B.
Proof.
  intros H V Hs Hh. rewrite header_len_hdr in Hh. pose proof (hdr_ge m) as G.
  rewrite encode_hdr, <- app_assoc in H. cbn [app] in H.
  destruct (read_until_ok 5 src val) as (v1 & s1 & E1 & C1 & L1 & S1 & M1 & _); [|assumption|].
  { rewrite H, zlen_app, zlen_cons, zlen_app. pose proof (zlen_nonneg m). pose proof (zlen_nonneg rest). lia. }
  rewrite H in C1.
  assert (F : firstn 5 v1 = magic) by (rewrite <- (firstn5_app v1 (concat s1) L1), C1; apply firstn5_hdr).
  destruct (term_ok s1 v1 (hdr m) (m ++ rest) None C1 (hdr_no_semicolon m) S1) as (t & s2 & E2 & C2 & S2 & M2); [lia|lia|].
  exists t, s2. split.
  - rewrite (read_header_val (hdr m) t val src v1 s1 s2 E1 F (hdr_no_semicolon m) E2), parse_hdr. reflexivity.
  - repeat (split; [assumption|]). rewrite zlen_app, zlen_cons in M2. lia.
Qed.
Lemma read_header_bad val src : 5 <= zlen (val ++ concat src) -> firstn 5 (val ++ concat src) <> magic -> zlen val <= B + 4 -> small src ->
  exists val' src', read_header val src = ParseError val' src' /\ val' ++ concat src' = val ++ concat src /\ small src' /\
    5 <= zlen val' <= B + 4.
Proof.
  intros L N V Hs. destruct (read_until_ok 5 src val L Hs) as (v1 & s1 & E1 & C1 & L1 & S1 & M1 & _).
  exists v1, s1. unfold MsgModel.read_header. rewrite E1. rewrite beqb_neq.
  - simpl. repeat (split; [solve [auto]|]). lia.
  - rewrite <- C1, firstn5_app in N by assumption. assumption.
Qed.
Lemma read_header_short val src : zlen (val ++ concat src) < 5 -> read_header val src = EOF (val ++ concat src).
Proof. intro H. unfold MsgModel.read_header. now rewrite read_until_eof. Qed.

Lemma read_body_ok val src m rest : val ++ concat src = m ++ rest -> zlen val <= B -> small src ->
  exists val' src', read_body (zlen m) val src = Val m val' src' /\ val' ++ concat src' = rest /\ small src' /\ zlen val' <= B.
Proof.
  intros H V Hs. destruct (read_until_ok (zlen m) src val) as (v1 & s1 & E1 & C1 & L1 & S1 & M1 & _); [|assumption|].
  { rewrite H, zlen_app. pose proof (zlen_nonneg rest). lia. }
  rewrite H in C1. pose proof (zlen_nonneg m) as Pm.
  assert (exists t, v1 = m ++ t /\ t ++ concat s1 = rest) as (t & -> & T).
  { exists (skipn (length m) v1). assert (Lm : (length m <= length v1)%nat) by (unfold zlen in L1; lia).
    assert (Em : firstn (length m) v1 = m).
    { transitivity (firstn (length m) (v1 ++ concat s1)); [|rewrite C1; apply firstn_pre].
      rewrite firstn_app. replace (length m - length v1)%nat with 0%nat by lia. simpl. now rewrite app_nil_r. }
    split; [rewrite <- Em at 1; now rewrite firstn_skipn|].
    rewrite <- (firstn_skipn (length m) v1), Em, <- app_assoc in C1. now apply app_inv_head in C1. }
  exists t, s1. unfold read_body. rewrite E1. unfold cut_at. destruct (Z.ltb_spec (zlen m) 0); [lia|].
  unfold zlen at 1 2. rewrite Nat2Z.id, firstn_pre, skipn_pre. repeat (split; [solve [auto]|]). rewrite zlen_app in M1. lia.
Qed.

Lemma first_occ (x : Z) l : ~ In x l \/ exists pre post, l = pre ++ x :: post /\ ~ In x pre.
Proof.
  destruct (find_spec x l) as [[_ N]|(j & _ & H & N)]; [now left|]. right.
  apply nth_error_split in H as (l1 & l2 & -> & Q). exists l1, l2. split; [reflexivity|]. subst j. now rewrite firstn_pre in N.
Qed.
Lemma clean_tail pre x junk next : clean (pre ++ x :: junk) next -> clean junk next.
Proof.
  intros C i Hi. specialize (C (length pre + S i)%nat). rewrite app_length in C. simpl in C.
  rewrite <- app_assoc, skipn_app in C. rewrite skipn_all2 in C by lia.
  replace (length pre + S i - length pre)%nat with (S i) in C by lia. simpl in C. apply C. lia.
Qed.
Lemma clean_here pre x junk next : clean (pre ++ x :: junk) next -> firstn 5 ((x :: junk) ++ next) <> magic.
Proof.
  intro C. specialize (C (length pre)). rewrite <- app_assoc, skipn_pre in C. apply C. rewrite app_length. simpl. lia.
Qed.

(** One round of the loop on junk that contains a sync byte. *)
Lemma round_junk f buf src pre junk next : buf ++ concat src = pre ++ 255 :: junk ++ next -> ~ In 255 pre ->
  clean (pre ++ 255 :: junk) next -> zlen buf <= B + 4 -> small src ->
  (zlen (255 :: junk ++ next) < 5 /\ decode_loop (S f) buf src = (Ok None, 255 :: junk ++ next, [])) \/
  (5 <= zlen (255 :: junk ++ next) /\ exists buf' src', decode_loop (S f) buf src = decode_loop f buf' src' /\ buf' ++ concat src' = junk ++ next /\
    small src' /\ zlen buf' <= B + 4).
Proof.
  intros H N C V Hs. cbn [MsgModel.decode_loop].
  destruct (sync_ok src buf pre (junk ++ next) H N Hs) as (v1 & s1 & E1 & C1 & S1 & M1). rewrite E1.
  assert (V1 : zlen (255 :: v1) <= B + 4) by (rewrite zlen_cons; lia).
  destruct (Z.ltb_spec (zlen (255 :: junk ++ next)) 5) as [L|L].
  - left. split; [assumption|]. rewrite read_header_short; cbn [app]; rewrite C1; [reflexivity|assumption].
  - right. split; [assumption|]. destruct (read_header_bad (255 :: v1) s1) as (v2 & s2 & E2 & C2 & S2 & M2); auto.
    + cbn [app]. now rewrite C1.
    + cbn [app]. rewrite C1. apply (clean_here pre 255 junk next C).
    + rewrite E2. cbn [app] in C2. rewrite C1 in C2. exists (skipn 1 v2), s2. split; [reflexivity|].
      destruct v2 as [|b v2]; [change (zlen (@nil Z)) with 0 in M2; lia|]. cbn [app] in C2. inversion C2; subst. cbn [skipn].
      rewrite zlen_cons in M2. repeat (split; [solve [auto]|]). lia.
Qed.

Lemma encode_head m : exists e, encodemsg m = 255 :: e.
Proof. eexists. reflexivity. Qed.

Lemma decode_loop_ok m rest : header_len m + B <= 4096 -> forall f buf src junk,
  buf ++ concat src = junk ++ encodemsg m ++ rest -> clean junk (encodemsg m ++ rest) -> zlen buf <= B + 4 -> small src ->
  (length junk < f)%nat ->
  exists buf' src', decode_loop f buf src = (Ok (Some m), buf', src') /\ buf' ++ concat src' = rest /\ small src' /\ zlen buf' <= B + 4.
Proof.
  intro Hh. induction f as [|f IH]; intros buf src junk H C V Hs Hf; [lia|].
  destruct (first_occ 255 junk) as [N|(pre & junk' & -> & N)].
  - cbn [MsgModel.decode_loop]. destruct (encode_head m) as (e & He).
    destruct (sync_ok src buf junk (e ++ rest)) as (v1 & s1 & E1 & C1 & S1 & M1); auto.
    { rewrite H, He. reflexivity. }
    rewrite E1. destruct (read_header_ok (255 :: v1) s1 m rest) as (v2 & s2 & E2 & C2 & S2 & M2); auto.
    { cbn [app]. now rewrite C1, He. }
    { rewrite zlen_cons. lia. }
    rewrite E2. destruct (read_body_ok v2 s2 m rest C2 M2 S2) as (v3 & s3 & E3 & C3 & S3 & M3). rewrite E3.
    exists v3, s3. repeat (split; [solve [auto]|]). lia.
  - rewrite <- app_assoc in H. cbn [app] in H.
    destruct (round_junk f buf src pre junk' _ H N C V Hs) as [[L _]|(_ & b' & s' & E & C' & S' & V')].
    + exfalso. rewrite encode_hdr in L. rewrite zlen_cons, zlen_app, <- app_assoc, zlen_app in L.
      pose proof (hdr_ge m). pose proof (zlen_nonneg junk'). pose proof (zlen_nonneg ((semicolon :: m) ++ rest)). lia.
    + rewrite E. apply (IH b' s' junk'); auto. now apply clean_tail in C. rewrite app_length in Hf. simpl in Hf. lia.
Qed.

(** A proper prefix of an encoded message (possibly empty). *)
Lemma prefix_split {A} (p q h r : list A) x : p ++ q = h ++ x :: r -> (exists t, p = h ++ x :: t /\ t ++ q = r) \/ (exists t, h = p ++ t).
Proof. intro H. destruct (app_split _ _ _ _ _ H) as [(t & -> & T)|(t & -> & T)]; [left|right]; eauto. Qed.

Lemma decode_loop_none m p q : header_len m + B <= 4096 -> p ++ q = encodemsg m -> q <> [] -> forall f buf src junk,
  buf ++ concat src = junk ++ p -> clean junk p -> zlen buf <= B + 4 -> small src -> (length junk < f)%nat ->
  exists buf', decode_loop f buf src = (Ok None, buf', []) /\ (p = [] -> clean buf' [] /\ zlen buf' <= B + 4).
Proof.
  intros Hh Hp Hq. rewrite header_len_hdr in Hh. pose proof (hdr_ge m) as G.
  induction f as [|f IH]; intros buf src junk H C V Hs Hf; [lia|].
  destruct (first_occ 255 junk) as [N|(pre & junk' & -> & N)].
  - cbn [MsgModel.decode_loop]. destruct p as [|b p].
    + rewrite sync_eof by (now rewrite H, app_nil_r). exists []. split; [reflexivity|]. intros _. split; [intros i Hi; simpl in Hi; lia|].
      change (zlen (@nil Z)) with 0. lia.
    + assert (b = 255) by (cbn [app] in Hp; destruct (encode_head m) as (e & He); congruence). subst b.
      destruct (sync_ok src buf junk p H N Hs) as (v1 & s1 & E1 & C1 & S1 & M1). rewrite E1.
      assert (C1' : (255 :: v1) ++ concat s1 = 255 :: p) by (cbn [app]; now rewrite C1).
      destruct (Z.ltb_spec (zlen (255 :: p)) 5) as [L|L].
      * rewrite read_header_short by (rewrite C1'; assumption). rewrite C1'. eexists. split; [reflexivity|]. discriminate.
      * destruct (read_until_ok 5 s1 (255 :: v1)) as (v2 & s2 & E2 & C2 & L2 & S2 & M2 & _); [now rewrite C1'|assumption|].
        rewrite C1' in C2. rewrite zlen_cons in M2.
        assert (F : firstn 5 v2 = magic).
        { rewrite <- (firstn5_app v2 (concat s2) L2), C2. rewrite <- (firstn5_app _ q) by assumption. rewrite Hp, encode_hdr. apply firstn5_hdr. }
        rewrite encode_hdr in Hp. destruct (prefix_split _ _ _ _ _ Hp) as [(t & Et & Tq)|(t & Et)].
        -- rewrite Et in C2. destruct (term_ok s2 v2 (hdr m) t None C2 (hdr_no_semicolon m) S2) as (u & s3 & E3 & C3 & S3 & M3); [lia|lia|].
           rewrite (read_header_val (hdr m) u (255 :: v1) s1 v2 s2 s3 E2 F (hdr_no_semicolon m) E3), parse_hdr.
           unfold read_body. rewrite read_until_eof.
           ++ eexists. split; [reflexivity|]. discriminate.
           ++ rewrite C3, <- Tq, zlen_app. destruct q; [congruence|]. rewrite zlen_cons. pose proof (zlen_nonneg q). lia.
        -- unfold MsgModel.read_header. rewrite E2, F, beqb_refl. simpl negb. cbn iota. rewrite term_eof.
           ++ eexists. split; [reflexivity|]. discriminate.
           ++ rewrite C2. intro Q. apply (hdr_no_semicolon m). rewrite Et. apply in_or_app. now left.
           ++ rewrite C2. assert (zlen (255 :: p) <= zlen (hdr m)) by (rewrite Et, zlen_app; pose proof (zlen_nonneg t); lia). lia.
  - rewrite <- app_assoc in H. cbn [app] in H.
    destruct (round_junk f buf src pre junk' _ H N C V Hs) as [[L E]|(_ & b' & s' & E & C' & S' & V')].
    + rewrite E. eexists. split; [reflexivity|]. intros ->. split.
      * intros i Hi. rewrite !app_nil_r in *. rewrite <- (app_nil_r (skipn i _)) in *. specialize (C (length pre + i)%nat).
        rewrite app_nil_r in *. rewrite skipn_app, skipn_all2 in C by lia. replace (length pre + i - length pre)%nat with i in C by lia.
        apply C. rewrite app_length. simpl in *. lia.
      * lia.
    + rewrite E. apply (IH b' s' junk'); auto. now apply clean_tail in C. rewrite app_length in Hf. simpl in Hf. lia.
Qed.

Lemma decode_ok m rest buf src junk : header_len m + B <= 4096 ->
  buf ++ concat src = junk ++ encodemsg m ++ rest -> clean junk (encodemsg m ++ rest) -> zlen buf <= B + 4 -> small src ->
  exists buf' src', decode buf src = (Ok (Some m), buf', src') /\ buf' ++ concat src' = rest /\ small src' /\ zlen buf' <= B + 4.
Proof.
  intros. unfold MsgModel.decode. eapply decode_loop_ok; eauto. rewrite <- app_length, H0, app_length. lia.
Qed.
Lemma decode_none m p q buf src junk : header_len m + B <= 4096 -> p ++ q = encodemsg m -> q <> [] ->
  buf ++ concat src = junk ++ p -> clean junk p -> zlen buf <= B + 4 -> small src ->
  exists buf', decode buf src = (Ok None, buf', []) /\ (p = [] -> clean buf' [] /\ zlen buf' <= B + 4).
Proof.
  intros. unfold MsgModel.decode. eapply decode_loop_none; eauto. rewrite <- app_length, H2, app_length. lia.
Qed.
End S.

(** A common bound on the chunks. *)
Lemma chunk_bound (src : list bytes) : exists B, 0 <= B /\ Forall (fun c => zlen c <= B) src /\ (B = 0 \/ exists c, In c src /\ zlen c = B).
Proof.
  induction src as [|c src (B & H0 & H & HB)]; [exists 0; repeat split; auto; lia|].
  destruct (Z.le_gt_cases (zlen c) B).
  - exists B. split; [assumption|]. split; [constructor; assumption|]. destruct HB as [?|(d & ? & ?)]; [now left|right]. exists d. split; [now right|assumption].
  - exists (zlen c). split; [apply zlen_nonneg|]. split.
    + constructor; [lia|]. eapply Forall_impl; [|exact H]. simpl. intros. lia.
    + right. exists c. split; [now left|reflexivity].
Qed.
Lemma fits_bound src m B : (B = 0 \/ exists c, In c src /\ zlen c = B) -> fits src m -> header_len m + B <= 4096.
Proof. intros [->|(c & I & <-)] [L F]; [lia|]. specialize (F c I). lia. Qed.

Lemma header_len_nil : header_len [] = 7. Proof. reflexivity. Qed.

Section Seq.
Context (uni : bytes -> outcome Z).

Lemma decodes_seq B : 0 <= B -> forall parts last buf src q,
  (forall junk m, In (junk, m) parts -> header_len m + B <= 4096) ->
  buf ++ concat src = stream_of parts last -> all_clean parts last -> zlen buf <= B + 4 -> Forall (fun c => zlen c <= B) src ->
  exists buf' src', decodes uni (length parts + q) buf src = map (fun p => Ok (Some (snd p))) parts ++ decodes uni q buf' src' /\
    buf' ++ concat src' = last /\ Forall (fun c => zlen c <= B) src' /\ zlen buf' <= B + 4.
Proof.
  intro HB. induction parts as [|[junk m] parts IH]; intros last buf src q Hh H C V Hs.
  - exists buf, src. auto.
  - cbn [stream_of all_clean] in *. destruct C as [C1 C2].
    destruct (decode_ok uni B m (stream_of parts last) buf src junk) as (b1 & s1 & E1 & R1 & S1 & V1); auto.
    { apply (Hh junk). now left. }
    destruct (IH last b1 s1 q) as (b2 & s2 & E2 & R2 & S2 & V2); auto.
    { intros j' m' I. apply (Hh j'). now right. }
    exists b2, s2. cbn [length Nat.add decodes map snd app]. rewrite E1, E2. auto.
Qed.
Lemma decodes_none B : 0 <= B -> 7 + B <= 4096 -> forall k last buf src,
  buf ++ concat src = last -> clean last [] -> zlen buf <= B + 4 -> Forall (fun c => zlen c <= B) src ->
  decodes uni k buf src = repeat (Ok None) k.
Proof.
  intros HB H7. induction k as [|k IH]; intros last buf src H C V Hs; [reflexivity|]. cbn [decodes repeat].
  destruct (decode_none uni B HB [] [] (encodemsg []) buf src last) as (b & E & K); auto.
  { discriminate. } { now rewrite app_nil_r. }
  rewrite E. destruct (K eq_refl) as [K1 K2]. f_equal. apply (IH b b []); auto. cbn [concat]. apply app_nil_r.
Qed.

Lemma decode_sequence parts last src k : (forall junk m, In (junk, m) parts -> fits src m) -> fits src [] ->
  concat src = stream_of parts last -> all_clean parts last -> clean last [] ->
  decodes uni (length parts + k) [] src = map (fun p => Ok (Some (snd p))) parts ++ repeat (Ok None) k.
Proof.
  intros Hh H0 H C L. destruct (chunk_bound src) as (B & HB & Hs & W).
  destruct (decodes_seq B HB parts last [] src k) as (b & s & E & R & S' & V); auto.
  - intros junk m I. apply (fits_bound src); eauto.
  - change (zlen (@nil Z)) with 0. lia.
  - rewrite E. f_equal. apply (decodes_none B HB) with (last := last); auto.
    rewrite <- header_len_nil. apply (fits_bound src); auto.
Qed.
Lemma decode_truncated parts junk p m src : (forall junk m, In (junk, m) parts -> fits src m) ->
  fits src m -> truncated p m ->
  concat src = stream_of parts (junk ++ p) -> all_clean parts (junk ++ p) -> clean junk p ->
  decodes uni (length parts + 1) [] src = map (fun p => Ok (Some (snd p))) parts ++ [Ok None].
Proof.
  intros Hh Fm (q & Nq & Q) H C Cj. destruct (chunk_bound src) as (B & HB & Hs & W).
  destruct (decodes_seq B HB parts (junk ++ p) [] src 1) as (b & s & E & R & S' & V); auto.
  - intros j' m' I. apply (fits_bound src); eauto.
  - change (zlen (@nil Z)) with 0. lia.
  - rewrite E. f_equal. destruct (decode_none uni B HB m p q b s junk) as (b' & E' & _); auto.
    { now apply (fits_bound src). }
    cbn [decodes]. rewrite E'. reflexivity.
Qed.
Lemma round_trip m src : concat src = encodemsg m -> fits src m ->
  exists buf' src', decode uni [] src = (Ok (Some m), buf', src') /\ buf' ++ concat src' = [].
Proof.
  intros H F. destruct (chunk_bound src) as (B & HB & Hs & W).
  destruct (decode_ok uni B m [] [] src []) as (b & s & E & R & S' & V); auto.
  - now apply (fits_bound src).
  - cbn [app]. now rewrite app_nil_r.
  - intros i Hi. simpl in Hi. lia.
  - change (zlen (@nil Z)) with 0. lia.
  - eauto.
Qed.

(** Failures. *)
Lemma big_chunk_fails c src : firstn 5 c = magic -> 4096 <= zlen c -> decode uni [] (c :: src) = (Raise UnboundLocalError, c, src).
Proof.
  intros F L. unfold decode. cbn [decode_loop synchronize]. change (0 <=? find 255 []) with false. cbn iota.
  destruct c as [|a c]; [discriminate|]. assert (a = 255) by (unfold magic in F; cbn [firstn] in F; congruence). subst a.
  assert (S0 : synchronize (255 :: c) src = Val tt (255 :: c) src) by (destruct src; reflexivity).
  rewrite S0. unfold read_header.
  assert (R : read_until 5 (255 :: c) src = Val tt (255 :: c) src).
  { destruct src; cbn [read_until]; destruct (Z.leb_spec 5 (zlen (255 :: c))); auto; lia. }
  rewrite R, F, beqb_refl. simpl negb. cbn iota.
  assert (T : find_terminator None (255 :: c) src = Val None (255 :: c) src).
  { destruct src; cbn [find_terminator]; destruct (Z.ltb_spec (zlen (255 :: c)) 4096); auto; lia. }
  now rewrite T.
Qed.
Lemma tight m : ~ In 255 m -> 4096 <= zlen (encodemsg m) -> zlen (hdr m) < 4096 ->
  decode uni [] [hdr m; semicolon :: m] = (Ok None, [], []).
Proof.
  intros N L H. unfold decode. cbn [concat app length]. rewrite app_nil_r.
  assert (exists n, S (0 + length (hdr m ++ semicolon :: m)) = S (S n)) as (n & ->).
  { exists (pred (length (hdr m ++ semicolon :: m))). rewrite app_length. simpl. lia. }
  cbn [decode_loop synchronize]. change (0 <=? find 255 []) with false. cbn iota.
  assert (E0 : exists h, hdr m = 255 :: h) by (eexists; reflexivity). destruct E0 as (h & Eh).
  assert (Z0 : find 255 (hdr m) = 0) by (rewrite Eh; reflexivity). rewrite Z0. change (0 <=? 0) with true. cbn iota. change (skipn (Z.to_nat 0) (hdr m)) with (hdr m).
  unfold read_header. cbn [read_until]. pose proof (hdr_ge m). destruct (Z.leb_spec 5 (zlen (hdr m))); [|lia].
  change (firstn 5 (hdr m)) with magic. rewrite beqb_refl. simpl negb. cbn iota.
  cbn [find_terminator]. destruct (Z.ltb_spec (zlen (hdr m)) 4096); [|lia]. rewrite (find_none _ _ (hdr_no_semicolon uni m)). simpl Z.eqb. cbn [negb].
  rewrite <- encode_hdr. destruct (Z.ltb_spec (zlen (encodemsg m)) 4096); [lia|]. simpl Z.eqb. cbn iota.
  assert (T : synchronize (skipn 1 (encodemsg m)) [] = EOF []).
  { apply sync_eof. cbn [concat]. rewrite app_nil_r, encode_hdr, Eh. cbn [skipn app]. intro I.
    apply in_app_or in I as [I|[I|I]]; [|unfold semicolon in I; lia|contradiction].
    unfold hdr in Eh. change (255 :: ([118; 48; 49; 108] ++ str_int (zlen m)) = 255 :: h) in Eh. inversion Eh; subst h.
    do 4 (destruct I as [I|I]; [lia|]).
    apply (proj1 (str_int_spec _ (zlen_nonneg m))), digit_range in I. lia. }
  unfold bytes in *. now rewrite T.
Qed.
End Seq.

(** byte sources *)
Lemma skipn_skipn' {A} (l : list A) : forall n m, skipn n (skipn m l) = skipn (m + n) l.
Proof. induction l as [|x l IH]; intros n [|m]; simpl; auto. now destruct n. Qed.
Lemma bytessource_loop_spec cs data : 1 <= cs -> forall f j, 0 <= j -> zlen data - j * cs < Z.of_nat f ->
  concat (bytessource_loop f j cs data) = skipn (Z.to_nat (j * cs)) data /\
  Forall (fun c => 1 <= zlen c <= cs) (bytessource_loop f j cs data).
Proof.
  intro Hc. induction f as [|f IH]; intros j Hj Hf.
  - cbn [bytessource_loop concat]. rewrite skipn_all2 by (unfold zlen in *; lia). auto.
  - cbn [bytessource_loop]. destruct (Z.leb_spec (zlen data) (j * cs)).
    + rewrite skipn_all2 by (unfold zlen in *; lia). auto.
    + destruct (IH (j + 1)) as [E F]; [lia|nia|]. cbn [concat]. rewrite E. split.
      * replace (Z.to_nat ((j + 1) * cs)) with (Z.to_nat (j * cs) + Z.to_nat cs)%nat by nia.
        rewrite <- skipn_skipn'. apply firstn_skipn.
      * constructor; [|assumption]. unfold zlen in *. rewrite firstn_length, skipn_length. nia.
Qed.
Lemma bytessource_spec data cs : 1 <= cs -> concat (bytessource data cs) = data /\ Forall (fun c => 1 <= zlen c <= cs) (bytessource data cs).
Proof.
  intro H. unfold bytessource. destruct (bytessource_loop_spec cs data H (S (length data)) 0) as [E F]; [lia|unfold zlen; lia|]. now rewrite E.
Qed.
Lemma streamsource_loop_spec cs : forall f data sizes, (length data < f)%nat ->
  concat (streamsource_loop f cs data sizes) = data /\ Forall (fun c => 1 <= zlen c <= 4096) (streamsource_loop f cs data sizes).
Proof.
  induction f as [|f IH]; intros data sizes Hf; [lia|]. destruct data as [|b data]; [simpl; auto|].
  cbn [streamsource_loop]. set (k := Nat.min _ _). cbn [concat].
  assert (K1 : (1 <= k)%nat) by (subst k; destruct sizes; cbn [length]; cbn iota beta; lia).
  assert (K2 : Z.of_nat k <= 4096) by (subst k; lia). clearbody k.
  destruct (IH (skipn k (b :: data)) (List.tl sizes)) as [E F]; [rewrite skipn_length; cbn [length] in *; lia|].
  rewrite E, firstn_skipn. split; [reflexivity|]. constructor; [|assumption]. unfold zlen. rewrite firstn_length. simpl length. lia.
Qed.
Lemma streamsource_spec cs data sizes : concat (streamsource data sizes cs) = data /\ Forall (fun c => 1 <= zlen c <= 4096) (streamsource data sizes cs).
Proof. apply streamsource_loop_spec. lia. Qed.
Lemma streamsource_ignores data sizes cs cs' : streamsource data sizes cs = streamsource data sizes cs'.
Proof.
  unfold streamsource. generalize (S (length data)) as f. intro f. revert data sizes. induction f as [|f IH]; intros; [reflexivity|].
  cbn [streamsource_loop]. destruct data; [reflexivity|]. now rewrite IH.
Qed.

(** recvall *)
Lemma recvall_spec sizes : forall n acc stream, 0 <= n ->
  recvall n acc stream sizes = if zlen stream <? n then (None, []) else (Some (acc ++ firstn (Z.to_nat n) stream), skipn (Z.to_nat n) stream).
Proof.
  induction sizes as [|k sizes IH]; intros n acc stream Hn; cbn [recvall]; pose proof (zlen_nonneg stream).
  - destruct (Z.eqb_spec n 0) as [->|].
    + destruct (Z.ltb_spec (zlen stream) 0); [lia|]. simpl. now rewrite app_nil_r.
    + destruct stream as [|b stream]; [|reflexivity]. change (zlen (@nil Z)) with 0. destruct (Z.ltb_spec 0 n); [reflexivity|lia].
  - destruct (Z.eqb_spec n 0) as [->|].
    + destruct (Z.ltb_spec (zlen stream) 0); [lia|]. simpl. now rewrite app_nil_r.
    + destruct stream as [|b stream]; [change (zlen (@nil Z)) with 0; destruct (Z.ltb_spec 0 n); [reflexivity|lia]|].
      set (st := b :: stream) in *. set (j := Nat.min _ _). assert (J : (1 <= j)%nat /\ (j <= length st)%nat /\ Z.of_nat j <= n) by (subst j st; simpl length; lia).
      rewrite IH by lia. unfold zlen. rewrite skipn_length.
      destruct (Z.ltb_spec (Z.of_nat (length st - j)) (n - Z.of_nat j)), (Z.ltb_spec (Z.of_nat (length st)) n); try lia; [reflexivity|].
      rewrite <- app_assoc. replace (Z.to_nat (n - Z.of_nat j)) with (Z.to_nat n - j)%nat by lia.
      f_equal; [f_equal; f_equal|].
      * rewrite firstn_skipn_comm. replace (j + (Z.to_nat n - j))%nat with (Z.to_nat n) by lia.
        rewrite <- (firstn_skipn j (firstn (Z.to_nat n) st)) at 2. rewrite firstn_firstn. now replace (Nat.min j (Z.to_nat n)) with j by lia.
      * rewrite skipn_skipn'. f_equal. lia.
Qed.

Lemma default_source_fails uni m cs : 4096 <= cs -> 4096 <= zlen (encodemsg m) ->
  exists buf' src', decode uni [] (bytessource (encodemsg m) cs) = (Raise UnboundLocalError, buf', src').
Proof.
  intros Hc Hm. unfold bytessource. cbn [bytessource_loop]. destruct (Z.leb_spec (zlen (encodemsg m)) (0 * cs)); [lia|].
  rewrite Z.mul_0_l. simpl skipn. eexists _, _. apply big_chunk_fails.
  - assert (exists k, Z.to_nat cs = S (S (S (S (S k))))) as (k & ->) by (exists (Z.to_nat cs - 5)%nat; lia). reflexivity.
  - unfold zlen in *. rewrite firstn_length. lia.
Qed.
Lemma tight_chunks uni m : ~ In 255 m -> 4096 <= zlen (encodemsg m) -> header_len m <= 4096 ->
  let n := Z.to_nat (header_len m - 1) in
  decode uni [] [firstn n (encodemsg m); skipn n (encodemsg m)] = (Ok None, [], []).
Proof.
  intros N L H. cbv zeta. rewrite header_len_hdr in *. replace (Z.to_nat (zlen (hdr m) + 1 - 1)) with (length (hdr m)) by (unfold zlen; lia).
  rewrite encode_hdr, firstn_pre, skipn_pre. apply tight; auto; try lia.
Qed.
Lemma in_skipn {A} (x : A) l : forall n, In x (skipn n l) -> In x l.
Proof. induction l as [|y l IH]; intros [|n]; simpl; auto. intro. right. eauto. Qed.
Lemma sync_free_clean junk next : ~ In 255 junk -> clean junk next.
Proof.
  intros N i Hi E. apply N. destruct (nth_error junk i) as [x|] eqn:X; [|apply nth_error_None in X; lia].
  assert (Y : nth_error (firstn 5 (skipn i (junk ++ next))) 0 = Some x).
  { rewrite nth_error_firstn', nth_error_skipn'. simpl Nat.ltb. cbn iota. rewrite Nat.add_0_r, nth_error_app1 by assumption. assumption. }
  rewrite E in Y. simpl in Y. inversion Y; subst. eapply nth_error_In, X.
Qed.
Lemma leftover_breaks_next uni m : 4096 <= zlen m ->
  decodes uni 2 [] [encodemsg [] ++ firstn 4 (encodemsg m); firstn 4095 (skipn 4 (encodemsg m)); skipn 4099 (encodemsg m)]
  = [Ok (Some []); Raise UnboundLocalError].
Proof.
  intro H. set (c2 := firstn 4095 (skipn 4 (encodemsg m))). set (c3 := skipn 4099 (encodemsg m)).
  assert (L2 : 4095 <= zlen c2).
  { subst c2. unfold zlen. rewrite firstn_length, skipn_length. rewrite encode_hdr, app_length. cbn [length].
    pose proof (hdr_ge m). unfold zlen in *. lia. }
  assert (F2 : exists r, c2 = 108 :: r).
  { subst c2. exists (firstn 4094 (skipn 5 (encodemsg m))). reflexivity. }
  destruct F2 as (r & F2). change (firstn 4 (encodemsg m)) with [255; 118; 48; 49]. clearbody c2 c3.
  assert (E1 : decode uni [] [encodemsg [] ++ [255; 118; 48; 49]; c2; c3] = (Ok (Some []), [255; 118; 48; 49], [c2; c3])) by reflexivity.
  cbn [decodes]. rewrite E1.
  assert (E2 : exists b s, decode uni [255; 118; 48; 49] [c2; c3] = (Raise UnboundLocalError, b, s)).
  { unfold decode. cbn [decode_loop]. change (synchronize [255; 118; 48; 49] [c2; c3]) with (Val tt [255; 118; 48; 49] [c2; c3]). cbn iota.
    unfold read_header. 
    assert (R : read_until 5 [255; 118; 48; 49] [c2; c3] = Val tt ([255; 118; 48; 49] ++ c2) [c3]).
    { cbn [read_until]. change (5 <=? zlen [255; 118; 48; 49]) with false. cbn iota. rewrite zlen_app. change (zlen [255; 118; 48; 49]) with 4.
      destruct (Z.leb_spec 5 (4 + zlen c2)); [reflexivity|lia]. }
    rewrite R. assert (F : firstn 5 ([255; 118; 48; 49] ++ c2) = magic) by (rewrite F2; reflexivity). rewrite F, beqb_refl. simpl negb. cbn iota.
    assert (T : find_terminator None ([255; 118; 48; 49] ++ c2) [c3] = Val None ([255; 118; 48; 49] ++ c2) [c3]).
    { cbn [find_terminator]. rewrite zlen_app. change (zlen [255; 118; 48; 49]) with 4. destruct (Z.ltb_spec (4 + zlen c2) 4096); [lia|reflexivity]. }
    rewrite T. eauto. }
  destruct E2 as (b & s & ->). reflexivity.
Qed.
Lemma recvall_all sizes n stream : 0 <= n ->
  recvall n [] stream sizes = if zlen stream <? n then (None, []) else (Some (firstn (Z.to_nat n) stream), skipn (Z.to_nat n) stream).
Proof. intro H. rewrite recvall_spec by assumption. reflexivity. Qed.
Lemma more_digits_fold l : (forall b, In b l -> is_digit b = true) -> forall acc,
  more_digits acc l = Ok (fold_left (fun v d => 10 * v + (d - 48)) l acc).
Proof.
  induction l as [|b l IH]; intros H acc; [reflexivity|]. cbn [more_digits fold_left]. rewrite (H b (or_introl eq_refl)).
  apply IH. intros. apply H. now right.
Qed.
Lemma digits_head f : forall n, 0 < n < 2 ^ Z.of_nat f -> exists d ds, digits f n = d :: ds /\ d <> 48.
Proof.
  induction f as [|f IH]; intros n Hn; [simpl in Hn; lia|]. cbn [digits]. destruct (Z.ltb_spec n 10).
  - eexists _, _. split; [reflexivity|]. lia.
  - destruct (IH (n / 10)) as (d & ds & -> & Hd).
    { split; [apply Z.div_str_pos; lia|]. apply Z.div_lt_upper_bound; [lia|]. rewrite Nat2Z.inj_succ, Z.pow_succ_r in Hn by lia. lia. }
    eexists _, _. split; [reflexivity|assumption].
Qed.
Lemma netstringify_spec data rest : exists ds,
  netstringify data ++ rest = ds ++ 58 :: data ++ 44 :: rest /\
  ds <> [] /\ (forall d, In d ds -> 48 <= d <= 57) /\
  fold_left (fun v d => 10 * v + (d - 48)) ds 0 = zlen data /\
  ((2 <= length ds)%nat -> hd 0 ds <> 48).
Proof.
  exists (str_int (zlen data)). destruct (str_int_spec _ (zlen_nonneg data)) as (D & N & V). split; [|split; [|split; [|split]]].
  - unfold netstringify. rewrite <- app_assoc. cbn [app]. rewrite <- app_assoc. reflexivity.
  - assumption.
  - intros d Hd. apply digit_range. now apply D.
  - rewrite more_digits_fold in V by assumption. congruence.
  - intro L. unfold str_int in *. set (n := zlen data) in *. assert (0 <= n) by apply zlen_nonneg.
    destruct (Z.eq_dec n 0) as [E|E]; [rewrite E in L; simpl in L; lia|].
    destruct (digits_head (S (Z.to_nat (Z.log2 n))) n) as (d & ds & -> & Hd); [|assumption].
    split; [lia|]. rewrite Nat2Z.inj_succ. pose proof (Z.log2_nonneg n). rewrite Z2Nat.id by assumption. apply Z.log2_spec. lia.
Qed.
Lemma streamsource_too_big cs contents : 1 <= cs < 4096 -> cs < zlen contents ->
  exists c, In c (streamsource contents [] cs) /\ cs < zlen c.
Proof.
  intros Hc H. unfold streamsource. destruct contents as [|b l]; [change (zlen (@nil Z)) with 0 in H; lia|].
  cbn [streamsource_loop]. eexists. split; [now left|]. unfold zlen in *. rewrite firstn_length. lia.
Qed.
