(** The length field of message headers. *)
From Verif Require Import Base MsgModel MsgSpec MsgProofs.
From Coq Require Import List Bool ZArith Lia.
Import ListNotations.
Open Scope Z_scope.

Lemma is_digit_iff b : is_digit b = true <-> digit b.
Proof. unfold is_digit, digit. rewrite andb_true_iff, !Z.leb_le. tauto. Qed.
Lemma is_space_iff b : is_space b = true <-> space b.
Proof. unfold is_space, space. rewrite orb_true_iff, !andb_true_iff, !Z.leb_le. tauto. Qed.
Lemma digit_nospace b : digit b -> is_space b = false.
Proof. intros H. apply digit_not_space. now apply is_digit_iff. Qed.

Definition val_from (acc : Z) (ds : bytes) : Z := fold_left (fun v d => 10 * v + (d - 48)) ds acc.
Lemma digit_text_head l ds : digit_text l ds -> exists d t, l = d :: t /\ digit d.
Proof. destruct 1; eauto. Qed.
Lemma more_ok : forall k l acc d v, (length l < k)%nat -> digit d ->
  (more_digits (10 * acc + (d - 48)) l = Ok v <-> exists ds, digit_text (d :: l) ds /\ v = val_from acc ds).
Proof.
  induction k as [|k IH]; intros l acc d v L D; [lia|]. destruct l as [|b l]; cbn [more_digits].
  - split.
    + intros E. injection E as <-. exists [d]. split; [now constructor|reflexivity].
    + intros (ds & T & ->). inversion T as [? ?|? ? ? ? T2|]; subst; [reflexivity|inversion T2].
  - destruct (is_digit b) eqn:B.
    + apply is_digit_iff in B. cbn in L. rewrite (IH l (10 * acc + (d - 48)) b v) by (auto; lia). split.
      * intros (ds & T & ->). exists (d :: ds). split; [now constructor|reflexivity].
      * intros (ds & T & ->). inversion T as [|? ? ds' ? T2|? l' ds' ? T2]; subst; [exists ds'; now split|]. exfalso. unfold digit in B. lia.
    + destruct (Z.eqb_spec b 95) as [->|N].
      * destruct l as [|c l].
        -- split; [discriminate|]. intros (ds & T & _). inversion T as [|? ? ds' ? T2|? l' ds' ? T2]; subst; [|inversion T2].
           apply digit_text_head in T2. destruct T2 as (e & t & E & De). injection E as <- <-. unfold digit in De. lia.
        -- destruct (is_digit c) eqn:C.
           ++ apply is_digit_iff in C. cbn in L. rewrite (IH l (10 * acc + (d - 48)) c v) by (auto; lia). split.
              ** intros (ds & T & ->). exists (d :: ds). split; [now constructor|reflexivity].
              ** intros (ds & T & ->). inversion T as [|? ? ds' ? T2|? l' ds' ? T2]; subst; [|exists ds'; now split].
                 apply digit_text_head in T2. destruct T2 as (e & t & E & De). injection E as <- <-. unfold digit in De. lia.
           ++ split; [discriminate|]. intros (ds & T & _). inversion T as [|? ? ds' ? T2|? l' ds' ? T2]; subst;
                apply digit_text_head in T2; destruct T2 as (e & t & E & De); injection E as <- <-; [unfold digit in De; lia|].
              apply is_digit_iff in De. congruence.
      * split; [discriminate|]. intros (ds & T & _). inversion T as [|? ? ds' ? T2|? l' ds' ? T2]; subst; [|congruence].
        apply digit_text_head in T2. destruct T2 as (e & t & E & De). injection E as <- <-. apply is_digit_iff in De. congruence.
Qed.
Lemma more_err : forall k l acc e, (length l < k)%nat -> more_digits acc l = Raise e -> e = ValueError.
Proof.
  induction k as [|k IH]; intros l acc e L; [lia|]. destruct l as [|b l]; cbn [more_digits]; [discriminate|]. cbn in L.
  destruct (is_digit b); [apply IH; lia|]. destruct (b =? 95); [|congruence]. destruct l as [|c l]; [congruence|]. cbn in L.
  destruct (is_digit c); [apply IH; lia|congruence].
Qed.
Lemma unsigned_ok l v : unsigned l = Ok v <-> exists ds, digit_text l ds /\ v = decimal ds.
Proof.
  destruct l as [|b l]; cbn [unsigned]; [split; [discriminate|]; intros (ds & T & _); inversion T|]. destruct (is_digit b) eqn:B.
  - apply is_digit_iff in B. apply (more_ok (S (length l)) l 0 b v); auto.
  - split; [discriminate|]. intros (ds & T & _). apply digit_text_head in T. destruct T as (e & t & E & De). injection E as <- <-.
    apply is_digit_iff in De. congruence.
Qed.
Lemma unsigned_err l e : unsigned l = Raise e -> e = ValueError.
Proof. destruct l as [|b l]; cbn [unsigned]; [congruence|]. destruct (is_digit b); [|congruence]. intros H. eapply (more_err (S (length l))); [|exact H]. lia. Qed.

(** white space *)
Definition strip (l : bytes) : bytes := rev (lstrip (rev (lstrip l))).
Lemma lstrip_split l : exists a, l = a ++ lstrip l /\ Forall space a.
Proof.
  induction l as [|b l (a & E & F)]; [exists []; split; [reflexivity|constructor]|]. cbn [lstrip]. destruct (is_space b) eqn:B.
  - exists (b :: a). cbn. split; [congruence|]. constructor; [now apply is_space_iff|exact F].
  - exists []. split; [reflexivity|constructor].
Qed.
Lemma strip_split l : exists a b, l = a ++ strip l ++ b /\ Forall space a /\ Forall space b.
Proof.
  destruct (lstrip_split l) as (a & E & F). destruct (lstrip_split (rev (lstrip l))) as (b & E2 & F2). exists a, (rev b). split; [|split; [exact F|]].
  - apply (f_equal (@rev Z)) in E2. rewrite rev_involutive, rev_app_distr in E2. unfold strip. rewrite E at 1. rewrite E2 at 1. reflexivity.
  - apply Forall_rev, F2.
Qed.
Definition starts_dark (l : bytes) : Prop := match l with b :: _ => is_space b = false | [] => False end.
Lemma lstrip_app a l : Forall space a -> starts_dark l -> lstrip (a ++ l) = l.
Proof.
  induction 1 as [|b a Hb Ha IH]; intros D; cbn [app lstrip].
  - destruct l as [|b l]; [destruct D|]. cbn in *. now rewrite D.
  - apply is_space_iff in Hb. rewrite Hb. now apply IH.
Qed.
Lemma dark_app l b : starts_dark l -> starts_dark (l ++ b).
Proof. destruct l; [intros []|auto]. Qed.
Lemma strip_app a l b : Forall space a -> Forall space b -> starts_dark l -> starts_dark (rev l) -> strip (a ++ l ++ b) = l.
Proof.
  intros Ha Hb D D'. unfold strip. rewrite lstrip_app by (auto using dark_app). rewrite rev_app_distr, lstrip_app by (auto using Forall_rev).
  apply rev_involutive.
Qed.
Lemma digit_text_dark l ds : digit_text l ds -> starts_dark l /\ starts_dark (rev l).
Proof.
  induction 1 as [d D|d l ds D T [IH1 IH2]|d l ds D T [IH1 IH2]]; cbn [rev].
  - split; cbn; now apply digit_nospace.
  - split; [cbn; now apply digit_nospace|]. now apply dark_app.
  - split; [cbn; now apply digit_nospace|]. now apply dark_app, dark_app.
Qed.

Section Uni.
Variable uni : bytes -> outcome Z.
Definition signed (l : bytes) : outcome Z := match l with 43 :: l' => unsigned l' | 45 :: l' => omap Z.opp (unsigned l') | _ => unsigned l end.
Lemma parse_strip l : ascii l -> parse_int uni l = signed (strip l).
Proof.
  intros A. unfold parse_int. assert (E : existsb (fun b => 128 <=? b) l = false).
  { destruct (existsb (fun b => 128 <=? b) l) eqn:E; [|reflexivity]. apply existsb_exists in E. destruct E as (b & I & E). apply Z.leb_le in E.
    unfold ascii in A. rewrite Forall_forall in A. specialize (A b I). cbn in A. lia. }
  rewrite E. reflexivity.
Qed.
Lemma signed_plus l : signed (43 :: l) = unsigned l. Proof. reflexivity. Qed.
Lemma signed_minus l : signed (45 :: l) = omap Z.opp (unsigned l). Proof. reflexivity. Qed.
Lemma signed_other b l : b <> 43 -> b <> 45 -> signed (b :: l) = unsigned (b :: l).
Proof.
  intros N1 N2. unfold signed. destruct b as [|p|p]; try reflexivity.
  do 6 (destruct p as [p|p|]; try reflexivity); congruence.
Qed.
Lemma signed_cases l : (exists l', l = 43 :: l' /\ signed l = unsigned l') \/ (exists l', l = 45 :: l' /\ signed l = omap Z.opp (unsigned l')) \/ signed l = unsigned l.
Proof.
  destruct l as [|b l]; [auto|]. destruct (Z.eq_dec b 43) as [->|N1]; [left; eauto|]. destruct (Z.eq_dec b 45) as [->|N2]; [right; left; eauto|].
  right. right. now apply signed_other.
Qed.
Lemma parse_ok l n : ascii l -> (parse_int uni l = Ok n <-> int_text l n).
Proof.
  intros A. rewrite parse_strip by exact A. split.
  - intros H. destruct (strip_split l) as (a & b & E & Fa & Fb). destruct (signed_cases (strip l)) as [(l' & E' & S)|[(l' & E' & S)|S]]; rewrite S in H.
    + apply unsigned_ok in H. destruct H as (ds & T & ->). exists a, [43], l', ds, b. repeat split; auto. now rewrite E, E' at 1.
    + destruct (unsigned l') as [v|x] eqn:U; [|discriminate H]. injection H as <-. apply unsigned_ok in U. destruct U as (ds & T & ->).
      exists a, [45], l', ds, b. repeat split; auto. now rewrite E, E' at 1.
    + apply unsigned_ok in H. destruct H as (ds & T & ->). exists a, [], (strip l), ds, b. repeat split; auto.
  - intros (a & sg & t & ds & b & -> & Fa & Fb & T & H). destruct (digit_text_dark _ _ T) as [D1 D2].
    rewrite (app_assoc sg t b). rewrite strip_app; auto.
    + destruct (digit_text_head _ _ T) as (d & r & E & D). destruct H as [[[->| ->] ->]|[-> ->]]; cbn [app].
      * rewrite E, signed_other, <- E by (unfold digit in D; lia). apply unsigned_ok. eauto.
      * rewrite signed_plus. apply unsigned_ok. eauto.
      * rewrite signed_minus. assert (U : unsigned t = Ok (decimal ds)) by (apply unsigned_ok; eauto). now rewrite U.
    + destruct H as [[[->| ->] ->]|[-> ->]]; [exact D1|reflexivity|reflexivity].
    + rewrite rev_app_distr. now apply dark_app.
Qed.
Lemma parse_err l e : ascii l -> parse_int uni l = Raise e -> e = ValueError.
Proof.
  intros A. rewrite parse_strip by exact A. destruct (signed_cases (strip l)) as [(l' & _ & S)|[(l' & _ & S)|S]]; rewrite S.
  - apply unsigned_err.
  - destruct (unsigned l') eqn:U; cbn; [discriminate|]. intros E. injection E as <-. eapply unsigned_err, U.
  - apply unsigned_err.
Qed.

(** ** The decoder *)
Lemma header_eq field rest : header_with field ++ rest = (magic ++ field) ++ semicolon :: rest.
Proof. unfold header_with, magic, semicolon. rewrite <- !app_assoc. reflexivity. Qed.
Lemma header_ok B field val src rest : 0 <= B -> Forall (fun c : bytes => zlen c <= B) src -> val ++ concat src = header_with field ++ rest -> ~ In 59 field ->
  zlen (header_with field) + B <= 4096 -> zlen val < 4096 ->
  exists t src', read_header uni val src =
      match parse_int uni field with Ok n => Val n t src' | Raise e => Exc e (header_with field ++ t) src' end /\
    t ++ concat src' = rest /\ Forall (fun c : bytes => zlen c <= B) src' /\ zlen (header_with field ++ t) < 4096.
Proof.
  intros HB Hs H N L V. rewrite header_eq in H. set (h := magic ++ field) in *.
  assert (Lh : zlen h + 1 = zlen (header_with field)).
  { rewrite <- (app_nil_r (header_with field)), header_eq. fold h. rewrite zlen_app, zlen_cons. reflexivity. }
  assert (G : 5 <= zlen h) by (unfold h; rewrite zlen_app; change (zlen magic) with 5; pose proof (zlen_nonneg field); lia).
  assert (Nh : ~ In semicolon h).
  { unfold h, semicolon. intros I. apply in_app_or in I as [I|I]; [|auto]. cbn in I. intuition lia. }
  destruct (read_until_ok B 5 src val) as (v1 & s1 & E1 & C1 & L1 & S1 & M1 & _); [|assumption|].
  { rewrite H, zlen_app, zlen_cons. pose proof (zlen_nonneg rest). lia. }
  rewrite H in C1.
  assert (F : firstn 5 v1 = magic) by (rewrite <- (firstn5_app v1 (concat s1) L1), C1; reflexivity).
  destruct (term_ok B s1 v1 h rest None C1 Nh S1) as (t & s2 & E2 & C2 & S2 & M2); [lia|lia|].
  exists t, s2. split.
  - rewrite (read_header_val uni h t val src v1 s1 s2 E1 F Nh E2). change (skipn 5 h) with field. now rewrite header_eq.
  - repeat (split; [assumption|]). rewrite header_eq. fold h. lia.
Qed.
Lemma header_sync B field val src rest : 0 <= B -> Forall (fun c : bytes => zlen c <= B) src -> val ++ concat src = header_with field ++ rest ->
  zlen val < 4096 -> B < 4096 ->
  exists val' src', synchronize val src = Val tt val' src' /\ val' ++ concat src' = header_with field ++ rest /\
    Forall (fun c : bytes => zlen c <= B) src' /\ zlen val' < 4096.
Proof.
  intros HB Hs H V L. destruct (sync_ok B src val [] ([118; 48; 49; 108] ++ field ++ [59] ++ rest)) as (v & s' & E & C & S & M); auto.
  { rewrite H. unfold header_with. cbn [app]. rewrite <- app_assoc. reflexivity. }
  exists (255 :: v), s'. split; [exact E|]. split; [|split; [exact S|rewrite zlen_cons; lia]].
  cbn [app]. rewrite C. unfold header_with. cbn [app]. now rewrite <- app_assoc.
Qed.
Lemma header_min field : 6 <= zlen (header_with field).
Proof. unfold header_with. rewrite !zlen_app. pose proof (zlen_nonneg field). change (zlen [255; 118; 48; 49; 108]) with 5. change (zlen [59]) with 1. lia. Qed.
Lemma decode_bad B field val src rest : 0 <= B -> Forall (fun c : bytes => zlen c <= B) src -> val ++ concat src = header_with field ++ rest -> ~ In 59 field ->
  zlen (header_with field) + B <= 4096 -> zlen val < 4096 -> ascii field -> (forall n, ~ int_text field n) ->
  exists buf src', decode uni val src = (Raise ValueError, buf, src') /\ buf ++ concat src' = header_with field ++ rest /\
    Forall (fun c : bytes => zlen c <= B) src' /\ zlen buf < 4096.
Proof.
  intros HB Hs H N L V A I. pose proof (header_min field) as G. unfold decode. cbn [decode_loop].
  destruct (header_sync B field val src rest HB Hs H V ltac:(lia)) as (v1 & s1 & -> & C1 & S1 & V1).
  destruct (header_ok B field v1 s1 rest HB S1 C1 N L V1) as (t & s2 & -> & C2 & S2 & V2).
  destruct (parse_int uni field) as [n|e] eqn:P; [destruct (I n); now apply parse_ok|]. apply parse_err in P; [|exact A]. subst e.
  exists (header_with field ++ t), s2. rewrite <- app_assoc, C2. auto.
Qed.
Theorem stuck field src rest k : concat src = header_with field ++ rest -> fits_header src field -> ~ In 59 field -> ascii field ->
  (forall n, ~ int_text field n) -> attempts uni k [] src = repeat (Raise ValueError) k.
Proof.
  intros H [F1 F2] N A I. destruct (chunk_bound src) as (B & HB & Hs & X).
  assert (L : zlen (header_with field) + B <= 4096) by (destruct X as [->|(c & J & <-)]; [lia|specialize (F2 c J); lia]).
  assert (E : forall k val src, val ++ concat src = header_with field ++ rest -> Forall (fun c : bytes => zlen c <= B) src -> zlen val < 4096 ->
    attempts uni k val src = repeat (Raise ValueError) k).
  { clear src H Hs F2 X k. induction k as [|k IH]; intros val src H Hs V; [reflexivity|]. cbn [attempts repeat].
    destruct (decode_bad B field val src rest HB Hs H N L V A I) as (buf & s' & -> & C & S & V'). f_equal. now apply IH. }
  apply E; auto. reflexivity.
Qed.
Theorem accepted field src m rest : concat src = header_with field ++ m ++ rest -> fits_header src field -> ~ In 59 field -> ascii field ->
  int_text field (zlen m) -> exists buf src', decode uni [] src = (Ok (Some m), buf, src') /\ buf ++ concat src' = rest.
Proof.
  intros H [F1 F2] N A I. destruct (chunk_bound src) as (B & HB & Hs & X). pose proof (header_min field) as G.
  assert (L : zlen (header_with field) + B <= 4096) by (destruct X as [->|(c & J & <-)]; [lia|specialize (F2 c J); lia]).
  unfold decode. cbn [decode_loop].
  destruct (header_sync B field [] src (m ++ rest) HB Hs H) as (v1 & s1 & -> & C1 & S1 & V1); [reflexivity|lia|].
  destruct (header_ok B field v1 s1 (m ++ rest) HB S1 C1 N L V1) as (t & s2 & -> & C2 & S2 & V2).
  assert (P : parse_int uni field = Ok (zlen m)) by (now apply parse_ok). rewrite P.
  destruct (read_body_ok 4096 t s2 m rest C2) as (v3 & s3 & -> & C3 & _).
  - rewrite zlen_app in V2. pose proof (zlen_nonneg (header_with field)). lia.
  - eapply Forall_impl; [|exact S2]. cbn. intros c Hc. pose proof (header_min field). lia.
  - exists v3, s3. split; [reflexivity|exact C3].
Qed.
Theorem negative data d : zlen data <= 4000 ->
  decode uni [] [header_with [45; 49] ++ data ++ [d]] = (Ok (Some data), [d], []).
Proof.
  intros L. unfold decode. cbn [decode_loop]. set (whole := data ++ [d]).
  assert (W : zlen whole = zlen data + 1) by (unfold whole; rewrite zlen_app; reflexivity).
  assert (S : synchronize [] [header_with [45; 49] ++ whole] = Val tt (header_with [45; 49] ++ whole) []) by reflexivity.
  rewrite S. assert (V : zlen (header_with [45; 49] ++ whole) = 9 + zlen data) by (rewrite zlen_app, W; change (zlen (header_with [45; 49])) with 8; lia).
  assert (U : read_until 5 (header_with [45; 49] ++ whole) [] = Val tt (header_with [45; 49] ++ whole) []).
  { cbn [read_until]. replace (5 <=? zlen (header_with [45; 49] ++ whole)) with true by (symmetry; apply Z.leb_le; pose proof (zlen_nonneg data); lia). reflexivity. }
  assert (T : find_terminator None (header_with [45; 49] ++ whole) [] = Val (Some (zlen (magic ++ [45; 49]))) ((magic ++ [45; 49]) ++ semicolon :: whole) []).
  { cbn [find_terminator]. replace (zlen (header_with [45; 49] ++ whole) <? 4096) with true by (symmetry; apply Z.ltb_lt; lia). reflexivity. }
  rewrite (read_header_val uni (magic ++ [45; 49]) whole _ [] _ [] [] U); [|reflexivity|cbn; unfold semicolon; intuition lia|exact T].
  replace (parse_int uni (skipn 5 (magic ++ [45; 49]))) with (@Ok Z (-1)) by reflexivity. unfold read_body.
    assert (R : read_until (-1) whole [] = Val tt whole []).
  { unfold read_until. replace (-1 <=? zlen whole) with true by (symmetry; apply Z.leb_le; pose proof (zlen_nonneg whole); lia). reflexivity. }
  rewrite R. cbv beta iota zeta. unfold cut_at. cbn [Z.ltb Z.compare]. rewrite W.
  replace (Z.to_nat (Z.max 0 (zlen data + 1 + -1))) with (length data) by (unfold zlen; lia).
  unfold whole. now rewrite firstn_app, skipn_app, Nat.sub_diag, firstn_all, skipn_all, app_nil_r.
Qed.
End Uni.

Theorem length_field uni field src m rest : ascii field -> ~ In 59 field -> int_text field (zlen m) ->
  concat src = header_with field ++ m ++ rest -> fits_header src field ->
  exists buf src', decode uni [] src = (Ok (Some m), buf, src') /\ buf ++ concat src' = rest.
Proof. intros A N I H F. now apply (accepted uni field). Qed.
Theorem malformed uni field src rest k : ascii field -> ~ In 59 field -> (forall n, ~ int_text field n) ->
  concat src = header_with field ++ rest -> fits_header src field ->
  attempts uni k [] src = repeat (Raise ValueError) k.
Proof. intros A N I H F. now apply (stuck uni field src rest k). Qed.
Lemma two_underscores n : ~ int_text [50; 95; 95; 53] n.
Proof.
  intros H. apply (proj2 (parse_ok (fun _ => Raise ValueError) [50; 95; 95; 53] n ltac:(repeat constructor))) in H. discriminate H.
Qed.
