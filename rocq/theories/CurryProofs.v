From Coq Require Import String List Bool ZArith Lia.
From Verif Require Import Base CollModel CollProofs BindModel BindSpec BindProofs BindSeesProofs
  CurryBindProofs CurryModel CurrySpec.
Import ListNotations.
Open Scope list_scope.

Section C.
Context {D : Type}.
Variable sigs : nat -> signature (val D).
Variable body : nat -> bindings (val D) -> outcome (ret D).
Notation call_fn := (call_fn sigs body).
Notation call_curried := (call_curried sigs body).
Notation call_steps := (call_steps sigs body).
Notation signature_of := (signature_of sigs).
Notation decide := (decide sigs).
Implicit Types (f g : fn D) (args a A : list (val D)) (kw k K : kwvals (D := D)).
Implicit Types (s : step D) (ss : list (step D)).

Lemma all_args_snoc : forall ss s, all_args (ss ++ [s]) = all_args ss ++ fst s.
Proof. intros ss s. unfold all_args. rewrite flat_map_app. cbn. rewrite app_nil_r. reflexivity. Qed.
Lemma all_kws_snoc : forall ss s, all_kws (ss ++ [s]) = all_kws ss ++ snd s.
Proof. intros ss s. unfold all_kws. rewrite flat_map_app. cbn. rewrite app_nil_r. reflexivity. Qed.

Lemma merge_app : forall k1 k2 : kwvals (D := D), is_dict (k1 ++ k2) -> merge k1 k2 = k1 ++ k2.
Proof.
  assert (S : forall (k : kwvals (D := D)) n v, ~ In n (map fst k) ->
            dict_set String.eqb k n v = k ++ [(n, v)]).
  { induction k as [| [m w] k IH]; intros n v H; cbn; auto.
    destruct (String.eqb m n) eqn:E; [apply String.eqb_eq in E; subst; destruct H; left; auto|].
    f_equal. apply IH. intros Hi; apply H; right; exact Hi. }
  intros k1 k2. revert k1. unfold merge, dict_update, is_dict.
  induction k2 as [| [n v] k2 IH]; intros k1 H; cbn [fold_left fst snd].
  - rewrite app_nil_r. reflexivity.
  - rewrite S.
    + rewrite IH; rewrite <- app_assoc; [reflexivity | exact H].
    + rewrite map_app in H. cbn in H. apply NoDup_remove_2 in H. intros Hi. apply H.
      apply in_app_iff; auto.
Qed.
Lemma is_dict_app_r : forall k1 k2 : kwvals (D := D), is_dict (k1 ++ k2) -> is_dict k2.
Proof.
  unfold is_dict. intros k1 k2. rewrite map_app. induction (map fst k1); auto.
  intros H. apply IHl. inversion H; auto.
Qed.
Lemma is_dict_app_l : forall k1 k2 : kwvals (D := D), is_dict (k1 ++ k2) -> is_dict k1.
Proof.
  unfold is_dict. intros k1 k2. rewrite map_app. induction (map fst k1); intros H; [constructor|].
  inversion H as [| x y Hx Hy]; subst. constructor; auto. intros Hi. apply Hx. apply in_app_iff; auto.
Qed.

Definition fun_of (f : fn D) : fn D * list (val D) * kwvals (D := D) :=
  match f with Raw _ => (f, [], []) | Part g a k => (g, a, k) end.

Section Fixed.
Variable i : nat.
Let P := sigs i.
Hypothesis Hf : fixed P.
Hypothesis Hn : NoDup (map p_name P).

(** [f] is the function [i] with the arguments [A], [K] (in earlier partials) and [a], [k] *)
Definition inv (f : fn D) A K a k : Prop :=
  exists h, fun_of f = (h, a, k) /\
    signature_of h = Ok (eff (length A) K false P) /\
    signature_of f = Ok (eff (length A + length a) (K ++ k) false P) /\
    forall args kw, is_dict (K ++ k ++ kw) ->
      call_fn f args kw = call_fn (Raw i) (A ++ a ++ args) (K ++ k ++ kw).

Lemma inv_raw : inv (Raw i) [] [] [] [].
Proof.
  exists (Raw i). cbn [fun_of length app]. split; auto.
  assert (H : signature_of (Raw i) = Ok (eff 0 [] false P)).
  { cbn. rewrite (eff_start P Hf). reflexivity. }
  repeat split; auto.
Qed.

Lemma decide_as : forall f h a k args kw, fun_of f = (h, a, k) -> is_dict (k ++ kw) ->
  decide f args kw =
  (do ps <- signature_of h; do an <- ubind ps (a ++ args) (k ++ kw);
   match unbound_parameters an, extra_args an, extra_kwargs an with
   | [], [], [] => Ok Call
   | [], la, lk => Ok (Pass la lk)
   | _ :: _, _, _ => Ok Keep
   end).
Proof.
  intros f h a k args kw H Hd. unfold CurryModel.decide. destruct f as [j | g a' k']; cbn in H.
  - injection H as <- <- <-. reflexivity.
  - injection H as <- <- <-. rewrite merge_app by exact Hd. reflexivity.
Qed.

(** the arguments so far fit *)
Definition fits (A : list (val D)) K : Prop :=
  is_dict K /\ pv (length A) P K /\ incl (map fst K) (map p_name P).

Lemma fits_prefix : forall A A' K K', fits (A ++ A') (K ++ K') -> fits A K.
Proof.
  intros A A' K K' [H1 [H2 H3]]. split; [exact (is_dict_app_l _ _ H1)|]. split.
  - rewrite app_length in H2. exact (pv_mono _ _ _ _ _ H2).
  - intros n Hi. apply H3. rewrite map_app. apply in_app_iff; auto.
Qed.

Lemma decide_inv : forall f A K a k args kw,
  inv f A K a k -> fits (A ++ a ++ args) (K ++ k ++ kw) ->
  (complete (length (A ++ a ++ args)) P (K ++ k ++ kw) -> decide f args kw = Ok Call) /\
  (~ complete (length (A ++ a ++ args)) P (K ++ k ++ kw) -> decide f args kw = Ok Keep).
Proof.
  intros f A K a k args kw [h [H1 [H2 [H3 H4]]]] [F1 [F2 F3]].
  assert (Hd : is_dict (k ++ kw)) by (exact (is_dict_app_r _ _ F1)).
  rewrite (decide_as _ _ _ _ args kw H1 Hd). rewrite H2. cbn [obind].
  rewrite app_length in F2.
  destruct (ubind_fits P (length A) (a ++ args) K (k ++ kw) Hf Hn F1 F2 F3) as [b Hb].
  rewrite Hb. cbn [obind unbound_parameters extra_args extra_kwargs].
  rewrite app_length.
  assert (Hc := unb_complete P (length A + length (a ++ args)) K (k ++ kw) Hf).
  destruct (filter _ _) as [| x l] eqn:E.
  - split; auto. intros Hx. destruct (Hx (proj1 Hc eq_refl)).
  - split; auto. intros Hx. apply Hc in Hx. discriminate.
Qed.

Lemma inv_step : forall f A K a k args kw,
  inv f A K a k -> fits (A ++ a ++ args) (K ++ k ++ kw) ->
  inv (Part f args kw) (A ++ a) (K ++ k) args kw.
Proof.
  intros f A K a k args kw [h [H1 [H2 [H3 H4]]]] [F1 [F2 F3]].
  exists f. split; [reflexivity|].
  assert (S : signature_of f = Ok (eff (length (A ++ a)) (K ++ k) false P))
    by (rewrite app_length; exact H3).
  split; [exact S|]. split.
  - cbn [CurryModel.signature_of]. rewrite S. cbn [obind].
    rewrite (app_assoc K k kw) in F1, F2, F3. rewrite (app_assoc A a args), app_length in F2.
    rewrite (partial_signature_fits P (length (A ++ a)) args (K ++ k) kw Hf Hn F1 F2 F3).
    reflexivity.
  - intros args' kw' Hd. cbn [CurryModel.call_fn].
    assert (Hd2 : is_dict (kw ++ kw')) by (exact (is_dict_app_r _ _ Hd)).
    rewrite (merge_app _ _ Hd2). rewrite H4.
    + rewrite <- !app_assoc. reflexivity.
    + rewrite <- app_assoc in Hd. exact Hd.
Qed.

Lemma curry_part : forall f A K a k args kw,
  inv f A K a k -> fits (A ++ a ++ args) (K ++ k ++ kw) ->
  curry_fn sigs (Part f args kw) = Ok (VCur (Part f args kw)).
Proof.
  intros f A K a k args kw H F. destruct (inv_step _ _ _ _ _ _ _ H F) as [h [_ [_ [H3 _]]]].
  unfold curry_fn. rewrite H3. reflexivity.
Qed.

(** how many partial objects are nested *)
Fixpoint depth (f : fn D) : nat := match f with Raw _ => 0 | Part g _ _ => S (depth g) end.
Lemma partial_ok : forall f args kw, depth f <= 1 -> partial f args kw = Ok (Part f args kw).
Proof. intros [j | [j | g a k] a' k'] args kw H; cbn in *; auto; lia. Qed.
Lemma partial_bad : forall f args kw, 2 <= depth f -> partial f args kw = Raise TypeError.
Proof. intros [j | [j | g a k] a' k'] args kw H; cbn in *; auto; lia. Qed.

(** steps that stay incomplete *)
Lemma steps_wait : forall ss fuel ctx f A K a k,
  inv f A K a k -> depth f + length ss <= 2 ->
  fits (A ++ a ++ all_args ss) (K ++ k ++ all_kws ss) ->
  (ss <> [] -> ~ complete (length (A ++ a ++ all_args ss)) P (K ++ k ++ all_kws ss)) ->
  exists g A' K' a' k', call_steps (S fuel) ctx (VCur f) ss = Some ([], Ok (One (VCur g))) /\
    inv g A' K' a' k' /\ A' ++ a' = A ++ a ++ all_args ss /\ K' ++ k' = K ++ k ++ all_kws ss /\
    depth g = depth f + length ss.
Proof.
  induction ss as [| s ss IH]; intros fuel ctx f A K a k Hi Hdep F Hc.
  - exists f, A, K, a, k. cbn. rewrite !app_nil_r. repeat split; auto.
  - cbn [all_args all_kws flat_map] in F, Hc.
    change (flat_map fst ss) with (all_args ss) in *. change (flat_map snd ss) with (all_kws ss) in *.
    assert (F1 : fits (A ++ a ++ fst s) (K ++ k ++ snd s)).
    { apply (fits_prefix _ (all_args ss) _ (all_kws ss)). rewrite <- !app_assoc. exact F. }
    assert (N1 : ~ complete (length (A ++ a ++ fst s)) P (K ++ k ++ snd s)).
    { intros C. assert (Hs : s :: ss <> []) by discriminate. apply (Hc Hs). clear Hc.
      destruct F as [G1 [G2 G3]].
      assert (G1' : is_dict ((K ++ k ++ snd s) ++ all_kws ss)) by (rewrite <- !app_assoc; exact G1).
      assert (G2' : pv (length (A ++ a ++ fst s) + length (all_args ss)) P ((K ++ k ++ snd s) ++ all_kws ss)).
      { rewrite <- app_length, <- !app_assoc. exact G2. }
      assert (G3' : incl (map fst ((K ++ k ++ snd s) ++ all_kws ss)) (map p_name P))
        by (rewrite <- !app_assoc; exact G3).
      destruct (complete_no_more _ _ _ _ _ G1' G2' G3' C) as [E1 E2].
      rewrite E2, app_nil_r. destruct (all_args ss); [|discriminate]. rewrite app_nil_r. exact C. }
    assert (Hdec := proj2 (decide_inv _ _ _ _ _ _ _ Hi F1) N1).
    cbn [CurryModel.call_steps CurryModel.call_value CurryModel.call_curried]. rewrite Hdec.
    cbn [length] in Hdep. rewrite partial_ok by lia. cbn [obind].
    rewrite (curry_part _ _ _ _ _ _ _ Hi F1). cbn [obind].
    assert (Hi' := inv_step _ _ _ _ _ _ _ Hi F1).
    destruct (IH fuel ctx (Part f (fst s) (snd s)) (A ++ a) (K ++ k) (fst s) (snd s) Hi')
      as [g [A' [K' [a' [k' [E1 [E2 [E3 [E4 E5]]]]]]]]].
    + cbn [depth]. lia.
    + rewrite <- !app_assoc. exact F.
    + intros _. rewrite <- !app_assoc. apply Hc. discriminate.
    + rewrite E1. exists g, A', K', a', k'. split; [reflexivity|]. split; [exact E2|].
      cbn [all_args all_kws flat_map]. rewrite <- !app_assoc in E3, E4.
      cbn [depth length] in *. repeat split; auto. lia.
Qed.

Lemma call_steps_app : forall ss ss' fuel ctx v v',
  call_steps fuel ctx v ss = Some ([], Ok (One v')) ->
  call_steps fuel ctx v (ss ++ ss') = call_steps fuel ctx v' ss'.
Proof.
  induction ss as [| s ss IH]; intros ss' fuel ctx v v' H.
  - cbn in *. injection H as ->. reflexivity.
  - cbn [app CurryModel.call_steps] in *.
    destruct (CurryModel.call_value sigs body fuel ctx v s) as [[l [[w|rs kr]|e]]|]; try discriminate.
    + destruct (call_steps fuel ctx w ss) as [[l' r]|] eqn:E; [|discriminate].
      assert (l = [] /\ l' = []) as [-> ->].
      { injection H as H _. apply app_eq_nil in H. exact H. }
      injection H as Hr. subst r. rewrite (IH ss' _ _ _ _ E).
      destruct (call_steps fuel ctx v' ss') as [[l2 r2]|]; reflexivity.
    + destruct ss; discriminate.
Qed.

Lemma grouping : forall init last fuel ctx b, length init <= 2 ->
  is_dict (all_kws (init ++ [last])) ->
  (init = [] \/ last <> ([], [])) ->
  py_call_bind P (all_args (init ++ [last])) (all_kws (init ++ [last])) = Ok b ->
  call_steps (S fuel) ctx (VCur (Raw i)) (init ++ [last]) = Some ([(i, b)], body i b).
Proof.
  intros init last fuel ctx b Hlen Hd Hl Hb.
  rewrite all_args_snoc, all_kws_snoc in *.
  destruct (call_fits _ _ _ _ Hf Hn Hd Hb) as [F1 [F2 F3]].
  assert (F : fits (all_args init ++ fst last) (all_kws init ++ snd last)) by (repeat split; auto).
  assert (W : exists g A' K' a' k',
     call_steps (S fuel) ctx (VCur (Raw i)) init = Some ([], Ok (One (VCur g))) /\
     inv g A' K' a' k' /\ A' ++ a' = all_args init /\ K' ++ k' = all_kws init).
  { destruct (steps_wait init fuel ctx (Raw i) [] [] [] [] inv_raw Hlen) as [g [A' [K' [a' [k' [W1 [W2 [W3 [W4 _]]]]]]]]].
    - cbn [app]. exact (fits_prefix _ _ _ _ F).
    - cbn [app]. intros Hne C. destruct Hl as [-> | Hl]; [congruence|].
      rewrite app_length in F1.
      destruct (complete_no_more _ _ _ _ _ Hd F1 F3 C) as [E1 E2].
      apply Hl. destruct last as [la lk]. cbn [fst snd] in E1, E2. destruct la; [|discriminate]. rewrite E2. reflexivity.
    - exists g, A', K', a', k'. auto. }
  destruct W as [g [A' [K' [a' [k' [W1 [W2 [W3 W4]]]]]]]].
  rewrite (call_steps_app _ _ _ _ _ _ W1).
  cbn [CurryModel.call_steps CurryModel.call_value CurryModel.call_curried].
  rewrite <- W3, <- W4, <- !app_assoc in *.
  rewrite (proj1 (decide_inv _ _ _ _ _ _ _ W2 F) F2).
  destruct W2 as [h [_ [_ [_ H4]]]]. rewrite (H4 (fst last) (snd last) Hd).
  cbn [CurryModel.call_fn]. fold P. rewrite Hb.
  destruct (body i b) as [[v|rs kr]|e]; reflexivity.
Qed.
Lemma wait_inv : forall ss more fuel ctx b,
  is_dict (all_kws (ss ++ [more])) -> more <> ([], []) ->
  py_call_bind P (all_args (ss ++ [more])) (all_kws (ss ++ [more])) = Ok b ->
  forall init rest, ss = init ++ rest -> length init <= 2 ->
  exists g A K a k,
    call_steps (S fuel) ctx (VCur (Raw i)) init = Some ([], Ok (One (VCur g))) /\
    inv g A K a k /\ A ++ a = all_args init /\ K ++ k = all_kws init /\ depth g = length init /\
    fits (all_args ss) (all_kws ss) /\ ~ complete (length (all_args ss)) P (all_kws ss).
Proof.
  intros ss last fuel ctx b Hd Hl Hb init rest -> Hlen.
  rewrite all_args_snoc, all_kws_snoc in *.
  destruct (call_fits _ _ _ _ Hf Hn Hd Hb) as [F1 [F2 F3]].
  assert (F : fits (all_args (init ++ rest) ++ fst last) (all_kws (init ++ rest) ++ snd last))
    by (repeat split; auto).
  assert (Fs := fits_prefix _ _ _ _ F).
  assert (C : ~ complete (length (all_args (init ++ rest))) P (all_kws (init ++ rest))).
  { intros C. rewrite app_length in F1.
    destruct (complete_no_more _ _ _ _ _ Hd F1 F3 C) as [E1 E2].
    apply Hl. destruct last as [la lk]. cbn [fst snd] in E1, E2. destruct la; [|discriminate].
    rewrite E2. reflexivity. }
  assert (EA : all_args (init ++ rest) = all_args init ++ all_args rest)
    by (unfold all_args; apply flat_map_app).
  assert (EK : all_kws (init ++ rest) = all_kws init ++ all_kws rest)
    by (unfold all_kws; apply flat_map_app).
  assert (Fi : fits (all_args init) (all_kws init)).
  { apply (fits_prefix _ (all_args rest) _ (all_kws rest)). rewrite <- EA, <- EK. exact Fs. }
  destruct (steps_wait init fuel ctx (Raw i) [] [] [] [] inv_raw Hlen)
    as [g [A [K [a [k [W1 [W2 [W3 [W4 W5]]]]]]]]].
  - exact Fi.
  - cbn [app]. intros _ Ci. apply C.
    destruct Fs as [G1 [G2 G3]]. rewrite EA, EK in *. rewrite app_length in *.
    destruct (complete_no_more _ _ _ _ _ G1 G2 G3 Ci) as [E1 E2].
    rewrite E2, app_nil_r. rewrite E1, Nat.add_0_r. exact Ci.
  - exists g, A, K, a, k. cbn [app depth] in *. auto 10.
Qed.
Lemma waits : forall ss more fuel ctx b, length ss <= 2 ->
  is_dict (all_kws (ss ++ [more])) -> more <> ([], []) ->
  py_call_bind P (all_args (ss ++ [more])) (all_kws (ss ++ [more])) = Ok b ->
  exists g, call_steps (S fuel) ctx (VCur (Raw i)) ss = Some ([], Ok (One (VCur g))).
Proof.
  intros ss more fuel ctx b Hlen Hd Hm Hb.
  destruct (wait_inv ss more fuel ctx b Hd Hm Hb ss []) as [g [A [K [a [k [W _]]]]]];
    [rewrite app_nil_r; reflexivity | exact Hlen |].
  exists g. exact W.
Qed.
Lemma third : forall s1 s2 s3 more fuel ctx b,
  let ss := [s1; s2; s3] in
  is_dict (all_kws (ss ++ [more])) -> more <> ([], []) ->
  py_call_bind P (all_args (ss ++ [more])) (all_kws (ss ++ [more])) = Ok b ->
  call_steps (S fuel) ctx (VCur (Raw i)) ss = Some ([], Raise TypeError).
Proof.
  intros s1 s2 s3 more fuel ctx b ss Hd Hm Hb.
  destruct (wait_inv ss more fuel ctx b Hd Hm Hb [s1; s2] [s3] eq_refl)
    as [g [A [K [a [k [W1 [W2 [W3 [W4 [W5 [W6 W7]]]]]]]]]]]; [cbn; lia|].
  change ss with ([s1; s2] ++ [s3]) in *.
  rewrite (call_steps_app _ _ _ _ _ _ W1).
  cbn [CurryModel.call_steps CurryModel.call_value CurryModel.call_curried].
  rewrite all_args_snoc, all_kws_snoc in W6, W7.
  rewrite <- W3, <- W4, <- !app_assoc in W6, W7.
  rewrite (proj2 (decide_inv _ _ _ _ _ _ _ W2 W6) W7).
  rewrite partial_bad by (rewrite W5; cbn; lia). reflexivity.
Qed.

(** *** surplus positional arguments *)
Hypothesis Hp : positional P.

Lemma eff_nokw : forall (Q : signature (val D)) n, fixed Q -> eff n [] false Q = skipn n Q.
Proof.
  intros Q n HQ. rewrite <- (Nat.add_0_r n) at 1. rewrite <- eff_skip. apply eff_start.
  intros q Hq. apply HQ. rewrite <- (firstn_skipn n Q). apply in_app_iff. auto.
Qed.
Lemma ubind1_surplus : forall (Q : signature (val D)) args, positional Q -> length Q <= length args ->
  exists b, ubind1 Q args [] = Ok (b, [], skipn (length Q) args, []).
Proof.
  induction Q as [| q Q IH]; intros args HQ Hl; cbn [ubind1].
  - exists []. reflexivity.
  - destruct args as [| x args]; cbn [length] in Hl; [lia|].
    destruct (IH args) as [b Hb]; [intros r Hr; apply HQ; right; exact Hr | lia |].
    destruct (HQ q (or_introl eq_refl)) as [_ Hk].
    rewrite Hb. cbn [khas kget dict_get andb obind length skipn].
    destruct Hk as [Hk|Hk]; rewrite Hk; cbn [kind_eqb orb app]; eauto.
Qed.
Lemma decide_surplus : forall g A a args,
  inv g A [] a [] -> length A <= length P -> length P < length (A ++ a ++ args) ->
  decide g args [] = Ok (Pass (skipn (length P) (A ++ a ++ args)) []).
Proof.
  intros g A a args [h [H1 [H2 _]]] Hle Hl.
  rewrite (decide_as _ _ _ _ args [] H1) by constructor.
  rewrite H2. cbn [obind]. rewrite (eff_nokw _ _ Hf).
  assert (Hsk : length (skipn (length A) P) = length P - length A) by apply skipn_length.
  rewrite !app_length in Hl.
  destruct (ubind1_surplus (skipn (length A) P) (a ++ args)) as [b Hb].
  - intros q Hq. apply Hp. rewrite <- (firstn_skipn (length A) P). apply in_app_iff; auto.
  - rewrite app_length. lia.
  - unfold ubind. rewrite app_nil_r, Hb. cbn [obind ubind2 app].
    cbn [unbound_parameters extra_args extra_kwargs].
    assert (E : skipn (length (skipn (length A) P)) (a ++ args) = skipn (length P) (A ++ a ++ args)).
    { rewrite Hsk. rewrite (skipn_app (length P) A (a ++ args)).
      rewrite (skipn_all2 A) by lia. reflexivity. }
    rewrite E.
    destruct (skipn (length P) (A ++ a ++ args)) as [| x l] eqn:E2; [|reflexivity].
    assert (length (skipn (length P) (A ++ a ++ args)) = 0) by (rewrite E2; reflexivity).
    rewrite skipn_length, !app_length in H. lia.
Qed.
Lemma bind_exact : forall (Q : signature (val D)) now, positional Q -> NoDup (map p_name Q) ->
  length now = length Q ->
  py_call_bind Q now [] = Ok (combine (map p_name Q) (map BV now)).
Proof.
  intros Q now HQ HnQ Hl. unfold py_call_bind, sig_bind.
  assert (B : forall (Q : signature (val D)) now, positional Q -> length now = length Q ->
     bind1 false Q now [] = Ok (combine (map p_name Q) (map BV now), [])).
  { clear. induction Q as [| q Q IH]; intros now HQ Hl; destruct now as [| x now]; try discriminate; auto.
    cbn [bind1 khas kget dict_get andb map combine].
    destruct (HQ q (or_introl eq_refl)) as [_ Hk].
    rewrite (IH now) by (try (intros r Hr; apply HQ; right; exact Hr); cbn in Hl; lia).
    destruct Hk as [Hk|Hk]; rewrite Hk; reflexivity. }
  rewrite (B Q now HQ Hl). cbn [obind bind2]. rewrite app_nil_r. f_equal.
  assert (G : forall (Q : signature (val D)) now bb, NoDup (map p_name Q) -> length now = length Q ->
     (forall n, In n (map p_name Q) -> bget bb n = bget (combine (map p_name Q) (map BV now)) n) ->
     apply_defaults Q bb = combine (map p_name Q) (map BV now)).
  { clear. induction Q as [| q Q IH]; intros now bb HnQ Hl Hb; destruct now as [| x now]; try discriminate; auto.
    cbn [map combine apply_defaults] in *. inversion HnQ as [| z y Hx Hy]; subst z y.
    rewrite (Hb (p_name q) (or_introl eq_refl)), bget_cons_eq. f_equal.
    apply IH; auto. intros n Hi. rewrite (Hb n (or_intror Hi)). apply bget_cons_ne.
    intros E; subst n. contradiction. }
  apply G; auto.
Qed.
Lemma call_curried_ctx : forall fuel ctx ctx' f args kw, (ctx = [] <-> ctx' = []) ->
  call_curried fuel ctx f args kw = call_curried fuel ctx' f args kw.
Proof.
  induction fuel as [| fuel IH]; intros ctx ctx' f args kw H; cbn [CurryModel.call_curried]; auto.
  destruct (decide f args kw) as [[| la lk |]|e]; auto.
  destruct (call_fn f _ _) as [l [r|e]]; auto.
  assert (Hnil : forall (l : log (D := D)) (la' : list (val D)) lk',
    match ctx with [] => Some (l, @Raise (ret D) TypeError) | _ :: _ => Some (l, Ok (Many la' lk')) end =
    match ctx' with [] => Some (l, Raise TypeError) | _ :: _ => Some (l, Ok (Many la' lk')) end).
  { intros. destruct ctx, ctx'; auto; destruct H as [H1 H2];
      [specialize (H1 eq_refl) | specialize (H2 eq_refl)]; discriminate. }
  assert (Hrec : forall g la' lk', call_curried fuel (ctx ++ [f]) g la' lk' =
                                   call_curried fuel (ctx' ++ [f]) g la' lk').
  { intros g la' lk'. apply IH.
    split; intros F; apply app_eq_nil in F as [_ F]; discriminate. }
  destruct r as [v | [| v others] kr]; [destruct (callable v) | | destruct (callable v)];
    try apply Hnil;
    destruct (curry_value sigs v) as [[d|g|g]|e]; auto; rewrite Hrec; reflexivity.
Qed.
Lemma call_steps_one : forall fuel ctx v s,
  call_steps fuel ctx v [s] = CurryModel.call_value sigs body fuel ctx v s.
Proof.
  intros fuel ctx v s. cbn [CurryModel.call_steps].
  destruct (CurryModel.call_value sigs body fuel ctx v s) as [[l [[w|rs kr]|e]]|]; auto.
  rewrite app_nil_r. reflexivity.
Qed.

(** what becomes of the result of the function, given the surplus arguments *)
Definition finish (fuel : nat) (ctx : list (fn D)) (b : bindings (val D)) (later : list (val D))
  : option (log * outcome (ret D)) :=
  match body i b with
  | Raise e => Some ([(i, b)], Raise e)
  | Ok now_result =>
      let '(leftmost, la, lk) :=
        match now_result with
        | Many [] kwrets => (None, later, merge [] kwrets)
        | Many (v :: others) kwrets =>
            (if callable v then Some v else None,
             if callable v then others ++ later else v :: others ++ later,
             merge [] kwrets)
        | One v => (if callable v then Some v else None,
                    if callable v then later else v :: later, [])
        end in
      match leftmost with
      | Some v =>
          match curry_value sigs v with
          | Raise e => Some ([(i, b)], Raise e)
          | Ok (VData _) | Ok (VFn _) => Some ([(i, b)], Raise TypeError)
          | Ok (VCur g) =>
              match call_curried fuel [Raw i] g la lk with
              | None => None
              | Some (l', r) => Some ((i, b) :: l', r)
              end
          end
      | None =>
          match ctx with
          | [] => Some ([(i, b)], Raise TypeError)
          | _ :: _ => Some ([(i, b)], Ok (Many la lk))
          end
      end
  end.

Lemma passthrough : forall init last fuel ctx, length init <= 2 ->
  all_kws (init ++ [last]) = [] ->
  (init = [] \/ length (all_args init) < length P) ->
  length P < length (all_args (init ++ [last])) ->
  call_steps (S fuel) ctx (VCur (Raw i)) (init ++ [last]) =
  finish fuel ctx
    (given P (firstn (length P) (all_args (init ++ [last]))))
    (skipn (length P) (all_args (init ++ [last]))).
Proof.
  intros init last fuel ctx Hlen Hk Hi Hl.
  rewrite all_kws_snoc in Hk. apply app_eq_nil in Hk as [Hk1 Hk2].
  rewrite all_args_snoc in *.
  assert (W : exists g A' a',
     call_steps (S fuel) ctx (VCur (Raw i)) init = Some ([], Ok (One (VCur g))) /\
     inv g A' [] a' [] /\ A' ++ a' = all_args init).
  { destruct (steps_wait init fuel ctx (Raw i) [] [] [] [] inv_raw Hlen) as [g [A' [K' [a' [k' W]]]]].
    - cbn [app]. rewrite Hk1. split; [constructor|]. split; [|intros n []].
      assert (Hle : length (all_args init) <= length P).
      { destruct Hi as [-> | Hi]; [cbn; lia | lia]. }
      clear -Hle Hp. revert Hle. generalize (length (all_args init)) as n.
      induction P as [| q Q IH]; intros n Hle; cbn in *; [lia|].
      destruct n as [| n]; [split; auto; apply (IH (fun r Hr => Hp r (or_intror Hr)) 0); lia|].
      split; [|split; auto; apply IH; [intros r Hr; apply Hp; right; exact Hr | lia]].
      destruct (Hp q (or_introl eq_refl)) as [_ [E|E]]; unfold is_pos; rewrite E; reflexivity.
    - cbn [app]. rewrite Hk1. intros Hne C. destruct Hi as [-> | Hi]; [congruence|].
      destruct (skipn (length (all_args init)) P) as [| q Q] eqn:E.
      + assert (length (skipn (length (all_args init)) P) = 0) by (rewrite E; reflexivity).
        rewrite skipn_length in H. lia.
      + apply (C q); [rewrite E; left; reflexivity | reflexivity].
    - destruct W as [W1 [W2 [W3 [W4 _]]]]. cbn [app] in W3, W4. rewrite Hk1 in W4.
      apply app_eq_nil in W4 as [-> ->]. exists g, A', a'. auto. }
  destruct W as [g [A' [a' [W1 [W2 W3]]]]].
  rewrite (call_steps_app _ _ _ _ _ _ W1), call_steps_one.
  destruct last as [la lk]. cbn [fst snd] in *. subst lk.
  cbn [CurryModel.call_value CurryModel.call_curried fst snd].
  assert (HA : length A' + length a' = length (all_args init)) by (rewrite <- W3, app_length; reflexivity).
  assert (Hle : length (all_args init) <= length P).
  { destruct Hi as [-> | Hi]; [cbn; lia | lia]. }
  rewrite <- W3, <- app_assoc in *.
  rewrite (decide_surplus _ _ _ _ W2) by (auto; lia).
  assert (Hnow : match skipn (length P) (A' ++ a' ++ la) with
          | [] => la
          | _ :: _ => firstn (length la - length (skipn (length P) (A' ++ a' ++ la))) la
          end = firstn (length P - length (A' ++ a')) la).
  { assert (Hs : length (skipn (length P) (A' ++ a' ++ la)) = length (A' ++ a' ++ la) - length P)
      by apply skipn_length.
    rewrite !app_length in *.
    replace (length la - length (skipn (length P) (A' ++ a' ++ la))) with
            (length P - (length A' + length a')) by lia.
    destruct (skipn (length P) (A' ++ a' ++ la)) eqn:E; [cbn in Hs; lia | reflexivity]. }
  rewrite Hnow. cbn [filter].
  destruct W2 as [h [_ [_ [_ H4]]]]. rewrite H4 by constructor.
  assert (Hfirst : A' ++ a' ++ firstn (length P - length (A' ++ a')) la = firstn (length P) (A' ++ a' ++ la)).
  { rewrite !(app_assoc A' a'). rewrite firstn_app. f_equal.
    rewrite firstn_all2; [reflexivity|]. rewrite app_length. lia. }
  rewrite Hfirst. cbn [app CurryModel.call_fn]. fold P.
  rewrite (bind_exact P _ Hp Hn).
  2:{ apply firstn_length_le. lia. }
  unfold finish, given. set (b := combine _ _).
  destruct (body i b) as [r|e]; auto.
  assert (Hctx : forall lm lar lkr,
    match curry_value sigs lm with
    | Ok (VCur g0) => match call_curried fuel (ctx ++ [g]) g0 lar lkr with
                      | Some (l', r0) => Some ([(i, b)] ++ l', r0) | None => None end
    | Ok _ => Some ([(i, b)], Raise TypeError)
    | Raise e => Some ([(i, b)], Raise e)
    end =
    match curry_value sigs lm with
    | Ok (VCur g0) => match call_curried fuel [Raw i] g0 lar lkr with
                      | Some (l', r0) => Some ((i, b) :: l', r0) | None => None end
    | Ok _ => Some ([(i, b)], Raise TypeError)
    | Raise e => Some ([(i, b)], Raise e)
    end).
  { intros lm lar lkr. destruct (curry_value sigs lm) as [[d|g0|g0]|e]; auto.
    rewrite (call_curried_ctx fuel (ctx ++ [g]) [Raw i]); [reflexivity|].
    split; intros F; [apply app_eq_nil in F as [_ F]; discriminate | discriminate]. }
  destruct r as [v | [| v others] kr].
  - destruct (callable v); [apply Hctx | reflexivity].
  - reflexivity.
  - destruct (callable v); [apply Hctx | reflexivity].
Qed.

Section Cases.
Variables (init : list (step D)) (last : step D) (fuel : nat) (ctx : list (fn D)).
Hypothesis Hlen : length init <= 2.
Hypothesis Hk : all_kws (init ++ [last]) = [].
Hypothesis Hi : init = [] \/ length (all_args init) < length P.
Hypothesis Hl : length P < length (all_args (init ++ [last])).
Let now := given P (firstn (length P) (all_args (init ++ [last]))).
Let later := skipn (length P) (all_args (init ++ [last])).
Lemma pass_callable : forall g,
  (body i now = Ok (One (VCur g)) \/
   (body i now = Ok (One (VFn g)) /\ exists ps, signature_of g = Ok ps)) ->
  call_steps (S fuel) ctx (VCur (Raw i)) (init ++ [last]) =
  match call_curried fuel [Raw i] g later [] with
  | Some (l, r) => Some ((i, now) :: l, r)
  | None => None
  end.
Proof.
  intros g H. rewrite (passthrough init last fuel ctx Hlen Hk Hi Hl). unfold finish. fold now later.
  destruct H as [-> | [-> [ps Hs]]]; cbn [callable curry_value]; [reflexivity|].
  unfold curry_fn. rewrite Hs. reflexivity.
Qed.
Lemma pass_data : forall d, body i now = Ok (One (VData d)) ->
  call_steps (S fuel) ctx (VCur (Raw i)) (init ++ [last]) =
  Some ([(i, now)], match ctx with [] => Raise TypeError | _ :: _ => Ok (Many (VData d :: later) []) end).
Proof.
  intros d H. rewrite (passthrough init last fuel ctx Hlen Hk Hi Hl). unfold finish. fold now later.
  rewrite H. cbn [callable]. destruct ctx; reflexivity.
Qed.
Lemma pass_values : forall v others, body i now = Ok (Many (v :: others) []) ->
  call_steps (S fuel) ctx (VCur (Raw i)) (init ++ [last]) =
  match v with
  | VData d =>
      Some ([(i, now)], match ctx with
                        | [] => Raise TypeError
                        | _ :: _ => Ok (Many (VData d :: others ++ later) []) end)
  | VCur g =>
      match call_curried fuel [Raw i] g (others ++ later) [] with
      | Some (l, r) => Some ((i, now) :: l, r)
      | None => None
      end
  | VFn g =>
      match signature_of g with
      | Raise e => Some ([(i, now)], Raise e)
      | Ok _ => match call_curried fuel [Raw i] g (others ++ later) [] with
                | Some (l, r) => Some ((i, now) :: l, r)
                | None => None
                end
      end
  end.
Proof.
  intros v others H. rewrite (passthrough init last fuel ctx Hlen Hk Hi Hl). unfold finish. fold now later.
  rewrite H. destruct v as [d|g|g]; cbn [callable curry_value].
  - destruct ctx; reflexivity.
  - unfold curry_fn. destruct (signature_of g); reflexivity.
  - reflexivity.
Qed.
Lemma pass_raise : forall e, body i now = Raise e ->
  call_steps (S fuel) ctx (VCur (Raw i)) (init ++ [last]) = Some ([(i, now)], Raise e).
Proof.
  intros e H. rewrite (passthrough init last fuel ctx Hlen Hk Hi Hl). unfold finish. fold now later.
  rewrite H. reflexivity.
Qed.
End Cases.
End Fixed.
End C.
Lemma positional_fixed : forall V (ps : signature V), positional ps -> fixed ps.
Proof. intros V ps H p Hp. destruct (H p Hp) as [A [B|B]]; auto. Qed.
