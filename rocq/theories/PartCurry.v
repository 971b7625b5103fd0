(** Proofs for C97: currying generic functions. *)
From Coq Require Import String List Bool Lia.
From Verif Require Import Base CollModel CollProofs BindModel BindSpec BindProofs BindSeesProofs CurryBindProofs
  TypeModel TypeSpec TypeProofs DispModel DispSpec DispProofs PartModel PartSpec PartBind PartProofs.
Import ListNotations.
Open Scope list_scope.

Definition req (p : param value) : bool := negb (has_default p).
Lemma ap_tail p ps : all_positional (p :: ps) -> all_positional ps.
Proof. intros H q Hq. apply H. now right. Qed.
Lemma ap_kinds (p : param value) : p_kind p = PosOnly \/ p_kind p = PosOrKw ->
  kind_eqb (p_kind p) VarPos = false /\ kind_eqb (p_kind p) VarKw = false /\ kind_eqb (p_kind p) KwOnly = false.
Proof. intros [->| ->]; auto. Qed.
Lemma ubind2_nokw : forall ps, all_positional ps -> ubind2 ps ([] : kws) = Ok ([], filter req ps, None, []).
Proof.
  induction ps as [|p ps IH]; intros H; cbn [ubind2]; [reflexivity|].
  destruct (ap_kinds p (H p (or_introl eq_refl))) as (-> & -> & _). cbn [kget dict_get]. rewrite (IH (ap_tail _ _ H)). cbn [obind filter].
  unfold kget. cbn [dict_get]. cbn [obind]. replace (req p) with (negb (has_default p)) by reflexivity. destruct (has_default p); reflexivity.
Qed.
Lemma ubind1_nokw : forall ps a, all_positional ps ->
  exists u r, ubind1 ps a ([] : kws) = Ok (pos ps a, u, skipn (length ps) a, r) /\ all_positional r /\
              u ++ filter req r = filter req (skipn (length a) ps).
Proof.
  induction ps as [|p ps IH]; intros a H; cbn [ubind1].
  - exists [], []. split; [reflexivity|]. split; [intros p []|]. now destruct a.
  - destruct (ap_kinds p (H p (or_introl eq_refl))) as (V1 & V2 & V3). rewrite V1, V2, V3. cbn [orb].
    replace (khas ([] : kws) (p_name p)) with false by reflexivity. destruct a as [|x a].
    + destruct (has_default p) eqn:E.
      * exists [], (p :: ps). split; [reflexivity|]. split; [exact H|]. reflexivity.
      * destruct (IH [] (ap_tail _ _ H)) as (u & r & Eq & Hr & Hu). rewrite Eq. cbn [obind].
        exists (p :: u), r. split; [|split; [exact Hr|]].
        -- unfold pos. cbn. destruct ps; cbn; now rewrite ?skipn_nil.
        -- cbn [length skipn filter app]. unfold req at 2. rewrite E. cbn. f_equal. rewrite Hu. reflexivity.
    + cbn [andb]. destruct (IH a (ap_tail _ _ H)) as (u & r & Eq & Hr & Hu). rewrite Eq. cbn [obind].
      exists u, r. split; [reflexivity|]. split; [exact Hr|]. exact Hu.
Qed.
Lemma ubind_nokw ps a : all_positional ps ->
  ubind ps a ([] : kws) = Ok (mkanalysis (pos ps a) (filter req (skipn (length a) ps)) (skipn (length ps) a) []).
Proof.
  intros H. unfold ubind. destruct (ubind1_nokw ps a H) as (u & r & -> & Hr & Hu). cbn [obind].
  rewrite (ubind2_nokw r Hr). cbn [obind]. now rewrite app_nil_r, Hu.
Qed.

Lemma filter_nil {X} (p : X -> bool) l : filter p l = [] <-> forall x, In x l -> p x = false.
Proof.
  induction l as [|y l IH]; cbn; [split; [intros _ x []|reflexivity]|]. destruct (p y) eqn:E.
  - split; [discriminate|]. intros H. rewrite (H y) in E; [discriminate|now left].
  - rewrite IH. split; [intros H x [<-|Hx]; auto|auto].
Qed.
Lemma skipn_nil_iff {X} (l : list X) n : skipn n l = [] <-> length l <= n.
Proof.
  split; intros H.
  - assert (L := skipn_length n l). rewrite H in L. cbn in L. lia.
  - now apply skipn_all2.
Qed.
Lemma ap_nov ps : all_positional ps -> no_varargs ps.
Proof. intros H p Hp. destruct (H p Hp) as [->| ->]; split; discriminate. Qed.
Lemma fits_pos part ps n : all_positional ps ->
  (fits part ps n ([] : kws) <-> n <= length ps /\ (part = false -> filter req (skipn n ps) = [])).
Proof.
  intros H. unfold fits. rewrite filter_nil. split.
  - intros (A & B & C & D & E). split; [exact A|]. intros Hp p Hi. destruct (E Hp p Hi) as [X|X]; [unfold req; now rewrite X|].
    exfalso. now apply X.
  - intros [A B]. split; [exact A|]. split; [|split; [reflexivity|split]].
    + intros p Hp. assert (Hi : In p ps) by (rewrite <- (firstn_skipn n ps); apply in_app_iff; now left).
      unfold is_pos. destruct (H p Hi) as [->| ->]; reflexivity.
    + intros x [].
    + intros Hp p Hi. left. specialize (B Hp p Hi). unfold req in B. now apply negb_false_iff in B.
Qed.

Section Curry.
Variable usub : nat -> cls -> bool.
Variable has_reversed : cls -> bool.
Variable kwname : pname -> value.
Notation of_type := (of_type usub has_reversed).
Notation good_start := (good_start usub has_reversed).
Notation applies := (applies usub has_reversed kwname).
Notation regular := (regular usub has_reversed).
Notation typed_given := (typed_given usub has_reversed).
Notation typed_bindings := (typed_bindings usub has_reversed kwname).

Lemma pos_names (ps : sign) a : Forall (fun nv => exists p, In p ps /\ p_name p = fst nv) (pos ps a).
Proof.
  revert a. induction ps as [|p ps IH]; intros [|x a]; unfold pos; cbn; try constructor.
  - exists p. cbn. auto.
  - fold (pos ps a). eapply Forall_impl; [|exact (IH a)]. intros nv (q & Hq & E). exists q. auto.
Qed.
Lemma pos_typed f a : typed_bindings f (pos (params f) a) <->
  forall i p v, nth_error (params f) i = Some p -> nth_error a i = Some v -> of_type (annotation f (p_name p)) v.
Proof.
  unfold PartProofs.typed_bindings. generalize (params f). intros ps. revert a. induction ps as [|p ps IH]; intros a.
  - unfold pos. cbn. split; [intros _ [|i]; discriminate|constructor].
  - destruct a as [|x a]; unfold pos; cbn [combine map fst snd]; [split; [intros _ [|i] q v _ H; discriminate H|constructor]|].
    fold (pos ps a). split.
    + intros H. apply Forall_inv in H as A. apply Forall_inv_tail in H as B. intros [|i] q v H1 H2.
      * injection H1 as <-. injection H2 as <-. exact A.
      * cbn in H1, H2. exact (proj1 (IH a) B i q v H1 H2).
    + intros H0. constructor; [cbn; exact (H0 0 p x eq_refl eq_refl)|]. apply IH. intros i q v. exact (H0 (S i) q v).
Qed.
Lemma given_pos f a n v : given f a [] n v <-> exists i p, nth_error (params f) i = Some p /\ nth_error a i = Some v /\ p_name p = n.
Proof. unfold given. unfold kget. cbn. split; [intros [H|H]; [exact H|discriminate]|now left]. Qed.
Lemma pos_given f a : typed_bindings f (pos (params f) a) <-> typed_given f a [].
Proof.
  rewrite pos_typed. unfold PartProofs.typed_given. split.
  - intros H n v T G. apply given_pos in G as (i & p & H1 & H2 & <-). specialize (H i p v H1 H2).
    intros E. now apply (proj2 (annotation_type _ _ _ _ _) H).
  - intros H i p v H1 H2. apply annotation_type. intros T. apply H. apply given_pos. eauto.
Qed.
Lemma given_firstn f a : typed_given f a [] <-> typed_given f (firstn (length (params f)) a) [].
Proof.
  unfold PartProofs.typed_given.
  assert (G : forall n v, given f a [] n v <-> given f (firstn (length (params f)) a) [] n v).
  { intros n v. rewrite !given_pos. split; intros (i & p & H1 & H2 & H3); exists i, p; (split; [exact H1|split; [|exact H3]]).
    - assert (i < length (params f)) by (apply nth_error_Some; congruence).
      rewrite <- (firstn_skipn (length (params f)) a) in H2. rewrite nth_error_app1 in H2; [exact H2|].
      rewrite firstn_length. assert (i < length a); [|lia]. apply nth_error_Some. rewrite firstn_skipn in H2. congruence.
    - rewrite <- (firstn_skipn (length (params f)) a). rewrite nth_error_app1; [exact H2|]. apply nth_error_Some. congruence. }
  split; intros H n v T Hg; apply (H n v T), G, Hg.
Qed.

Definition defs_good (l : list mm) : Prop :=
  Forall (fun m => mm_good m /\ regular (mm_fun m) /\ all_positional (params (mm_fun m))) l.
Notation first_match := (first_match usub has_reversed kwname).
Definition an (f : fundef) (a : list value) : analysis value :=
  mkanalysis (pos (params f) a) (filter req (skipn (length a) (params f))) (skipn (length (params f)) a) [].
Lemma first_match_spec cond l a : defs_good l ->
  (exists l1 m l2, l = l1 ++ m :: l2 /\ first_match cond l a [] = Ok (Some (an (mm_fun m) a)) /\
     cond (an (mm_fun m) a) = true /\ typed_given (mm_fun m) a [] /\
     (forall m', In m' l1 -> ~ (cond (an (mm_fun m') a) = true /\ typed_given (mm_fun m') a []))) \/
  (first_match cond l a [] = Ok None /\ forall m, In m l -> ~ (cond (an (mm_fun m) a) = true /\ typed_given (mm_fun m) a [])).
Proof.
  induction 1 as [|m l [[Hh Ha] [R Hp]] _ IH]; cbn [PartModel.first_match].
  - right. split; [reflexivity|intros m []].
  - rewrite (ubind_nokw _ a Hp). cbn [obind]. fold (an (mm_fun m) a).
    assert (Z : ~ (cond (an (mm_fun m) a) = true /\ typed_given (mm_fun m) a []) ->
      (exists l1 m0 l2, m :: l = l1 ++ m0 :: l2 /\ first_match cond l a [] = Ok (Some (an (mm_fun m0) a)) /\
        cond (an (mm_fun m0) a) = true /\ typed_given (mm_fun m0) a [] /\
        (forall m', In m' l1 -> ~ (cond (an (mm_fun m') a) = true /\ typed_given (mm_fun m') a []))) \/
      (first_match cond l a [] = Ok None /\ forall m0, In m0 (m :: l) -> ~ (cond (an (mm_fun m0) a) = true /\ typed_given (mm_fun m0) a []))).
    { intros N. destruct IH as [(l1 & m0 & l2 & -> & E & Ec & T & Hn)|[E Hn]].
      - left. exists (m :: l1), m0, l2. split; [reflexivity|]. split; [exact E|]. split; [exact Ec|]. split; [exact T|].
        intros m' [<-|Hm]; auto.
      - right. split; [exact E|]. intros m0 [<-|Hm]; auto. }
    destruct (cond (an (mm_fun m) a)) eqn:Ec; [|apply Z; intros [X _]; discriminate].
    rewrite Hh. cbn [bound_arguments an].
    destruct R as (_ & _ & Hc & _).
    destruct (no_mismatch_decides usub has_reversed kwname (mm_fun m) Ha Hc _ (pos_names (params (mm_fun m)) a)) as (x & -> & Hx). cbn [obind].
    fold (typed_bindings (mm_fun m) (pos (params (mm_fun m)) a)) in Hx. rewrite pos_given in Hx.
    destruct x.
    + left. exists [], m, l. split; [reflexivity|]. split; [reflexivity|]. split; [exact Ec|]. split; [now apply Hx|]. intros m' [].
    + apply Z. intros [_ X]. apply Hx in X. discriminate.
Qed.
Lemma exact_applies f a : regular f -> all_positional (params f) ->
  (exact (an f a) = true /\ typed_given f a [] <-> applies f a []).
Proof.
  intros R Hp. rewrite (applies_fits usub has_reversed kwname f a [] R (NoDup_nil _)), (fits_pos false _ _ Hp).
  unfold exact, an. cbn. rewrite andb_true_r.
  assert (N : forall X (l : list X), nil_b l = true <-> l = []) by (intros X [|x l]; split; auto; discriminate).
  rewrite andb_true_iff, !N, skipn_nil_iff. tauto.
Qed.
Lemma surplus_applies f a : regular f -> all_positional (params f) ->
  (surplus (an f a) = true /\ typed_given f a [] <->
   length (params f) < length a /\ applies f (firstn (length (params f)) a) []).
Proof.
  intros R Hp. rewrite (applies_fits usub has_reversed kwname f _ [] R (NoDup_nil _)), (fits_pos false _ _ Hp).
  unfold surplus, an. cbn. rewrite orb_false_r, <- given_firstn.
  assert (N : forall X (l : list X), nil_b l = true <-> l = []) by (intros X [|x l]; split; auto; discriminate).
  rewrite andb_true_iff, negb_true_iff, <- not_true_iff_false, !N, skipn_nil_iff. rewrite firstn_length. split.
  - intros [[A B] C]. split; [lia|]. split; [|exact C]. split; [lia|]. intros _. rewrite skipn_all2 by lia. reflexivity.
  - intros [A [B C]]. split; [|exact C]. split; [|lia]. rewrite skipn_all2 by lia. reflexivity.
Qed.
Lemma missing_good f a : regular f -> all_positional (params f) ->
  (missing (an f a) = true /\ typed_given f a [] <-> good_start f a [] /\ ~ applies f a []).
Proof.
  intros R Hp. assert (R' := R). destruct R' as (W & Hv & _ & _).
  unfold PartSpec.good_start. rewrite (begin_fits f a [] W Hv (NoDup_nil _)).
  rewrite (applies_fits usub has_reversed kwname f a [] R (NoDup_nil _)), (fits_pos false _ _ Hp), (fits_pos true _ _ Hp).
  unfold missing, an. cbn. fold (typed_given f a []).
  assert (N : forall X (l : list X), nil_b l = true <-> l = []) by (intros X [|x l]; split; auto; discriminate).
  rewrite negb_true_iff, <- not_true_iff_false, N. split.
  - intros [A B]. assert (L : length a <= length (params f)).
    { destruct (Compare_dec.le_lt_dec (length a) (length (params f))) as [L|L]; [exact L|]. destruct A. rewrite skipn_all2 by lia. reflexivity. }
    split; [split; [split; [exact L|discriminate]|exact B]|]. intros [[_ X] _]. apply A. now apply X.
  - intros [[[A _] B] C]. split; [|exact B]. intros X. apply C. auto.
Qed.

Variable truthy : value -> bool.
Variable self_class : value -> cls.
Variable mro : cls -> list cls.
Variable own : cls -> string -> option (option string).
Notation decide_generic := (decide_generic usub has_reversed truthy self_class mro own kwname).
Variable ops : list op.
Variable n : string.
Variable d : dispatcher.
Variable a : list value.
Hypothesis Hr : forall f, In f (registered n false false ops) -> regular f /\ all_positional (params f).
Hypothesis Hd : rget (run ops) n = Some d.
Hypothesis Hs : extract_self d a = Ok None.
Notation defs := (registered n false false ops).
Notation takes_some := (fun f => takes_some usub has_reversed kwname f a).

Lemma defs_ok : defs_good (rev (methods d)).
Proof.
  assert (G := methods_good usub has_reversed ops n d (fun f Hf => proj1 (Hr f Hf)) Hd). unfold defs_good. rewrite Forall_forall in *.
  intros m Hm. destruct (G m Hm) as [A B]. split; [exact A|]. split; [exact B|]. apply Hr.
  now apply (methods_in ops n d Hd).
Qed.
Lemma decide_cases :
  (decide_generic (run ops) d a [] = Ok GCall /\ exists f, In f defs /\ applies f a []) \/
  (exists l1 f l2, rev defs = l1 ++ f :: l2 /\ takes_some f /\ (forall g, In g l1 -> ~ takes_some g) /\
     (forall g, In g defs -> ~ applies g a []) /\
     decide_generic (run ops) d a [] = Ok (GPass (skipn (length (params f)) a) [])) \/
  (decide_generic (run ops) d a [] = Ok GKeep /\ (exists f, In f defs /\ good_start f a []) /\
     forall g, In g defs -> ~ applies g a [] /\ ~ takes_some g) \/
  (decide_generic (run ops) d a [] = Raise TypeError /\
     forall g, In g defs -> ~ applies g a [] /\ ~ takes_some g /\ ~ good_start g a []).
Proof.
  unfold PartModel.decide_generic. rewrite Hs. cbn [obind]. unfold list_multimethods. rewrite app_nil_r.
  assert (D := defs_ok).
  assert (Of : forall f, In f defs -> exists m, In m (rev (methods d)) /\ mm_fun m = f).
  { intros f Hf. rewrite <- (run_methods ops n d Hd) in Hf. apply in_map_iff in Hf as (m & E & Hi). exists m. split; [now apply -> in_rev|exact E]. }
  assert (Io : forall m, In m (rev (methods d)) -> In (mm_fun m) defs).
  { intros m Hm. rewrite <- (run_methods ops n d Hd). apply in_map. now apply in_rev. }
  assert (Rv : map mm_fun (rev (methods d)) = rev defs) by now rewrite map_rev, (run_methods ops n d Hd).
  destruct (first_match_spec exact _ a D) as [(l1 & m & l2 & El & -> & Ec & T & _)|[-> N1]]; cbn [obind].
  { left. split; [reflexivity|]. assert (Hm : In m (rev (methods d))) by (rewrite El; apply in_app_iff; right; now left).
    exists (mm_fun m). split; [auto|]. destruct (Hr _ (Io m Hm)) as [R Hp]. now apply exact_applies. }
  assert (N1' : forall g, In g defs -> ~ applies g a []).
  { intros g Hg. destruct (Of g Hg) as (m & Hm & <-). destruct (Hr _ Hg) as [R Hp]. intros X. apply (N1 m Hm). now apply exact_applies. }
  right.
  destruct (first_match_spec surplus _ a D) as [(l1 & m & l2 & El & -> & Ec & T & Hn)|[-> N2]]; cbn [obind].
  { left. exists (map mm_fun l1), (mm_fun m), (map mm_fun l2). split; [now rewrite <- Rv, El, map_app|].
    assert (Hm : In m (rev (methods d))) by (rewrite El; apply in_app_iff; right; now left).
    destruct (Hr _ (Io m Hm)) as [R Hp]. split; [now apply surplus_applies|]. split; [|split; [exact N1'|reflexivity]].
    intros g Hg. apply in_map_iff in Hg as (m' & <- & Hm'). intros X. apply (Hn m' Hm').
    assert (Hi : In m' (rev (methods d))) by (rewrite El; apply in_app_iff; now left).
    destruct (Hr _ (Io m' Hi)) as [R' Hp']. now apply surplus_applies. }
  assert (N2' : forall g, In g defs -> ~ takes_some g).
  { intros g Hg. destruct (Of g Hg) as (m & Hm & <-). destruct (Hr _ Hg) as [R Hp]. intros X. apply (N2 m Hm). now apply surplus_applies. }
  right.
  destruct (first_match_spec missing _ a D) as [(l1 & m & l2 & El & -> & Ec & T & Hn)|[-> N3]]; cbn [obind].
  { left. split; [reflexivity|]. split; [|auto]. assert (Hm : In m (rev (methods d))) by (rewrite El; apply in_app_iff; right; now left).
    exists (mm_fun m). split; [auto|]. destruct (Hr _ (Io m Hm)) as [R Hp]. now apply (proj1 (missing_good _ a R Hp)). }
  right. split; [reflexivity|]. intros g Hg. split; [auto|]. split; [auto|].
  destruct (Of g Hg) as (m & Hm & <-). destruct (Hr _ Hg) as [R Hp]. intros X. apply (N3 m Hm). apply missing_good; auto.
Qed.
Notation first_taker := (first_taker usub has_reversed kwname (rev defs) a).
Lemma taker_in f l1 l2 : rev defs = l1 ++ f :: l2 -> In f defs.
Proof. intros E. apply in_rev. rewrite E. apply in_app_iff. right. now left. Qed.
Lemma decide_call : decide_generic (run ops) d a [] = Ok GCall <-> exists f, In f defs /\ applies f a [].
Proof.
  destruct decide_cases as [[-> H]|[(l1 & f & l2 & El & T & Hn & N & ->)|[(-> & H & N)|[-> N]]]];
    (split; [intros X|intros (g & Hg & X)]); auto; try discriminate.
  - exfalso. exact (N g Hg X).
  - exfalso. exact (proj1 (N g Hg) X).
  - exfalso. exact (proj1 (N g Hg) X).
Qed.
Lemma first_unique l1 l2 l1' l2' f g : l1 ++ f :: l2 = l1' ++ g :: l2' -> takes_some f -> takes_some g ->
  (forall h, In h l1 -> ~ takes_some h) -> (forall h, In h l1' -> ~ takes_some h) -> f = g.
Proof.
  revert l1'. induction l1 as [|x l1 IH]; intros [|y l1'] E Tf Tg A B; cbn in E.
  - now injection E.
  - injection E as <- E. exfalso. exact (B f (or_introl eq_refl) Tf).
  - injection E as -> E. exfalso. exact (A g (or_introl eq_refl) Tg).
  - injection E as <- E. eapply IH; eauto; intros h Hh; [apply A|apply B]; now right.
Qed.
Lemma decide_pass f : (forall g, In g defs -> ~ applies g a []) -> first_taker f ->
  decide_generic (run ops) d a [] = Ok (GPass (skipn (length (params f)) a) []).
Proof.
  intros Na (k1 & k2 & Ek & Tf & Nf).
  destruct decide_cases as [[-> (g & Hg & X)]|[(l1 & g & l2 & El & T & Hn & N & ->)|[(-> & H & N)|[-> N]]]].
  - exfalso. exact (Na g Hg X).
  - assert (E : f = g) by (apply (first_unique k1 k2 l1 l2); auto; congruence). now subst g.
  - exfalso. exact (proj2 (N f (taker_in _ _ _ Ek)) Tf).
  - exfalso. exact (proj1 (proj2 (N f (taker_in _ _ _ Ek))) Tf).
Qed.
Lemma decide_pass_inv la lk : decide_generic (run ops) d a [] = Ok (GPass la lk) ->
  lk = [] /\ (forall g, In g defs -> ~ applies g a []) /\ exists f, first_taker f /\ la = skipn (length (params f)) a.
Proof.
  destruct decide_cases as [[-> H]|[(l1 & g & l2 & El & T & Hn & N & ->)|[(-> & H & N)|[-> N]]]]; try discriminate.
  intros E. injection E as <- <-. split; [reflexivity|]. split; [exact N|]. exists g. split; [|reflexivity]. exists l1, l2. auto.
Qed.
Lemma decide_keep : decide_generic (run ops) d a [] = Ok GKeep <->
  (exists f, In f defs /\ good_start f a []) /\ forall g, In g defs -> ~ applies g a [] /\ ~ takes_some g.
Proof.
  destruct decide_cases as [[-> (g & Hg & X)]|[(l1 & f & l2 & El & T & Hn & N & ->)|[(-> & H & N)|[-> N]]]].
  - split; [discriminate|]. intros [_ N]. exfalso. exact (proj1 (N g Hg) X).
  - split; [discriminate|]. intros [_ N']. exfalso. exact (proj2 (N' f (taker_in _ _ _ El)) T).
  - split; [auto|reflexivity].
  - split; [discriminate|]. intros [(f & Hf & X) _]. exfalso. exact (proj2 (proj2 (N f Hf)) X).
Qed.
Lemma decide_error e : decide_generic (run ops) d a [] = Raise e <->
  e = TypeError /\ forall g, In g defs -> ~ applies g a [] /\ ~ takes_some g /\ ~ good_start g a [].
Proof.
  destruct decide_cases as [[-> (g & Hg & X)]|[(l1 & f & l2 & El & T & Hn & N & ->)|[(-> & (g & Hg & X) & N)|[-> N]]]].
  - split; [discriminate|]. intros [_ N]. exfalso. exact (proj1 (N g Hg) X).
  - split; [discriminate|]. intros [_ N']. exfalso. exact (proj1 (proj2 (N' f (taker_in _ _ _ El))) T).
  - split; [discriminate|]. intros [_ N']. exfalso. exact (proj2 (proj2 (N' g Hg)) X).
  - split; [intros E; injection E as <-; auto|intros [-> _]; reflexivity].
Qed.
End Curry.
