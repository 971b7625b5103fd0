(** Proofs for C52. *)
From Coq Require Import String List Bool.
From Verif Require Import Base CollModel CollProofs BindModel TypeModel TypeSpec TypeProofs DispModel DispSpec.
Import ListNotations.
Open Scope list_scope.

(** * Registration *)
Lemma rget_rset r n d m : rget (rset r n d) m = if String.eqb n m then Some d else rget r m.
Proof. unfold rget, rset. apply get_set. intros x y. apply String.eqb_eq. Qed.

Lemma hint_some f p : In p (params f) ->
  (match hint (type_signature f) (p_name p) with Some _ => true | None => false end) =
  (match hint (fhints f) (p_name p) with Some _ => true | None => false end
   || match params f with p0 :: _ => String.eqb (p_name p0) (p_name p) && self_like (p_name p0) | [] => false end).
Proof.
  intros Hp. unfold type_signature. destruct (params f) as [|p0 ps]; [destruct Hp|].
  destruct (self_like (p_name p0)) eqn:E.
  - rewrite andb_true_r. destruct (hint (fhints f) (p_name p0)) eqn:E0.
    + destruct (String.eqb_spec (p_name p0) (p_name p)) as [Ep|]; [|now rewrite orb_false_r].
      now rewrite <- Ep, E0.
    + unfold hint at 1. cbn [dict_get]. destruct (String.eqb_spec (p_name p0) (p_name p)) as [Ep|].
      * now rewrite orb_true_r.
      * fold (hint (fhints f) (p_name p)). now rewrite orb_false_r.
  - now rewrite andb_false_r, orb_false_r.
Qed.
Lemma annotated_ok f : forallb (fun p => match hint (type_signature f) (p_name p) with Some _ => true | None => false end) (params f) = annotated f.
Proof.
  unfold annotated. assert (H : forall p, In p (params f) -> In p (params f)) by auto. revert H.
  generalize (params f) at 1 3 5. intros l. induction l as [|p l IH]; intros H; [reflexivity|].
  cbn [forallb]. rewrite hint_some by (apply H; now left). rewrite IH; [reflexivity|]. intros q Hq. apply H. now right.
Qed.
Lemma hint_annotation f p : annotated f = true -> In p (params f) -> hint (type_signature f) (p_name p) = Some (annotation f (p_name p)).
Proof.
  intros Ha Hp. unfold annotated in Ha. rewrite forallb_forall in Ha. specialize (Ha p Hp). rewrite <- hint_some in Ha by exact Hp.
  unfold annotation. revert Ha. unfold type_signature. destruct (params f) as [|p0 ps]; [destruct Hp|].
  destruct (self_like (p_name p0)) eqn:E; [destruct (hint (fhints f) (p_name p0)) eqn:E0|].
  - now destruct (hint (fhints f) (p_name p)).
  - unfold hint at 1 2. cbn [dict_get]. destruct (String.eqb_spec (p_name p0) (p_name p)) as [Ep|].
    + rewrite <- Ep, E0. reflexivity.
    + fold (hint (fhints f) (p_name p)). now destruct (hint (fhints f) (p_name p)).
  - now destruct (hint (fhints f) (p_name p)).
Qed.

Definition status (r : registry) (n : string) : bool * bool * list fundef :=
  match rget r n with None => (false, false, []) | Some d => (true, typed_ d, map mm_fun (methods d)) end.
Definition good (r : registry) : Prop :=
  forall n d, rget r n = Some d -> Forall (fun m => mm_hints m = type_signature (mm_fun m) /\ annotated (mm_fun m) = true) (methods d).

Lemma register_to_spec d f : register_to d f =
  if annotated f then Ok (mkdisp (wrapped d) (methods d ++ [mkmm f (type_signature f)]) (typed_ d)) else Raise TypeError.
Proof. unfold register_to. now rewrite annotated_ok. Qed.

Lemma setup_status name f r n : let '(k, c, l) := status r name in
  status (snd (setup name f r)) n =
   (if String.eqb name n then if negb c && annotated f then (true, false, l ++ [f]) else (true, c, l) else status r n) /\
  (fst (setup name f r) = if negb c && annotated f then Ok tt else Raise TypeError).
Proof.
  unfold setup, status at 1. destruct (rget r name) as [d|] eqn:E.
  - rewrite E. destruct (typed_ d) eqn:Et; cbn [negb andb].
    + cbn [fst snd]. split; [|reflexivity]. unfold status. destruct (String.eqb_spec name n) as [<-|]; [|reflexivity].
      now rewrite E, Et.
    + rewrite register_to_spec. destruct (annotated f); cbn [fst snd]; (split; [|reflexivity]); unfold status.
      * rewrite rget_rset. destruct (String.eqb_spec name n) as [<-|]; [|reflexivity]. cbn [methods typed_]. now rewrite Et, map_app.
      * destruct (String.eqb_spec name n) as [<-|]; [|reflexivity]. now rewrite E, Et.
  - rewrite rget_rset, String.eqb_refl. cbn [typed_]. rewrite register_to_spec.
    destruct (annotated f); cbn [fst snd negb andb]; (split; [|reflexivity]); unfold status.
    + rewrite !rget_rset. destruct (String.eqb_spec name n) as [<-|]; reflexivity.
    + rewrite rget_rset. destruct (String.eqb_spec name n) as [<-|]; reflexivity.
Qed.
Lemma step_status o r n : let '(k, c, l) := status r n in
  status (snd (step o r)) n =
   if String.eqb (op_target o) n then
     let usable := k || match o with Augment _ _ => false | _ => true end in
     if usable && negb c && annotated (op_fun o) then (true, is_typed o, l ++ [op_fun o]) else (usable, c, l)
   else (k, c, l).
Proof.
  destruct (status r n) as [[k c] l] eqn:Es. destruct o as [f|f|m f]; cbn [step op_target op_fun is_typed].
  - pose proof (setup_status (fullname f) f r n) as H. destruct (String.eqb_spec (fullname f) n) as [<-|Hn].
    + rewrite Es in H. destruct H as [-> _]. now rewrite orb_true_r.
    + destruct (status r (fullname f)) as [[k0 c0] l0]. destruct H as [-> _]. exact Es.
  - pose proof (setup_status (fullname f) f r n) as H. pose proof (setup_status (fullname f) f r (fullname f)) as H0.
    destruct (setup (fullname f) f r) as [x r1]. cbn [fst snd] in *.
    destruct (String.eqb_spec (fullname f) n) as [<-|Hn].
    + clear H. rewrite Es, String.eqb_refl in H0. destruct H0 as [H0 ->]. rewrite orb_true_r. cbn [andb].
      destruct (negb c && annotated f); cbn [snd]; [|exact H0].
      unfold status in H0. destruct (rget r1 (fullname f)) as [d|] eqn:E; [|discriminate]. injection H0 as H0 H1.
      cbn [snd]. unfold status. rewrite rget_rset, String.eqb_refl. cbn. now rewrite H1.
    + destruct (status r (fullname f)) as [[k0 c0] l0]. destruct H as [H _]. rewrite Es in H.
      assert (G : forall d, status (rset r1 (fullname f) d) n = (k, c, l)).
      { intros d. unfold status in *. rewrite rget_rset. destruct (String.eqb_spec (fullname f) n); [congruence|exact H]. }
      destruct x; [destruct (rget r1 (fullname f))|]; cbn [snd]; auto.
  - pose proof (setup_status m f r n) as H. destruct (rget r m) as [d|] eqn:E.
    + destruct (String.eqb_spec m n) as [<-|Hn].
      * assert (k = true) as -> by (unfold status in Es; rewrite E in Es; now injection Es).
        rewrite Es in H. destruct H as [-> _]. reflexivity.
      * destruct (status r m) as [[k0 c0] l0]. destruct H as [-> _]. exact Es.
    + cbn [snd]. rewrite Es. destruct (String.eqb_spec m n) as [<-|]; [|reflexivity].
      unfold status in Es. rewrite E in Es. injection Es as <- <- <-. reflexivity.
Qed.
Lemma run_status n : forall ops r, let '(k, c, l) := status r n in
  snd (status (fold_left (fun r o => snd (step o r)) ops r) n) = l ++ registered n k c ops.
Proof.
  induction ops as [|o ops IH]; intros r.
  - cbn. destruct (status r n) as [[k c] l]. now rewrite app_nil_r.
  - cbn [fold_left registered]. pose proof (step_status o r n) as H. specialize (IH (snd (step o r))).
    destruct (status r n) as [[k c] l]. rewrite H in IH. cbv zeta in IH |- *.
    destruct (String.eqb (op_target o) n); [|exact IH].
    destruct (_ && negb c && annotated (op_fun o)); rewrite IH; [now rewrite <- app_assoc|reflexivity].
Qed.
Lemma run_methods ops n d : rget (run ops) n = Some d -> map mm_fun (methods d) = registered n false false ops.
Proof. intros H. pose proof (run_status n ops []) as R. cbn in R. fold (run ops) in R. unfold status in R. now rewrite H in R. Qed.
Lemma run_none ops n : rget (run ops) n = None -> registered n false false ops = [].
Proof. intros H. pose proof (run_status n ops []) as R. cbn in R. fold (run ops) in R. unfold status in R. now rewrite H in R. Qed.

Lemma good_rset r n d : good r -> Forall (fun m => mm_hints m = type_signature (mm_fun m) /\ annotated (mm_fun m) = true) (methods d) -> good (rset r n d).
Proof. intros G H m d' E. rewrite rget_rset in E. destruct (String.eqb n m); [injection E as <-; exact H|exact (G _ _ E)]. Qed.
Lemma good_setup n f r : good r -> good (snd (setup n f r)).
Proof.
  intros G. unfold setup.
  assert (G1 : good (match rget r n with Some _ => r | None => rset r n (mkdisp f [] false) end)).
  { destruct (rget r n); [exact G|]. apply good_rset; [exact G|constructor]. }
  revert G1. generalize (match rget r n with Some _ => r | None => rset r n (mkdisp f [] false) end). intros r1 G1. cbv zeta.
  destruct (rget r1 n) as [d|] eqn:E; [|exact G1]. destruct (typed_ d); [exact G1|]. rewrite register_to_spec.
  destruct (annotated f) eqn:A; [|exact G1]. cbn [snd]. apply good_rset; [exact G1|]. cbn [methods].
  apply Forall_app. split; [exact (G1 _ _ E)|]. constructor; [|constructor]. auto.
Qed.
Lemma good_step o r : good r -> good (snd (step o r)).
Proof.
  intros G. destruct o as [f|f|n f]; cbn [step].
  - now apply good_setup.
  - pose proof (good_setup (fullname f) f r G) as G1. destruct (setup (fullname f) f r) as [x r1]. cbn [snd] in G1.
    destruct x; [destruct (rget r1 (fullname f)) eqn:E|]; cbn [snd]; auto. apply good_rset; [exact G1|exact (G1 _ _ E)].
  - destruct (rget r n); [now apply good_setup|exact G].
Qed.
Lemma good_run ops : good (run ops).
Proof.
  unfold run. assert (G : good []) by (intros n d E; discriminate). revert G. generalize (@nil (string * dispatcher)).
  induction ops as [|o ops IH]; intros r G; [exact G|]. cbn. apply IH. now apply good_step.
Qed.

(** * Calls *)
Section Calls.
Variable usub : nat -> cls -> bool.
Variable has_reversed : cls -> bool.
Variable kwname : pname -> value.
Notation applies := (applies usub has_reversed kwname).
Notation resolve := (resolve usub has_reversed kwname).

Lemma bind_error (ps : signature value) args kw e : py_call_bind ps args kw = Raise e -> e = TypeError.
Proof.
  assert (B1 : forall (ps : signature value) args kw e, bind1 false ps args kw = Raise e -> e = TypeError).
  { clear. induction ps as [|p ps IH]; intros args kw e; cbn.
    - destruct args; [discriminate|]. now intros H; injection H.
    - destruct args as [|a args].
      + destruct (kind_eqb (p_kind p) VarPos); [discriminate|]. destruct (khas kw (p_name p)).
        * destruct (kind_eqb (p_kind p) PosOnly); [|discriminate]. now intros H; injection H.
        * destruct (_ || _); [discriminate|]. now intros H; injection H.
      + destruct (_ || _); [now intros H; injection H|]. destruct (kind_eqb (p_kind p) VarPos); [discriminate|].
        destruct (khas kw (p_name p) && _); [now intros H; injection H|].
        destruct (bind1 false ps args kw) as [[b r]|e0] eqn:E; cbn; [discriminate|]. intros H. injection H as <-. eauto. }
  assert (B2 : forall (ps : signature value) kw e, bind2 false ps kw = Raise e -> e = TypeError).
  { clear. induction ps as [|p ps IH]; intros kw e; cbn; [discriminate|].
    destruct (kind_eqb (p_kind p) VarKw).
    - destruct (bind2 false ps kw) as [[[b k] r]|e0] eqn:E; cbn; [discriminate|]. intros H. injection H as <-. eauto.
    - destruct (kind_eqb (p_kind p) VarPos); [now apply IH|].
      destruct (kget kw (p_name p)).
      + destruct (kind_eqb (p_kind p) PosOnly); [now intros H; injection H|].
        destruct (bind2 false ps (kdel kw (p_name p))) as [[[b k] r]|e0] eqn:E; cbn; [discriminate|]. intros H. injection H as <-. eauto.
      + destruct (negb (has_default p)); [now intros H; injection H|now apply IH]. }
  unfold py_call_bind, sig_bind.
  destruct (bind1 false ps args kw) as [[b r]|e0] eqn:E1; cbn; [|intros H; injection H as <-; eauto].
  destruct (bind2 false r kw) as [[[b' k] r']|e0] eqn:E2; cbn; [|intros H; injection H as <-; eauto].
  destruct r'; cbn; [discriminate|]. destruct k; cbn; [discriminate|]. now intros H; injection H.
Qed.
Lemma defaults_names (ps : signature value) b : Forall (fun nv => exists p, In p ps /\ p_name p = fst nv) (apply_defaults ps b).
Proof.
  induction ps as [|p ps IH]; cbn; [constructor|].
  assert (W : Forall (fun nv : pname * bval value => exists q, In q (p :: ps) /\ p_name q = fst nv) (apply_defaults ps b)).
  { eapply Forall_impl; [|exact IH]. intros nv (q & Hq & E). exists q. split; [now right|exact E]. }
  assert (K : forall v : bval value, Forall (fun nv => exists q, In q (p :: ps) /\ p_name q = fst nv) ((p_name p, v) :: apply_defaults ps b)).
  { intros v. constructor; [exists p; split; [now left|reflexivity]|exact W]. }
  destruct (bget b (p_name p)); [apply K|]. destruct (p_default p); [apply K|]. destruct (p_kind p); auto; apply K.
Qed.
Lemma bind_names (ps : signature value) args kw b : py_call_bind ps args kw = Ok b ->
  Forall (fun nv => exists p, In p ps /\ p_name p = fst nv) b.
Proof.
  unfold py_call_bind. destruct (sig_bind false ps args kw); cbn; [|discriminate]. intros H. injection H as <-. apply defaults_names.
Qed.
Lemma annotation_supported f n : checkable usub f -> supported usub (annotation f n).
Proof. intros H. unfold annotation. destruct (hint (fhints f) n) eqn:E; [eauto|constructor]. Qed.

Lemma no_mismatch_decides f : annotated f = true -> checkable usub f -> forall b,
  Forall (fun nv => exists p, In p (params f) /\ p_name p = fst nv) b ->
  decides (no_mismatch usub has_reversed kwname (type_signature f) b)
    (Forall (fun nv => of_type usub has_reversed (annotation f (fst nv)) (bound_value kwname (snd nv))) b).
Proof.
  intros Ha Hc. induction 1 as [|[n v] b (p & Hp & E) _ IH]; cbn.
  - apply decides_ok. split; [constructor|reflexivity].
  - cbn in E. subst n. rewrite (hint_annotation f p Ha Hp).
    destruct (isoftype_decides usub has_reversed _ (annotation_supported f (p_name p) Hc) (bound_value kwname v)) as (x & -> & Hx).
    destruct IH as (y & -> & Hy). cbn. apply decides_ok. rewrite andb_true_iff, Hx, Hy. split.
    + intros [A B]. constructor; assumption.
    + inversion 1; subst. auto.
Qed.

(** The test made for one multimethod *)
Definition accepted (f : fundef) (args : list value) (kw : dict pname value) : bool :=
  match (do b <- py_call_bind (params f) args kw; no_mismatch usub has_reversed kwname (type_signature f) b) with
  | Ok true => true | _ => false end.
Lemma accepted_applies f args kw : annotated f = true -> checkable usub f -> (accepted f args kw = true <-> applies f args kw).
Proof.
  intros Ha Hc. unfold accepted, DispSpec.applies. destruct (py_call_bind (params f) args kw) as [b|e] eqn:E; cbn.
  - destruct (no_mismatch_decides f Ha Hc b (bind_names _ _ _ _ E)) as (x & -> & Hx). destruct x.
    + split; [|reflexivity]. intros _. exists b. split; [reflexivity|]. now apply Hx.
    + split; [discriminate|]. intros (b' & Eb & HF). injection Eb as <-. now apply Hx.
  - split; [discriminate|]. intros (b & Eb & _). discriminate.
Qed.
Definition mm_good (m : mm) : Prop := mm_hints m = type_signature (mm_fun m) /\ annotated (mm_fun m) = true.
Lemma resolve_find l args kw : Forall mm_good l -> Forall (fun m => checkable usub (mm_fun m)) l ->
  exists x, resolve l args kw = Ok x /\ option_map mm_fun x = find (fun f => accepted f args kw) (map mm_fun l).
Proof.
  induction 1 as [|m l [Hh Ha] _ IH]; intros Hc; cbn.
  - exists None. auto.
  - inversion Hc as [|? ? Hm Hl]; subst. specialize (IH Hl). rewrite Hh. unfold accepted at 1.
    destruct (py_call_bind (params (mm_fun m)) args kw) as [b|e] eqn:E; cbn [obind].
    + destruct (no_mismatch_decides _ Ha Hm b (bind_names _ _ _ _ E)) as (x & -> & Hx). destruct x.
      * exists (Some m). auto.
      * exact IH.
    + rewrite (bind_error _ _ _ _ E). exact IH.
Qed.
Lemma find_first l args kw f : Forall (fun g => annotated g = true /\ checkable usub g) l ->
  (find (fun f => accepted f args kw) l = Some f <-> first_applicable usub has_reversed kwname l args kw f).
Proof.
  intros Hg. induction Hg as [|g l [Ha Hc] _ IH]; cbn.
  - split; [discriminate|]. intros (l1 & l2 & E & _). now destruct l1.
  - destruct (accepted g args kw) eqn:E.
    + split.
      * intros H. injection H as ->. exists [], l. split; [reflexivity|]. split; [now apply accepted_applies|constructor].
      * intros ([|h l1] & l2 & El & Hap & Hn).
        -- injection El as -> _. reflexivity.
        -- injection El as -> _. inversion Hn as [|? ? Hx _]; subst. exfalso. apply Hx. now apply accepted_applies.
    + assert (Ng : ~ applies g args kw) by (intros H; apply accepted_applies in H; auto; congruence).
      rewrite IH. split.
      * intros (l1 & l2 & -> & Hap & Hn). exists (g :: l1), l2. split; [reflexivity|]. split; [exact Hap|]. now constructor.
      * intros ([|h l1] & l2 & El & Hap & Hn).
        -- injection El as -> _. contradiction.
        -- injection El as -> ->. inversion Hn; subst. exists l1, l2. auto.
Qed.
Lemma find_none_spec l args kw : Forall (fun g => annotated g = true /\ checkable usub g) l ->
  (find (fun f => accepted f args kw) l = None <-> Forall (fun g => ~ applies g args kw) l).
Proof.
  intros Hg. induction Hg as [|g l [Ha Hc] _ IH]; cbn.
  - split; [constructor|reflexivity].
  - destruct (accepted g args kw) eqn:E.
    + split; [discriminate|]. inversion 1; subst. exfalso. now apply accepted_applies in E.
    + rewrite IH. assert (Ng : ~ applies g args kw) by (intros H; apply accepted_applies in H; auto; congruence).
      split; [now constructor|now inversion 1].
Qed.
Lemma find_app {X} (p : X -> bool) l1 l2 : find p (l1 ++ l2) = match find p l1 with Some x => Some x | None => find p l2 end.
Proof. induction l1 as [|x l1 IH]; cbn; [reflexivity|]. destruct (p x); auto. Qed.

Lemma registered_annotated n : forall ops k c, Forall (fun f => annotated f = true) (registered n k c ops).
Proof.
  induction ops as [|o ops IH]; intros k c; cbn; [constructor|]. destruct (String.eqb _ n); [|apply IH].
  destruct (_ && annotated (op_fun o)) eqn:E; [|apply IH]. constructor; [|apply IH]. apply andb_prop in E. tauto.
Qed.

Variable truthy : value -> bool.
Variable self_class : value -> cls.
Variable mro : cls -> list cls.
Variable own : cls -> string -> option (option string).
Notation call := (call usub has_reversed truthy self_class mro own kwname).

(** The result of trying a list of definitions in order *)
Definition result (l : list fundef) args kw : outcome fundef :=
  match find (fun f => accepted f args kw) l with Some f => Ok f | None => Raise TypeError end.
Lemma result_ok l args kw f : Forall (fun g => annotated g = true /\ checkable usub g) l ->
  (result l args kw = Ok f <-> first_applicable usub has_reversed kwname l args kw f).
Proof.
  intros H. rewrite <- find_first by exact H. unfold result. destruct (find _ l); split; intros E; inversion E; reflexivity.
Qed.
Lemma result_none l args kw : Forall (fun g => annotated g = true /\ checkable usub g) l ->
  (result l args kw = Raise TypeError <-> Forall (fun g => ~ applies g args kw) l).
Proof.
  intros H. rewrite <- find_none_spec by exact H. unfold result. destruct (find _ l); split; intros E; inversion E; reflexivity.
Qed.
Lemma resolve_result l args kw : Forall mm_good l -> Forall (fun m => checkable usub (mm_fun m)) l ->
  (do x <- resolve l args kw; match x with Some m => Ok (mm_fun m) | None => Raise TypeError end) = result (map mm_fun l) args kw.
Proof.
  intros H1 H2. destruct (resolve_find l args kw H1 H2) as (x & -> & E). unfold result. rewrite <- E. cbn. now destruct x.
Qed.

Notation all_checkable := (all_checkable usub).
Lemma registered_in n : forall ops k c f, In f (registered n k c ops) -> exists o, In o ops /\ op_fun o = f.
Proof.
  induction ops as [|o ops IH]; intros k c f; cbn; [intros []|].
  assert (G : forall k c, In f (registered n k c ops) -> exists o0, In o0 (o :: ops) /\ op_fun o0 = f).
  { intros k' c' H. destruct (IH _ _ _ H) as (o' & Ho & E). exists o'. split; [now right|exact E]. }
  destruct (String.eqb _ n); [|apply G]. destruct (_ && annotated (op_fun o)); [|apply G].
  intros [E|H]; [exists o; split; [now left|exact E]|exact (G _ _ H)].
Qed.
Lemma registered_good n ops : all_checkable ops ->
  Forall (fun g => annotated g = true /\ checkable usub g) (registered n false false ops).
Proof.
  intros H. rewrite Forall_forall. intros f Hf. split.
  - pose proof (registered_annotated n ops false false) as Ha. rewrite Forall_forall in Ha. auto.
  - destruct (registered_in _ _ _ _ _ Hf) as (o & Ho & <-). auto.
Qed.

(** ** Functions *)
Lemma call_function ops n d args kw : all_checkable ops -> rget (run ops) n = Some d ->
  extract_self d args = Ok None ->
  call (run ops) d args kw = result (rev (registered n false false ops)) args kw.
Proof.
  intros Hc Hd Hs. unfold DispModel.call. rewrite Hs. cbn [obind].
  assert (Hm := good_run ops n d Hd).
  assert (Hf : map mm_fun (methods d) = registered n false false ops) by now apply run_methods.
  rewrite resolve_result.
  - unfold list_multimethods. now rewrite app_nil_r, map_rev, Hf.
  - unfold list_multimethods. rewrite app_nil_r. apply Forall_rev. exact Hm.
  - unfold list_multimethods. rewrite app_nil_r. apply Forall_rev.
    pose proof (registered_good n ops Hc) as G. rewrite <- Hf in G. rewrite Forall_map in G.
    eapply Forall_impl; [|exact G]. cbn. tauto.
Qed.

(** ** Methods *)
(** What the code tries for a list of classes, the first own definition from each on *)
Definition from_class (ops : list op) (name : string) (c : cls) : list fundef :=
  match class_attr mro own c name with
  | Some (Some fn) => rev (registered fn false false ops)
  | _ => []
  end.
Lemma base_methods_fun ops name c : map mm_fun (base_methods mro own (run ops) name c) = from_class ops name c.
Proof.
  unfold base_methods, from_class. destruct (class_attr mro own c name) as [[fn|]|]; try reflexivity.
  destruct (rget (run ops) fn) as [d|] eqn:E.
  - rewrite map_rev. now rewrite (run_methods _ _ _ E).
  - now rewrite (run_none _ _ E).
Qed.
Lemma map_flat_map {X Y Z} (f : Y -> Z) (g : X -> list Y) l : map f (flat_map g l) = flat_map (fun x => map f (g x)) l.
Proof. induction l; cbn; [reflexivity|]. now rewrite map_app, IHl. Qed.
Lemma flat_map_ext' {X Y} (f g : X -> list Y) l : (forall x, f x = g x) -> flat_map f l = flat_map g l.
Proof. intros H. induction l; cbn; [reflexivity|]. now rewrite H, IHl. Qed.
Lemma base_methods_good ops name c : all_checkable ops ->
  Forall mm_good (base_methods mro own (run ops) name c) /\ Forall (fun m => checkable usub (mm_fun m)) (base_methods mro own (run ops) name c).
Proof.
  intros Hc. unfold base_methods. destruct (class_attr mro own c name) as [[fn|]|]; auto.
  destruct (rget (run ops) fn) as [d|] eqn:E; auto. split; apply Forall_rev.
  - exact (good_run ops fn d E).
  - pose proof (registered_good fn ops Hc) as G. rewrite <- (run_methods _ _ _ E) in G. rewrite Forall_map in G.
    eapply Forall_impl; [|exact G]. cbn. tauto.
Qed.
Lemma call_method ops n d self args kw : all_checkable ops -> rget (run ops) n = Some d ->
  extract_self d args = Ok (Some self) -> truthy self = true ->
  call (run ops) d args kw =
    result (rev (registered n false false ops) ++ flat_map (from_class ops (fname (wrapped d))) (tl (mro (self_class self)))) args kw.
Proof.
  intros Hc Hd Hs Ht. unfold DispModel.call. rewrite Hs. cbn [obind]. unfold list_multimethods. rewrite Ht.
  assert (Hm := good_run ops n d Hd).
  assert (Hf : map mm_fun (methods d) = registered n false false ops) by now apply run_methods.
  rewrite resolve_result.
  - rewrite map_app, map_rev, Hf, map_flat_map. do 2 f_equal. apply flat_map_ext'. intros c. apply base_methods_fun.
  - apply Forall_app. split; [apply Forall_rev; exact Hm|]. rewrite Forall_flat_map, Forall_forall. intros c _.
    now apply base_methods_good.
  - apply Forall_app. split.
    + apply Forall_rev. pose proof (registered_good n ops Hc) as G. rewrite <- Hf in G. rewrite Forall_map in G.
      eapply Forall_impl; [|exact G]. cbn. tauto.
    + rewrite Forall_flat_map, Forall_forall. intros c _. now apply base_methods_good.
Qed.

Notation in_mro_order := (in_mro_order own).
Lemma first_own_dup ops name (p : fundef -> bool) : forall l,
  find p (match lookup own name l with Some (Some fn) => rev (registered fn false false ops) | _ => [] end ++ in_mro_order ops name l) =
  find p (in_mro_order ops name l).
Proof.
  induction l as [|c l IH]; [reflexivity|]. unfold DispSpec.in_mro_order. cbn [lookup flat_map]. fold (in_mro_order ops name l).
  destruct (own c name) as [[fn|]|]; try reflexivity; [|exact IH]. rewrite !find_app. now destruct (find p (rev _)).
Qed.
Lemma linear_find ops name args kw : forall l,
  (forall l1 b l2, l = l1 ++ b :: l2 -> (exists l', mro b = b :: l') /\
     (lookup own name (mro b) = None \/ lookup own name (mro b) = lookup own name (b :: l2))) ->
  find (fun f => accepted f args kw) (flat_map (from_class ops name) l) = find (fun f => accepted f args kw) (in_mro_order ops name l).
Proof.
  induction l as [|c l IH]; intros H; [reflexivity|].
  assert (Hl : forall l1 b l2, l = l1 ++ b :: l2 -> (exists l', mro b = b :: l') /\
     (lookup own name (mro b) = None \/ lookup own name (mro b) = lookup own name (b :: l2))).
  { intros l1 b l2 E. apply (H (c :: l1)). now rewrite E. }
  specialize (IH Hl). destruct (H [] c l eq_refl) as [[l' Ec] Hc].
  cbn [flat_map]. rewrite find_app, IH, <- find_app. unfold from_class, class_attr.
  unfold DispSpec.in_mro_order at 2. cbn [flat_map]. fold (in_mro_order ops name l).
  destruct Hc as [Hc|Hc]; rewrite Hc.
  - rewrite Ec in Hc. cbn [lookup] in Hc. destruct (own c name); [discriminate|reflexivity].
  - cbn [lookup]. destruct (own c name) as [[fn|]|]; try reflexivity. apply first_own_dup.
Qed.
Lemma call_method_linear ops n d self args kw : all_checkable ops -> rget (run ops) n = Some d ->
  extract_self d args = Ok (Some self) -> truthy self = true ->
  inherits_next mro own (self_class self) (fname (wrapped d)) -> (exists l, mro (self_class self) = self_class self :: l) ->
  class_attr mro own (self_class self) (fname (wrapped d)) = Some (Some n) ->
  call (run ops) d args kw = result (in_mro_order ops (fname (wrapped d)) (mro (self_class self))) args kw.
Proof.
  intros Hc Hd Hs Ht Hl [l El] Ha. rewrite (call_method _ _ _ _ _ _ Hc Hd Hs Ht). unfold result.
  rewrite <- (linear_find ops (fname (wrapped d)) args kw (mro (self_class self)) Hl). rewrite El. cbn [tl flat_map].
  unfold from_class at 2. now rewrite Ha.
Qed.
Lemma in_mro_good ops name l : all_checkable ops ->
  Forall (fun g => annotated g = true /\ checkable usub g) (in_mro_order ops name l).
Proof.
  intros Hc. unfold DispSpec.in_mro_order. rewrite Forall_flat_map, Forall_forall. intros c _.
  destruct (own c name) as [[fn|]|]; auto. apply Forall_rev. now apply registered_good.
Qed.
End Calls.
