From Coq Require Import String List Bool.
From Verif Require Import Base CollModel BindModel TypeModel TypeSpec DispModel DispSpec DispProofs LmtModel LmtSpec.
Import ListNotations.
Open Scope list_scope.

(** ** Registration *)
Lemma run_snoc ops o : run (ops ++ [o]) = snd (step o (run ops)).
Proof. unfold run. now rewrite fold_left_app. Qed.
Definition knownP (ops : list op) (n : string) : Prop := exists f, fullname f = n /\ (In (Generic f) ops \/ In (Typed f) ops).
Definition closedP (ops : list op) (n : string) : Prop := exists f, In (Typed f) ops /\ fullname f = n /\ annotated f = true.
Lemma status_run ops : forall n, let '(k, c, _) := status (run ops) n in (k = true <-> knownP ops n) /\ (c = true <-> closedP ops n).
Proof.
  induction ops as [|o ops IH] using rev_ind; intros n.
  - cbn. split; (split; [discriminate|]). + intros (f & _ & [[]|[]]). + intros (f & [] & _).
  - rewrite run_snoc. specialize (IH n). pose proof (step_status o (run ops) n) as S. destruct (status (run ops) n) as [[k c] l]. rewrite S. clear S. destruct IH as [K C].
    assert (KM : knownP ops n -> knownP (ops ++ [o]) n) by (intros (f & E & [I|I]); exists f; split; auto; [left|right]; apply in_or_app; now left).
    assert (CM : closedP ops n -> closedP (ops ++ [o]) n) by (intros (f & I & E); exists f; split; auto; apply in_or_app; now left).
    assert (KL : knownP (ops ++ [o]) n -> knownP ops n \/ (match o with Augment _ _ => False | _ => True end /\ op_target o = n)).
    { intros (f & E & [I|I]); apply in_app_or in I; destruct I as [I|[->|[]]]; [left; exists f; auto|right; cbn; auto|left; exists f; auto|right; cbn; auto]. }
    assert (CL : closedP (ops ++ [o]) n -> closedP ops n \/ exists f, o = Typed f /\ fullname f = n /\ annotated f = true).
    { intros (f & I & E). apply in_app_or in I. destruct I as [I|[->|[]]]; [left; exists f; auto|right; eauto]. }
    destruct (String.eqb_spec (op_target o) n) as [E|N]; cbv zeta.
    + assert (KU : k || match o with Augment _ _ => false | _ => true end = true <-> knownP (ops ++ [o]) n).
      { split.
        - intros H. apply orb_true_iff in H. destruct H as [H|H]; [apply KM; now apply K|]. exists (op_fun o). destruct o; try discriminate; cbn in *; split; auto; [left|right]; apply in_or_app; right; now left.
        - intros H. apply orb_true_iff. destruct (KL H) as [H'|[H' _]]; [left; now apply K|right; destruct o; auto; destruct H']. }
      set (u := k || match o with Augment _ _ => false | _ => true end) in *.
      destruct (u && negb c && annotated (op_fun o)) eqn:B.
      * apply andb_true_iff in B. destruct B as [B A]. apply andb_true_iff in B. destruct B as [B N]. split; [rewrite <- KU; tauto|]. apply negb_true_iff in N. subst c. split.
        -- intros T. destruct o; try discriminate. exists f. cbn in E, A. split; [apply in_or_app; right; now left|auto].
        -- intros H. destruct (CL H) as [H'|(f & -> & _)]; [|reflexivity]. apply C in H'. discriminate.
      * split; [exact KU|]. split; [intros ->; apply CM; now apply C|]. intros H. destruct (CL H) as [H'|(f & -> & Ef & A)]; [now apply C|].
        cbn in B. subst u. rewrite orb_true_r, A, andb_true_r in B. cbn in B. now apply negb_false_iff in B.
    + split; [rewrite K|rewrite C]; (split; [auto|]).
      * intros H. destruct (KL H) as [H'|[_ H']]; [exact H'|congruence].
      * intros H. destruct (CL H) as [H'|(f & -> & H' & _)]; [exact H'|cbn in N; congruence].
Qed.
Lemma step_outcome o r : fst (step o r) = let '(k, c, _) := status r (op_target o) in
  if (k || match o with Augment _ _ => false | _ => true end) && negb c && annotated (op_fun o) then Ok tt else Raise TypeError.
Proof.
  destruct o as [f|f|n f]; cbn [step op_target op_fun].
  - pose proof (setup_status (fullname f) f r (fullname f)) as H. destruct (status r (fullname f)) as [[k c] l]. rewrite orb_true_r. apply H.
  - pose proof (setup_status (fullname f) f r (fullname f)) as H. destruct (status r (fullname f)) as [[k c] l]. rewrite orb_true_r. cbn [andb]. destruct H as [S H].
    destruct (setup (fullname f) f r) as [x r1]. cbn [fst snd] in *. rewrite String.eqb_refl in S.
    subst x. destruct (negb c && annotated f); [|reflexivity]. unfold status in S. destruct (rget r1 (fullname f)); [reflexivity|discriminate].
  - pose proof (setup_status n f r n) as H. unfold status in H |- *. destruct (rget r n) as [d|] eqn:E; cbn [fst].
    + rewrite orb_false_r. apply H.
    + reflexivity.
Qed.
Theorem accepts ops o : fst (step o (run ops)) = Ok tt <-> acceptable ops o.
Proof.
  rewrite step_outcome. pose proof (status_run ops (op_target o)) as S. destruct (status (run ops) (op_target o)) as [[k c] l]. destruct S as [K C].
  unfold acceptable.
  assert (NC : negb c = true <-> forall f, In (Typed f) ops -> fullname f = op_target o -> annotated f = false).
  { rewrite negb_true_iff. split.
    - intros -> f I E. destruct (annotated f) eqn:A; [|reflexivity]. assert (false = true) by (apply C; exists f; auto). discriminate.
    - intros H. destruct c; [|reflexivity]. destruct (proj1 C eq_refl) as (f & I & E & A). rewrite (H f I E) in A. discriminate. }
  assert (KU : k || match o with Augment _ _ => false | _ => true end = true <-> match o with Augment n _ => exists f, fullname f = n /\ (In (Generic f) ops \/ In (Typed f) ops) | _ => True end).
  { destruct o; rewrite ?orb_true_r, ?orb_false_r; [tauto|tauto|exact K]. }
  destruct (_ && annotated (op_fun o)) eqn:B.
  - split; [intros _|reflexivity]. rewrite !andb_true_iff in B. tauto.
  - split; [discriminate|]. intros (A & H1 & H2). rewrite A, andb_true_r in B. apply NC in H1. apply KU in H2. rewrite H1, H2 in B. discriminate.
Qed.
Theorem rejected ops o : ~ acceptable ops o -> fst (step o (run ops)) = Raise TypeError /\
  forall n, registered n false false (ops ++ [o]) = registered n false false ops.
Proof.
  intros N. rewrite <- accepts in N. pose proof (step_outcome o (run ops)) as S.
  assert (R : forall n, registered n false false (ops ++ [o]) = snd (status (snd (step o (run ops))) n)).
  { intros n. rewrite <- run_snoc. unfold run. now rewrite (run_status n (ops ++ [o]) []). }
  assert (R0 : forall n, registered n false false ops = snd (status (run ops) n)) by (intros n; unfold run; now rewrite (run_status n ops [])).
  split.
  - destruct (status (run ops) (op_target o)) as [[k c] l]. destruct (_ && annotated (op_fun o)); [congruence|exact S].
  - intros n. rewrite R, R0. pose proof (step_status o (run ops) n) as T. destruct (status (run ops) n) as [[k c] l] eqn:E. rewrite T. clear T.
    destruct (String.eqb_spec (op_target o) n) as [<-|Nn]; [|reflexivity]. rewrite E in S. cbv zeta. destruct (_ && annotated (op_fun o)); [congruence|reflexivity].
Qed.
Theorem kinds ops h :
  (isgeneric (run ops) h = IsTyped <-> closedP ops (name_of h)) /\
  (isgeneric (run ops) h = IsNot <-> ~ knownP ops (name_of h)).
Proof.
  pose proof (status_run ops (name_of h)) as S. unfold isgeneric. unfold status in S. destruct (rget (run ops) (name_of h)) as [d|].
  - destruct S as [K C]. split.
    + rewrite <- C. destruct (typed_ d); split; intros; congruence.
    + split; [destruct (typed_ d); discriminate|]. intros N. destruct N. now apply K.
  - destruct S as [K C]. split; [split; [discriminate|]|split; [|reflexivity]].
    + intros H. apply C in H. discriminate.
    + intros _ H. apply K in H. discriminate.
Qed.

Section Call.
Variable usub : nat -> cls -> bool.
Variable has_reversed : cls -> bool.
Variable truthy : value -> bool.
Variable self_class : value -> cls.
Variable mro : cls -> list cls.
Variable own : cls -> string -> option (option string).
Variable kwname : pname -> value.
Notation call := (call usub has_reversed truthy self_class mro own kwname).
Notation list_methods := (list_methods truthy self_class mro own).
Notation call_handle := (call_handle usub has_reversed truthy self_class mro own kwname).
Notation first_applicable := (first_applicable usub has_reversed kwname).
Notation applies := (applies usub has_reversed kwname).
Notation all_checkable := (all_checkable usub).

Definition fine (m : mm) : Prop := mm_good m /\ checkable usub (mm_fun m).
Lemma methods_fine ops n d : all_checkable ops -> rget (run ops) n = Some d -> Forall fine (methods d).
Proof.
  intros H E. pose proof (good_run ops n d E) as G. pose proof (registered_good usub kwname n ops H) as R. rewrite <- (run_methods ops n d E), Forall_map in R.
  rewrite Forall_forall in *. intros m I. split; [exact (G m I)|exact (proj2 (R m I))].
Qed.
Lemma listed_fine ops n d s : all_checkable ops -> rget (run ops) n = Some d -> Forall fine (list_multimethods truthy self_class mro own (run ops) d s).
Proof.
  intros H E. unfold list_multimethods. apply Forall_app. split; [apply Forall_rev; eapply methods_fine; eauto|].
  destruct s as [s|]; [|constructor]. destruct (truthy s); [|constructor]. rewrite Forall_forall. intros m I. apply in_flat_map in I. destruct I as (b & _ & I).
  unfold base_methods in I. destruct (class_attr mro own b (fname (wrapped d))) as [[fn|]|]; try destruct I. destruct (rget (run ops) fn) as [d'|] eqn:E'; [|destruct I].
  apply in_rev in I. pose proof (methods_fine ops fn d' H E') as G. rewrite Forall_forall in G. auto.
Qed.
Lemma called ops n d s args kw : all_checkable ops -> rget (run ops) n = Some d -> extract_self d args = Ok s ->
  call (run ops) d args kw = result usub has_reversed kwname (map mm_fun (list_multimethods truthy self_class mro own (run ops) d s)) args kw /\
  Forall (fun g => annotated g = true /\ checkable usub g) (map mm_fun (list_multimethods truthy self_class mro own (run ops) d s)).
Proof.
  intros H E S. pose proof (listed_fine ops n d s H E) as F. split.
  - unfold DispModel.call. rewrite S. cbn [obind]. apply resolve_result; (eapply Forall_impl; [|exact F]); intros m []; auto.
  - rewrite Forall_map. eapply Forall_impl; [|exact F]. intros m [G C]. split; [exact (proj2 G)|exact C].
Qed.
Lemma fits_self d h args : fits d h -> extract_self d (arguments h args) = Ok (self_of h).
Proof.
  unfold extract_self. change self_like with like_self. destruct h as [n|n s]; cbn [fits arguments self_of].
  - intros N. destruct (first_positional (params (wrapped d))) as [m|] eqn:E; [|reflexivity]. destruct (like_self m) eqn:L; [|reflexivity]. destruct N. exists m. auto.
  - intros (m & -> & ->). reflexivity.
Qed.
Theorem listing ops h d l : all_checkable ops -> rget (run ops) (name_of h) = Some d -> fits d h -> list_methods (run ops) h = Ok l ->
  forall args kw, exists x, call_handle (run ops) h args kw = Some x /\
  (forall f, x = Ok f <-> first_applicable (map mm_fun l) (arguments h args) kw f) /\
  (x = Raise TypeError <-> forall m, In m l -> ~ applies (mm_fun m) (arguments h args) kw).
Proof.
  intros H E F L args kw. unfold LmtModel.call_handle. rewrite E. eexists. split; [reflexivity|]. unfold LmtModel.list_methods in L. rewrite E in L. injection L as <-.
  destruct (called ops (name_of h) d (self_of h) (arguments h args) kw H E (fits_self d h args F)) as [-> G]. split.
  - intros f. now apply result_ok.
  - rewrite (result_none usub has_reversed kwname _ _ _ G), Forall_map, Forall_forall. reflexivity.
Qed.
End Call.

(** ** Examples: CUser 2 derives from CUser 1 *)
Definition mro2 (c : cls) : list cls := match c with CUser 2 => [CUser 2; CUser 1] | c => [c] end.
Definition own2 (c : cls) (n : string) : option (option string) :=
  match c with CUser 2 => Some (Some "B.f"%string) | CUser 1 => Some (Some "A.f"%string) | _ => None end.
Definition par n : param value := mkparam n PosOrKw None.
(** def f(self, x: T) *)
Definition method (cl self : string) (T : typ) (i : nat) : fundef := mkfun "f"%string cl [par self; par "x"%string] [(self, TAny); ("x"%string, T)] i.
Definition an_int : value := Obj CInt [] [].
Definition an_obj : value := Obj (CUser 2) [] [].
Definition usub2 (n : nat) (c : cls) : bool := false.
Definition kwn2 (n : pname) : value := Obj CStr [] [].
Definition listed2 (ops : list op) (h : handle) : outcome (list nat) := omap (map (fun m => fid (mm_fun m))) (list_methods (fun _ => true) class_of mro2 own2 (run ops) h).
Definition called2 (ops : list op) (h : handle) (args : list value) : option (outcome nat) :=
  option_map (omap fid) (call_handle usub2 (fun _ => true) (fun _ => true) class_of mro2 own2 kwn2 (run ops) h args []).
Definition two_classes (self : string) : list op :=
  [Generic (method "A.f"%string self TAny 1); Generic (method "B.f"%string self (TClass CFloat) 2); Generic (method "B.f"%string self (TClass CStr) 3)].
