From Coq Require Import List Bool.
From Verif Require Import SesModel SesSpec.
Import ListNotations.

Fixpoint acts (p : prog) : list act :=
  match p with Do a => [a] | Seq l => flat_map acts l | Finally p q => acts p ++ acts q | Except p _ q => acts p ++ acts q end.
Section Ind.
Variable P : prog -> Prop.
Hypothesis HD : forall a, P (Do a).
Hypothesis HS : forall l, Forall P l -> P (Seq l).
Hypothesis HF : forall p q, P p -> P q -> P (Finally p q).
Hypothesis HE : forall p c q, P p -> P q -> P (Except p c q).
Fixpoint prog_ind2 (p : prog) : P p :=
  match p with
  | Do a => HD a
  | Seq l => HS l ((fix go l := match l return Forall P l with [] => Forall_nil _ | p :: l => Forall_cons p (prog_ind2 p) (go l) end) l)
  | Finally p q => HF p q (prog_ind2 p) (prog_ind2 q)
  | Except p c q => HE p c q (prog_ind2 p) (prog_ind2 q)
  end.
End Ind.
Section Faults.
Variable F : act -> option fault.
Notation exec := (exec F). Notation do := (do F).
Definition keeps (P : state -> Prop) (a : act) : Prop := forall s s', effect a s = inl s' -> P s -> P s'.
Lemma do_keeps (P : state -> Prop) a s : keeps P a -> P s -> P (fst (do a s)).
Proof. intros K H. unfold SesModel.do. destruct (F a) as [[e|e]|]; [exact H|..]; destruct (effect a s) eqn:E; cbn; eauto. Qed.
Lemma exec_keeps (P : state -> Prop) : forall p, (forall a, In a (acts p) -> keeps P a) -> forall s, P s -> P (fst (exec p s)).
Proof.
  induction p as [a|l IH|p q IHp IHq|p c q IHp IHq] using prog_ind2; cbn [acts]; intros K s H.
  - cbn. apply do_keeps; [apply K; now left|exact H].
  - revert s H. induction IH as [|p l Hp _ IH]; intros s H; [exact H|]. cbn [flat_map] in K. cbn.
    pose proof (Hp (fun a I => K a (in_or_app _ _ _ (or_introl I))) s H) as H'. destruct (exec p s) as [s' [e|]]; cbn in *; [exact H'|].
    apply IH; [|exact H']. intros a I. apply K. apply in_or_app. now right.
  - cbn. assert (H1 := IHp (fun a I => K a (in_or_app _ _ _ (or_introl I))) s H). destruct (exec p s) as [s' e]. cbn in H1.
    assert (H2 := IHq (fun a I => K a (in_or_app _ _ _ (or_intror I))) s' H1). destruct (exec q s') as [s'' [e'|]]; exact H2.
  - cbn. assert (H1 := IHp (fun a I => K a (in_or_app _ _ _ (or_introl I))) s H). destruct (exec p s) as [s' [e|]]; [|exact H1]. cbn in H1.
    destruct (c e); [|exact H1]. exact (IHq (fun a I => K a (in_or_app _ _ _ (or_intror I))) s' H1).
Qed.
Lemma seq_cons p l s : exec (Seq (p :: l)) s = match exec p s with (s', None) => exec (Seq l) s' | r => r end.
Proof. reflexivity. Qed.
Lemma do_works a s s' : F a = None -> effect a s = inl s' -> exec (Do a) s = (s', None).
Proof. intros E G. cbn. unfold SesModel.do. now rewrite E, G. Qed.
Definition rest : prog := with_file OpenW CloseW (with_file OpenR CloseR
              (Seq [all [SetStreams; SetThread; PrintGreeting; MakeConsole];
                    Finally (Except (Do Interact) (fun e => match e with SystemExit => true | _ => false end) (Seq []))
                            (all [PrintClosing; Join; CloseMaster; CloseSlave; PrintClosed])])).
Definition body : prog := Seq [all [Count; Register; OpenPty; SetRaw; StartThread; PrintOpened]; rest].
Lemma handle_eq : handle = Finally (Except body (fun _ => true) (Do PrintError)) (Do Deregister). Proof. reflexivity. Qed.
Definition printing (s1 : state) (e : option err) : state * option err := match e with Some _ => do PrintError s1 | None => (s1, None) end.
Lemma handle_run s : exec handle s = let (s1, e) := exec body s in let (s2, e2) := printing s1 e in match do Deregister s2 with (s3, None) => (s3, e2) | r => r end.
Proof. rewrite handle_eq. cbn [SesModel.exec]. destruct (exec body s) as [s1 [e|]]; reflexivity. Qed.
(** What the end of handle does to a field *)
Lemma ending (P : state -> Prop) s : keeps P PrintError -> keeps P Deregister -> P (fst (exec body s)) -> P (fst (exec handle s)).
Proof.
  intros K1 K2 H. rewrite handle_run. destruct (exec body s) as [s1 e]. cbn [fst] in H.
  assert (H1 : P (fst (printing s1 e))) by (destruct e; [exact (do_keeps P PrintError s1 K1 H)|exact H]). destruct (printing s1 e) as [s' e0]. cbn [fst] in H1.
  pose proof (do_keeps P Deregister s' K2 H1) as H2. destruct (do Deregister s') as [s'' [e2|]]; exact H2.
Qed.
Ltac keep := intros [] ? Gk Hk; cbn in Gk; repeat match type of Gk with (if ?b then _ else _) = _ => destruct b end; try discriminate; injection Gk as <-; cbn in *; auto.
Ltac step W a := rewrite seq_cons; match goal with |- context [SesModel.exec F (Do a) ?s] => let r := eval cbn in (effect a s) in
  match r with inl ?s' => rewrite (do_works a s s' (W a ltac:(cbn; tauto)) eq_refl) end end.
(** ** The entry of the session *)
Definition listed (s : state) : Prop := numbered s = true /\ active s = true.
Lemma listed_keeps a : a <> Deregister -> keeps listed a.
Proof. unfold listed. destruct a; intros N; try (intros [] s'; cbn; intros G H; injection G as <-; cbn in *; tauto). congruence. Qed.
Lemma body_listed : works F [Count; Register] -> listed (fst (exec body s0)).
Proof.
  intros W. unfold body, all. cbn [map].
  rewrite seq_cons. step W Count. step W Register.
  rewrite <- seq_cons. apply exec_keeps; [|split; reflexivity]. intros a I. apply listed_keeps. intros ->. cbn in I. repeat (destruct I as [I|I]; [discriminate|]). exact I.
Qed.
Theorem deregistered : works F [Count; Register; Deregister] -> active (fst (exec handle s0)) = false.
Proof.
  intros W. rewrite handle_run. assert (B := body_listed (fun a I => W a ltac:(cbn in *; tauto))). destruct (exec body s0) as [s1 e]. cbn [fst] in B.
  assert (H : listed (fst (printing s1 e))) by (destruct e; [refine (do_keeps listed PrintError s1 _ B); apply listed_keeps; discriminate|exact B]).
  destruct (printing s1 e) as [s' e0]. cbn [fst] in H. destruct H as [H1 H2].
  unfold SesModel.do. rewrite (W Deregister) by (cbn; tauto). destruct s'. cbn in *. subst. reflexivity.
Qed.
(** No error leaves handle. *)
Theorem contained : works F [Count; Register; PrintError; Deregister] -> snd (exec handle s0) = None.
Proof.
  intros W. rewrite handle_run. assert (B := body_listed (fun a I => W a ltac:(cbn in *; tauto))). destruct (exec body s0) as [s1 e]. cbn [fst] in B. destruct B as [B1 B2].
  unfold printing, SesModel.do. rewrite (W Deregister), (W PrintError) by (cbn; tauto). destruct s1. cbn in B1, B2. subst. destruct e; reflexivity.
Qed.
(** ** The files *)
Lemma with_file_closed (field : state -> bool) opening closing p s :
  (forall s s', effect closing s = inl s' -> field s' = false) -> (forall s, exists s', effect closing s = inl s') ->
  (forall e, F closing <> Some (Before e)) -> (forall e, F opening <> Some (After e)) -> field s = false -> field (fst (exec (with_file opening closing p) s)) = false.
Proof.
  intros C T NB NA H. unfold with_file. rewrite seq_cons. change (exec (Do opening) s) with (do opening s). unfold SesModel.do at 1.
  assert (G : forall s1, field (fst (exec (Seq [Finally p (Do closing)]) s1)) = false).
  { intros s1. rewrite seq_cons. cbn [SesModel.exec]. destruct (exec p s1) as [s2 e]. unfold SesModel.do. destruct (T s2) as [s3 E]. rewrite E.
    destruct (F closing) as [[x|x]|] eqn:Fc; [now destruct (NB x)|..]; cbn; [eapply C; exact E|]. destruct e; cbn; eapply C; exact E. }
  destruct (F opening) as [[x|x]|] eqn:Fo; [exact H|now destruct (NA x)|]. destruct (effect opening s) as [s1|]; [apply G|exact H].
Qed.
Lemma rest_wfile s : (forall e, F CloseW <> Some (Before e)) -> (forall e, F OpenW <> Some (After e)) -> wfile s = false -> wfile (fst (exec rest s)) = false.
Proof.
  intros A B H. apply (with_file_closed wfile); auto.
  - intros [] s'; cbn; intros E; injection E as <-; reflexivity.
  - intros []. cbn. eauto.
Qed.
Lemma rest_rfile s : (forall e, F CloseR <> Some (Before e)) -> (forall e, F OpenR <> Some (After e)) -> rfile s = false -> rfile (fst (exec rest s)) = false.
Proof.
  intros A B H. unfold rest. set (inner := with_file OpenR CloseR _).
  assert (I : forall s, rfile s = false -> rfile (fst (exec inner s)) = false).
  { intros s1 H1. apply (with_file_closed rfile); auto.
    - intros [] s'; cbn; intros E; injection E as <-; reflexivity.
    - intros []. cbn. eauto. }
  unfold with_file. rewrite seq_cons. change (exec (Do OpenW) s) with (do OpenW s).
  assert (KW : keeps (fun s => rfile s = false) OpenW) by keep. assert (KC : keeps (fun s => rfile s = false) CloseW) by keep.
  pose proof (do_keeps _ OpenW s KW H) as H1. destruct (do OpenW s) as [s1 [e|]]; [exact H1|]. cbn [fst] in H1. rewrite seq_cons.
  cbn [SesModel.exec]. pose proof (I s1 H1) as H2. destruct (exec inner s1) as [s2 e]. cbn [fst] in H2. pose proof (do_keeps _ CloseW s2 KC H2) as H3.
  destruct (do CloseW s2) as [s3 [x|]]; [exact H3|]. destruct e; exact H3.
Qed.
Theorem files_closed : (forall e, F CloseW <> Some (Before e)) -> (forall e, F OpenW <> Some (After e)) -> (forall e, F CloseR <> Some (Before e)) -> (forall e, F OpenR <> Some (After e)) ->
  wfile (fst (exec handle s0)) = false /\ rfile (fst (exec handle s0)) = false.
Proof.
  intros A B C D. split.
  - apply (ending (fun s => wfile s = false)); [keep|keep|]. unfold body. rewrite seq_cons.
    assert (H : wfile (fst (exec (all [Count; Register; OpenPty; SetRaw; StartThread; PrintOpened]) s0)) = false).
    { apply (exec_keeps (fun s => wfile s = false)); [|reflexivity]. intros a I. cbn in I. repeat (destruct I as [<-|I]; [keep|]). destruct I. }
    destruct (exec (all _) s0) as [s1 [e|]]; [exact H|]. rewrite seq_cons. pose proof (rest_wfile s1 A B H) as R. destruct (exec rest s1) as [s2 [e|]]; exact R.
  - apply (ending (fun s => rfile s = false)); [keep|keep|]. unfold body. rewrite seq_cons.
    assert (H : rfile (fst (exec (all [Count; Register; OpenPty; SetRaw; StartThread; PrintOpened]) s0)) = false).
    { apply (exec_keeps (fun s => rfile s = false)); [|reflexivity]. intros a I. cbn in I. repeat (destruct I as [<-|I]; [keep|]). destruct I. }
    destruct (exec (all _) s0) as [s1 [e|]]; [exact H|]. rewrite seq_cons. pose proof (rest_rfile s1 C D H) as R. destruct (exec rest s1) as [s2 [e|]]; exact R.
Qed.
(** ** The terminal *)
Definition gone (s : state) : Prop := master s = false /\ slave s = false /\ forwarding s = false.
Lemma gone_keeps a : ~ In a [OpenPty; StartThread] -> keeps gone a.
Proof.
  unfold gone. intros N. destruct a; try (intros [] s'; cbn; intros G H; repeat match type of G with (if ?b then _ else _) = _ => destruct b end; try discriminate; injection G as <-; cbn in *; tauto);
  destruct N; cbn; tauto.
Qed.
Lemma seq_works l s : works F l -> (forall a s, In a l -> exists s', effect a s = inl s') -> exec (all l) s = (fold_left (fun s a => match effect a s with inl s' => s' | inr _ => s end) l s, None).
Proof.
  revert s. induction l as [|a l IH]; intros s W T; [reflexivity|]. unfold all. cbn [map]. rewrite seq_cons. destruct (T a s (or_introl eq_refl)) as [s' E].
  rewrite (do_works a s s' (W a (or_introl eq_refl)) E). cbn [fold_left]. rewrite E. apply IH; [intros b I; apply W; now right|intros b t I; apply T; now right].
Qed.
Lemma total a s : a <> Deregister -> exists s', effect a s = inl s'.
Proof. destruct s, a; intros N; cbn; eauto. congruence. Qed.
Lemma all_gone s : works F [PrintClosing; Join; CloseMaster; CloseSlave] -> gone (fst (exec (all [PrintClosing; Join; CloseMaster; CloseSlave; PrintClosed]) s)).
Proof.
  intros W. unfold all. cbn [map]. destruct s as [n ac m sl f w r t v].
  step W PrintClosing.
  step W Join.
  step W CloseMaster.
  step W CloseSlave.
  apply exec_keeps; [|repeat split]. intros a I. cbn in I. destruct I as [<-|[]]. apply gone_keeps. cbn. intros [|[|[]]]; discriminate.
Qed.
Theorem terminal_closed : works F (setting_up ++ cleaning_up) -> (forall e, F OpenPty <> Some (After e)) -> gone (fst (exec handle s0)).
Proof.
  intros W N. apply ending; [apply gone_keeps; cbn; intros [|[|[]]]; discriminate..|].
  assert (G0 : gone s0) by (repeat split). unfold body. rewrite seq_cons. unfold all at 1. cbn [map].
  rewrite seq_cons. change (exec (Do Count) s0) with (do Count s0).
  assert (G1 : gone (fst (do Count s0))) by (apply do_keeps; [apply gone_keeps; cbn; intros [|[|[]]]; discriminate|exact G0]).
  destruct (do Count s0) as [s1 [e|]]; [exact G1|]. cbn [fst] in G1. rewrite seq_cons. change (exec (Do Register) s1) with (do Register s1).
  assert (G2 : gone (fst (do Register s1))) by (apply do_keeps; [apply gone_keeps; cbn; intros [|[|[]]]; discriminate|exact G1]).
  destruct (do Register s1) as [s2 [e|]]; [exact G2|]. cbn [fst] in G2. clear G0 G1 s1.
  rewrite seq_cons. change (exec (Do OpenPty) s2) with (do OpenPty s2). unfold do at 1. destruct (F OpenPty) as [[e|e]|] eqn:Fo; [exact G2|now destruct (N e)|].
  destruct (total OpenPty s2) as [s3 E3]; [discriminate|]. rewrite E3. clear s2 G2 E3.
  assert (Wa : forall a, In a (setting_up ++ cleaning_up) -> F a = None) by exact W.
  assert (S1 : exec (Seq [Do SetRaw; Do StartThread; Do PrintOpened]) s3 = exec (all [SetRaw; StartThread; PrintOpened]) s3) by reflexivity. rewrite S1. clear S1.
  rewrite seq_works; [|intros a I; apply Wa; cbn in *; tauto|intros a t I; apply total; intros ->; cbn in I; destruct I as [|[|[|[]]]]; discriminate].
  match goal with |- context [fold_left ?f ?l s3] => generalize (fold_left f l s3) end. clear s3. intros s4.
  rewrite seq_cons. assert (R : gone (fst (exec rest s4))); [|destruct (exec rest s4) as [s5 [e|]]; exact R].
  assert (KC : keeps gone CloseW) by (apply gone_keeps; cbn; intros [|[|[]]]; discriminate). assert (KR : keeps gone CloseR) by (apply gone_keeps; cbn; intros [|[|[]]]; discriminate).
  unfold rest. set (inner := with_file OpenR CloseR _). unfold with_file at 1. rewrite seq_cons. destruct (total OpenW s4) as [s5 E5]; [discriminate|].
  rewrite (do_works OpenW s4 s5 (Wa OpenW ltac:(cbn; tauto)) E5). rewrite seq_cons. clear s4 E5.
  assert (I : gone (fst (exec inner s5))).
  { unfold inner. set (core := Seq [all _; _]). unfold with_file. rewrite seq_cons. destruct (total OpenR s5) as [s6 E6]; [discriminate|].
    rewrite (do_works OpenR s5 s6 (Wa OpenR ltac:(cbn; tauto)) E6). rewrite seq_cons. clear s5 E6.
    assert (C : gone (fst (exec core s6))).
    { unfold core. rewrite seq_cons. rewrite seq_works; [|intros a I; apply Wa; cbn in *; tauto|intros a t I; apply total; intros ->; cbn in I; destruct I as [|[|[|[|[]]]]]; discriminate].
      match goal with |- context [fold_left ?f ?l s6] => generalize (fold_left f l s6) end. intros s7. rewrite seq_cons. set (clean := all [PrintClosing; Join; CloseMaster; CloseSlave; PrintClosed]).
      set (try := Except _ _ _). change (exec (Finally try clean) s7) with (let (s', e) := exec try s7 in match exec clean s' with (s'', None) => (s'', e) | r => r end).
      destruct (exec try s7) as [s8 e]. pose proof (all_gone s8 (fun a I => Wa a ltac:(cbn in *; tauto))) as G. fold clean in G. destruct (exec clean s8) as [s9 [x|]]; [exact G|]. destruct e; exact G. }
    change (exec (Finally core (Do CloseR)) s6) with (let (s', e) := exec core s6 in match do CloseR s' with (s'', None) => (s'', e) | r => r end).
    destruct (exec core s6) as [s7 e]. cbn [fst] in C. pose proof (do_keeps _ CloseR s7 KR C) as G. destruct (do CloseR s7) as [s8 [x|]]; [exact G|]. destruct e; exact G. }
  change (exec (Finally inner (Do CloseW)) s5) with (let (s', e) := exec inner s5 in match do CloseW s' with (s'', None) => (s'', e) | r => r end).
  destruct (exec inner s5) as [s7 e]. cbn [fst] in I. pose proof (do_keeps _ CloseW s7 KC I) as G. destruct (do CloseW s7) as [s8 [x|]]; [exact G|]. destruct e; exact G.
Qed.
(** A failure between the opening of the terminal and the prompt *)
Definition left_open (s : state) : Prop := master s = true /\ slave s = true.
Lemma open_keeps a : ~ In a [CloseMaster; CloseSlave] -> keeps left_open a.
Proof.
  unfold left_open. intros N. destruct a; try (intros [] s'; cbn; intros G H; repeat match type of G with (if ?b then _ else _) = _ => destruct b end; try discriminate; injection G as <-; cbn in *; tauto);
  destruct N; cbn; tauto.
Qed.
(** Steps that are cut short: either one of them fails, or the state has not changed as to the terminal *)
Lemma cut l s : ~ In CloseMaster l -> ~ In CloseSlave l -> ~ In Deregister l -> left_open s -> left_open (fst (exec (all l) s)) /\ (snd (exec (all l) s) = None <-> works F l).
Proof.
  revert s. induction l as [|a l IH]; intros s N1 N2 N3 H; [split; [exact H|split; [intros _ a []|reflexivity]]|].
  unfold all. cbn [map]. rewrite seq_cons. change (exec (Do a) s) with (do a s).
  assert (K : left_open (fst (do a s))) by (apply do_keeps; [apply open_keeps; intros [<-|[<-|[]]]; [apply N1|apply N2]; now left|exact H]).
  destruct (total a s) as [s1 E1]; [intros ->; apply N3; now left|].
  unfold SesModel.do in *. destruct (F a) as [[e|e]|] eqn:Fa; rewrite ?E1 in *; cbn [fst snd] in *.
  - split; [exact K|]. split; [discriminate|]. intros W. rewrite (W a (or_introl eq_refl)) in Fa. discriminate.
  - split; [exact K|]. split; [discriminate|]. intros W. rewrite (W a (or_introl eq_refl)) in Fa. discriminate.
  - destruct (IH s1) as [A B]; [intros I; apply N1; now right|intros I; apply N2; now right|intros I; apply N3; now right|exact K|]. split; [exact A|]. fold (all l). rewrite B. split.
    + intros W b [<-|I]; [exact Fa|exact (W b I)].
    + intros W b I. apply W. now right.
Qed.
Theorem leaks : works F [Count; Register; OpenPty] -> (exists a, In a setting_up /\ F a <> None) -> left_open (fst (exec handle s0)).
Proof.
  intros W X. apply ending; [apply open_keeps; cbn; intros [|[|[]]]; discriminate..|].
  unfold body. rewrite seq_cons. unfold all at 1. cbn [map].
  step W Count.
  step W Register.
  step W OpenPty.
  set (s3 := mkst _ _ _ _ _ _ _ _ _). assert (H3 : left_open s3) by (split; reflexivity).
  change (Seq [Do SetRaw; Do StartThread; Do PrintOpened]) with (all [SetRaw; StartThread; PrintOpened]).
  destruct (cut [SetRaw; StartThread; PrintOpened] s3) as [A1 B1]; [cbn; intuition discriminate..|exact H3|].
  destruct (exec (all [SetRaw; StartThread; PrintOpened]) s3) as [s4 [e|]]; [exact A1|]. cbn [fst snd] in A1, B1. assert (W1 := proj1 B1 eq_refl). clear B1 H3. clearbody s3. clear s3.
  rewrite seq_cons. assert (R : left_open (fst (exec rest s4))); [|destruct (exec rest s4) as [s5 [e|]]; exact R].
  assert (KW : keeps left_open OpenW) by (apply open_keeps; cbn; intros [|[|[]]]; discriminate). assert (KO : keeps left_open OpenR) by (apply open_keeps; cbn; intros [|[|[]]]; discriminate).
  assert (KC : keeps left_open CloseW) by (apply open_keeps; cbn; intros [|[|[]]]; discriminate). assert (KR : keeps left_open CloseR) by (apply open_keeps; cbn; intros [|[|[]]]; discriminate).
  unfold rest. set (inner := with_file OpenR CloseR _). unfold with_file at 1. rewrite seq_cons. change (exec (Do OpenW) s4) with (do OpenW s4).
  pose proof (do_keeps _ OpenW s4 KW A1) as A2. unfold SesModel.do in *. destruct (total OpenW s4) as [s5 E5]; [discriminate|].
  destruct (F OpenW) as [[e|e]|] eqn:FW; rewrite ?E5 in *; [exact A2|exact A2|]. cbn [fst] in A2. clear s4 E5 A1.
  rewrite seq_cons.
  assert (I : left_open (fst (exec inner s5))).
  { unfold inner. set (core := Seq [all _; _]). unfold with_file. rewrite seq_cons. change (exec (Do OpenR) s5) with (do OpenR s5).
    pose proof (do_keeps _ OpenR s5 KO A2) as A3. unfold SesModel.do in *. destruct (total OpenR s5) as [s6 E6]; [discriminate|].
    destruct (F OpenR) as [[e|e]|] eqn:FR; rewrite ?E6 in *; [exact A3|exact A3|]. cbn [fst] in A3. clear s5 E6 A2. rewrite seq_cons.
    assert (C : left_open (fst (exec core s6))).
    { unfold core. rewrite seq_cons. destruct (cut [SetStreams; SetThread; PrintGreeting; MakeConsole] s6) as [A4 B4]; [cbn; intuition discriminate..|exact A3|].
      destruct (exec (all [SetStreams; SetThread; PrintGreeting; MakeConsole]) s6) as [s7 [e|]]; [exact A4|]. assert (W4 := proj1 B4 eq_refl). exfalso.
      destruct X as (a & Ia & Na). apply Na. unfold setting_up in Ia. cbn [In] in Ia.
      destruct Ia as [<-|[<-|[<-|[<-|[<-|[<-|[<-|[<-|[<-|[]]]]]]]]]]; try exact FW; try exact FR; (apply W1; cbn; tauto) || (apply W4; cbn; tauto). }
    change (exec (Finally core (Do CloseR)) s6) with (let (s', e) := exec core s6 in match do CloseR s' with (s'', None) => (s'', e) | r => r end).
    destruct (exec core s6) as [s7 e]. cbn [fst] in C. pose proof (do_keeps _ CloseR s7 KR C) as G. destruct (do CloseR s7) as [s8 [x|]]; [exact G|]. destruct e; exact G. }
  change (exec (Finally inner (Do CloseW)) s5) with (let (s', e) := exec inner s5 in match do CloseW s' with (s'', None) => (s'', e) | r => r end).
  destruct (exec inner s5) as [s7 e]. cbn [fst] in I. pose proof (do_keeps _ CloseW s7 KC I) as G. destruct (do CloseW s7) as [s8 [x|]]; [exact G|]. destruct e; exact G.
Qed.
End Faults.
