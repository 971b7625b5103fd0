(** Proofs for C135. *)
From Coq Require Import List Bool ZArith Lia.
From Verif Require Import Base BaseProofs MsgModel CliModel CicModel CicSpec.
Import ListNotations.
Open Scope nat_scope.
Open Scope list_scope.

Section P.
Variable utf8 : bytes -> bool.
Variable ps1 ps2 : bytes.
Notation step := (step utf8 ps1 ps2).
Notation run := (run utf8 ps1 ps2).
Notation go := (go utf8 ps1 ps2).
Notation never_at := (never_at utf8 ps1 ps2).

Lemma run_inv (I P : client -> Prop) : (forall c e, I c -> (e = CtrlC -> ~ P c) -> I (step c e)) ->
  forall es c, I c -> never_at P c es -> I (run c es).
Proof.
  intros H. induction es as [|e es IH]; intros c Hc Hn; [exact Hc|]. destruct Hn as [H1 H2]. cbn.
  apply (IH (step c e)); auto.
Qed.

Lemma shown_app l a : shown (l ++ [a]) = shown l ++ shown1 a.
Proof. unfold shown. rewrite flat_map_app. cbn. now rewrite app_nil_r. Qed.
Lemma sent_app l a : sent (l ++ [a]) = sent l ++ sent1 a.
Proof. unfold sent. rewrite flat_map_app. cbn. now rewrite app_nil_r. Qed.
Lemma blanks_app l a : blanks (l ++ [a]) = blanks l + match a with Blank => 1 | _ => 0 end.
Proof. unfold blanks. rewrite filter_app, app_length. destruct a; reflexivity. Qed.

Lemma beqb_eq a b : beqb a b = true -> a = b.
Proof. unfold beqb. destruct (list_eq_dec _ a b); congruence. Qed.
Lemma strip_ok v p : p <> [] -> endswith v p = true -> strip v p ++ p = v.
Proof.
  intros Hp H. unfold endswith in H. apply beqb_eq in H. destruct p as [|x p]; [congruence|]. cbn [strip].
  rewrite <- H at 2. apply firstn_skipn.
Qed.

(** ** What is shown *)
Definition rest_ok (c : client) (rest : bytes) : Prop :=
  match at_ c with
  | AtTest | AtWrite None => val c = buf c /\ rest = buf c
  | AtWrite (Some p) => val c = buf c /\ rest = buf c /\ strip (val c) p ++ p = val c
  | AtClear p => rest = match p with Some p => p | None => [] end
  | AtAsk p => buf c = [] /\ rest = p
  | AtTyping | AtSend _ | AtBye | AtRead => buf c = [] /\ rest = []
  | AtAppend d | InAppend d => rest = buf c ++ d
  | AtReturn | InNotify | InBlank | InRead => rest = buf c
  | InPause => val c = buf c /\ rest = buf c
  | Ended _ => True
  end.
Definition text_inv (v : bytes) (s : list bytes) (c : client) : Prop :=
  exists taken rest, s = taken ++ src c /\ v ++ concat taken = shown (log c) ++ rest /\ rest_ok c rest.

Hypothesis Hps1 : ps1 <> [].
Hypothesis Hps2 : ps2 <> [].

Lemma read_inv v s c k taken : s = taken ++ src c -> v ++ concat taken = shown (log c) ++ buf c ->
  (forall d, k d = AtAppend d) \/ (forall d, k d = InAppend d) -> text_inv v s (read c k).
Proof.
  intros E1 E2 Hk. unfold read. destruct (src c) as [|d r] eqn:Es.
  - exists taken, (buf c). unfold goto, say, rest_ok; cbn. rewrite Es, shown_app. cbn. rewrite !app_nil_r. rewrite app_nil_r in E1. auto.
  - exists (taken ++ [d]), (buf c ++ d). cbn. rewrite <- app_assoc. cbn. split; [exact E1|]. split.
    + rewrite concat_app. cbn. rewrite app_nil_r, app_assoc, E2, app_assoc. reflexivity.
    + unfold rest_ok. cbn. destruct Hk as [-> | ->]; reflexivity.
Qed.

Lemma text_step v s c e : text_inv v s c -> (e = CtrlC -> ~ text_at_risk (at_ c)) -> text_inv v s (step c e).
Proof.
  intros (taken & rest & E1 & E2 & E3) Hr. destruct e as [r|].
  - cbn [CicModel.step]. destruct (at_ c) as [|p|p|p| |l| | |d| | | | |d| |r'] eqn:Ea; unfold CicModel.go; rewrite Ea; unfold rest_ok in E3; rewrite Ea in E3.
    + destruct E3 as [E3 ->].
      destruct (endswith (val c) ps1 || endswith (val c) ps2) eqn:Ee; destruct (utf8 (val c)).
      * exists taken, (buf c). split; [exact E1|]. split; [exact E2|]. unfold rest_ok. cbn. repeat split; auto.
        destruct (endswith (val c) ps1) eqn:E4; [now apply strip_ok|]. now apply strip_ok.
      * exists taken, (buf c). unfold goto, say, rest_ok; cbn. rewrite shown_app. cbn. rewrite app_nil_r. auto.
      * exists taken, (buf c). unfold rest_ok. cbn. auto.
      * exists taken, (buf c). unfold goto, say, rest_ok; cbn. rewrite shown_app. cbn. rewrite app_nil_r. auto.
    + destruct p as [p|].
      * destruct E3 as (E3 & -> & E4). exists taken, p. unfold goto, say, rest_ok; cbn. rewrite shown_app. cbn.
        rewrite <- app_assoc, E4, E3. auto.
      * destruct E3 as (E3 & ->). exists taken, []. unfold goto, say, rest_ok; cbn. rewrite shown_app. cbn.
        rewrite E3, <- app_assoc, app_nil_r. auto.
    + exists taken, rest. split; [exact E1|]. split; [exact E2|]. destruct p; cbn; auto.
    + destruct E3 as (E3 & ->). exists taken, []. unfold goto, say, rest_ok; cbn. rewrite shown_app. cbn.
      rewrite !app_nil_r in *. unfold rest_ok. cbn. auto.
    + destruct E3 as (E3 & ->). destruct (typed c); exists taken, []; unfold rest_ok; cbn; auto.
    + destruct E3 as (E3 & ->). exists taken, []. unfold goto, say, rest_ok; cbn. rewrite shown_app. cbn.
      rewrite !app_nil_r in *. unfold rest_ok. cbn. auto.
    + destruct E3 as (E3 & ->). exists taken, []. unfold goto, say, rest_ok; cbn. rewrite shown_app. cbn.
      rewrite !app_nil_r in *. unfold rest_ok. cbn. auto.
    + destruct E3 as (E3 & ->). apply (read_inv v s c AtAppend taken); auto. now rewrite E3.
    + subst rest. exists taken, (buf c ++ d). unfold rest_ok. cbn. auto.
    + subst rest. exists taken, (buf c). unfold rest_ok. cbn. auto.
    + subst rest. exists taken, (buf c). unfold goto, say, rest_ok; cbn. rewrite shown_app. cbn. rewrite app_nil_r. auto.
    + subst rest. exists taken, (buf c). unfold goto, say, rest_ok; cbn. rewrite shown_app. cbn. rewrite app_nil_r. auto.
    + subst rest. apply (read_inv v s c InAppend taken); auto.
    + subst rest. exists taken, (buf c ++ d). unfold rest_ok. cbn. auto.
    + destruct E3 as (E3 & ->). exists taken, (buf c). unfold rest_ok. cbn. destruct r; auto.
    + exists taken, rest. unfold rest_ok. rewrite Ea. auto.
  - specialize (Hr eq_refl). cbn [CicModel.step]. unfold ctrl_c.
    destruct (at_ c) as [|p|p|p| |l| | |d| | | | |d| |r'] eqn:Ea; unfold rest_ok in E3; rewrite Ea in E3; cbn in Hr;
      try tauto;
      try (exists taken, rest; unfold rest_ok; cbn; rewrite ?Ea; intuition (subst; auto; congruence)).
    + destruct p as [p|]; exists taken, rest; unfold rest_ok; cbn; intuition (subst; auto).
    + exists taken, rest. unfold goto, say, rest_ok; cbn. rewrite shown_app. cbn. rewrite app_nil_r. auto.
Qed.

Lemma text_run v s ls es : never_at (fun c => text_at_risk (at_ c)) (start v s ls) es ->
  text_inv v s (run (start v s ls) es).
Proof.
  apply (run_inv (text_inv v s) (fun c => text_at_risk (at_ c))).
  - intros c e. apply text_step.
  - exists [], v. unfold rest_ok. cbn. rewrite app_nil_r. auto.
Qed.

Lemma text_shown v s ls es : let c := run (start v s ls) es in
  never_at (fun c => text_at_risk (at_ c)) (start v s ls) es ->
  exists taken rest, s = taken ++ src c /\ v ++ concat taken = shown (log c) ++ rest /\ (waits c -> rest = []).
Proof.
  intros c Hn. destruct (text_run v s ls es Hn) as (taken & rest & E1 & E2 & E3). exists taken, rest.
  split; [exact E1|]. split; [exact E2|]. intros Hw. unfold rest_ok in E3. fold c in E3. destruct Hw as [Hw|Hw]; rewrite Hw in E3; tauto.
Qed.
End P.

Section Q.
Variable utf8 : bytes -> bool.
Variable ps1 ps2 : bytes.
Notation step := (step utf8 ps1 ps2).
Notation run := (run utf8 ps1 ps2).
Notation never_at := (never_at utf8 ps1 ps2).

(** ** The lines of the user *)
Definition line_inv (ls : list bytes) (c : client) : Prop :=
  exists used, ls = used ++ match at_ c with AtSend l => [l] | _ => [] end ++ typed c /\
    sent (log c) = map (fun l => l ++ [newline]) used.

Lemma line_step ls c e : line_inv ls c -> (e = CtrlC -> ~ line_at_risk (at_ c)) -> line_inv ls (step c e).
Proof.
  intros (used & E1 & E2) Hr.
  assert (K : forall c', typed c' = typed c -> sent (log c') = sent (log c) ->
              match at_ c with AtSend _ => False | _ => True end -> match at_ c' with AtSend _ => False | _ => True end -> line_inv ls c').
  { intros c' K1 K2 K3 K4. exists used. rewrite K1, K2. split; [|exact E2]. rewrite E1.
    destruct (at_ c); try contradiction; destruct (at_ c'); try contradiction; reflexivity. }
  destruct e as [r|].
  - cbn [CicModel.step]. unfold go, read, goto, say.
    destruct (at_ c) as [|p|p|p| |l| | |d| | | | |d| |r'] eqn:Ea;
      try (apply K; cbn; rewrite ?sent_app; cbn; rewrite ?app_nil_r; auto; fail).
    + destruct (_ || _); destruct (utf8 (val c)); apply K; cbn; rewrite ?sent_app; cbn; rewrite ?app_nil_r; auto.
    + destruct p; apply K; cbn; auto.
    + destruct (typed c) as [|l ls'] eqn:Et.
      * apply K; cbn; auto.
      * exists used. cbn. auto.
    + exists (used ++ [l]). cbn. rewrite sent_app, E2, map_app. cbn. split; [|reflexivity].
      rewrite E1, <- app_assoc. reflexivity.
    + destruct (src c); apply K; cbn; rewrite ?sent_app; cbn; rewrite ?app_nil_r; auto.
    + destruct (src c); apply K; cbn; rewrite ?sent_app; cbn; rewrite ?app_nil_r; auto.
    + apply K; cbn; auto. destruct r; auto.
    + apply K; auto; rewrite Ea; auto.
  - specialize (Hr eq_refl). cbn [CicModel.step]. unfold ctrl_c, goto, say.
    destruct (at_ c) as [|p|p|p| |l| | |d| | | | |d| |r'] eqn:Ea; cbn in Hr; try tauto;
      apply K; cbn; rewrite ?sent_app, ?Ea; cbn; rewrite ?app_nil_r; auto.
Qed.

Lemma line_run v s ls es : never_at (fun c => line_at_risk (at_ c)) (start v s ls) es ->
  line_inv ls (run (start v s ls) es).
Proof.
  apply (run_inv utf8 ps1 ps2 (line_inv ls) (fun c => line_at_risk (at_ c))).
  - intros c e. apply line_step.
  - exists []. cbn. auto.
Qed.

Lemma lines_sent v s ls es : let c := run (start v s ls) es in
  never_at (fun c => line_at_risk (at_ c)) (start v s ls) es ->
  exists used rest, ls = used ++ rest ++ typed c /\ sent (log c) = map (fun l => l ++ [newline]) used /\
    length rest <= 1 /\ (~ line_at_risk (at_ c) -> rest = []).
Proof.
  intros c Hn. destruct (line_run v s ls es Hn) as (used & E1 & E2). eexists used, _. split; [exact E1|].
  split; [exact E2|]. fold c. destruct (at_ c); cbn; split; auto; tauto.
Qed.

(** ** Every Ctrl+C is answered *)
Definition owed (c : client) : nat := match at_ c with InNotify | InBlank => 1 | _ => 0 end.
Lemma blank_step c e : at_ (step c e) <> Ended Interrupted ->
  blanks (log (step c e)) + owed (step c e) = blanks (log c) + owed c + presses utf8 ps1 ps2 c [e].
Proof.
  unfold owed. destruct e as [r|]; cbn [presses].
  - cbn [CicModel.step]. unfold go, read, goto, say.
    destruct (at_ c) as [|p|p|p| |l| | |d| | | | |d| |r'] eqn:Ea; intros _; cbn -[blanks];
      rewrite ?blanks_app, ?Ea; cbn -[blanks]; try lia.
    + destruct (_ || _); destruct (utf8 (val c)); cbn -[blanks]; rewrite ?blanks_app; cbn -[blanks]; lia.
    + destruct p; cbn -[blanks]; lia.
    + destruct (typed c); cbn -[blanks]; lia.
    + destruct (src c); cbn -[blanks]; rewrite ?blanks_app; cbn -[blanks]; lia.
    + destruct (src c); cbn -[blanks]; rewrite ?blanks_app; cbn -[blanks]; lia.
    + destruct r; cbn -[blanks]; lia.
  - cbn [CicModel.step]. unfold ctrl_c, goto, say.
    destruct (at_ c) as [|p|p|p| |l| | |d| | | | |d| |r'] eqn:Ea; intros Hn; cbn -[blanks] in Hn |- *;
      rewrite ?blanks_app, ?Ea; cbn -[blanks]; try lia; congruence.
Qed.

Lemma ended_stays c es : at_ c = Ended Interrupted -> at_ (run c es) = Ended Interrupted.
Proof.
  revert c. induction es as [|e es IH]; intros c H; [exact H|]. cbn. apply IH.
  destruct e as [r|]; cbn; unfold go, ctrl_c; rewrite H; exact H.
Qed.

Lemma point_dec (c : client) : at_ c = Ended Interrupted \/ at_ c <> Ended Interrupted.
Proof. destruct (at_ c) as [|p|p|p| |l| | |d| | | | |d| |[]]; auto; right; discriminate. Qed.

Lemma blank_run es : forall c, at_ (run c es) <> Ended Interrupted ->
  blanks (log (run c es)) + owed (run c es) = blanks (log c) + owed c + presses utf8 ps1 ps2 c es.
Proof.
  induction es as [|e es IH]; intros c Hn; [cbn; lia|]. cbn in Hn.
  change (run c (e :: es)) with (run (step c e) es). rewrite IH by exact Hn.
  destruct (point_dec (step c e)) as [H|H]; [now apply (ended_stays _ es) in H|].
  rewrite (blank_step c e H). cbn [presses]. lia.
Qed.

Lemma answered v s ls es : let c := run (start v s ls) es in
  at_ c <> Ended Interrupted -> at_ c <> InNotify -> at_ c <> InBlank ->
  blanks (log c) = presses utf8 ps1 ps2 (start v s ls) es.
Proof.
  intros c H1 H2 H3. assert (E := blank_run es (start v s ls) H1). fold c in E. cbn in E.
  replace (owed c) with 0 in E; [lia|]. unfold owed. destruct (at_ c); congruence.
Qed.

Lemma survives v s ls es : never_at busy (start v s ls) es -> at_ (run (start v s ls) es) <> Ended Interrupted.
Proof.
  apply (run_inv utf8 ps1 ps2 (fun c => at_ c <> Ended Interrupted) busy); [|discriminate].
  intros c e H1 H2. destruct e as [r|].
  - cbn [CicModel.step]. unfold go, read, goto, say.
    destruct (at_ c) as [|p|p|p| |l| | |d| | | | |d| |r'] eqn:Ea; cbn; try discriminate.
    + destruct (_ || _); destruct (utf8 (val c)); cbn; discriminate.
    + destruct p; cbn; discriminate.
    + destruct (typed c); cbn; discriminate.
    + destruct (src c); cbn; discriminate.
    + destruct (src c); cbn; discriminate.
    + destruct r; cbn; discriminate.
    + rewrite Ea. exact H1.
  - specialize (H2 eq_refl). unfold busy in H2. cbn [CicModel.step]. unfold ctrl_c, goto, say.
    destruct (at_ c) as [|p|p|p| |l| | |d| | | | |d| |r'] eqn:Ea; cbn; try discriminate; try tauto.
    rewrite Ea. exact H1.
Qed.

(** ** A new prompt after Ctrl+C *)
Definition calm (c : client) : Prop :=
  match at_ c with AtTyping | AtRead | AtSend _ | AtBye | AtAsk _ => buf c = [] | _ => True end.
Lemma calm_step c e : calm c -> calm (step c e).
Proof.
  unfold calm. destruct e as [r|].
  - cbn [CicModel.step]. unfold go, read, goto, say.
    destruct (at_ c) as [|p|p|p| |l| | |d| | | | |d| |r'] eqn:Ea; cbn; auto.
    + destruct (_ || _); destruct (utf8 (val c)); cbn; auto.
    + destruct p; cbn; auto.
    + destruct (typed c); cbn; auto.
    + destruct (src c); cbn; auto.
    + destruct (src c); cbn; auto.
    + destruct r; cbn; auto.
    + now rewrite Ea.
  - cbn [CicModel.step]. unfold ctrl_c, goto, say.
    destruct (at_ c) as [|p|p|p| |l| | |d| | | | |d| |r'] eqn:Ea; cbn; auto. now rewrite Ea.
Qed.
Lemma calm_run es : forall c, calm c -> calm (run c es).
Proof. induction es as [|e es IH]; intros c H; [exact H|]. cbn. apply IH. now apply calm_step. Qed.

Lemma run_cons c e es : run c (e :: es) = run (step c e) es.
Proof. reflexivity. Qed.

Lemma again v s ls es d src' : let c := run (start v s ls) es in
  waits c -> src c = d :: src' -> utf8 d = true -> endswith d ps1 = true ->
  let c' := run c (CtrlC :: repeat (Go false) 9) in
  at_ c' = AtTyping /\ log c' = log c ++ [Notify; Blank; Cli (Write (strip d ps1)); Cli (Ask ps1)] /\
  src c' = src' /\ typed c' = typed c.
Proof.
  intros c Hw Hs Hu He c'.
  assert (Hb : buf c = []).
  { assert (Hc : calm c) by (apply calm_run; exact I). unfold calm in Hc. destruct Hw as [Hw|Hw]; rewrite Hw in Hc; exact Hc. }
  assert (E1 : step c CtrlC = goto c InNotify) by (cbn; unfold ctrl_c; destruct Hw as [Hw|Hw]; rewrite Hw; reflexivity).
  subst c'. clearbody c. destruct c as [pt vl bf sr ty lg]. cbn in Hs, Hb. subst sr bf.
  rewrite run_cons, E1. unfold goto. cbn [repeat].
  do 6 (rewrite run_cons; cbn [CicModel.step CicModel.go at_ val buf src typed log goto say read app]).
  rewrite He. cbn [orb]. rewrite Hu.
  do 3 (rewrite run_cons; cbn [CicModel.step CicModel.go at_ val buf src typed log goto say read app]).
  unfold CicModel.run. cbn [fold_left at_ log src typed]. rewrite <- !app_assoc. cbn [app]. unfold goto, say. cbn [at_ log src typed]. rewrite <- app_assoc. auto.
Qed.

(** ** Without Ctrl+C *)
Lemma run_go_app n m c : run c (repeat (Go false) (n + m)) = run (run c (repeat (Go false) n)) (repeat (Go false) m).
Proof. rewrite repeat_app. unfold CicModel.run. now rewrite fold_left_app. Qed.

Definition gets_to (c c' : client) : Prop := exists n, run c (repeat (Go false) n) = c'.
Lemma gets_trans a b c : gets_to a b -> gets_to b c -> gets_to a c.
Proof. intros (n & <-) (m & <-). exists (n + m). apply run_go_app. Qed.
Lemma gets_n n c c' : run c (repeat (Go false) n) = c' -> gets_to c c'.
Proof. intros H. now exists n. Qed.

Definition finishes (c : client) (l : list caction) : Prop :=
  exists c', gets_to c c' /\ has_ended c' /\ log c' = log c ++ l.

Lemma read_finishes vl ty lg s : (forall d s', s = d :: s' -> forall lg,
     finishes (mkclient AtTest d d s' ty lg) (map Cli (loop utf8 ps1 ps2 d s' ty))) ->
  finishes (mkclient AtRead vl [] s ty lg)
    (map Cli (match s with [] => [Disconnected] | d :: s' => loop utf8 ps1 ps2 d s' ty end)).
Proof.
  intros H. destruct s as [|d s'].
  - eexists. split; [apply (gets_n 1); reflexivity|]. split; [eexists; reflexivity|reflexivity].
  - destruct (H d s' eq_refl lg) as (c' & G & E & L). exists c'. split; [|split; [exact E|exact L]].
    eapply gets_trans; [apply (gets_n 3); reflexivity|exact G].
Qed.

Lemma finishes_step n c c' l1 l2 : run c (repeat (Go false) n) = c' -> log c' = log c ++ l1 ->
  finishes c' l2 -> finishes c (l1 ++ l2).
Proof.
  intros H1 H2 (c2 & G & E & L). exists c2. split; [eapply gets_trans; [exists n; exact H1|exact G]|].
  split; [exact E|]. now rewrite L, H2, app_assoc.
Qed.

Lemma loop_eq vl s ty : loop utf8 ps1 ps2 vl s ty =
  let more ty := match s with [] => [Disconnected] | c :: s => loop utf8 ps1 ps2 c s ty end in
  if endswith vl ps1 || endswith vl ps2 then
    if utf8 vl then
      let prompt := if endswith vl ps1 then ps1 else ps2 in
      [Write (strip vl prompt); Ask prompt] ++
      match ty with [] => [Quit] | i :: ty => Send (i ++ [newline]) :: more ty end
    else [Crash UnicodeDecodeError]
  else if utf8 vl then [Write vl] ++ more ty
  else [Crash UnicodeDecodeError].
Proof. destruct s; reflexivity. Qed.

Lemma same_as_loop s : forall vl ty lg,
  finishes (mkclient AtTest vl vl s ty lg) (map Cli (loop utf8 ps1 ps2 vl s ty)).
Proof.
  induction s as [|d0 s0 IH]; intros vl ty lg; rewrite loop_eq; cbn zeta.
  all: destruct (endswith vl ps1 || endswith vl ps2) eqn:E1; destruct (utf8 vl) eqn:E2;
    try (eexists; split; [apply (gets_n 1); cbn; rewrite E1; cbn; rewrite E2; reflexivity|]; split; [eexists; reflexivity|reflexivity]).
  all: try (rewrite map_app; eapply (finishes_step 3); [cbn; rewrite E1; cbn; rewrite E2; reflexivity|reflexivity|];
    apply read_finishes; intros d s' [= <- <-] lg'; apply IH).
  all: try (rewrite map_app; eapply (finishes_step 3); [cbn; rewrite E1; cbn; rewrite E2; reflexivity|reflexivity|];
    apply (read_finishes vl ty _ []); discriminate).
  all: rewrite map_app; destruct ty as [|i ty].
  all: try (eapply (finishes_step 4); [cbn; rewrite E1; cbn; rewrite E2; reflexivity|cbn; rewrite <- app_assoc; reflexivity|];
    eexists; split; [apply (gets_n 2); reflexivity|]; split; [eexists; reflexivity|reflexivity]).
  all: eapply (finishes_step 4); [cbn; rewrite E1; cbn; rewrite E2; reflexivity|cbn; rewrite <- app_assoc; reflexivity|];
    cbn [map]; match goal with |- finishes _ (?a :: ?l) => change (a :: l) with ([a] ++ l) end;
    eapply (finishes_step 2); [reflexivity|reflexivity|].
  - apply (read_finishes vl ty _ []). discriminate.
  - apply (read_finishes vl ty _ (d0 :: s0)). intros d s' [= <- <-] lg'. apply IH.
Qed.

Lemma without v s ls : exists n, let c := run (start v s ls) (repeat (Go false) n) in
  has_ended c /\ log c = map Cli (loop utf8 ps1 ps2 v s ls).
Proof. destruct (same_as_loop s v ls []) as (c & (n & <-) & E & L). exists n. auto. Qed.
End Q.

Section R.
Context {S Q R : Type}.
Variable serve : S -> Q -> S * R.
Variable okay : R -> bool.

Lemma served_requests l : forall c : channel S R,
  server (fst (requests serve okay c l)) = served serve (server c) (sent_requests l).
Proof.
  induction l as [|[q m] l IH]; intros c; [reflexivity|]. cbn [requests].
  destruct (remote_execute serve okay c q m) as [c1 r] eqn:E.
  assert (E1 : server c1 = if is_sent m then fst (serve (server c) q) else server c).
  { unfold remote_execute in E. destruct m; cbn; try (injection E as <- <-; reflexivity);
      destruct (serve (server c) q) as [s r0]; cbn; destruct (open c); try (injection E as <- <-; reflexivity);
      destruct (queue c ++ [r0]); injection E as <- <-; reflexivity. }
  specialize (IH c1). destruct (requests serve okay c1 l) as [c2 rs]. cbn [fst] in *. rewrite IH, E1.
  unfold sent_requests. cbn [filter snd]. destruct (is_sent m); reflexivity.
Qed.

Lemma replies_given l : forall (s : S) (h : list (Q * moment)) (c : channel S R),
  server c = served serve s (sent_requests h) -> queue c = [] -> open c = true ->
  ~ In InSelect (map snd l) ->
  forall i q m, nth_error l i = Some (q, m) ->
  nth_error (snd (requests serve okay c l)) i = Some (gives serve okay s (h ++ firstn i l) q m).
Proof.
  induction l as [|[q0 m0] l IH]; intros s h c Hs Hq Ho Hn i q m Hi; [destruct i; discriminate|]. cbn [requests].
  destruct (remote_execute serve okay c q0 m0) as [c1 r] eqn:E.
  assert (E1 : server c1 = served serve s (sent_requests (h ++ [(q0, m0)])) /\ queue c1 = [] /\ open c1 = true /\
               r = gives serve okay s h q0 m0).
  { unfold sent_requests. rewrite filter_app, map_app. unfold served. rewrite fold_left_app.
    fold (sent_requests h). fold (served serve s (sent_requests h)). rewrite <- Hs.
    unfold remote_execute in E. rewrite Hq, Ho in E. unfold gives, reply_to. rewrite <- Hs.
    destruct m0; cbn; try (injection E as <- <-; auto; fail);
      try (exfalso; apply Hn; now left);
      destruct (serve (server c) q0) as [s1 r1]; injection E as <- <-; auto. }
  destruct E1 as (A1 & A2 & A3 & A4).
  destruct (requests serve okay c1 l) as [c2 rs] eqn:Er. cbn [snd]. destruct i as [|i].
  - cbn in Hi. injection Hi as <- <-. cbn. now rewrite app_nil_r, A4.
  - cbn in Hi |- *. specialize (IH s (h ++ [(q0, m0)]) c1 A1 A2 A3 (fun H => Hn (or_intror H)) i q m Hi).
    rewrite Er in IH. cbn in IH. now rewrite <- app_assoc in IH.
Qed.

Lemma own_reply s l i q m : ~ In InSelect (map snd l) -> nth_error l i = Some (q, m) ->
  nth_error (snd (requests serve okay (mkchannel s [] true) l)) i = Some (gives serve okay s (firstn i l) q m).
Proof. intros H1 H2. now apply (replies_given l s [] (mkchannel s [] true)). Qed.

Lemma dead_stays l : forall c : channel S R, open c = false -> Forall (fun r => r = None) (snd (requests serve okay c l)).
Proof.
  induction l as [|[q m] l IH]; intros c Hc; [constructor|]. cbn [requests].
  destruct (remote_execute serve okay c q m) as [c1 r] eqn:E.
  assert (E1 : open c1 = false /\ r = None).
  { unfold remote_execute in E. rewrite Hc in E. destruct m; try (injection E as <- <-; auto; fail);
      destruct (serve (server c) q) as [s r0]; injection E as <- <-; auto. }
  destruct E1 as [A1 ->]. specialize (IH c1 A1). destruct (requests serve okay c1 l) as [c2 rs].
  constructor; auto.
Qed.
Lemma dead_channel (c : channel S R) q l : Forall (fun r => r = None) (snd (requests serve okay c ((q, InSelect) :: l))).
Proof.
  cbn [requests]. destruct (remote_execute serve okay c q InSelect) as [c1 r] eqn:E.
  assert (E1 : open c1 = false /\ r = None).
  { unfold remote_execute in E. destruct (serve (server c) q) as [s r0]. destruct (open c); injection E as <- <-; auto. }
  destruct E1 as [A1 ->]. assert (H := dead_stays l c1 A1). destruct (requests serve okay c1 l) as [c2 rs].
  constructor; auto.
Qed.
End R.
