(** Proofs for C56, C57. *)
From Coq Require Import List Bool.
From Verif Require Import Base ExcModel ExcSpec.
Import ListNotations.
Open Scope list_scope.

Section ExcProofs.
Context {V St : Type}.
Variable none : V.
Variable sub : nat -> nat -> bool.
Notation matches := (matches sub).
Notation catches := (catches sub).

Lemma matches_spec sp e : matches e sp = true <-> catches sp e.
Proof.
  unfold ExcModel.matches, ExcSpec.catches, types. destruct sp as [t|ts].
  - split.
    + destruct t as [t|]; [|discriminate]. intros H. exists t. split; [now left|exact H].
    + intros (t' & [->|[]] & H). exact H.
  - rewrite existsb_exists. split.
    + intros ([t|] & Hi & H); [|discriminate]. exists t. auto.
    + intros (t & Hi & H). exists (ExcType t). auto.
Qed.
Lemma valid_spec sp : valid sp = true <-> all_types sp.
Proof.
  unfold valid, all_types, types. destruct sp as [t|ts].
  - destruct t; cbn; split; auto; try discriminate.
    + intros _ t' [<-|[]]. discriminate.
    + intros H. exfalso. now apply (H NotExcType); [left|].
  - rewrite forallb_forall. split.
    + intros H t Hi ->. specialize (H _ Hi). discriminate.
    + intros H t Hi. destruct t; [reflexivity|]. exfalso. now apply (H NotExcType).
Qed.
Lemma matches_false sp e : matches e sp = false <-> ~ catches sp e.
Proof. rewrite <- matches_spec. destruct (matches e sp); intuition congruence. Qed.

Lemma first_cons {X} sp (x : X) l e y : first_catch sub ((sp, x) :: l) e y <->
  (catches sp e /\ y = x) \/ (~ catches sp e /\ first_catch sub l e y).
Proof.
  split.
  - intros ([|[sp1 x1] l1] & sp' & l2 & E & Hc & Hn).
    + injection E as -> -> ->. now left.
    + injection E as -> -> ->. right. inversion Hn; subst. split; [assumption|]. exists l1, sp', l2. auto.
  - intros [[Hc ->]|[Hn (l1 & sp' & l2 & -> & Hc & HF)]].
    + exists [], sp, l. auto.
    + exists ((sp, x) :: l1), sp', l2. split; [reflexivity|]. split; [exact Hc|]. now constructor.
Qed.
Lemma handle_first hs e (h : handler V St) s : first_catch sub hs e h -> handle none sub hs e s = call_handler h e s.
Proof.
  induction hs as [|[sp h'] hs IH]; cbn.
  - intros ([|? ?] & ? & ? & E & _); discriminate.
  - rewrite first_cons. intros [[Hc ->]|[Hn Hf]].
    + apply matches_spec in Hc. now rewrite Hc.
    + apply matches_false in Hn. rewrite Hn. auto.
Qed.
Lemma handle_uncaught (hs : list (excspec * handler V St)) e s : uncaught sub hs e -> handle none sub hs e s = (Val none, s).
Proof.
  induction 1 as [|[sp h] hs Hn _ IH]; cbn; [reflexivity|]. cbn in Hn. apply matches_false in Hn. now rewrite Hn.
Qed.
Lemma first_or_none {X} (l : list (excspec * X)) e : (exists x, first_catch sub l e x) \/ uncaught sub l e.
Proof.
  induction l as [|[sp x] l IH]; [right; constructor|]. destruct (matches e sp) eqn:E.
  - left. exists x. apply first_cons. left. now apply matches_spec in E.
  - apply matches_false in E. destruct IH as [[y Hy]|Hu].
    + left. exists y. apply first_cons. auto.
    + right. now constructor.
Qed.

Lemma tryf_valid body (hs : list (excspec * handler V St)) elsef finallyf s : Forall (fun h => all_types (fst h)) hs ->
  (forall e s1, body s = (Exc e, s1) -> exists h, first_catch sub hs e h) ->
  forall r' s', tryf none sub body hs elsef finallyf s = (r', s') <->
  exists r s2, try_part sub body hs elsef s r s2 /\ finally_part finallyf r s2 r' s'.
Proof.
  intros Hv Hm r' s'. unfold tryf.
  assert (E : forallb (fun h => valid (fst h)) hs = true).
  { rewrite forallb_forall. rewrite Forall_forall in Hv. intros x Hx. apply valid_spec. auto. }
  rewrite E. cbn [negb].
  assert (F : forall r s2, (match finallyf with None => (r, s2) | Some f => match f s2 with (Val _, s3) => (r, s3) | (Exc e, s3) => (Exc e, s3) end end) = (r', s') <-> finally_part finallyf r s2 r' s').
  { intros r s2. unfold finally_part. destruct finallyf as [f|].
    - destruct (f s2) as [[v|e] s3].
      + split; [intros H; injection H as <- <-; eauto|]. intros (x & Hx & ->). injection Hx as <- <-. reflexivity.
      + split; [intros H; injection H as <- <-; eauto|]. intros (x & Hx & ->). injection Hx as <- <-. reflexivity.
    - split; [intros H; injection H as <- <-; auto|intros [-> ->]; reflexivity]. }
  destruct (body s) as [[v|e] s1] eqn:Eb.
  - destruct elsef as [f|].
    + destruct (f s1) as [r s2] eqn:Ef. rewrite F. split.
      * intros H. exists r, s2. split; [|exact H]. eapply TryElse; eauto.
      * intros (r0 & s0 & Ht & Hf). inversion Ht; subst; try congruence.
    + rewrite F. split.
      * intros H. exists (Val v), s1. split; [|exact H]. now apply TryReturns.
      * intros (r0 & s0 & Ht & Hf). inversion Ht; subst; try congruence.
  - destruct (Hm e s1 eq_refl) as [h Hh]. rewrite (handle_first hs e h s1 Hh).
    destruct (call_handler h e s1) as [r s2] eqn:Eh. rewrite F. split.
    + intros H. exists r, s2. split; [|exact H]. eapply TryExcept; eauto.
    + intros (r0 & s0 & Ht & Hf). inversion Ht as [| |e0 s10 h0 r1 s20 Eb' Hh' Eh'|e0 s10 Eb' Hu]; subst; try congruence.
      * assert (e0 = e /\ s10 = s1) as [-> ->] by (split; congruence).
        rewrite <- (handle_first hs e h0 s1 Hh') in Eh'. rewrite (handle_first hs e h s1 Hh) in Eh'. congruence.
      * assert (e0 = e /\ s0 = s1) as [-> ->] by (split; congruence).
        exfalso. destruct Hh as (l1 & sp & l2 & -> & Hc & _). unfold uncaught in Hu. apply Forall_app in Hu.
        destruct Hu as [_ Hu]. inversion Hu; subst. contradiction.
Qed.
Lemma tryf_swallows body (hs : list (excspec * handler V St)) elsef s e s1 : Forall (fun h => all_types (fst h)) hs ->
  body s = (Exc e, s1) -> uncaught sub hs e -> tryf none sub body hs elsef None s = (Val none, s1).
Proof.
  intros Hv Eb Hu. unfold tryf.
  assert (E : forallb (fun h => valid (fst h)) hs = true).
  { rewrite forallb_forall. rewrite Forall_forall in Hv. intros x Hx. apply valid_spec. auto. }
  now rewrite E, Eb, (handle_uncaught hs e s1 Hu).
Qed.
Lemma tryf_invalid body (hs : list (excspec * handler V St)) elsef finallyf s sp h : In (sp, h) hs -> ~ all_types sp ->
  tryf none sub body hs elsef finallyf s = (Exc (mkExc TypeErrorT None), s).
Proof.
  intros Hi Hv. unfold tryf. destruct (forallb (fun h => valid (fst h)) hs) eqn:E; [|reflexivity].
  rewrite forallb_forall in E. specialize (E _ Hi). cbn in E. apply valid_spec in E. contradiction.
Qed.
Lemma tryf_finally body (hs : list (excspec * handler V St)) elsef f s : Forall (fun h => all_types (fst h)) hs ->
  exists r s2 x s3, tryf none sub body hs elsef None s = (r, s2) /\ f s2 = (x, s3) /\
    tryf none sub body hs elsef (Some f) s = (match x with Val _ => r | Exc e => Exc e end, s3).
Proof.
  intros Hv. unfold tryf.
  assert (E : forallb (fun h => valid (fst h)) hs = true).
  { rewrite forallb_forall. rewrite Forall_forall in Hv. intros x Hx. apply valid_spec. auto. }
  rewrite E. cbn [negb]. destruct (body s) as [r1 s1].
  destruct (match r1 with Val v => _ | Exc e => _ end) as [r s2]. destruct (f s2) as [x s3] eqn:Ef.
  exists r, s2, x, s3. split; [reflexivity|]. split; [exact Ef|]. now destruct x.
Qed.

Lemma reraise_first mapping e app : first_catch sub mapping e app -> reraise_handler sub mapping e = mkExc app (Some e).
Proof.
  induction mapping as [|[sp a] mapping IH]; cbn.
  - intros ([|? ?] & ? & ? & E & _); discriminate.
  - rewrite first_cons. intros [[Hc ->]|[Hn Hf]].
    + apply matches_spec in Hc. now rewrite Hc.
    + apply matches_false in Hn. rewrite Hn. auto.
Qed.
Lemma reraise_uncaught mapping e : uncaught sub mapping e -> reraise_handler sub mapping e = e.
Proof. induction 1 as [|[sp a] l Hn _ IH]; cbn; [reflexivity|]. cbn in Hn. apply matches_false in Hn. now rewrite Hn. Qed.
Lemma exists_uncaught (mapping : list (excspec * nat)) e :
  existsb (fun m => matches e (fst m)) mapping = false <-> uncaught sub mapping e.
Proof.
  unfold uncaught. induction mapping as [|[sp a] l IH]; cbn; [split; auto|].
  rewrite orb_false_iff, IH, matches_false. split; [intros [A B]; now constructor|now inversion 1].
Qed.

Lemma reraise_in_spec (body : comp V St) mapping s r s1 : body s = (r, s1) ->
  match r with
  | Val v => reraise_in sub body mapping s = (Val v, s1)
  | Exc e => (forall app, first_catch sub mapping e app -> reraise_in sub body mapping s = (Exc (mkExc app (Some e)), s1)) /\
             (uncaught sub mapping e -> reraise_in sub body mapping s = (Exc e, s1))
  end.
Proof.
  intros E. unfold reraise_in. rewrite E. destruct r as [v|e]; [reflexivity|]. split.
  - intros app H. now rewrite (reraise_first _ _ _ H).
  - intros H. now rewrite (reraise_uncaught _ _ H).
Qed.
Lemma reraise_same (body : comp V St) mapping s :
  (forall lib app, In (lib, app) mapping -> sub app StopIterationT = false) ->
  reraise sub mapping body s = reraise_in sub body mapping s.
Proof.
  intros Hs. unfold reraise, reraise_in. destruct (body s) as [[v|e] s1]; [reflexivity|].
  destruct (existsb (fun m => matches e (fst m)) mapping) eqn:E.
  - destruct (first_or_none mapping e) as [[app Hf]|Hu].
    + rewrite (reraise_first _ _ _ Hf). cbn [etype].
      destruct Hf as (l1 & sp & l2 & -> & _). rewrite (Hs sp app); [reflexivity|]. apply in_or_app. right. now left.
    + apply exists_uncaught in Hu. congruence.
  - apply exists_uncaught in E. now rewrite (reraise_uncaught _ _ E).
Qed.
End ExcProofs.
