(** Proofs for C41-C45 and C72. *)
From Coq Require Import String List Arith Lia.
From Verif Require Import Base CondModel CondSpec.
Import ListNotations.
Open Scope list_scope.

Section CondProofs.
Context {V St : Type}.
Variable none : V.
Variable sub : nat -> nat -> bool.
Variable print_warning : cond -> St -> St.
Notation exec := (exec none sub).
Notation runs := (runs none sub).
Notation prog := (prog V St).
Notation st := (st V St).
Implicit Types (s : st) (p : prog) (r : res V).

Lemma exec_mono fuel : forall (t : task V St) s x fuel', exec fuel t s = Some x -> fuel <= fuel' -> exec fuel' t s = Some x.
Proof.
  induction fuel as [|fuel IH]; intros t s x fuel' H Hle; [discriminate|].
  destruct fuel' as [|fuel']; [lia|].
  assert (IH' : forall (t : task V St) s x, exec fuel t s = Some x -> exec fuel' t s = Some x)
    by (intros; eapply IH; eauto; lia).
  clear IH Hle.
  destruct t as [p|c l later ver]; cbn in H |- *.
  - destruct p as [v|e|g|c|n a|b n a|n k|b p|b p|p h|p q|p k]; auto.
    + destruct (find_restart n s) as [[b n']|]; auto.
    + destruct (exec fuel (Run p) (push_h b s)) as [[r s1]|] eqn:E; [|discriminate].
      now rewrite (IH' _ _ _ E).
    + destruct (exec fuel (Run p) (push_r b s)) as [[r s1]|] eqn:E; [|discriminate].
      rewrite (IH' _ _ _ E). destruct r as [v|e|b' n a]; auto.
      destruct (b' =? _); auto. destruct (assoc n (block s1 b')) as [f|]; [|discriminate].
      destruct (exec fuel (Run (f a)) s1) as [[r s2]|] eqn:E2; [|discriminate].
      now rewrite (IH' _ _ _ E2).
    + destruct (exec fuel (Run p) s) as [[r s1]|] eqn:E; [|discriminate].
      rewrite (IH' _ _ _ E). destruct r; auto.
    + destruct (exec fuel (Run p) s) as [[r s1]|] eqn:E; [|discriminate].
      rewrite (IH' _ _ _ E). destruct (exec fuel (Run q) s1) as [[r2 s2]|] eqn:E2; [|discriminate].
      now rewrite (IH' _ _ _ E2).
    + destruct (exec fuel (Run p) s) as [[r s1]|] eqn:E; [|discriminate].
      rewrite (IH' _ _ _ E). destruct r; auto.
  - destruct l as [|[ts h] l].
    + destruct (hver s =? ver); auto. destruct later; auto.
    + destruct (matches sub c ts); auto.
      destruct (exec fuel (Run (h c)) s) as [[r s1]|] eqn:E; [|discriminate].
      rewrite (IH' _ _ _ E). destruct r; auto.
Qed.
Lemma exec_agree f1 f2 (t : task V St) s x y : exec f1 t s = Some x -> exec f2 t s = Some y -> x = y.
Proof.
  intros H1 H2. destruct (Nat.le_ge_cases f1 f2) as [L|L].
  - rewrite (exec_mono _ _ _ _ _ H1 L) in H2. congruence.
  - rewrite (exec_mono _ _ _ _ _ H2 L) in H1. congruence.
Qed.
Lemma runs_det p s r1 s1 r2 s2 : runs p s r1 s1 -> runs p s r2 s2 -> r1 = r2 /\ s1 = s2.
Proof. intros [f1 H1] [f2 H2]. pose proof (exec_agree _ _ _ _ _ _ H1 H2) as E. now injection E. Qed.

(** * The stacks are balanced *)
Lemma balance fuel : forall (t : task V St) s r s', exec fuel t s = Some (r, s') ->
  hs s' = hs s /\ rs s' = rs s /\ exists l, blocks s' = blocks s ++ l.
Proof.
  assert (T : forall s s1 s2 : st, hs s1 = hs s /\ rs s1 = rs s /\ (exists l, blocks s1 = blocks s ++ l) ->
     hs s2 = hs s1 /\ rs s2 = rs s1 /\ (exists l, blocks s2 = blocks s1 ++ l) ->
     hs s2 = hs s /\ rs s2 = rs s /\ (exists l, blocks s2 = blocks s ++ l)).
  { intros s s1 s2 (A1 & B1 & l1 & C1) (A2 & B2 & l2 & C2). split; [congruence|]. split; [congruence|].
    exists (l1 ++ l2). now rewrite C2, C1, app_assoc. }
  assert (R : forall s : st, hs s = hs s /\ rs s = rs s /\ exists l, blocks s = blocks s ++ l).
  { intros s. repeat split; auto. exists []. now rewrite app_nil_r. }
  induction fuel as [|fuel IH]; intros t s r s' H; [discriminate|].
  destruct t as [p|c l later ver]; cbn in H.
  - destruct p as [v|e|g|c|n a|b n a|n k|b p|b p|p h|p q|p k].
    + injection H as <- <-. apply R.
    + injection H as <- <-. apply R.
    + destruct (g (usr s)) as [u v]. injection H as <- <-. apply (R s).
    + exact (IH _ _ _ _ H).
    + destruct (find_restart n s) as [[b n']|]; [injection H as <- <-; apply R|exact (IH _ _ _ _ H)].
    + injection H as <- <-. apply R.
    + exact (IH _ _ _ _ H).
    + destruct (exec fuel (Run p) (push_h b s)) as [[r1 s1]|] eqn:E; [|discriminate]. injection H as <- <-.
      destruct (IH _ _ _ _ E) as (A & B & C). cbn in *. rewrite A. auto.
    + assert (P : forall s1, hs s1 = hs (push_r b s) /\ rs s1 = rs (push_r b s) /\ (exists l, blocks s1 = blocks (push_r b s) ++ l) ->
         hs (pop_r s1) = hs s /\ rs (pop_r s1) = rs s /\ exists l, blocks (pop_r s1) = blocks s ++ l).
      { intros s1 (A & B & l & C). cbn in *. rewrite B. split; [exact A|]. split; [reflexivity|].
        exists ([b] ++ l). now rewrite C, <- app_assoc. }
      destruct (exec fuel (Run p) (push_r b s)) as [[r1 s1]|] eqn:E; [|discriminate]. apply IH in E.
      destruct r1 as [v|e|b' n a]; try (injection H as <- <-; now apply P).
      destruct (b' =? _); [|injection H as <- <-; now apply P].
      destruct (assoc n (block s1 b')) as [f|]; [|discriminate].
      destruct (exec fuel (Run (f a)) s1) as [[r2 s2]|] eqn:E2; [|discriminate]. injection H as <- <-.
      apply P. apply IH in E2. eapply T; eauto.
    + destruct (exec fuel (Run p) s) as [[r1 s1]|] eqn:E; [|discriminate]. apply IH in E.
      destruct r1; try (injection H as <- <-; exact E). apply IH in H. eapply T; eauto.
    + destruct (exec fuel (Run p) s) as [[r1 s1]|] eqn:E; [|discriminate]. apply IH in E.
      destruct (exec fuel (Run q) s1) as [[r2 s2]|] eqn:E2; [|discriminate]. apply IH in E2.
      destruct r2; injection H as <- <-; eapply T; eauto.
    + destruct (exec fuel (Run p) s) as [[r1 s1]|] eqn:E; [|discriminate]. apply IH in E.
      destruct r1; try (injection H as <- <-; exact E). apply IH in H. eapply T; eauto.
  - destruct l as [|[ts h] l].
    + destruct (hver s =? ver); [|injection H as <- <-; apply R].
      destruct later; [injection H as <- <-; apply R|exact (IH _ _ _ _ H)].
    + destruct (matches sub c ts); [|exact (IH _ _ _ _ H)].
      destruct (exec fuel (Run (h c)) s) as [[r1 s1]|] eqn:E; [|discriminate]. apply IH in E.
      destruct r1; try (injection H as <- <-; exact E). apply IH in H. eapply T; eauto.
Qed.
Lemma runs_balance p s r s' : runs p s r s' -> hs s' = hs s /\ rs s' = rs s /\ exists l, blocks s' = blocks s ++ l.
Proof. intros [fuel H]. exact (balance _ _ _ _ _ H). Qed.

Definition wf s : Prop := forall b, In b (rs s) -> b < length (blocks s).
Lemma block_app s s' l b : blocks s' = blocks s ++ l -> b < length (blocks s) -> block s' b = block s b.
Proof. intros H L. unfold block. rewrite H. now apply app_nth1. Qed.
Lemma find_ext {X} (f g : X -> bool) l : (forall x, In x l -> f x = g x) -> find f l = find g l.
Proof.
  induction l as [|x l IH]; cbn; intros H; [reflexivity|]. rewrite (H x) by auto. destruct (g x); auto.
Qed.
Lemma visible p s r s' : wf s -> runs p s r s' ->
  (forall n, find_restart n s' = find_restart n s) /\ available_restarts s' = available_restarts s /\ wf s'.
Proof.
  intros W H. destruct (runs_balance _ _ _ _ H) as (_ & B & l & C). split; [|split].
  - intros n. unfold find_restart. rewrite B.
    rewrite (find_ext _ (fun b => match assoc n (block s b) with Some _ => true | None => false end)); [reflexivity|].
    intros b Hb. now rewrite (block_app s s' l) by auto.
  - unfold available_restarts. rewrite B. do 2 f_equal. apply flat_map_ext_in || idtac.
    assert (E : forall L, (forall b, In b L -> b < length (blocks s)) -> flat_map (block s') L = flat_map (block s) L).
    { induction L as [|b L IH]; cbn; intros HL; [reflexivity|]. rewrite (block_app s s' l) by auto. f_equal. auto. }
    now apply E.
  - intros b Hb. rewrite C, app_length. rewrite B in Hb. specialize (W b Hb). lia.
Qed.

(** * available_restarts *)
Lemma collect_assoc l : forall seen n f, In (n, f) (snd (collect seen l)) <->
  (existsb (String.eqb n) seen = false /\ @assoc V St n l = Some f).
Proof. clear none sub print_warning.
  induction l as [|[n1 f1] l IH]; intros seen n f; cbn.
  - split; [intros []|intros [_ H]; discriminate].
  - destruct (existsb (String.eqb n1) seen) eqn:E1.
    + rewrite IH. destruct (String.eqb_spec n1 n) as [->|Hn]; [|tauto].
      split; [intros [H _]; congruence|intros [H _]; congruence].
    + destruct (collect (n1 :: seen) l) as [seen' out] eqn:Ec. cbn.
      change out with (snd (seen', out)). rewrite <- Ec, IH. cbn.
      destruct (String.eqb_spec n1 n) as [->|Hn].
      * rewrite String.eqb_refl. cbn. split.
        -- intros [H|[H _]]; [injection H as <-; auto|discriminate].
        -- intros [_ H]. left. congruence.
      * destruct (String.eqb_spec n n1) as [->|Hn']; [congruence|]. cbn. split.
        -- intros [H|H]; [congruence|exact H].
        -- intros H. now right.
Qed.
Lemma assoc_app n l1 l2 : @assoc V St n (l1 ++ l2) = match assoc n l1 with Some f => Some f | None => assoc n l2 end.
Proof. clear none sub print_warning. induction l1 as [|[n1 f1] l1 IH]; cbn; [reflexivity|]. destruct (String.eqb n1 n); auto. Qed.
Lemma available_spec s n f : In (n, f) (available_restarts s) <->
  exists b, find_restart n s = Some (b, n) /\ assoc n (block s b) = Some f.
Proof. clear none sub print_warning.
  unfold available_restarts. rewrite collect_assoc. cbn. unfold find_restart.
  induction (rs s) as [|b L IH]; cbn.
  - split; [intros [_ H]; discriminate|intros (b & H & _); discriminate].
  - rewrite assoc_app. destruct (assoc n (block s b)) as [g|] eqn:E.
    + split.
      * intros [_ H]. injection H as ->. eauto.
      * intros (b' & H & H2). injection H as <-. split; congruence.
    + exact IH.
Qed.

(** * Composition of runs *)
Lemma runs_bind p k s v s1 r s' : runs p s (RVal v) s1 -> runs (k v) s1 r s' -> runs (Bind p k) s r s'.
Proof.
  intros [f1 H1] [f2 H2]. exists (S (max f1 f2)). cbn. rewrite (exec_mono _ _ _ _ (max f1 f2) H1) by lia.
  eapply exec_mono; eauto. lia.
Qed.
Lemma runs_bind_other p k s r s' : runs p s r s' -> ~ is_value r -> runs (Bind p k) s r s'.
Proof.
  intros [f1 H1] Hr. exists (S f1). cbn. rewrite H1. destruct r; auto. exfalso. apply Hr. eexists; reflexivity.
Qed.
Lemma runs_bind_inv p k s r s' : runs (Bind p k) s r s' ->
  (exists v s1, runs p s (RVal v) s1 /\ runs (k v) s1 r s') \/ (runs p s r s' /\ ~ is_value r).
Proof.
  intros [[|f] H]; [discriminate|]. cbn in H.
  destruct (exec f (Run p) s) as [[r1 s1]|] eqn:E; [|discriminate]. destruct r1 as [v|e|b n a].
  - left. exists v, s1. split; [exists f; exact E|exists f; exact H].
  - right. injection H as <- <-. split; [exists f; exact E|intros [v Hv]; discriminate].
  - right. injection H as <- <-. split; [exists f; exact E|intros [v Hv]; discriminate].
Qed.
Lemma runs_ret v s : runs (Ret v) s (RVal v) s.
Proof. exists 1. reflexivity. Qed.
Lemma runs_raise e s : runs (RaiseP e) s (RExc e) s.
Proof. exists 1. reflexivity. Qed.
Lemma runs_restarts_own b p s n a s1 f r s' : runs p (push_r b s) (RInvoke (length (blocks s)) n a) s1 ->
  assoc n b = Some f -> runs (f a) s1 r s' -> runs (WithRestarts b p) s (gen_exit r) (pop_r s').
Proof.
  intros [f1 H1] Hf [f2 H2]. exists (S (max f1 f2)). cbn. rewrite (exec_mono _ _ _ _ (max f1 f2) H1) by lia.
  rewrite Nat.eqb_refl.
  destruct (balance _ _ _ _ _ H1) as (_ & _ & l & C). cbn in C.
  assert (B : block s1 (length (blocks s)) = b).
  { unfold block. rewrite C, <- app_assoc, app_nth2 by lia. now rewrite Nat.sub_diag. }
  rewrite B, Hf. rewrite (exec_mono _ _ _ _ (max f1 f2) H2) by lia. reflexivity.
Qed.
Lemma runs_restarts_val b p s n a s1 f v s' : runs p (push_r b s) (RInvoke (length (blocks s)) n a) s1 ->
  assoc n b = Some f -> runs (f a) s1 (RVal v) s' -> runs (WithRestarts b p) s (RVal v) (pop_r s').
Proof. exact (runs_restarts_own b p s n a s1 f (RVal v) s'). Qed.
Lemma runs_restarts_other b p s r s1 : runs p (push_r b s) r s1 ->
  (forall n a, r <> RInvoke (length (blocks s)) n a) -> runs (WithRestarts b p) s r (pop_r s1).
Proof.
  intros [f1 H1] Hr. exists (S f1). cbn. rewrite H1. destruct r as [v|e|b' n a]; auto.
  destruct (Nat.eqb_spec b' (length (blocks s))) as [->|]; [exfalso; eapply Hr; reflexivity|reflexivity].
Qed.
Lemma runs_restarts_inv b p s r s' : runs (WithRestarts b p) s r s' ->
  (exists n a s1 f s2, runs p (push_r b s) (RInvoke (length (blocks s)) n a) s1 /\ assoc n b = Some f /\
     (exists r0, runs (f a) s1 r0 s2 /\ r = gen_exit r0) /\ s' = pop_r s2) \/
  (exists s1, runs p (push_r b s) r s1 /\ s' = pop_r s1 /\ forall n a, r <> RInvoke (length (blocks s)) n a).
Proof.
  intros [[|f] H]; [discriminate|]. cbn in H.
  destruct (exec f (Run p) (push_r b s)) as [[r1 s1]|] eqn:E; [|discriminate].
  destruct r1 as [v|e|b' n a].
  - right. injection H as <- <-. exists s1. split; [exists f; exact E|]. split; [reflexivity|discriminate].
  - right. injection H as <- <-. exists s1. split; [exists f; exact E|]. split; [reflexivity|discriminate].
  - destruct (Nat.eqb_spec b' (length (blocks s))) as [->|Hn].
    + left. destruct (balance _ _ _ _ _ E) as (_ & _ & l & C). cbn in C.
      assert (B : block s1 (length (blocks s)) = b).
      { unfold block. rewrite C, <- app_assoc, app_nth2 by lia. now rewrite Nat.sub_diag. }
      rewrite B in H. destruct (assoc n b) as [fn|] eqn:Ea; [|discriminate].
      destruct (exec f (Run (fn a)) s1) as [[r2 s2]|] eqn:E2; [|discriminate]. injection H as <- <-.
      exists n, a, s1, fn, s2. split; [exists f; exact E|]. split; [exact Ea|]. split; [exists r2; split; [exists f; exact E2|reflexivity]|reflexivity].
    + right. injection H as <- <-. exists s1. split; [exists f; exact E|]. split; [reflexivity|congruence].
Qed.
Lemma runs_handlers b p s r s1 : runs p (push_h b s) r s1 -> runs (WithHandlers b p) s r (pop_h s1).
Proof. intros [f1 H1]. exists (S f1). cbn. now rewrite H1. Qed.
Lemma runs_handlers_inv b p s r s' : runs (WithHandlers b p) s r s' -> exists s1, runs p (push_h b s) r s1 /\ s' = pop_h s1.
Proof.
  intros [[|f] H]; [discriminate|]. cbn in H.
  destruct (exec f (Run p) (push_h b s)) as [[r1 s1]|] eqn:E; [|discriminate]. injection H as <- <-.
  exists s1. split; [exists f; exact E|reflexivity].
Qed.

(** * signal *)
Lemma matching_cons c b bs : matching sub c (b :: bs) =
  map snd (filter (fun th => existsb (sub (ctype c)) (fst th)) b) ++ matching (V := V) (St := St) sub c bs.
Proof. unfold matching. cbn. now rewrite filter_app, map_app. Qed.

Definition offer_list c (l : hblock V St) (later : list (hblock V St)) : list (cond -> prog) := matching sub c (l :: later).
Definition steady c (h : cond -> prog) : Prop := forall s v s1, runs (h c) s (RVal v) s1 -> hver s1 = hver s.

Lemma offer_sound fuel : forall c l later s r s', (forall h, In h (offer_list c l later) -> steady c h) ->
  exec fuel (Offer c l later (hver s)) s = Some (r, s') -> offers none sub c (offer_list c l later) s r s'.
Proof.
  unfold offer_list.
  induction fuel as [|fuel IH]; intros c l later s r s' Hst H; [discriminate|]. cbn in H.
  destruct l as [|[ts h] l].
  - rewrite Nat.eqb_refl in H. destruct later as [|b later].
    + injection H as <- <-. constructor.
    + rewrite matching_cons. cbn [filter map app]. rewrite matching_cons in Hst. cbn [filter map app] in Hst. exact (IH _ _ _ _ _ _ Hst H).
  - rewrite matching_cons in Hst |- *. cbn [filter fst] in Hst |- *. unfold matches in H.
    destruct (existsb (sub (ctype c)) ts) eqn:Em; cbn [map snd app] in Hst |- *.
    + destruct (exec fuel (Run (h c)) s) as [[r1 s1]|] eqn:E; [|discriminate].
      assert (Rn : runs (h c) s r1 s1) by (exists fuel; exact E).
      destruct r1 as [v|e|b n a].
      * eapply OfDecline; [exact Rn|].
        assert (Ev : hver s1 = hver s) by (eapply Hst; [now left|exact Rn]).
        rewrite <- matching_cons. apply (IH c l later s1 r s'); [|now rewrite Ev].
        intros h' Hh'. apply Hst. right. now rewrite <- matching_cons.
      * injection H as <- <-. apply OfTake; [exact Rn|]. intros [v Hv]; discriminate.
      * injection H as <- <-. apply OfTake; [exact Rn|]. intros [v Hv]; discriminate.
    + rewrite <- matching_cons in Hst |- *. exact (IH _ _ _ _ _ _ Hst H).
Qed.

Lemma offer_complete c later : forall l s r s', (forall h, In h (offer_list c l later) -> steady c h) ->
  offers none sub c (offer_list c l later) s r s' ->
  exists fuel, exec fuel (Offer c l later (hver s)) s = Some (r, s').
Proof.
  unfold offer_list.
  induction later as [|b later IHl]; intros l; induction l as [|[ts h] l IH]; intros s r s' Hst H.
  - cbn in H. inversion H; subst. exists 1. cbn. now rewrite Nat.eqb_refl.
  - rewrite matching_cons in Hst, H. cbn [filter fst] in Hst, H.
    destruct (existsb (sub (ctype c)) ts) eqn:Em; cbn [map snd app] in Hst, H.
    + rewrite <- matching_cons in Hst, H. inversion H as [|? ? ? v s1 ? ? Rn Hr|? ? ? ? ? Rn Hr]; subst.
      * assert (Ev : hver s1 = hver s) by (eapply Hst; [now left|exact Rn]).
        destruct (IH s1 r s') as [f2 H2]; [intros h' Hh'; apply Hst; now right|exact Hr|].
        destruct Rn as [f1 H1]. exists (S (max f1 f2)). cbn. unfold matches. rewrite Em.
        rewrite (exec_mono _ _ _ _ (max f1 f2) H1) by lia. rewrite <- Ev. eapply exec_mono; eauto. lia.
      * destruct Rn as [f1 H1]. exists (S f1). cbn. unfold matches. rewrite Em, H1.
        destruct r; auto. exfalso. apply Hr. eexists; reflexivity.
    + rewrite <- matching_cons in Hst, H. destruct (IH s r s' Hst H) as [f2 H2].
      exists (S f2). cbn. unfold matches. now rewrite Em.
  - rewrite matching_cons in Hst, H. cbn [filter map app] in Hst, H.
    destruct (IHl b s r s' Hst H) as [f H1]. exists (S f). cbn. now rewrite Nat.eqb_refl.
  - rewrite matching_cons in Hst, H. cbn [filter fst] in Hst, H.
    destruct (existsb (sub (ctype c)) ts) eqn:Em; cbn [map snd app] in Hst, H.
    + rewrite <- matching_cons in Hst, H. inversion H as [|? ? ? v s1 ? ? Rn Hr|? ? ? ? ? Rn Hr]; subst.
      * assert (Ev : hver s1 = hver s) by (eapply Hst; [now left|exact Rn]).
        destruct (IH s1 r s') as [f2 H2]; [intros h' Hh'; apply Hst; now right|exact Hr|].
        destruct Rn as [f1 H1]. exists (S (max f1 f2)). cbn. unfold matches. rewrite Em.
        rewrite (exec_mono _ _ _ _ (max f1 f2) H1) by lia. rewrite <- Ev. eapply exec_mono; eauto. lia.
      * destruct Rn as [f1 H1]. exists (S f1). cbn. unfold matches. rewrite Em, H1.
        destruct r; auto. exfalso. apply Hr. eexists; reflexivity.
    + rewrite <- matching_cons in Hst, H. destruct (IH s r s' Hst H) as [f2 H2].
      exists (S f2). cbn. unfold matches. now rewrite Em.
Qed.

Lemma signal_offers c s r s' : (forall h, In h (matching sub c (hs s)) -> steady c h) ->
  (runs (Signal c) s r s' <-> offers none sub c (matching sub c (hs s)) s r s').
Proof.
  intros Hst. split.
  - intros [[|f] H]; [discriminate|]. cbn in H. exact (offer_sound f c [] (hs s) s r s' Hst H).
  - intros H. destruct (offer_complete c (hs s) [] s r s' Hst H) as [f H1]. exists (S f). exact H1.
Qed.

Lemma first_takes c later : forall l s r s' h rest, matching sub c (l :: later) = h :: rest ->
  runs (h c) s r s' -> ~ is_value r -> exists fuel, exec fuel (Offer c l later (hver s)) s = Some (r, s').
Proof.
  induction later as [|b later IHl]; intros l; induction l as [|[ts h'] l IH]; intros s r s' h rest Hm Hr Hv.
  - discriminate.
  - rewrite matching_cons in Hm. cbn [filter fst] in Hm. destruct (existsb (sub (ctype c)) ts) eqn:Em; cbn [map snd app] in Hm.
    + injection Hm as <- _. destruct Hr as [f Hr]. exists (S f). cbn. unfold matches. rewrite Em, Hr.
      destruct r; auto. exfalso. apply Hv. eexists; reflexivity.
    + rewrite <- matching_cons in Hm. destruct (IH _ _ _ _ _ Hm Hr Hv) as [f H]. exists (S f). cbn. unfold matches. now rewrite Em.
  - rewrite matching_cons in Hm. cbn [filter map app] in Hm.
    destruct (IHl b s r s' h rest Hm Hr Hv) as [f H]. exists (S f). cbn. now rewrite Nat.eqb_refl.
  - rewrite matching_cons in Hm. cbn [filter fst] in Hm. destruct (existsb (sub (ctype c)) ts) eqn:Em; cbn [map snd app] in Hm.
    + injection Hm as <- _. destruct Hr as [f Hr]. exists (S f). cbn. unfold matches. rewrite Em, Hr.
      destruct r; auto. exfalso. apply Hv. eexists; reflexivity.
    + rewrite <- matching_cons in Hm. destruct (IH _ _ _ _ _ Hm Hr Hv) as [f H]. exists (S f). cbn. unfold matches. now rewrite Em.
Qed.
Lemma signal_first c s h rest r s' : matching sub c (hs s) = h :: rest ->
  runs (h c) s r s' -> ~ is_value r -> runs (Signal c) s r s'.
Proof.
  intros Hm Hr Hv. destruct (first_takes c (hs s) [] s r s' h rest Hm Hr Hv) as [f H]. exists (S f). exact H.
Qed.
Lemma signal_unmatched c s : matching sub c (hs s) = [] -> runs (Signal c) s (RVal none) s.
Proof. intros H. apply signal_offers; rewrite H; [intros h []|constructor]. Qed.

Lemma quiet_steady_exec fuel : forall p s r s', quiet p -> exec fuel (Run p) s = Some (r, s') -> hver s' = hver s.
Proof.
  induction fuel as [|fuel IH]; intros p s r s' Hq H; [discriminate|]. cbn in H.
  destruct Hq as [v|e|g|b n a|n k Hk|p h Hp Hh|p q Hp Hq|p k Hp Hk].
  - now injection H as _ <-.
  - now injection H as _ <-.
  - destruct (g (usr s)). now injection H as _ <-.
  - now injection H as _ <-.
  - eauto.
  - destruct (exec fuel (Run p) s) as [[r1 s1]|] eqn:E; [|discriminate]. apply IH in E; [|exact Hp].
    destruct r1; try (injection H as _ <-; exact E). apply IH in H; [congruence|auto].
  - destruct (exec fuel (Run p) s) as [[r1 s1]|] eqn:E; [|discriminate]. apply IH in E; [|exact Hp].
    destruct (exec fuel (Run q) s1) as [[r2 s2]|] eqn:E2; [|discriminate]. apply IH in E2; [|exact Hq].
    destruct r2; injection H as _ <-; congruence.
  - destruct (exec fuel (Run p) s) as [[r1 s1]|] eqn:E; [|discriminate]. apply IH in E; [|exact Hp].
    destruct r1; try (injection H as _ <-; exact E). apply IH in H; [congruence|auto].
Qed.
Lemma quiet_steady c (h : cond -> prog) : quiet (h c) -> steady c h.
Proof. intros Hq s v s1 [f H]. eapply quiet_steady_exec; eauto. Qed.

(** * Transfer of control *)
Lemma unwind k : forall p s b n a s1, runs p (enter k s) (RInvoke b n a) s1 -> b < length (blocks s) ->
  runs (inside k p) s (RInvoke b n a) (mkSt (hs s) (hver s1 + handler_blocks k) (rs s) (blocks s1) (usr s1)).
Proof.
  induction k as [|f k IH]; intros p s b n a s1 H Hb.
  - cbn in *. destruct (runs_balance _ _ _ _ H) as (A & B & _). rewrite <- A, <- B, Nat.add_0_r.
    destruct s1; exact H.
  - change (inside (f :: k) p) with (wrap f (inside k p)). change (enter (f :: k) s) with (enter k (enter1 s f)) in H.
    destruct f as [hb|rb|h|kk]; cbn [wrap enter1] in *.
    + apply IH in H; [|exact Hb]. apply runs_handlers in H. cbn in H.
      replace (hver s1 + handler_blocks (FHandlers hb :: k)) with (S (hver s1 + handler_blocks k)) by (cbn; unfold handler_blocks; lia).
      exact H.
    + apply IH in H; [|cbn; rewrite app_length; cbn; lia]. apply runs_restarts_other in H; [exact H|].
      intros n' a' E. injection E as E _ _. lia.
    + apply IH in H; [|exact Hb]. destruct H as [fu H]. exists (S fu). cbn. now rewrite H.
    + apply IH in H; [|exact Hb]. apply runs_bind_other; [exact H|]. intros [v Hv]; discriminate.
Qed.

Lemma transfer k b p s n a s1 f r s' :
  runs p (enter k (push_r b s)) (RInvoke (length (blocks s)) n a) s1 -> assoc n b = Some f ->
  runs (f a) (mkSt (hs s) (hver s1 + handler_blocks k) (length (blocks s) :: rs s) (blocks s1) (usr s1)) r s' ->
  runs (WithRestarts b (inside k p)) s (gen_exit r) (pop_r s').
Proof.
  intros H Hf Hr. apply unwind in H; [|cbn; rewrite app_length; cbn; lia]. cbn in H.
  eapply runs_restarts_own; eauto.
Qed.

Lemma gen_exit_is (r r' : res V) : restart_result r r' -> r' = gen_exit r.
Proof. intros [[-> ->]|[N ->]]; [reflexivity|]. destruct r as [v|e|b n a]; try reflexivity. destruct e; try reflexivity. now destruct N. Qed.
Lemma transfer_result k b p s n a s1 f r r' s' :
  runs p (enter k (push_r b s)) (RInvoke (length (blocks s)) n a) s1 -> assoc n b = Some f ->
  runs (f a) (mkSt (hs s) (hver s1 + handler_blocks k) (length (blocks s) :: rs s) (blocks s1) (usr s1)) r s' -> restart_result r r' ->
  runs (WithRestarts b (inside k p)) s r' (pop_r s').
Proof. intros H Hf Hr R. rewrite (gen_exit_is _ _ R). eapply transfer; eauto. Qed.

Lemma find_enter k n b : forall s, (forall rb, In (FRestarts rb) k -> assoc n rb = None) -> b < length (blocks s) ->
  (forall x, In x (rs s) -> x < length (blocks s)) ->
  find_restart n s = Some (b, n) -> find_restart n (enter k s) = Some (b, n).
Proof.
  induction k as [|f k IH]; intros s Hk Hb Hw H; [exact H|].
  change (enter (f :: k) s) with (enter k (enter1 s f)). apply IH.
  - intros rb Hi. apply Hk. now right.
  - destruct f; cbn; auto. rewrite app_length. lia.
  - destruct f; cbn; auto. intros x [<-|Hx]; rewrite app_length; cbn; [lia|]. specialize (Hw x Hx). lia.
  - destruct f as [hb|rb|h|kk]; cbn [enter1]; try exact H.
    unfold find_restart in *. cbn [rs push_r find].
    assert (B0 : block (push_r rb s) (length (blocks s)) = rb).
    { unfold block. cbn. rewrite app_nth2 by lia. now rewrite Nat.sub_diag. }
    rewrite B0, (Hk rb) by now left.
    rewrite (find_ext _ (fun b => match assoc n (block s b) with Some _ => true | None => false end)); [exact H|].
    intros x Hx. rewrite (block_app s (push_r rb s) [rb]); [reflexivity|reflexivity|auto].
Qed.
Lemma enter_blocks k : forall s, exists l, blocks (enter k s) = blocks s ++ l.
Proof.
  induction k as [|f k IH]; intros s; [exists []; now rewrite app_nil_r|].
  change (enter (f :: k) s) with (enter k (enter1 s f)). destruct (IH (enter1 s f)) as [l E].
  destruct f as [hb|rb|h|kk]; cbn [enter1] in *; try (exists l; exact E).
  exists ([rb] ++ l). rewrite E. cbn. now rewrite <- app_assoc.
Qed.
Lemma enter_usr k : forall s, usr (enter k s) = usr s.
Proof.
  induction k as [|f k IH]; intros s; [reflexivity|].
  change (enter (f :: k) s) with (enter k (enter1 s f)). rewrite IH. now destruct f.
Qed.

Lemma invoke_transfers k b n a s f : wf s -> assoc n b = Some f ->
  (forall rb, In (FRestarts rb) k -> assoc n rb = None) ->
  exists s1, usr s1 = usr s /\ hs s1 = hs s /\ rs s1 = length (blocks s) :: rs s /\
    (exists l, blocks s1 = blocks s ++ [b] ++ l) /\
    forall r r' s', runs (f a) s1 r s' -> restart_result r r' -> runs (WithRestarts b (inside k (Invoke n a))) s r' (pop_r s').
Proof.
  intros W Hf Hk. set (me := length (blocks s)).
  assert (F : find_restart n (enter k (push_r b s)) = Some (me, n)).
  { apply find_enter; auto.
    - cbn. rewrite app_length. cbn. lia.
    - cbn. rewrite app_length. cbn. intros x [<-|Hx]; [lia|]. specialize (W x Hx). lia.
    - unfold find_restart. cbn [rs push_r find].
      assert (B0 : block (push_r b s) (length (blocks s)) = b).
      { unfold block. cbn. rewrite app_nth2 by lia. now rewrite Nat.sub_diag. }
      now rewrite B0, Hf. }
  assert (R : runs (Invoke n a) (enter k (push_r b s)) (RInvoke me n a) (enter k (push_r b s))).
  { exists 1. cbn. now rewrite F. }
  exists (mkSt (hs s) (hver (enter k (push_r b s)) + handler_blocks k) (me :: rs s) (blocks (enter k (push_r b s))) (usr (enter k (push_r b s)))).
  cbn [usr hs rs blocks]. split; [now rewrite enter_usr|]. split; [reflexivity|]. split; [reflexivity|]. split.
  - destruct (enter_blocks k (push_r b s)) as [l E]. exists l. rewrite E. cbn. now rewrite <- app_assoc.
  - intros r r' s' H Rr. eapply transfer_result; eauto.
Qed.

(** * error, cerror, warn *)
Lemma assoc_one m (g : V -> prog) n f : assoc n [(m, g)] = Some f -> n = m /\ f = g.
Proof.
  cbn [assoc]. destruct (String.eqb_spec m n) as [->|]; [|discriminate]. intros H. injection H as <-. auto.
Qed.
Lemma error_spec c s r s' : runs (error c) s r s' <->
  (exists v, r = RExc ControlError /\ runs (Signal c) s (RVal v) s') \/ (runs (Signal c) s r s' /\ ~ is_value r).
Proof.
  split.
  - intros H. apply runs_bind_inv in H. destruct H as [(v & s1 & H1 & H2)|H]; [|now right].
    left. exists v. destruct (runs_det _ _ _ _ _ _ H2 (runs_raise ControlError s1)) as [-> ->]. auto.
  - intros [(v & -> & H)|[H Hr]].
    + eapply runs_bind; [exact H|apply runs_raise].
    + now apply runs_bind_other.
Qed.

Definition proceed_block : rblock V St := [("proceed"%string, fun _ => Ret none)].
Lemma cerror_spec c s r s' : let s0 := push_r proceed_block s in let me := length (blocks s) in
  runs (cerror none c) s r s' <->
  (exists s1, s' = pop_r s1 /\
   ((exists a, r = RVal none /\ runs (Signal c) s0 (RInvoke me "proceed"%string a) s1) \/
    (exists v, r = RExc ControlError /\ runs (Signal c) s0 (RVal v) s1) \/
    (runs (Signal c) s0 r s1 /\ ~ is_value r /\ forall n a, r <> RInvoke me n a))).
Proof.
  intros s0 me. unfold cerror. fold proceed_block. split.
  - intros H. apply runs_restarts_inv in H. destruct H as [(n & a & s1 & f & s2 & H1 & Hf & (r0 & H2 & ->) & ->)|(s1 & H1 & -> & Hr)].
    + fold me s0 in H1. apply error_spec in H1. destruct H1 as [(v & E & _)|[H1 _]]; [discriminate|].
      apply assoc_one in Hf. destruct Hf as [-> ->]. destruct (runs_det _ _ _ _ _ _ H2 (runs_ret none s1)) as [-> ->].
      exists s1. split; [reflexivity|]. left. eauto.
    + fold me s0 in H1. apply error_spec in H1. exists s1. split; [reflexivity|]. right.
      destruct H1 as [(v & -> & H1)|[H1 Hv]]; [left; eauto|right; auto].
  - intros (s1 & -> & [(a & -> & H)|[(v & -> & H)|(H & Hv & Hr)]]).
    + eapply (runs_restarts_val _ _ _ "proceed"%string _ _ (fun _ => Ret none)); [|reflexivity|apply runs_ret]. apply error_spec. right. split; [exact H|]. intros [v E]; discriminate.
    + apply runs_restarts_other; [|discriminate]. apply error_spec. left. eauto.
    + apply runs_restarts_other; [|exact Hr]. apply error_spec. right. auto.
Qed.

Definition muffle_block : rblock V St := [("muffle"%string, fun _ => Ret none)].
Definition inner_block : rblock V St := [("_proceed"%string, fun _ => Ret none)].
Definition printed c s : st := mkSt (hs s) (hver s) (rs s) (blocks s) (print_warning c (usr s)).
Lemma runs_eff g s r s' : runs (Eff g) s r s' <->
  r = RVal (snd (g (usr s))) /\ s' = mkSt (hs s) (hver s) (rs s) (blocks s) (fst (g (usr s))).
Proof.
  split.
  - intros [[|f] H]; [discriminate|]. cbn in H. destruct (g (usr s)). injection H as <- <-. auto.
  - intros [-> ->]. exists 1. cbn. now destruct (g (usr s)).
Qed.
Lemma warn_spec c s r s' : let s0 := push_r inner_block (push_r muffle_block s) in let me := length (blocks s) in
  runs (warn none print_warning c) s r s' <->
  (exists s1,
   (* a warning is printed *)
   (r = RVal none /\ s' = printed c (pop_r (pop_r s1)) /\
    ((exists v, runs (Signal c) s0 (RVal v) s1) \/ (exists a, runs (Signal c) s0 (RInvoke (S me) "_proceed"%string a) s1))) \/
   (* muffled *)
   (r = RVal none /\ s' = pop_r (pop_r s1) /\ (exists a, runs (Signal c) s0 (RInvoke me "muffle"%string a) s1)) \/
   (* control goes elsewhere *)
   (s' = pop_r (pop_r s1) /\ runs (Signal c) s0 r s1 /\ ~ is_value r /\
    forall b n a, r = RInvoke b n a -> b <> me /\ b <> S me)).
Proof.
  intros s0 me. unfold warn. fold muffle_block inner_block.
  assert (L : length (blocks (push_r muffle_block s)) = S me) by (cbn; rewrite app_length; cbn; unfold me; lia).
  split.
  - intros H. apply runs_restarts_inv in H.
    destruct H as [(n & a & s1 & f & s2 & H1 & Hf & (r0 & H2 & ->) & ->)|(s1 & H1 & -> & Hr)].
    + (* muffle *)
      apply assoc_one in Hf. destruct Hf as [-> ->]. destruct (runs_det _ _ _ _ _ _ H2 (runs_ret none s1)) as [-> ->].
      apply runs_bind_inv in H1. destruct H1 as [(v & s2 & _ & H1)|[H1 _]].
      { apply runs_eff in H1. destruct H1; discriminate. }
      apply runs_restarts_inv in H1. destruct H1 as [(n' & a' & s3 & f' & s4 & _ & Hf' & (r4 & H4 & E4) & _)|(s3 & H1 & -> & Hr')].
      { apply assoc_one in Hf'. destruct Hf' as [-> ->].
        destruct (runs_det _ _ _ _ _ _ H4 (runs_ret none s3)) as [E _]. rewrite E in E4. discriminate E4. }
      exists s3. right. left. eauto.
    + apply runs_bind_inv in H1. destruct H1 as [(v & s2 & H1 & H2)|[H1 Hv]].
      * apply runs_eff in H2. cbn in H2. destruct H2 as [-> ->].
        apply runs_restarts_inv in H1. destruct H1 as [(n' & a' & s3 & f' & s4 & H1 & Hf' & (r4 & H4 & E4) & ->)|(s3 & H1 & -> & Hr')].
        -- apply assoc_one in Hf'. destruct Hf' as [-> ->].
           destruct (runs_det _ _ _ _ _ _ H4 (runs_ret none s3)) as [_ ->]. rewrite L in H1.
           exists s3. left. split; [reflexivity|]. split; [reflexivity|]. right. eauto.
        -- exists s3. left. split; [reflexivity|]. split; [reflexivity|]. left. eauto.
      * apply runs_restarts_inv in H1. destruct H1 as [(n' & a' & s3 & f' & s4 & H1 & Hf' & (r4 & H4 & E4) & ->)|(s3 & H1 & -> & Hr')].
        { apply assoc_one in Hf'. destruct Hf' as [-> ->].
          destruct (runs_det _ _ _ _ _ _ H4 (runs_ret none s3)) as [E _]. exfalso. apply Hv. exists none. rewrite E4, E. reflexivity. }
        rewrite L in Hr'. exists s3. right. right. split; [reflexivity|]. split; [exact H1|]. split; [exact Hv|].
        intros b n a E. split; intros ->; [apply (Hr n a)|apply (Hr' n a)]; exact E.
  - intros (s1 & [(-> & -> & Hp)|[(-> & -> & a & H)|(-> & H & Hv & Hb)]]).
    + assert (H1 : runs (WithRestarts inner_block (Signal c)) (push_r muffle_block s) (RVal none) (pop_r s1) \/
                   exists v, runs (WithRestarts inner_block (Signal c)) (push_r muffle_block s) (RVal v) (pop_r s1)).
      { destruct Hp as [[v Hp]|[a Hp]].
        - right. exists v. apply runs_restarts_other; [exact Hp|discriminate].
        - left. eapply runs_restarts_val; [rewrite L; exact Hp|reflexivity|apply runs_ret]. }
      assert (H2 : exists v, runs (WithRestarts inner_block (Signal c)) (push_r muffle_block s) (RVal v) (pop_r s1))
        by (destruct H1; eauto).
      destruct H2 as [v H2]. change (printed c (pop_r (pop_r s1))) with (pop_r (printed c (pop_r s1))).
      apply runs_restarts_other; [|discriminate]. eapply runs_bind; [exact H2|]. apply runs_eff. auto.
    + eapply (runs_restarts_val _ _ _ "muffle"%string _ _ (fun _ => Ret none)); [|reflexivity|apply runs_ret].
      apply runs_bind_other; [|intros [v E]; discriminate].
      apply runs_restarts_other; [exact H|]. rewrite L. intros n' a' E. injection E as E _ _. fold me in E. lia.
    + apply runs_restarts_other.
      * apply runs_bind_other; [|exact Hv]. apply runs_restarts_other; [exact H|].
        rewrite L. intros n a E. now apply (proj2 (Hb _ _ _ E)).
      * intros n a E. now apply (proj1 (Hb _ _ _ E)).
Qed.

(** * resignal *)
Notation resignal_handler := (resignal_handler none sub print_warning).
Notation by_protocol := (by_protocol none print_warning).
Lemma resignal_skip m1 m2 c : (forall lib app, In (lib, app) m1 -> existsb (sub (ctype c)) lib = false) ->
  resignal_handler (m1 ++ m2) c = resignal_handler m2 c :> prog.
Proof.
  induction m1 as [|[lib app] m1 IH]; cbn; intros H; [reflexivity|]. unfold matches. rewrite (H lib app) by now left.
  apply IH. intros l a Hi. apply (H l a). now right.
Qed.
Lemma resignal_first m1 lib app m2 c s r s' :
  (forall lib app, In (lib, app) m1 -> existsb (sub (ctype c)) lib = false) ->
  existsb (sub (ctype c)) lib = true ->
  runs (by_protocol (cproto c) (mkCond app (cproto c) (Some c))) s r s' -> ~ is_value r ->
  runs (resignal_handler (m1 ++ (lib, app) :: m2) c) s r s'.
Proof.
  intros H1 Hm H Hr. rewrite resignal_skip by exact H1. cbn. unfold matches. rewrite Hm. now apply runs_bind_other.
Qed.
Lemma resignal_none m c s : (forall lib app, In (lib, app) m -> existsb (sub (ctype c)) lib = false) ->
  runs (resignal_handler m c) s (RVal none) s.
Proof. intros H. rewrite <- (app_nil_r m), resignal_skip by exact H. apply runs_ret. Qed.

(** A mapping whose target is itself mapped: the handler is called for ever *)
Lemma resignal_loops lib app any rest fuel : existsb (sub app) lib = true -> sub app any = true ->
  forall c s ver, hs s = [([any], resignal_handler [(lib, app)])] :: rest -> sub (ctype c) any = true ->
  existsb (sub (ctype c)) lib = true ->
  exec fuel (Run (Signal c)) s = None /\
  exec fuel (Offer c [] (hs s) (hver s)) s = None /\
  exec fuel (Offer c [([any], resignal_handler [(lib, app)])] rest ver) s = None /\
  exec fuel (Run (resignal_handler [(lib, app)] c)) s = None /\
  (forall p : protocol, exec fuel (Run (by_protocol p (mkCond app p (Some c)))) s = None) /\
  (forall (p : protocol) (k : V -> prog), exec fuel (Run (Bind (by_protocol p (mkCond app p (Some c))) k)) s = None) /\
  (forall (p : protocol) (k : V -> prog), exec fuel (Run (Bind (Signal (mkCond app p (Some c))) k)) s = None) /\
  (forall (p : protocol) b, exec fuel (Run (WithRestarts b (Signal (mkCond app p (Some c))))) s = None) /\
  (forall (p : protocol) b (k : V -> prog), exec fuel (Run (Bind (WithRestarts b (Signal (mkCond app p (Some c)))) k)) s = None).
Proof.
  intros Ha Hany. induction fuel as [|fuel IH]; intros c s ver Hs Hc Hl; [repeat split; reflexivity|].
  destruct (IH c s ver Hs Hc Hl) as (I1 & I2 & I3 & I4 & I5 & I6 & I7 & I8 & I9).
  assert (Isig : forall (p : protocol) s, hs s = [([any], resignal_handler [(lib, app)])] :: rest ->
     exec fuel (Run (Signal (mkCond app p (Some c)))) s = None)
    by (intros p s0 Hs0; apply (IH (mkCond app p (Some c)) s0 ver); auto).
  repeat split.
  - cbn. exact I2.
  - cbn. rewrite Nat.eqb_refl, Hs. destruct (IH c s (hver s) Hs Hc Hl) as (_ & _ & J & _). exact J.
  - cbn [CondModel.exec]. unfold matches. cbn [existsb]. rewrite Hc. cbn [orb]. rewrite I4. reflexivity.
  - cbn [CondModel.resignal_handler]. unfold matches. rewrite Hl.
    cbn [CondModel.exec]. rewrite I5. reflexivity.
  - intros p. destruct p; cbn [CondModel.by_protocol].
    + cbn [CondModel.exec]. destruct fuel as [|fuel']; [reflexivity|].
      pose proof (Isig PSignal s Hs) as J. cbn [CondModel.exec] in J. apply (proj1 (proj2 (IH (mkCond app PSignal (Some c)) s ver Hs Hany Ha))).
    + unfold error. cbn [CondModel.exec]. rewrite (Isig PError s Hs). reflexivity.
    + unfold cerror. cbn [CondModel.exec].
      destruct (IH c (push_r [("proceed"%string, fun _ => Ret none)] s) ver Hs Hc Hl) as (_ & _ & _ & _ & _ & _ & J & _).
      rewrite J. reflexivity.
    + unfold warn. cbn [CondModel.exec].
      destruct (IH c (push_r [("muffle"%string, fun _ => Ret none)] s) ver Hs Hc Hl) as (_ & _ & _ & _ & _ & _ & _ & _ & J).
      rewrite J. reflexivity.
  - intros p k. cbn [CondModel.exec]. rewrite I5. reflexivity.
  - intros p k. cbn [CondModel.exec]. rewrite (Isig p s Hs). reflexivity.
  - intros p b. cbn [CondModel.exec]. rewrite (Isig p (push_r b s) Hs). reflexivity.
  - intros p b k. cbn [CondModel.exec]. rewrite I8. reflexivity.
Qed.
End CondProofs.
