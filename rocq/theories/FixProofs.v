(** Proofs for C39 and C40: bookkeeping and the result (memo off). *)
From Coq Require Import List Arith Lia.
From Verif Require Import Base FixModel FixSpec.
Import ListNotations.
Open Scope list_scope.

Section FixProofs.
Context {A V St : Type}.
Variable eqA : forall x y : A, {x = y} + {x <> y}.
Variable body : nat -> A -> prog A V St.
Variable bottom : nat -> nat -> A -> outcome V.
Variables tco memo : bool.
Notation exec := (exec eqA body bottom tco memo).
Notation remove1 := (remove1 eqA).
Notation remove_all := (remove_all eqA).
Notation kdec := (key_dec eqA).

Lemma exec_mono fuel : forall t s x fuel', exec fuel t s = Some x -> fuel <= fuel' -> exec fuel' t s = Some x.
Proof.
  induction fuel as [|fuel IH]; intros t s x fuel' H Hle; [discriminate|].
  destruct fuel' as [|fuel']; [lia|].
  assert (IH' : forall t s x, exec fuel t s = Some x -> exec fuel' t s = Some x)
    by (intros; eapply IH; eauto; lia).
  clear IH Hle.
  destruct t as [p|i a|ow a|ow a r]; cbn in H |- *.
  - destruct p as [v|e|g k|j b k|j b]; auto.
    destruct (exec fuel (CallFix j b) s) as [[r1 s1]|] eqn:E1; [|discriminate].
    rewrite (IH' _ _ _ E1). destruct (outcome_of r1) as [o|]; auto.
  - destruct (in_dec kdec (KFix i a) (visited s)) as [Hin|Hin]; auto.
    destruct (from_memo eqA memo (i, a) _) as [o|]; auto.
    destruct (exec fuel _ _) as [[r1 s1]|] eqn:E1; [|discriminate].
    rewrite (IH' _ _ _ E1). exact H.
  - destruct (stack s) as [|t rest]; auto.
    destruct (exec fuel _ s) as [[r1 s1]|] eqn:E1; [|discriminate].
    rewrite (IH' _ _ _ E1). auto.
  - destruct (stack s) as [|t rest]; auto. destruct r as [v|e|j b]; auto.
    destruct (in_dec kdec (KEntry j b) (visited s)); auto.
Qed.

Lemma exec_agree f1 f2 t s x y : exec f1 t s = Some x -> exec f2 t s = Some y -> x = y.
Proof.
  intros H1 H2. destruct (Nat.le_ge_cases f1 f2) as [L|L].
  - rewrite (exec_mono _ _ _ _ _ H1 L) in H2. congruence.
  - rewrite (exec_mono _ _ _ _ _ H2 L) in H1. congruence.
Qed.

(** * Sets *)
Lemma remove1_in k l l' : remove1 k l = Some l' -> forall x, In x l -> x <> k -> In x l'.
Proof.
  revert l'. induction l as [|y l IH]; cbn; intros l' H x Hx Hne; [discriminate|].
  destruct (kdec y k) as [->|Hy].
  - injection H as <-. destruct Hx as [->|Hx]; [congruence|exact Hx].
  - destruct (remove1 k l) as [l1|]; [|discriminate]. injection H as <-.
    destruct Hx as [->|Hx]; [now left|right; eauto].
Qed.
Lemma remove1_none k l : remove1 k l = None -> ~ In k l.
Proof.
  induction l as [|y l IH]; cbn; [auto|]. destruct (kdec y k) as [->|Hy]; [discriminate|].
  destruct (remove1 k l); [discriminate|]. intros _ [->|H]; [congruence|]. now apply IH.
Qed.
Lemma remove_all_in ks l l' : remove_all ks l = Some l' -> forall x, In x l -> ~ In x ks -> In x l'.
Proof.
  revert l. induction ks as [|k ks IH]; cbn; intros l H x Hx Hn; [congruence|].
  destruct (remove1 k l) as [l1|] eqn:E; [|discriminate]. eapply IH; eauto.
  eapply remove1_in; eauto.
Qed.
Lemma remove1_head k l : remove1 k (k :: l) = Some l.
Proof. cbn. destruct (kdec k k); congruence. Qed.
Lemma remove_all_prefix ks l : remove_all ks (ks ++ l) = Some l.
Proof. induction ks as [|k ks IH]; cbn; [reflexivity|]. destruct (kdec k k); [exact IH|congruence]. Qed.

(** * Bookkeeping, in every case *)
Lemma balance fuel : forall t s r s', exec fuel t s = Some (r, s') ->
  match t with
  | Body _ => stack s' = stack s /\ incl (visited s) (visited s')
  | CallFix _ _ => stack s' = stack s /\ incl (visited s) (visited s') /\ (visited s = [] -> visited s' = [])
  | Chain _ _ | After _ _ _ => forall t0 rest, stack s = t0 :: rest ->
      (exists t1, stack s' = t1 :: rest) /\
      (forall k, In k (visited s) -> ~ In k (cleanup t0) -> In k (visited s'))
  end.
Proof.
  induction fuel as [|fuel IH]; intros t s r s' H; [discriminate|].
  destruct t as [p|i a|ow a|ow a r0]; cbn in H.
  - destruct p as [v|e|g k|j b k|j b].
    + injection H as <- <-. split; [reflexivity|apply incl_refl].
    + injection H as <- <-. split; [reflexivity|apply incl_refl].
    + apply IH in H. exact H.
    + destruct (exec fuel (CallFix j b) s) as [[r1 s1]|] eqn:E1; [|discriminate].
      destruct (outcome_of r1) as [o|]; [|discriminate].
      apply IH in E1. apply IH in H. destruct E1 as (E1 & I1 & _). destruct H as (E2 & I2).
      split; [congruence|]. eapply incl_tran; eauto.
    + injection H as <- <-. split; [reflexivity|apply incl_refl].
  - destruct (in_dec kdec (KFix i a) (visited s)) as [Hin|Hin].
    { injection H as <- <-. split; [reflexivity|]. split; [apply incl_refl|auto]. }
    set (s1 := mkSt (KFix i a :: visited s) (mkFrame i [] :: stack s) (memos s) (usr s)) in *.
    set (mp := match visited s with [] => true | _ => false end) in *.
    assert (F : forall r0 s2 t1, stack s2 = t1 :: stack s -> incl (KFix i a :: visited s) (visited s2) ->
              finish eqA mp (KFix i a) r0 s2 = (r, s') ->
              stack s' = stack s /\ incl (visited s) (visited s') /\ (visited s = [] -> visited s' = [])).
    { intros r0 s2 t1 Hst Hinc Hf. unfold finish in Hf. rewrite Hst in Hf.
      destruct mp eqn:Emp.
      - injection Hf as <- <-. unfold mp in Emp. destruct (visited s); [|discriminate].
        split; [reflexivity|]. split; [apply incl_refl|reflexivity].
      - destruct (remove1 (KFix i a) (visited s2)) as [vis|] eqn:Er.
        + injection Hf as <- <-. split; [reflexivity|]. cbn.
          split; [|unfold mp in Emp; intros X; rewrite X in Emp; discriminate].
          intros x Hx. eapply remove1_in; eauto; [apply Hinc; now right|congruence].
        + exfalso. apply remove1_none in Er. apply Er, Hinc. now left. }
    destruct (from_memo eqA memo (i, a) s1) as [o|].
    + injection H as H. eapply (F (result_of o) s1); eauto; [reflexivity|apply incl_refl].
    + destruct (exec fuel _ s1) as [[r1 s2]|] eqn:E1; [|discriminate].
      assert (X : exists t1, stack s2 = t1 :: stack s /\ incl (KFix i a :: visited s) (visited s2)).
      { apply IH in E1. destruct tco.
        - destruct (E1 _ _ eq_refl) as ((t1 & Hst) & Hk). exists t1. split; [exact Hst|].
          intros x Hx. apply Hk; [exact Hx|cbn; auto].
        - destruct E1 as (Hst & Hk). exists (mkFrame i []). split; assumption. }
      destruct X as (t1 & Hst & Hinc).
      assert (Hm : forall r, stack (memoized memo (i, a) r s2) = stack s2 /\ visited (memoized memo (i, a) r s2) = visited s2).
      { intros r2. unfold memoized. destruct memo; [|auto]. destruct (outcome_of r2); auto. }
      destruct r1 as [v|e|]; [| |discriminate]; injection H as H;
        (eapply F; [| |exact H]; [rewrite (proj1 (Hm _)); exact Hst|rewrite (proj2 (Hm _)); exact Hinc]).
  - intros t0 rest Hst. rewrite Hst in H.
    destruct (exec fuel _ s) as [[r1 s1]|] eqn:E1; [|discriminate].
    apply IH in E1. destruct E1 as (E1 & I1). rewrite Hst in E1.
    apply IH in H. destruct (H _ _ E1) as (X & Hk). split; [exact X|]. intros k Hk1. apply Hk. now apply I1.
  - intros t0 rest Hst. rewrite Hst in H.
    assert (C : forall r1, clean eqA t0 r1 s = (r, s') -> (exists t1, stack s' = t1 :: rest) /\
      (forall k, In k (visited s) -> ~ In k (cleanup t0) -> In k (visited s'))).
    { intros r1 Hc. unfold clean in Hc. destruct (remove_all (cleanup t0) (visited s)) as [vis|] eqn:Er.
      - injection Hc as <- <-. split; [eauto|]. cbn. intros k Hk Hn. eapply remove_all_in; eauto.
      - injection Hc as <- <-. split; eauto. }
    destruct r0 as [v|e|j b].
    + injection H as H. eauto.
    + injection H as <- <-. split; eauto.
    + destruct (in_dec kdec (KEntry j b) (visited s)) as [Hin|Hin]; [injection H as H; eauto|].
      apply IH in H. destruct (H _ _ eq_refl) as (X & Hk). split; [exact X|].
      intros k Hk1 Hk2. apply Hk; cbn; [now right|]. intros [<-|Hc]; [contradiction|contradiction].
Qed.

(** * Bookkeeping, for the programs that [usable] describes: exactly as before *)
Lemma tco_cases : tco = true \/ tco = false.
Proof. destruct tco; auto. Qed.
Section Usable.
Hypothesis Hu : usable body bottom tco.

Definition good (p : prog A V St) : Prop := if tco then no_raise p else no_jump p.
Definition no_exc (r : result A V) : Prop := tco = true -> match r with RExc _ => False | _ => True end.
Definition memok (s : st A V St) : Prop := tco = true -> forall c o, In (c, o) (memos s) -> exists v, o = Ok v.

Lemma good_body i a : good (body i a).
Proof. unfold good. unfold usable in Hu. destruct tco; [apply (proj1 Hu)|apply Hu]. Qed.
Lemma bottom_ok ow j a : no_exc (result_of (bottom ow j a)).
Proof. intros T. unfold usable in Hu. rewrite T in Hu. destruct (proj2 Hu ow j a) as [v ->]. exact I. Qed.
Lemma lookup_in c m (o : outcome V) : lookup eqA c m = Some o -> exists c', c' = c /\ In (c', o) m.
Proof.
  induction m as [|[c' o'] m IH]; cbn; [discriminate|]. destruct (call_dec eqA c' c) as [->|Hn].
  - intros H. injection H as ->. eauto.
  - intros H. destruct (IH H) as (x & Hx & Hi). eauto.
Qed.

Lemma exact fuel : forall t s r s', exec fuel t s = Some (r, s') -> memok s ->
  match t with
  | Body p => good p -> memok s' /\ stack s' = stack s /\ visited s' = visited s /\ no_exc r
  | CallFix _ _ => memok s' /\ stack s' = stack s /\ visited s' = visited s /\ no_exc r
  | Chain _ _ => forall t0 rest base, tco = true -> stack s = t0 :: rest -> visited s = cleanup t0 ++ base ->
      memok s' /\ (exists t1, stack s' = t1 :: rest) /\ visited s' = base /\ no_exc r
  | After _ _ r0 => forall t0 rest base, tco = true -> no_exc r0 -> stack s = t0 :: rest -> visited s = cleanup t0 ++ base ->
      memok s' /\ (exists t1, stack s' = t1 :: rest) /\ visited s' = base /\ no_exc r
  end.
Proof.
  induction fuel as [|fuel IH]; intros t s r s' H Hm; [discriminate|].
  destruct t as [p|i a|ow a|ow a r0]; cbn in H.
  - intros Hg. destruct p as [v|e|g k|j b k|j b].
    + injection H as <- <-. split; [exact Hm|]. split; [reflexivity|]. split; [reflexivity|]. intros _; exact I.
    + injection H as <- <-. split; [exact Hm|]. split; [reflexivity|]. split; [reflexivity|]. intros T. unfold good in Hg. rewrite T in Hg. inversion Hg.
    + apply IH in H; [|exact Hm]. apply H. unfold good in *. destruct tco; inversion Hg; subst; auto.
    + destruct (exec fuel (CallFix j b) s) as [[r1 s1]|] eqn:E1; [|discriminate].
      destruct (outcome_of r1) as [o|] eqn:Eo; [|discriminate].
      apply IH in E1; [|exact Hm]. destruct E1 as (M1 & S1 & V1 & N1).
      assert (Hk : good (k o)).
      { unfold good in *. destruct tco eqn:T; inversion Hg as [| |? ? ? Hk|]; subst; auto.
        destruct r1; cbn in Eo; try discriminate; [injection Eo as <-; auto|destruct (N1 T)]. }
      apply IH in H; [|exact M1]. destruct (H Hk) as (M2 & S2 & V2 & N2). split; [exact M2|]. split; [congruence|]. split; [congruence|exact N2].
    + injection H as <- <-. split; [exact Hm|]. split; [reflexivity|]. split; [reflexivity|]. intros _; exact I.
  - destruct (in_dec kdec (KFix i a) (visited s)) as [Hin|Hin].
    { injection H as <- <-. split; [exact Hm|]. split; [reflexivity|]. split; [reflexivity|]. apply bottom_ok. }
    set (s1 := mkSt (KFix i a :: visited s) (mkFrame i [] :: stack s) (memos s) (usr s)) in *.
    set (mp := match visited s with [] => true | _ => false end) in *.
    assert (F : forall r0 s2 t1, memok s2 -> no_exc r0 -> stack s2 = t1 :: stack s -> visited s2 = KFix i a :: visited s ->
              finish eqA mp (KFix i a) r0 s2 = (r, s') ->
              memok s' /\ stack s' = stack s /\ visited s' = visited s /\ no_exc r).
    { intros r0 s2 t1 Hm2 Hn Hst Hv Hf. unfold finish in Hf. rewrite Hst, Hv, remove1_head in Hf.
      destruct mp eqn:Emp; injection Hf as <- <-; (split; [exact Hm2|]; split; [reflexivity|]; split; [|exact Hn]); [|reflexivity].
      unfold mp in Emp. destruct (visited s); [reflexivity|discriminate]. }
    destruct (from_memo eqA memo (i, a) s1) as [o|] eqn:Em.
    + injection H as H. apply (F (result_of o) s1 (mkFrame i [])); [exact Hm| |reflexivity|reflexivity|exact H].
      intros T. unfold from_memo in Em. destruct memo; [|discriminate].
      destruct (lookup_in _ _ _ Em) as (c & _ & Hi). destruct (Hm T _ _ Hi) as [v ->]. exact I.
    + destruct (exec fuel _ s1) as [[r1 s2]|] eqn:E1; [|discriminate].
      assert (X : memok s2 /\ (exists t1, stack s2 = t1 :: stack s) /\ visited s2 = KFix i a :: visited s /\ no_exc r1).
      { apply IH in E1; [|exact Hm]. destruct tco_cases as [T|T]; rewrite T in E1.
        - apply (E1 (mkFrame i []) (stack s) (KFix i a :: visited s)); reflexivity.
        - destruct (E1 (good_body _ _)) as (M & S1 & V1 & N1). split; [exact M|]. split; [exists (mkFrame i []); exact S1|]. split; [exact V1|exact N1]. }
      destruct X as (M2 & (t1 & S2) & V2 & N2).
      assert (Hmm : memok (memoized memo (i, a) r1 s2)).
      { intros T c o Hi. unfold memoized in Hi. destruct memo; [|eauto].
        destruct r1 as [v|e|j b]; cbn in Hi; [|destruct (N2 T)|eauto].
        destruct Hi as [Hi|Hi]; [injection Hi as <- <-; eauto|eauto]. }
      assert (Hmp : forall r, stack (memoized memo (i, a) r s2) = stack s2 /\ visited (memoized memo (i, a) r s2) = visited s2).
      { intros r2. unfold memoized. destruct memo; [|auto]. destruct (outcome_of r2); auto. }
      destruct r1 as [v|e|]; [| |discriminate]; injection H as H;
        (eapply F; [exact Hmm|exact N2| | |exact H]; [rewrite (proj1 (Hmp _)); exact S2|rewrite (proj2 (Hmp _)); exact V2]).
  - intros t0 rest base T Hst Hv. rewrite Hst in H.
    destruct (exec fuel _ s) as [[r1 s1]|] eqn:E1; [|discriminate].
    apply IH in E1; [|exact Hm]. destruct (E1 (good_body _ _)) as (M1 & S1 & V1 & N1).
    apply IH in H; [|exact M1]. apply (H t0 rest base); auto; congruence.
  - intros t0 rest base T Hn Hst Hv. rewrite Hst in H.
    assert (C : forall r1, no_exc r1 -> clean eqA t0 r1 s = (r, s') -> memok s' /\ (exists t1, stack s' = t1 :: rest) /\
      visited s' = base /\ no_exc r).
    { intros r1 Hn1 Hc. unfold clean in Hc. rewrite Hv, remove_all_prefix in Hc. injection Hc as <- <-.
      split; [exact Hm|]. split; [eauto|]. split; [reflexivity|exact Hn1]. }
    destruct r0 as [v|e|j b].
    + injection H as H. eauto.
    + destruct (Hn T).
    + destruct (in_dec kdec (KEntry j b) (visited s)) as [Hin|Hin].
      * injection H as H. exact (C _ (bottom_ok _ _ _) H).
      * apply IH in H; [|exact Hm]. apply (H _ rest base T eq_refl). cbn. now rewrite Hv.
Qed.

Lemma no_jump_result fuel p s r s' : tco = false -> exec fuel (Body p) s = Some (r, s') -> no_jump p ->
  match r with RJump _ _ => False | _ => True end.
Proof.
  intros T. revert p s r s'. induction fuel as [|fuel IH]; intros p s r s' H Hp; [discriminate|].
  destruct Hp as [v|e|g k Hk|j b k Hk]; cbn in H.
  - injection H as <- _. exact I.
  - injection H as <- _. exact I.
  - eapply IH; eauto.
  - destruct (exec fuel (CallFix j b) s) as [[r1 s1]|]; [|discriminate].
    destruct (outcome_of r1) as [o|]; [|discriminate]. eapply IH; eauto.
Qed.
Lemma chain_result fuel : forall s r s',
  (forall ow a, exec fuel (Chain ow a) s = Some (r, s') -> exists o, r = result_of o) /\
  (forall ow a r0, exec fuel (After ow a r0) s = Some (r, s') -> exists o, r = result_of o).
Proof.
  induction fuel as [|fuel IH]; intros s r s'; split; try discriminate; cbn.
  - intros ow a H. destruct (stack s); [injection H as <- _; now exists (Raise IndexError)|].
    destruct (exec fuel _ s) as [[r1 s1]|]; [|discriminate]. apply IH in H. exact H.
  - intros ow a r0 H. destruct (stack s); [injection H as <- _; now exists (Raise IndexError)|].
    assert (C : forall t0 o, clean eqA t0 (result_of o) s = (r, s') -> exists o, r = result_of o).
    { intros t0 o Hc. unfold clean in Hc. destruct (remove_all _ _); injection Hc as <- _; [eauto|now exists (Raise KeyError)]. }
    destruct r0 as [v|e|j b].
    + injection H as H. eapply (C _ (Ok v)); eauto.
    + injection H as <- _. now exists (Raise e).
    + destruct (in_dec kdec (KEntry j b) (visited s)); [injection H as H; eauto|]. apply IH in H. exact H.
Qed.

Lemma run_result fuel i a s r s' : exec fuel (if tco then Chain i a else Body (body i a)) s = Some (r, s') ->
  (tco = false -> no_jump (body i a)) -> match r with RJump _ _ => False | _ => True end.
Proof.
  intros E Hj. destruct tco_cases as [T|T].
  - assert (E' : exec fuel (Chain i a) s = Some (r, s')) by (clear - E T; destruct tco; [exact E|discriminate T]).
    apply chain_result in E'. destruct E' as [[v|e] ->]; exact I.
  - assert (E' : exec fuel (Body (body i a)) s = Some (r, s')) by (clear - E T; destruct tco; [discriminate T|exact E]).
    eapply no_jump_result; eauto.
Qed.

Lemma finish_result mp me o (s : st A V St) r s' : finish eqA mp me (result_of o) s = (r, s') -> exists o, r = result_of o.
Proof.
  unfold finish. intros Hf. destruct (stack s); [injection Hf as <- _; now exists (Raise IndexError)|].
  destruct mp; [injection Hf as <- _; eauto|].
  destruct (remove1 _ _); injection Hf as <- _; [eauto|now exists (Raise KeyError)].
Qed.
Lemma callfix_result fuel i a s r s' : exec fuel (CallFix i a) s = Some (r, s') -> exists o, r = result_of o.
Proof.
  destruct fuel as [|fuel]; [discriminate|]. cbn [FixModel.exec].
  destruct (in_dec kdec (KFix i a) (visited s)) as [Hin|Hin]; [intros H; injection H as <- _; eauto|].
  destruct (from_memo eqA memo (i, a) _) as [o|].
  - intros H. injection H as H. eapply finish_result; eauto.
  - destruct (exec fuel _ _) as [[[v|e|] s2]|]; try discriminate; intros H; injection H as H.
    + apply (finish_result _ _ (Ok v)) in H. exact H.
    + apply (finish_result _ _ (Raise e)) in H. exact H.
Qed.

(** * The result, memo off *)
Section NoMemo.
Hypothesis Hmemo : memo = false.
Notation cyc := (cycles body bottom).

Lemma sound fuel : forall t s r s', exec fuel t s = Some (r, s') -> memok s ->
  match t with
  | Body p => good p ->
      match r with
      | RVal v => forall ow a, cyc (visited s) ow a p (usr s) (Ok v) (usr s')
      | RExc e => forall ow a, cyc (visited s) ow a p (usr s) (Raise e) (usr s')
      | RJump j b => forall ow a o u', cyc (visited s) ow a (JumpTo j b) (usr s') o u' -> cyc (visited s) ow a p (usr s) o u'
      end
  | CallFix i a => exists o, r = result_of o /\
      ((In (KFix i a) (visited s) /\ o = bottom i i a /\ usr s' = usr s) \/
       (~ In (KFix i a) (visited s) /\ cyc (KFix i a :: visited s) i a (body i a) (usr s) o (usr s')))
  | Chain ow a => forall t0 rest base, tco = true -> stack s = t0 :: rest -> visited s = cleanup t0 ++ base ->
      exists o, r = result_of o /\ cyc (visited s) ow a (body (target t0) a) (usr s) o (usr s')
  | After ow a r0 => forall t0 rest base, tco = true -> no_exc r0 -> stack s = t0 :: rest -> visited s = cleanup t0 ++ base ->
      exists o, r = result_of o /\
      match r0 with
      | RVal v => o = Ok v /\ usr s' = usr s
      | RJump j b => cyc (visited s) ow a (JumpTo j b) (usr s) o (usr s')
      | RExc e => False
      end
  end.
Proof.
  induction fuel as [|fuel IH]; intros t s r s' H Hm; [discriminate|].
  destruct t as [p|i a|ow a|ow a r0]; cbn in H.
  - intros Hg. destruct p as [v|e|g k|j b k|j b].
    + injection H as <- <-. constructor.
    + injection H as <- <-. constructor.
    + apply IH in H; [|exact Hm]. cbn in H.
      assert (Hk : good (k (g (usr s)))) by (unfold good in *; destruct tco; inversion Hg; subst; auto).
      specialize (H Hk). destruct r; intros; constructor; auto.
    + destruct (exec fuel (CallFix j b) s) as [[r1 s1]|] eqn:E1; [|discriminate].
      destruct (outcome_of r1) as [o|] eqn:Eo; [|discriminate].
      pose proof (exact _ _ _ _ _ E1 Hm) as (M1 & S1 & V1 & N1).
      assert (Hk : good (k o)).
      { unfold good in *. destruct tco eqn:T; inversion Hg as [| |? ? ? Hk|]; subst; auto.
        destruct r1; cbn in Eo; try discriminate; [injection Eo as <-; auto|destruct (N1 T)]. }
      apply IH in E1; [|exact Hm]. destruct E1 as (o1 & Er1 & Hc1). subst r1.
      assert (o1 = o) by (destruct o1; cbn in Eo; congruence). subst o1. clear Eo.
      apply IH in H; [|exact M1]. specialize (H Hk). rewrite V1 in H.
      destruct Hc1 as [(Hi & Eo & Eu)|(Hi & Hc)].
      * rewrite Eu in H. destruct r; intros; apply CyCycle; auto; rewrite <- Eo; auto.
      * destruct r; intros; eapply CyCall; eauto.
    + injection H as <- <-. auto.
  - destruct (in_dec kdec (KFix i a) (visited s)) as [Hin|Hin].
    { injection H as <- <-. exists (bottom i i a). auto. }
    set (s1 := mkSt (KFix i a :: visited s) (mkFrame i [] :: stack s) (memos s) (usr s)) in *.
    set (mp := match visited s with [] => true | _ => false end) in *.
    assert (Em : from_memo eqA memo (i, a) s1 = None) by (unfold from_memo; now rewrite Hmemo).
    assert (Emm : forall r2 s2, memoized memo (i, a) r2 s2 = s2 :> st A V St) by (intros; unfold memoized; now rewrite Hmemo).
    rewrite Em in H.
    destruct (exec fuel _ s1) as [[r1 s2]|] eqn:E1; [|discriminate].
    assert (X : exists o, r1 = result_of o /\ (exists t1, stack s2 = t1 :: stack s) /\ visited s2 = KFix i a :: visited s /\
       cyc (KFix i a :: visited s) i a (body i a) (usr s) o (usr s2)).
    { pose proof (exact _ _ _ _ _ E1 Hm) as Ex. pose proof (IH _ _ _ _ E1 Hm) as Sx.
      destruct tco_cases as [T|T]; rewrite T in Ex, Sx.
      - destruct (Ex (mkFrame i []) (stack s) (KFix i a :: visited s)) as (_ & S2 & V2 & _); auto.
        destruct (Sx (mkFrame i []) (stack s) (KFix i a :: visited s)) as (o & Eo & Hc); auto.
        exists o. auto.
      - destruct (Ex (good_body _ _)) as (_ & S2 & V2 & _).
        assert (E1' : exec fuel (Body (body i a)) s1 = Some (r1, s2)) by (clear - E1 T; destruct tco; [discriminate T|exact E1]).
        pose proof (no_jump_result _ _ _ _ _ T E1') as Nj.
        specialize (Sx (good_body _ _)). pose proof (good_body i a) as Gb. unfold good in Gb. rewrite T in Gb.
        specialize (Nj Gb). destruct r1 as [v|e|]; [exists (Ok v)|exists (Raise e)|contradiction];
          (split; [reflexivity|]; split; [exists (mkFrame i []); exact S2|]; split; [exact V2|apply Sx]). }
    destruct X as (o & -> & (t1 & S2) & V2 & Hc).
    assert (Hf : finish eqA mp (KFix i a) (result_of o) s2 = (r, s'))
      by (destruct o; cbn [result_of] in H |- *; rewrite Emm in H; injection H as H; exact H).
    unfold finish in Hf. rewrite S2, V2, remove1_head in Hf.
    exists o. destruct mp; injection Hf as <- <-; (split; [reflexivity|right; split; [exact Hin|exact Hc]]).
  - intros t0 rest base T Hst Hv. rewrite Hst in H.
    destruct (exec fuel _ s) as [[r1 s1]|] eqn:E1; [|discriminate].
    destruct (exact _ _ _ _ _ E1 Hm (good_body _ _)) as (M1 & S1 & V1 & N1).
    pose proof (IH _ _ _ _ E1 Hm (good_body _ _)) as B.
    apply IH in H; [|exact M1]. destruct (H t0 rest base T N1) as (o & Er & Ho); [congruence|congruence|].
    exists o. split; [exact Er|]. destruct r1 as [v|e|j b].
    + destruct Ho as [-> ->]. apply B.
    + contradiction.
    + rewrite V1 in Ho. apply B. exact Ho.
  - intros t0 rest base T Hn Hst Hv. rewrite Hst in H.
    assert (C : forall r1, clean eqA t0 r1 s = (r, s') -> r = r1 /\ usr s' = usr s).
    { intros r1 Hc. unfold clean in Hc. rewrite Hv, remove_all_prefix in Hc. injection Hc as <- <-. auto. }
    destruct r0 as [v|e|j b].
    + injection H as H. apply C in H. destruct H as [-> ->]. exists (Ok v). auto.
    + destruct (Hn T).
    + destruct (in_dec kdec (KEntry j b) (visited s)) as [Hin|Hin].
      * injection H as H. apply C in H. destruct H as [-> ->]. exists (bottom ow j a).
        split; [reflexivity|]. apply CyJumpCycle. exact Hin.
      * apply IH in H; [|exact Hm]. destruct (H _ rest base T eq_refl) as (o & Er & Ho); [cbn; now rewrite Hv|].
        exists o. split; [exact Er|]. apply CyJump; auto.
Qed.
End NoMemo.

(** * The result of calls that end without the decorator *)
Notation plain := (plain body).
Lemma plain_det n p o : plain n p o -> forall m o', plain m p o' -> n = m /\ o = o'.
Proof.
  induction 1 as [v|e|j b k n1 o1 n2 o H1 IH1 H2 IH2|j b n o H IH]; intros m o' H'; inversion H' as [| |? ? ? m1 q1 m2 ? G1 G2|? ? m1 ? G]; subst; auto.
  - destruct (IH1 _ _ G1) as [-> ->]. destruct (IH2 _ _ G2) as [-> ->]. auto.
  - destruct (IH _ _ G) as [-> ->]. auto.
Qed.

Definition fn_of (k : key A) : prog A V St := match k with KFix i a | KEntry i a => body i a end.
(** [p] is part of the evaluation of every call in [path] that ends on its own *)
Definition genuine (path : list (key A)) (p : prog A V St) : Prop :=
  forall k h o, In k path -> plain h (fn_of k) o -> exists h' o', plain h' p o' /\ h' <= h.
Definition genuine_call (path : list (key A)) (p : prog A V St) : Prop :=
  forall k h o, In k path -> plain h (fn_of k) o -> exists h' o', plain h' p o' /\ h' < h.
Definition memo_sound (s : st A V St) : Prop :=
  forall i a o, In ((i, a), o) (memos s) -> forall h o', plain h (body i a) o' -> o = o'.

Lemma genuine_push path k : genuine_call path (fn_of k) -> genuine (k :: path) (fn_of k).
Proof.
  intros H x h o [<-|Hx] Hp; [eauto|]. destruct (H _ _ _ Hx Hp) as (h' & o' & Hp' & L). exists h', o'. split; [exact Hp'|lia].
Qed.
Lemma genuine_in path k : genuine_call path (fn_of k) -> In k path -> forall h o, ~ plain h (fn_of k) o.
Proof.
  intros H Hi h o Hp. destruct (H _ _ _ Hi Hp) as (h' & o' & Hp' & L).
  destruct (plain_det _ _ _ Hp _ _ Hp'). lia.
Qed.
Lemma genuine_CallP path j b k : genuine path (CallP j b k) -> genuine_call path (body j b).
Proof.
  intros H x h o Hx Hp. destruct (H _ _ _ Hx Hp) as (h' & o' & Hp' & L).
  inversion Hp'; subst. exists n1, o1. split; [assumption|lia].
Qed.
Lemma genuine_CallP_k path j b k o1 : genuine path (CallP j b k) ->
  (forall h o, plain h (body j b) o -> o = o1) -> genuine path (k o1).
Proof.
  intros H Ho x h o Hx Hp. destruct (H _ _ _ Hx Hp) as (h' & o' & Hp' & L).
  inversion Hp' as [| |? ? ? m1 q1 m2 ? G1 G2|]; subst. rewrite (Ho _ _ G1) in G2. exists m2, o'. split; [assumption|lia].
Qed.
Lemma genuine_JumpTo path j b : genuine path (JumpTo j b) -> genuine_call path (body j b).
Proof.
  intros H x h o Hx Hp. destruct (H _ _ _ Hx Hp) as (h' & o' & Hp' & L).
  inversion Hp'; subst. eexists _, _. split; [eassumption|lia].
Qed.

Lemma memo_push i a s (r : result A V) : memo_sound s -> (forall h o, plain h (body i a) o -> r = result_of o) ->
  memo_sound (memoized memo (i, a) r s).
Proof.
  intros Hs Hr i' a' o Hi h o' Hp. unfold memoized in Hi. destruct memo; [|eapply Hs; eauto].
  destruct (outcome_of r) as [o1|] eqn:Eo; [|eapply Hs; eauto].
  destruct Hi as [Hi|Hi]; [|eapply Hs; eauto]. injection Hi as <- <- <-.
  rewrite (Hr _ _ Hp) in Eo. destruct o'; cbn in Eo; congruence.
Qed.
Lemma memoized_fields c r (s : st A V St) : visited (memoized memo c r s) = visited s /\ stack (memoized memo c r s) = stack s.
Proof. unfold memoized. destruct memo; [|auto]. destruct (outcome_of r); auto. Qed.

Lemma genuine_sound fuel : forall t s r s', exec fuel t s = Some (r, s') -> memok s -> memo_sound s ->
  match t with
  | Body p => good p -> genuine (visited s) p ->
      memo_sound s' /\
      match r with
      | RVal v => forall h o, plain h p o -> o = Ok v
      | RExc e => forall h o, plain h p o -> o = Raise e
      | RJump j b => forall h o, plain h p o -> exists h', h' <= h /\ plain h' (JumpTo j b) o
      end
  | CallFix i a => genuine_call (visited s) (body i a) ->
      memo_sound s' /\ forall h o, plain h (body i a) o -> r = result_of o
  | Chain ow a => forall t0 rest base, tco = true -> stack s = t0 :: rest -> visited s = cleanup t0 ++ base ->
      genuine (visited s) (body (target t0) a) ->
      memo_sound s' /\ forall h o, plain h (body (target t0) a) o -> r = result_of o
  | After ow a r0 => forall t0 rest base, tco = true -> no_exc r0 -> stack s = t0 :: rest -> visited s = cleanup t0 ++ base ->
      match r0 with
      | RVal v => memo_sound s' /\ r = RVal v
      | RJump j b => genuine (visited s) (JumpTo j b) ->
          memo_sound s' /\ forall h o, plain h (JumpTo j b) o -> r = result_of o
      | RExc e => True
      end
  end.
Proof.
  induction fuel as [|fuel IH]; intros t s r s' H Hm Hs; [discriminate|].
  destruct t as [p|i a|ow a|ow a r0]; cbn in H.
  - intros Hg Hgen. destruct p as [v|e|g k|j b k|j b].
    + injection H as <- <-. split; [exact Hs|]. intros h o Hp; now inversion Hp.
    + injection H as <- <-. split; [exact Hs|]. intros h o Hp; now inversion Hp.
    + (* effects: no plain evaluation *)
      assert (Hk : good (k (g (usr s)))) by (unfold good in *; destruct tco; inversion Hg; subst; auto).
      assert (Hgk : genuine (visited s) (k (g (usr s)))).
      { intros x h o Hx Hp. destruct (Hgen _ _ _ Hx Hp) as (h' & o' & Hp' & _). inversion Hp'. }
      apply IH in H; [|exact Hm|exact Hs]. destruct (H Hk Hgk) as [Hs' _]. split; [exact Hs'|].
      destruct r; intros h o Hp; inversion Hp.
    + destruct (exec fuel (CallFix j b) s) as [[r1 s1]|] eqn:E1; [|discriminate].
      destruct (outcome_of r1) as [o1|] eqn:Eo; [|discriminate].
      pose proof (exact _ _ _ _ _ E1 Hm) as (M1 & S1 & V1 & N1).
      assert (Hk : good (k o1)).
      { unfold good in *. destruct tco eqn:T; inversion Hg as [| |? ? ? Hk|]; subst; auto.
        destruct r1; cbn in Eo; try discriminate; [injection Eo as <-; auto|destruct (N1 T)]. }
      apply IH in E1; [|exact Hm|exact Hs]. destruct (E1 (genuine_CallP _ _ _ _ Hgen)) as [Hs1 Hr1].
      assert (Ho : forall h o, plain h (body j b) o -> o = o1).
      { intros h o Hp. rewrite (Hr1 _ _ Hp) in Eo. destruct o; cbn in Eo; congruence. }
      apply IH in H; [|exact M1|exact Hs1]. rewrite V1 in H.
      destruct (H Hk (genuine_CallP_k _ _ _ _ _ Hgen Ho)) as [Hs' Hr]. split; [exact Hs'|].
      assert (Hinv : forall h o, plain h (CallP j b k) o -> exists h', h' < h /\ plain h' (k o1) o).
      { intros h o Hp. inversion Hp as [| |? ? ? m1 q1 m2 ? G1 G2|]; subst. rewrite (Ho _ _ G1) in G2.
        exists m2. split; [lia|exact G2]. }
      destruct r as [v|e|j' b']; intros h o Hp; destruct (Hinv _ _ Hp) as (h' & L & Hp'); eauto.
      destruct (Hr _ _ Hp') as (h2 & L2 & Hp2). exists h2. split; [lia|exact Hp2].
    + injection H as <- <-. split; [exact Hs|]. eauto.
  - intros Hgen. destruct (in_dec kdec (KFix i a) (visited s)) as [Hin|Hin].
    { injection H as <- <-. split; [exact Hs|]. intros h o Hp. exfalso.
      exact (genuine_in (visited s) (KFix i a) Hgen Hin _ _ Hp). }
    set (s1 := mkSt (KFix i a :: visited s) (mkFrame i [] :: stack s) (memos s) (usr s)) in *.
    set (mp := match visited s with [] => true | _ => false end) in *.
    assert (F : forall r0 s2 t1, stack s2 = t1 :: stack s -> visited s2 = KFix i a :: visited s ->
              finish eqA mp (KFix i a) r0 s2 = (r, s') -> r = r0 /\ memos s' = memos s2).
    { intros r0 s2 t1 Hst Hv Hf. unfold finish in Hf. rewrite Hst, Hv, remove1_head in Hf.
      destruct mp; injection Hf as <- <-; auto. }
    destruct (from_memo eqA memo (i, a) s1) as [o|] eqn:Em.
    + injection H as H. destruct (F (result_of o) s1 (mkFrame i []) eq_refl eq_refl H) as [-> Hmm].
      split; [unfold memo_sound; rewrite Hmm; exact Hs|]. intros h o' Hp. f_equal.
      unfold from_memo in Em. destruct memo; [|discriminate].
      destruct (lookup_in _ _ _ Em) as (c & -> & Hi). eapply Hs; eauto.
    + destruct (exec fuel _ s1) as [[r1 s2]|] eqn:E1; [|discriminate].
      assert (X : memo_sound s2 /\ (exists t1, stack s2 = t1 :: stack s) /\ visited s2 = KFix i a :: visited s /\
         (forall h o, plain h (body i a) o -> r1 = result_of o)).
      { pose proof (exact _ _ _ _ _ E1 Hm) as Ex. pose proof (IH _ _ _ _ E1 Hm Hs) as Sx.
        pose proof (genuine_push (visited s) (KFix i a) Hgen) as Hgp.
        destruct tco_cases as [T|T]; rewrite T in Ex, Sx.
        - destruct (Ex (mkFrame i []) (stack s) (KFix i a :: visited s)) as (_ & S2 & V2 & _); auto.
          destruct (Sx (mkFrame i []) (stack s) (KFix i a :: visited s)) as (Hs2 & Hr); auto.
        - destruct (Ex (good_body _ _)) as (_ & S2 & V2 & _).
          pose proof (good_body i a) as Gb. unfold good in Gb. rewrite T in Gb.
          assert (E1' : exec fuel (Body (body i a)) s1 = Some (r1, s2)) by (clear - E1 T; destruct tco; [discriminate T|exact E1]).
          pose proof (no_jump_result _ _ _ _ _ T E1' Gb) as Nj.
          destruct (Sx (good_body _ _) Hgp) as [Hs2 Hr].
          split; [exact Hs2|]. split; [exists (mkFrame i []); exact S2|]. split; [exact V2|].
          intros h o Hp. destruct r1 as [v|e|]; [| |contradiction]; rewrite (Hr _ _ Hp); reflexivity. }
      destruct X as (Hs2 & (t1 & S2) & V2 & Hr).
      assert (Hf : finish eqA mp (KFix i a) r1 (memoized memo (i, a) r1 s2) = (r, s'))
        by (destruct r1; congruence).
      destruct (memoized_fields (i, a) r1 s2) as [Fv Fs]. rewrite V2 in Fv. rewrite S2 in Fs.
      destruct (F _ _ _ Fs Fv Hf) as [-> Hmm]. split; [|exact Hr].
      unfold memo_sound. rewrite Hmm. now apply memo_push.
  - intros t0 rest base T Hst Hv Hgen. rewrite Hst in H.
    destruct (exec fuel _ s) as [[r1 s1]|] eqn:E1; [|discriminate].
    destruct (exact _ _ _ _ _ E1 Hm (good_body _ _)) as (M1 & S1 & V1 & N1).
    destruct (IH _ _ _ _ E1 Hm Hs (good_body _ _) Hgen) as [Hs1 Hr1].
    apply IH in H; [|exact M1|exact Hs1].
    specialize (H t0 rest base T N1). rewrite S1, V1 in H. specialize (H Hst Hv).
    destruct r1 as [v|e|j b].
    + destruct H as [Hs' ->]. split; [exact Hs'|]. intros h o Hp. now rewrite (Hr1 _ _ Hp).
    + destruct (N1 T).
    + assert (Hgj : genuine (visited s) (JumpTo j b)).
      { intros x h o Hx Hp. destruct (Hgen _ _ _ Hx Hp) as (h' & o' & Hp' & L).
        destruct (Hr1 _ _ Hp') as (h2 & L2 & Hp2). exists h2, o'. split; [exact Hp2|lia]. }
      destruct (H Hgj) as [Hs' Hr]. split; [exact Hs'|]. intros h o Hp.
      destruct (Hr1 _ _ Hp) as (h2 & _ & Hp2). eauto.
  - intros t0 rest base T Hn Hst Hv. rewrite Hst in H.
    assert (C : forall r1, clean eqA t0 r1 s = (r, s') -> r = r1 /\ memos s' = memos s).
    { intros r1 Hc. unfold clean in Hc. rewrite Hv, remove_all_prefix in Hc. injection Hc as <- <-. auto. }
    destruct r0 as [v|e|j b].
    + injection H as H. apply C in H. destruct H as [-> Hmm]. split; [unfold memo_sound; now rewrite Hmm|reflexivity].
    + exact I.
    + intros Hgen. pose proof (genuine_JumpTo _ _ _ Hgen) as Hgc.
      destruct (in_dec kdec (KEntry j b) (visited s)) as [Hin|Hin].
      * injection H as H. apply C in H. destruct H as [-> Hmm].
        split; [unfold memo_sound; now rewrite Hmm|]. intros h o Hp. exfalso. inversion Hp; subst.
        exact (genuine_in (visited s) (KEntry j b) Hgc Hin _ _ ltac:(eassumption)).
      * apply IH in H; [|exact Hm|exact Hs].
        destruct (H _ rest base T eq_refl) as (Hs' & Hr).
        { cbn. now rewrite Hv. }
        { exact (genuine_push (visited s) (KEntry j b) Hgc). }
        split; [exact Hs'|]. intros h o Hp. inversion Hp; subst. eapply Hr. cbn. eassumption.
Qed.

Definition terminates (t : task A V St) (s : st A V St) : Prop := exists fuel x, exec fuel t s = Some x.

(** A call of the function terminates when its body (or the chain that starts there) does *)
Lemma CallFix_terminates i a s : memok s ->
  (~ In (KFix i a) (visited s) ->
   terminates (if tco then Chain i a else Body (body i a))
     (mkSt (KFix i a :: visited s) (mkFrame i [] :: stack s) (memos s) (usr s))) ->
  terminates (CallFix i a) s.
Proof.
  intros Hm H. unfold terminates in H |- *.
  destruct (in_dec kdec (KFix i a) (visited s)) as [Hin|Hin].
  - exists 1. cbn. destruct (in_dec kdec (KFix i a) (visited s)); [eauto|contradiction].
  - destruct (H Hin) as (fuel & (r, s2) & E). exists (S fuel). cbn.
    destruct (in_dec kdec (KFix i a) (visited s)); [contradiction|].
    destruct (from_memo eqA memo (i, a) _) as [o|]; [eauto|]. rewrite E.
    destruct r as [v|e|j b]; eauto. exfalso.
    apply run_result in E; [exact E|]. intros T. pose proof (good_body i a) as Gb. unfold good in Gb. now rewrite T in Gb.
Qed.

Lemma plain_terminates h : forall s, memok s -> memo_sound s ->
  (forall p o, plain h p o -> good p -> genuine (visited s) p -> terminates (Body p) s) /\
  (forall ow a t0 rest base o, tco = true -> stack s = t0 :: rest -> visited s = cleanup t0 ++ base ->
     plain h (body (target t0) a) o -> genuine (visited s) (body (target t0) a) -> terminates (Chain ow a) s).
Proof.
  induction h as [h IH] using (well_founded_induction lt_wf). intros s Hm Hs.
  assert (B : forall p o, plain h p o -> good p -> genuine (visited s) p -> terminates (Body p) s).
  { intros p o Hp Hg Hgen. destruct Hp as [v|e|j b k n1 o1 n2 o H1 H2|j b n o Hp].
    - exists 1, (RVal v, s). reflexivity.
    - exists 1, (RExc e, s). reflexivity.
    - pose proof (genuine_CallP _ _ _ _ Hgen) as Hgc.
      assert (T1 : terminates (CallFix j b) s).
      { apply CallFix_terminates; [exact Hm|]. intros Hin.
        set (s1 := mkSt (KFix j b :: visited s) (mkFrame j [] :: stack s) (memos s) (usr s)).
        destruct (IH n1 ltac:(lia) s1) as [IHb IHc]; [exact Hm|exact Hs|].
        pose proof (genuine_push (visited s) (KFix j b) Hgc) as Hgp. destruct tco_cases as [T|T]; rewrite T.
        - eapply (IHc j b (mkFrame j []) (stack s) (KFix j b :: visited s)); eauto.
        - eapply IHb; eauto. apply good_body. }
      destruct T1 as (f1 & (r1, s1) & E1).
      destruct (exact _ _ _ _ _ E1 Hm) as (M1 & S1 & V1 & N1).
      destruct (genuine_sound _ _ _ _ _ E1 Hm Hs Hgc) as [Hs1 Hr1]. pose proof (Hr1 _ _ H1). subst r1.
      assert (Eo : outcome_of (result_of o1 : result A V) = Some o1) by (destruct o1; reflexivity).
      assert (Hk : good (k o1)).
      { unfold good in *. destruct tco eqn:T; inversion Hg as [| |? ? ? Hk|]; subst; auto.
        destruct o1; auto. destruct (N1 T). }
      destruct (IH n2 ltac:(lia) s1 M1 Hs1) as [IHb _].
      destruct (IHb _ _ H2 Hk) as (f2 & x & E2).
      { rewrite V1. eapply genuine_CallP_k; eauto. intros h' o' Hp'. now destruct (plain_det _ _ _ H1 _ _ Hp'). }
      exists (S (max f1 f2)), x. cbn. rewrite (exec_mono _ _ _ _ (max f1 f2) E1) by lia. rewrite Eo.
      apply (exec_mono _ _ _ _ (max f1 f2) E2). lia.
    - exists 1, (RJump j b, s). reflexivity. }
  split; [exact B|].
  intros ow a t0 rest base o T Hst Hv Hp Hgen.
  destruct (B _ _ Hp (good_body _ _) Hgen) as (f1 & (r1, s1) & E1).
  destruct (exact _ _ _ _ _ E1 Hm (good_body _ _)) as (M1 & S1 & V1 & N1).
  destruct (genuine_sound _ _ _ _ _ E1 Hm Hs (good_body _ _) Hgen) as [Hs1 Hr1].
  assert (TA : terminates (After ow a r1) s1).
  { unfold terminates. destruct r1 as [v|e|j b].
    - exists 1. cbn. rewrite S1, Hst. eauto.
    - destruct (N1 T).
    - destruct (in_dec kdec (KEntry j b) (visited s1)) as [Hin|Hin].
      + exists 1. cbn. rewrite S1, Hst. destruct (in_dec kdec (KEntry j b) (visited s1)); [eauto|contradiction].
      + destruct (Hr1 _ _ Hp) as (h2 & L2 & Hp2). inversion Hp2 as [| | |? ? n ? Hpj]; subst.
        assert (Hgj : genuine_call (visited s) (body j b)).
        { apply genuine_JumpTo. intros x hh oo Hx Hpx. destruct (Hgen _ _ _ Hx Hpx) as (h' & o' & Hp' & L).
          destruct (Hr1 _ _ Hp') as (h3 & L3 & Hp3). exists h3, o'. split; [exact Hp3|lia]. }
        destruct (IH n ltac:(lia) (mkSt (KEntry j b :: visited s1) (mkFrame j (KEntry j b :: cleanup t0) :: rest) (memos s1) (usr s1))) as [_ IHc];
          [exact M1|exact Hs1|].
        destruct (IHc ow b _ rest base o T eq_refl) as (f2 & x & E2).
        * cbn. rewrite V1, Hv. reflexivity.
        * exact Hpj.
        * cbn. rewrite V1. exact (genuine_push (visited s) (KEntry j b) Hgj).
        * exists (S f2), x. cbn. rewrite S1, Hst. destruct (in_dec kdec (KEntry j b) (visited s1)); [contradiction|exact E2]. }
  destruct TA as (f2 & x & E2). exists (S (max f1 f2)), x. cbn. rewrite Hst.
  rewrite (exec_mono _ _ _ _ (max f1 f2) E1) by lia. apply (exec_mono _ _ _ _ (max f1 f2) E2). lia.
Qed.

Lemma reachable_inv s : reachable body bottom eqA tco memo s ->
  visited s = [] /\ stack s = [] /\ memok s /\ memo_sound s.
Proof.
  induction 1 as [u|s fuel i a r s' Hr (V1 & S1 & M1 & Ms) E|s u Hr IH].
  - split; [reflexivity|]. split; [reflexivity|]. split; [intros _ c o []|intros i a o []].
  - destruct (exact _ _ _ _ _ E M1) as (M2 & S2 & V2 & _). repeat split; try congruence; auto.
    apply (genuine_sound _ _ _ _ _ E M1 Ms). rewrite V1. intros k h o [].
  - exact IH.
Qed.

Lemma unchanged s i a o : reachable body bottom eqA tco memo s -> computes body i a o ->
  exists fuel s', exec fuel (CallFix i a) s = Some (result_of o, s').
Proof.
  intros Hr [h Hp]. destruct (reachable_inv _ Hr) as (V1 & S1 & M1 & Ms).
  assert (Hg : genuine_call (visited s) (body i a)) by (rewrite V1; intros k h' o' []).
  assert (T1 : terminates (CallFix i a) s).
  { apply CallFix_terminates; [exact M1|]. intros Hin.
    destruct (plain_terminates h (mkSt (KFix i a :: visited s) (mkFrame i [] :: stack s) (memos s) (usr s))) as [B C]; [exact M1|exact Ms|].
    pose proof (genuine_push (visited s) (KFix i a) Hg) as Hgp. destruct tco_cases as [T|T]; rewrite T.
    - eapply (C i a (mkFrame i []) (stack s) (KFix i a :: visited s)); eauto.
    - eapply B; eauto. apply good_body. }
  destruct T1 as (fuel & (r, s') & E). exists fuel, s'. rewrite E.
  destruct (genuine_sound _ _ _ _ _ E M1 Ms Hg) as [_ Hr1]. now rewrite (Hr1 _ _ Hp).
Qed.
End Usable.

(** * Termination on a finite space of calls *)
Section Finite.
Variable space : list (nat * A).
Hypothesis Hspace : forall i a, In (i, a) space -> calls_in space (body i a).
Hypothesis Hjump : tco = false -> forall i a, no_jump (body i a).

Definition keys : list (key A) := map (fun c => KFix (fst c) (snd c)) space ++ map (fun c => KEntry (fst c) (snd c)) space.
Definition fresh (vis : list (key A)) (k : key A) : bool := if in_dec kdec k vis then false else true.
Definition measure (vis : list (key A)) : nat := length (filter (fresh vis) keys).

Lemma filter_le {X} (f g : X -> bool) l : (forall x, f x = true -> g x = true) -> length (filter f l) <= length (filter g l).
Proof.
  intros H. induction l as [|x l IH]; cbn; [lia|]. specialize (H x). destruct (f x), (g x); cbn; try lia; discriminate (H eq_refl).
Qed.
Lemma filter_lt {X} (f g : X -> bool) l x : (forall x, f x = true -> g x = true) -> In x l -> f x = false -> g x = true ->
  length (filter f l) < length (filter g l).
Proof.
  intros H. induction l as [|y l IH]; cbn; [intros []|]. intros [->|Hi] Hf Hg.
  - rewrite Hf, Hg. cbn. pose proof (filter_le f g l H). lia.
  - specialize (IH Hi Hf Hg). specialize (H y). destruct (f y), (g y); cbn; try lia; discriminate (H eq_refl).
Qed.
Lemma fresh_incl v1 v2 : incl v1 v2 -> forall k, fresh v2 k = true -> fresh v1 k = true.
Proof.
  intros H k. unfold fresh. destruct (in_dec kdec k v2); [discriminate|]. destruct (in_dec kdec k v1); [|auto].
  intros _. exfalso. auto.
Qed.
Lemma measure_incl v1 v2 : incl v1 v2 -> measure v2 <= measure v1.
Proof. intros H. apply filter_le. now apply fresh_incl. Qed.
Lemma measure_cons v k : In k keys -> ~ In k v -> measure (k :: v) < measure v.
Proof.
  intros Hk Hn. apply filter_lt with (x := k); auto.
  - apply fresh_incl. intros x Hx. now right.
  - unfold fresh. destruct (in_dec kdec k (k :: v)) as [|Hx]; [reflexivity|]. exfalso. apply Hx. now left.
  - unfold fresh. destruct (in_dec kdec k v); [contradiction|reflexivity].
Qed.
Lemma keys_fix i a : In (i, a) space -> In (KFix i a) keys.
Proof. intros H. apply in_or_app. left. apply in_map_iff. exists (i, a). auto. Qed.
Lemma keys_entry i a : In (i, a) space -> In (KEntry i a) keys.
Proof. intros H. apply in_or_app. right. apply in_map_iff. exists (i, a). auto. Qed.

Definition fine (p : prog A V St) : Prop := calls_in space p /\ (tco = false -> no_jump p).
Lemma fine_body i a : In (i, a) space -> fine (body i a).
Proof. intros H. split; [now apply Hspace|auto]. Qed.

(** A chain's jumps stay in the space *)
Lemma jump_in_space fuel : forall p s j b s', exec fuel (Body p) s = Some (RJump j b, s') -> calls_in space p -> In (j, b) space.
Proof.
  induction fuel as [|fuel IH]; intros p s j b s' H Hc; [discriminate|]. cbn in H.
  destruct Hc as [v|e|g k Hk|j' b' k Hi Hk|j' b' Hi]; try discriminate.
  - eapply IH; eauto.
  - destruct (exec fuel (CallFix j' b') s) as [[r1 s1]|]; [|discriminate].
    destruct (outcome_of r1) as [o|]; [|discriminate]. eapply IH; eauto.
  - injection H as <- <- _. exact Hi.
Qed.

Lemma finite_terminates m : forall s, measure (visited s) <= m ->
  (forall i a, In (i, a) space -> terminates (CallFix i a) s) /\
  (forall p, fine p -> terminates (Body p) s) /\
  (forall ow a t0 rest, stack s = t0 :: rest -> In (target t0, a) space -> terminates (Chain ow a) s).
Proof.
  induction m as [m IH] using (well_founded_induction lt_wf).
  assert (C : forall s, measure (visited s) <= m -> forall i a, In (i, a) space -> terminates (CallFix i a) s).
  { intros s Hs i a Hi. unfold terminates.
    destruct (in_dec kdec (KFix i a) (visited s)) as [Hin|Hin].
    - exists 1. cbn. destruct (in_dec kdec (KFix i a) (visited s)); [eauto|contradiction].
    - pose proof (measure_cons _ _ (keys_fix _ _ Hi) Hin) as L.
      set (s1 := mkSt (KFix i a :: visited s) (mkFrame i [] :: stack s) (memos s) (usr s)).
      destruct (IH (measure (visited s1)) ltac:(cbn; lia) s1 (le_n _)) as (_ & IHb & IHc).
      assert (T1 : terminates (if tco then Chain i a else Body (body i a)) s1).
      { assert (Hf : fine (body i a)) by now apply fine_body. pose proof (IHc i a _ _ eq_refl Hi) as Hc. pose proof (IHb _ Hf) as Hb. destruct tco_cases as [T|T]; rewrite T; [exact Hc|exact Hb]. }
      destruct T1 as (fuel & (r, s2) & E). exists (S fuel). cbn.
      destruct (in_dec kdec (KFix i a) (visited s)); [contradiction|].
      fold s1. destruct (from_memo eqA memo (i, a) s1) as [o|]; [eauto|]. rewrite E.
      destruct r as [v|e|j b]; eauto. exfalso.
      apply run_result in E; [exact E|]. auto. }
  assert (B : forall p, calls_in space p -> (tco = false -> no_jump p) -> forall s, measure (visited s) <= m -> terminates (Body p) s).
  { induction 1 as [v|e|g k Hk IHk|j b k Hi Hk IHk|j b Hi]; intros Hj s Hs.
    - exists 1, (RVal v, s). reflexivity.
    - exists 1, (RExc e, s). reflexivity.
    - destruct (IHk (g (usr s))) with (s := mkSt (visited s) (stack s) (memos s) (g (usr s))) as (fuel & x & E).
      + intros T. specialize (Hj T). inversion Hj; subst; auto.
      + exact Hs.
      + exists (S fuel), x. exact E.
    - destruct (C s Hs _ _ Hi) as (f1 & (r1, s1) & E1).
      pose proof (balance _ _ _ _ _ E1) as (S1 & I1 & _).
      assert (R : exists o, outcome_of r1 = Some o).
      { destruct (callfix_result _ _ _ _ _ _ E1) as [[v|e] ->]; cbn; eauto. }
      destruct R as [o Eo].
      destruct (IHk o) with (s := s1) as (f2 & x & E2).
      + intros T. specialize (Hj T). inversion Hj; subst; auto.
      + pose proof (measure_incl _ _ I1). lia.
      + exists (S (max f1 f2)), x. cbn. rewrite (exec_mono _ _ _ _ (max f1 f2) E1) by lia. rewrite Eo.
        apply (exec_mono _ _ _ _ (max f1 f2) E2). lia.
    - exists 1, (RJump j b, s). reflexivity. }
  intros s Hs. split; [now apply C|]. split; [intros p [H1 H2]; now apply B|].
  intros ow a t0 rest Hst Hi.
  destruct (B _ (Hspace _ _ Hi) (fun T => Hjump T _ _) s Hs) as (f1 & (r1, s1) & E1).
  pose proof (balance _ _ _ _ _ E1) as (S1 & I1). rewrite Hst in S1.
  assert (TA : terminates (After ow a r1) s1).
  { unfold terminates. destruct r1 as [v|e|j b].
    - exists 1. cbn. rewrite S1. eauto.
    - exists 1. cbn. rewrite S1. eauto.
    - destruct (in_dec kdec (KEntry j b) (visited s1)) as [Hin|Hin].
      + exists 1. cbn. rewrite S1. destruct (in_dec kdec (KEntry j b) (visited s1)); [eauto|contradiction].
      + pose proof (jump_in_space _ _ _ _ _ _ E1 (Hspace _ _ Hi)) as Hjb.
        pose proof (measure_cons _ _ (keys_entry _ _ Hjb) Hin) as L. pose proof (measure_incl _ _ I1) as L2.
        set (s2 := mkSt (KEntry j b :: visited s1) (mkFrame j (KEntry j b :: cleanup t0) :: rest) (memos s1) (usr s1)).
        destruct (IH (measure (visited s2)) ltac:(cbn; lia) s2 (le_n _)) as (_ & _ & IHc).
        destruct (IHc ow b _ rest eq_refl Hjb) as (f2 & x & E2).
        exists (S f2), x. cbn. rewrite S1. destruct (in_dec kdec (KEntry j b) (visited s1)); [contradiction|exact E2]. }
  destruct TA as (f2 & x & E2). exists (S (max f1 f2)), x. cbn. rewrite Hst.
  rewrite (exec_mono _ _ _ _ (max f1 f2) E1) by lia. apply (exec_mono _ _ _ _ (max f1 f2) E2). lia.
Qed.
End Finite.
End FixProofs.
