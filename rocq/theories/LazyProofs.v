(** Proofs for C60. *)
From Coq Require Import List Arith Bool Lia.
From Verif Require Import Base MemoModel GmemoProofs LazyModel LazySpec.
Import ListNotations.
Open Scope nat_scope.
Open Scope list_scope.

Section LazyProofs.
Context {V E St : Type}.
Variable exc_object : E -> V.
Variable is_uninit : V -> bool.
Variable uninit : V.
Variable type_error : E.
Variable thunk : nat -> cmd V E St.
Notation exec := (exec exc_object is_uninit thunk type_error).
Notation evaluated := (evaluated (E:=E) (St:=St) is_uninit).
Notation uninitialized := (uninitialized is_uninit).

Lemma evaluated_answer s i r : evaluated s i r -> uninitialized (value s i) = false /\ answer exc_object (value s i) (normally s i) type_error = r.
Proof. destruct r as [v|e|e]; cbn; [intros (-> & -> & H)|intros (-> & ->)|contradiction]; auto. Qed.

Lemma force_evaluated fuel i k s r : evaluated s i r -> exec (S fuel) (Force i k) s = exec fuel (k r) s.
Proof. intros H. destruct (evaluated_answer s i r H) as [A B]. cbn. now rewrite A, B. Qed.

Lemma stable fuel : forall c s r s' i x, exec fuel c s = Some (r, s') -> evaluated s i x -> evaluated s' i x /\ runs s' i = runs s i.
Proof.
  induction fuel as [|fuel IH]; [discriminate|]. intros c s r s' i x H Hx. destruct c as [r0|g k|j k].
  - injection H as -> ->. auto.
  - cbn in H. destruct (g (user s)) as [u v]. apply (IH _ _ _ _ i x) in H; [exact H|]. exact Hx.
  - cbn [LazyModel.exec] in H. destruct (uninitialized (value s j)) eqn:U.
    + assert (Hn : i <> j).
      { intros ->. apply evaluated_answer in Hx as [A _]. congruence. }
      destruct (exec fuel (thunk j) (count_run s j)) as [[r1 s1]|] eqn:E1; [|discriminate].
      assert (H1 : evaluated s1 i x /\ runs s1 i = runs s i).
      { apply (IH _ _ _ _ i x) in E1; [|exact Hx]. destruct E1 as [A B]. split; [exact A|]. rewrite B. cbn. now apply setf_ne. }
      destruct H1 as [A B].
      assert (St1 : forall y f, evaluated (store s1 j y f) i x).
      { intros y f. destruct x; cbn in *; rewrite ?(setf_ne _ _ _ _ Hn); exact A. }
      destruct r1 as [v|e|e]; apply (IH _ _ _ _ i x) in H; auto; destruct H as [H1 H2]; (split; [exact H1|]); rewrite H2; exact B.
    + apply (IH _ _ _ _ i x) in H; auto.
Qed.

(** A promise that has been treated properly so far *)
Definition clean (s : st V E St) (i : nat) : Prop :=
  (uninitialized (value s i) = true /\ runs s i = 0) \/ (exists r, evaluated s i r) /\ runs s i = 1.
Definition same (s s' : st V E St) (i : nat) : Prop :=
  value s' i = value s i /\ normally s' i = normally s i /\ runs s' i = runs s i.
Lemma clean_same s s' i : same s s' i -> clean s i -> clean s' i.
Proof.
  intros (A & B & C) [[D F]|[[r D] F]].
  - left. now rewrite A, C.
  - right. split; [|now rewrite C]. exists r. destruct r; cbn in *; rewrite ?A, ?B; exact D.
Qed.
Lemma same_trans s1 s2 s3 i : same s1 s2 i -> same s2 s3 i -> same s1 s3 i.
Proof. intros (A & B & C) (A' & B' & C'). repeat split; congruence. Qed.

Variable rank : nat -> nat.
Hypothesis Hrank : forall i, below rank (rank i) (thunk i).
Hypothesis Hord : forall i fuel s r s', exec fuel (thunk i) s = Some (r, s') -> ordinary is_uninit r.

Lemma store_clean s i v : is_uninit v = false -> runs s i = 1 -> clean (store s i (SVal v) FTrue) i.
Proof. intros H R. right. split; [|exact R]. exists (RVal v). cbn. rewrite !setf_eq. auto. Qed.
Lemma store_clean_err s i e : runs s i = 1 -> clean (store s i (SErr e) FFalse) i.
Proof. intros R. right. split; [|exact R]. exists (RExc e). cbn. rewrite !setf_eq. auto. Qed.
Lemma store_same s i x f j : j <> i -> same s (store s i x f) j.
Proof. intros H. repeat split; cbn; now rewrite ?(setf_ne _ _ _ _ H). Qed.

(** What forcing [i] leaves, given what running its thunk leaves *)
Lemma forced s i r1 s1 : clean s i -> uninitialized (value s i) = true -> ordinary is_uninit r1 -> same (count_run s i) s1 i ->
  exists s2, (forall j, j <> i -> same s1 s2 j) /\ clean s2 i /\
  ((exists v, r1 = RVal v /\ s2 = store s1 i (SVal v) FTrue) \/ (exists e, r1 = RExc e /\ s2 = store s1 i (SErr e) FFalse)).
Proof.
  intros Hc U Ho (_ & _ & R). destruct Hc as [[_ R0]|[[r Hr] _]]; [|apply evaluated_answer in Hr as [Hr _]; congruence].
  cbn in R. rewrite setf_eq, R0 in R. destruct r1 as [v|e|e]; cbn in Ho; [| |contradiction].
  - exists (store s1 i (SVal v) FTrue). split; [intros j Hj; now apply store_same|]. split; [now apply store_clean|]. left. eauto.
  - exists (store s1 i (SErr e) FFalse). split; [intros j Hj; now apply store_same|]. split; [now apply store_clean_err|]. right. eauto.
Qed.

Lemma once_below fuel : forall n c s r s', below rank n c -> (forall i, rank i < n -> clean s i) -> exec fuel c s = Some (r, s') ->
  (forall i, rank i < n -> clean s' i) /\ (forall i, n <= rank i -> same s s' i).
Proof.
  induction fuel as [|fuel IH]; [discriminate|]. intros n c s r s' Hb Hc H. inversion Hb as [r0|g k Hk|i k Hi Hk]; subst c; cbn [LazyModel.exec] in H.
  - injection H as -> ->. split; [exact Hc|]. repeat split.
  - destruct (g (user s)) as [u v]. apply (IH n) in H; auto.
  - destruct (uninitialized (value s i)) eqn:U; [|apply (IH n) in H; auto].
    destruct (exec fuel (thunk i) (count_run s i)) as [[r1 s1]|] eqn:E1; [|discriminate].
    pose proof (Hord i _ _ _ _ E1) as Ho. 
    assert (H0 : forall j, rank j < rank i -> clean (count_run s i) j).
    { intros j Hj. apply (clean_same s); [|apply Hc; lia]. repeat split; cbn; try reflexivity. apply setf_ne. intros ->. lia. }
    destruct (IH (rank i) _ _ _ _ (Hrank i) H0 E1) as [H1 H2].
    destruct (forced s i r1 s1 (Hc i Hi) U Ho (H2 i (Nat.le_refl _))) as (s2 & Hs & Hi2 & Hcase).
    assert (Hother : forall j, j <> i -> same s (count_run s i) j) by (intros j Hj; repeat split; cbn; now rewrite ?(setf_ne _ _ _ _ Hj)).
    assert (Hcl : forall j, rank j < n -> clean s2 j).
    { intros j Hj. destruct (Nat.eq_dec j i) as [->|Hn]; [exact Hi2|]. apply (clean_same s1); [auto|].
      destruct (Nat.lt_ge_cases (rank j) (rank i)) as [L|L]; [auto|]. apply (clean_same s); [|auto].
      apply (same_trans _ (count_run s i)); auto. }
    assert (Hsm : forall j, n <= rank j -> same s s2 j).
    { intros j Hj. assert (j <> i) by (intros ->; lia). apply (same_trans _ (count_run s i)); [auto|].
      apply (same_trans _ s1); [apply H2; lia|auto]. }
    assert (Hx : exists k', below rank n k' /\ exec fuel k' s2 = Some (r, s')).
    { destruct Hcase as [(v & -> & ->)|(e & -> & ->)]; eexists; split; [apply Hk|exact H|apply Hk|exact H]. }
    destruct Hx as (k' & Hk' & E2). destruct (IH n _ _ _ _ Hk' Hcl E2) as [A B]. split; [exact A|].
    intros j Hj. apply (same_trans _ s2); auto.
Qed.
Lemma once_all fuel : forall c s r s', (forall i, clean s i) -> exec fuel c s = Some (r, s') -> forall i, clean s' i.
Proof.
  induction fuel as [|fuel IH]; [discriminate|]. intros c s r s' Hc H. destruct c as [r0|g k|i k]; cbn [LazyModel.exec] in H.
  - injection H as -> ->. exact Hc.
  - destruct (g (user s)) as [u v]. refine (IH _ _ _ _ _ H). exact Hc.
  - destruct (uninitialized (value s i)) eqn:U; [|exact (IH _ _ _ _ Hc H)].
    destruct (exec fuel (thunk i) (count_run s i)) as [[r1 s1]|] eqn:E1; [|discriminate].
    pose proof (Hord i _ _ _ _ E1) as Ho. 
    assert (H0 : forall j, rank j < rank i -> clean (count_run s i) j).
    { intros j Hj. apply (clean_same s); [|apply Hc]. repeat split; cbn; try reflexivity. apply setf_ne. intros ->. lia. }
    destruct (once_below fuel (rank i) _ _ _ _ (Hrank i) H0 E1) as [H1 H2].
    destruct (forced s i r1 s1 (Hc i) U Ho (H2 i (Nat.le_refl _))) as (s2 & Hs & Hi2 & Hcase).
    assert (Hcl : forall j, clean s2 j).
    { intros j. destruct (Nat.eq_dec j i) as [->|Hn]; [exact Hi2|]. apply (clean_same s1); [auto|].
      destruct (Nat.lt_ge_cases (rank j) (rank i)) as [L|L]; [auto|]. apply (clean_same s); [|auto].
      apply (same_trans _ (count_run s i)); auto. repeat split; cbn; now rewrite ?(setf_ne _ _ _ _ Hn). }
    destruct Hcase as [(v & -> & ->)|(e & -> & ->)]; exact (IH _ _ _ _ Hcl H).
Qed.
End LazyProofs.

Section LazyTop.
Context {V E St : Type}.
Variable exc_object : E -> V.
Variable is_uninit : V -> bool.
Variable uninit : V.
Variable type_error : E.
Variable thunk : nat -> cmd V E St.

Lemma once (fuel : nat) (c : cmd V E St) (u : St) r s' : is_uninit uninit = true -> acyclic thunk ->
  (forall i fuel s r s', exec exc_object is_uninit thunk type_error fuel (thunk i) s = Some (r, s') -> ordinary is_uninit r) ->
  exec exc_object is_uninit thunk type_error fuel c (fresh uninit u) = Some (r, s') ->
  forall i, runs s' i = 0 /\ value s' i = SVal uninit \/ runs s' i = 1 /\ exists x, evaluated is_uninit s' i x.
Proof.
  intros Hu (rank & Hr) Ho H i.
  (* an untouched promise still has the very symbol: it is enough that it was never run *)
  assert (Hc : clean is_uninit s' i).
  { apply (once_all exc_object is_uninit type_error thunk rank Hr Ho fuel c (fresh uninit u) r s'); [|exact H].
    intros j. left. split; [exact Hu|reflexivity]. }
  assert (Hv : forall fuel c s r s', exec exc_object is_uninit thunk type_error fuel c s = Some (r, s') -> runs s i <= runs s' i /\ (runs s' i = runs s i -> value s' i = value s i)).
  { clear H Hc. induction fuel0 as [|f IH]; [discriminate|]. intros c0 s r0 s0 H. destruct c0 as [r1|g k|j k]; cbn [LazyModel.exec] in H.
    - injection H as _ ->. auto.
    - destruct (g (user s)) as [u0 v]. apply IH in H. exact H.
    - destruct (uninitialized is_uninit (value s j)); [|apply IH in H; exact H].
      destruct (exec exc_object is_uninit thunk type_error f (thunk j) (count_run s j)) as [[r1 s1]|] eqn:E1; [|discriminate].
      apply IH in E1. destruct E1 as [A B]. cbn in A, B. destruct (Nat.eq_dec i j) as [->|Hn].
      + rewrite setf_eq in A, B. destruct r1; apply IH in H; cbn in H; destruct H as [C D]; split; lia.
      + rewrite (setf_ne _ _ _ _ Hn) in A, B. destruct r1; apply IH in H; cbn in H; rewrite ?(setf_ne _ _ _ _ Hn) in H;
          destruct H as [C D]; (split; [lia|]); intros Hq; rewrite D by lia; apply B; lia. }
  destruct Hc as [[A B]|[A B]]; [left|right; auto]. split; [exact B|].
  destruct (Hv _ _ _ _ _ H) as [_ D]. now rewrite D.
Qed.

(** Threads *)
Definition good (v : V) (s : tst V E) : Prop :=
  (tvalue s = SVal uninit /\ tflag s = FUninit \/ tvalue s = SVal v /\ tflag s <> FFalse) /\
  forall t, match tpcs s t with
            | PIdle (Some r) => r = RVal v
            | PFlag f => f = FTrue /\ tvalue s = SVal v
            | PTestFlag => tvalue s = SVal v
            | PRead b => b = true /\ tvalue s = SVal v
            | _ => True
            end.
Lemma good_step v outs s t : is_uninit uninit = true -> (forall n, outs n = RVal v) -> good v s -> good v (tstep exc_object is_uninit type_error outs s t).
Proof.
  intros Hu Ho [H1 H2]. pose proof (H2 t) as Ht. unfold tstep.
  assert (G : forall p, (match p with PIdle (Some r) => r = RVal v | PFlag f => f = FTrue /\ tvalue s = SVal v | PTestFlag => tvalue s = SVal v
     | PRead b => b = true /\ tvalue s = SVal v | _ => True end) -> good v (tset s t p)).
  { intros p Hp. split; [exact H1|]. intros u. cbn. destruct (Nat.eq_dec u t) as [->|Hn]; [now rewrite setf_eq|].
    rewrite (setf_ne _ _ _ _ Hn). apply H2. }
  destruct (tpcs s t) as [last| |n|f| |b].
  - now apply G.
  - destruct (uninitialized is_uninit (tvalue s)) eqn:U.
    + split; [exact H1|]. intros u. cbn. destruct (Nat.eq_dec u t) as [->|Hn]; [now rewrite setf_eq|].
      rewrite (setf_ne _ _ _ _ Hn). apply H2.
    + apply G. destruct H1 as [[A _]|[A _]]; [|exact A]. rewrite A in U. cbn in U. congruence.
  - rewrite Ho. split; [cbn; destruct H1 as [[_ A]|[_ A]]; right; split; auto; rewrite A; discriminate|].
    intros u. cbn. destruct (Nat.eq_dec u t) as [->|Hn]; [rewrite setf_eq; auto|].
    rewrite (setf_ne _ _ _ _ Hn). specialize (H2 u). destruct (tpcs s u); auto; destruct H2; auto.
  - destruct Ht as [-> A]. split; [right; split; [exact A|discriminate]|]. intros u. cbn. destruct (Nat.eq_dec u t) as [->|Hn].
    + rewrite setf_eq. exact A.
    + rewrite (setf_ne _ _ _ _ Hn). apply H2.
  - apply G. split; [|exact Ht]. destruct H1 as [[_ A]|[_ A]]; [now rewrite A|]. destruct (tflag s); auto.
  - destruct Ht as [-> A]. apply G. now rewrite A.
Qed.
Lemma threads_value v outs sched t r : is_uninit uninit = true -> (forall n, outs n = RVal v) ->
  tpcs (trun exc_object is_uninit uninit type_error outs sched) t = PIdle (Some r) -> r = RVal v.
Proof.
  intros Hu Ho H. assert (G : good v (trun exc_object is_uninit uninit type_error outs sched)).
  { unfold trun. assert (G0 : good v (tfresh (E:=E) uninit)) by (split; [left; auto|intros u; exact I]).
    revert G0. generalize (tfresh (E:=E) uninit). clear H. induction sched as [|x l IH]; cbn; intros s G; [exact G|].
    apply IH. now apply good_step. }
  destruct G as [_ G]. specialize (G t). now rewrite H in G.
Qed.
End LazyTop.
Section LazyThreads.
Context {V E : Type}.
Variable exc_object : E -> V.
Variable is_uninit : V -> bool.
Variable uninit : V.
Variable type_error : E.
(** Every run raises the same exception *)
Definition ok_pc (e : E) (val : slot V E) (f : flag) (p : pc V E) : Prop :=
  match p with
  | PFlag g => g = FFalse /\ val = SErr e
  | PTestFlag => val = SErr e
  | PRead true => val = SErr e
  | PRead false => val = SErr e /\ f = FFalse
  | PIdle (Some (RExc _)) => val = SErr e /\ f = FFalse
  | PIdle (Some r) => r = RVal (exc_object e)
  | _ => True
  end.
Definition bad (e : E) (s : tst V E) : Prop :=
  (tvalue s = SVal uninit /\ tflag s = FUninit \/ tvalue s = SErr e /\ tflag s <> FTrue) /\
  (forall t, ok_pc e (tvalue s) (tflag s) (tpcs s t)) /\ (forall t e', tpcs s t = PIdle (Some (RExc e')) -> e' = e).
Lemma bad_step e outs s t : is_uninit uninit = true -> (forall n, outs n = RExc e) -> bad e s -> bad e (tstep exc_object is_uninit type_error outs s t).
Proof.
  intros Hu Ho (H1 & H2 & H3). pose proof (H2 t) as Ht. unfold tstep.
  assert (G : forall p, ok_pc e (tvalue s) (tflag s) p -> (forall e', p = PIdle (Some (RExc e')) -> e' = e) -> bad e (tset s t p)).
  { intros p Hp Hq. split; [exact H1|]. split; [intros u|intros u e']; cbn; (destruct (Nat.eq_dec u t) as [->|Hn]; [rewrite setf_eq; auto|rewrite (setf_ne _ _ _ _ Hn); eauto]). }
  destruct (tpcs s t) as [last| |n|f| |[]] eqn:Et.
  - apply G; [exact I|discriminate].
  - destruct (uninitialized is_uninit (tvalue s)) eqn:U.
    + split; [exact H1|]. split; [intros u|intros u e']; cbn; (destruct (Nat.eq_dec u t) as [->|Hn]; [rewrite setf_eq; cbn; auto; try discriminate|rewrite (setf_ne _ _ _ _ Hn); eauto]).
    + apply G; [|discriminate]. cbn. destruct H1 as [[A _]|[A _]]; [|exact A]. rewrite A in U. cbn in U. congruence.
  - rewrite Ho. split; [cbn; destruct H1 as [[_ A]|[_ A]]; right; split; auto; rewrite A; discriminate|].
    split; [intros u|intros u e']; cbn; (destruct (Nat.eq_dec u t) as [->|Hn]; [rewrite setf_eq; cbn; auto; try discriminate|rewrite (setf_ne _ _ _ _ Hn); try apply H3]).
    specialize (H2 u). destruct (tpcs s u) as [[[]|]| | | | |[]]; cbn in *; intuition.
  - cbn in Ht. destruct Ht as [-> A]. split; [right; split; [exact A|discriminate]|].
    split; [intros u|intros u e']; cbn; (destruct (Nat.eq_dec u t) as [->|Hn]; [rewrite setf_eq; cbn; auto; try discriminate|rewrite (setf_ne _ _ _ _ Hn); try apply H3]).
    specialize (H2 u). destruct (tpcs s u) as [[[]|]| | | | |[]]; cbn in *; intuition.
  - cbn in Ht. apply G; [|discriminate]. destruct (tflag s) eqn:F; cbn; auto.
  - cbn in Ht. rewrite Ht. apply G; [cbn; reflexivity|discriminate].
  - cbn in Ht. destruct Ht as [A F]. rewrite A. apply G; [cbn; auto|congruence].
Qed.
Lemma bad_run e outs sched : is_uninit uninit = true -> (forall n, outs n = RExc e) -> bad e (trun exc_object is_uninit uninit type_error outs sched).
Proof.
  intros Hu Ho. unfold trun. assert (G0 : bad e (tfresh (E:=E) uninit)) by (split; [left; auto|]; split; [intros u; exact I|discriminate]).
  revert G0. generalize (tfresh (E:=E) uninit). induction sched as [|x l IH]; cbn; intros s G; [exact G|]. apply IH. now apply bad_step.
Qed.
Lemma threads_error e outs sched t r : is_uninit uninit = true -> (forall n, outs n = RExc e) ->
  tpcs (trun exc_object is_uninit uninit type_error outs sched) t = PIdle (Some r) -> r = RExc e \/ r = RVal (exc_object e).
Proof.
  intros Hu Ho H. destruct (bad_run e outs sched Hu Ho) as (_ & G & G'). specialize (G t). rewrite H in G.
  destruct r as [v|e'|e']; cbn in G; [right; exact G| |discriminate]. left. now rewrite (G' t e' H).
Qed.
(** After the exception is stored *)
Definition late (e : E) (t : nat) (s : tst V E) : Prop :=
  bad e s /\ tvalue s = SErr e /\ tflag s = FFalse /\
  match tpcs s t with PIdle (Some r) => r = RExc e | PRead b => b = false | PRunning _ | PFlag _ => False | _ => True end.
Lemma late_step e outs t s u : is_uninit uninit = true -> (forall n, outs n = RExc e) -> late e t s -> late e t (tstep exc_object is_uninit type_error outs s u).
Proof.
  intros Hu Ho (B & V0 & F & L). split; [now apply bad_step|]. unfold tstep.
  pose proof (proj1 (proj2 B) u) as Bu.
  destruct (Nat.eq_dec u t) as [->|Hn].
  - destruct (tpcs s t) as [last| |n|f| |[]] eqn:Et; try contradiction; try discriminate; cbn.
    + rewrite setf_eq. auto.
    + rewrite V0. cbn. rewrite setf_eq. rewrite V0. auto.
    + rewrite setf_eq, F. auto.
    + rewrite V0, setf_eq. auto.
  - assert (Hs : forall X (f : nat -> X) x, setf f u x t = f t) by (intros; apply setf_ne; auto).
    destruct (tpcs s u) as [last| |n|f| |[]]; cbn; rewrite ?Hs; auto.
    + rewrite V0. cbn. rewrite Hs, V0. auto.
    + rewrite Ho. cbn. rewrite Hs. auto.
    + cbn in Bu. destruct Bu as [-> _]. auto.
Qed.
Lemma threads_late e outs sched1 sched2 u t r : is_uninit uninit = true -> (forall n, outs n = RExc e) ->
  tpcs (trun exc_object is_uninit uninit type_error outs sched1) u = PIdle (Some (RExc e)) ->
  tpcs (trun exc_object is_uninit uninit type_error outs sched1) t = PIdle None ->
  tpcs (trun exc_object is_uninit uninit type_error outs (sched1 ++ sched2)) t = PIdle (Some r) -> r = RExc e.
Proof.
  intros Hu Ho Eu Et. unfold trun. rewrite fold_left_app. fold (trun exc_object is_uninit uninit type_error outs sched1).
  pose proof (bad_run e outs sched1 Hu Ho) as B.
  assert (L : late e t (trun exc_object is_uninit uninit type_error outs sched1)).
  { split; [exact B|]. destruct B as (_ & B & _). specialize (B u). rewrite Eu in B. destruct B as [B F]. rewrite Et. auto. }
  revert L. generalize (trun exc_object is_uninit uninit type_error outs sched1). clear Eu Et B.
  induction sched2 as [|x l IH]; cbn; intros s L H.
  - destruct L as (_ & _ & _ & L). now rewrite H in L.
  - apply (IH (tstep exc_object is_uninit type_error outs s x)); [now apply late_step|exact H].
Qed.
End LazyThreads.
