(** Proofs for C37. *)
From Coq Require Import List Arith Lia.
From Verif Require Import Base TcoModel TcoSpec.
Import ListNotations.
Open Scope list_scope.

Section TcoProofs.
Context {D St : Type}.
Variable body : nat -> list (val D) -> cmd D St.
Notation exec := (exec body).
Notation direct := (direct body).

Lemma exec_mono fuel : forall t s x fuel', exec fuel t s = Some x -> fuel <= fuel' -> exec fuel' t s = Some x.
Proof.
  induction fuel as [|fuel IH]; intros t s x fuel' H Hle; [discriminate|].
  destruct fuel' as [|fuel']; [lia|].
  assert (IH' : forall t s x, exec fuel t s = Some x -> exec fuel' t s = Some x)
    by (intros; eapply IH; eauto; lia).
  clear IH Hle.
  destruct t as [c|i args|f args|r]; cbn in H |- *.
  - destruct c as [v|e|g k|t args k|t args]; auto.
    + destruct (g s) as [s1 v]; auto.
    + destruct t as [d|f]; auto.
      destruct (exec fuel _ s) as [[[r1 s1] n1]|] eqn:E1; [|discriminate].
      rewrite (IH' _ _ _ E1). destruct (as_outcome r1) as [o|]; [|discriminate].
      destruct (exec fuel (Body (k o)) s1) as [[[r s2] n2]|] eqn:E2; [|discriminate].
      rewrite (IH' _ _ _ E2). exact H.
  - destruct (exec fuel _ s) as [[[r s1] n]|] eqn:E; [|discriminate]. rewrite (IH' _ _ _ E). exact H.
  - destruct f as [d|f]; auto.
    destruct (exec fuel _ s) as [[[r1 s1] n1]|] eqn:E1; [|discriminate].
    rewrite (IH' _ _ _ E1). destruct r1 as [v|target args'|e]; auto.
    destruct target as [d|f']; auto.
    destruct (exec fuel (Loop (Fn f') args') s1) as [[[r s2] n2]|] eqn:E2; [|discriminate].
    rewrite (IH' _ _ _ E2). exact H.
  - destruct r as [v|target args|e]; auto. destruct target as [d|f]; auto.
    destruct (exec fuel _ s) as [[[r s1] n]|] eqn:E; [|discriminate]. rewrite (IH' _ _ _ E). exact H.
Qed.

Lemma exec_agree f1 f2 t s x y : exec f1 t s = Some x -> exec f2 t s = Some y -> x = y.
Proof.
  intros H1 H2. destruct (Nat.le_ge_cases f1 f2) as [L|L].
  - rewrite (exec_mono _ _ _ _ _ H1 L) in H2. congruence.
  - rewrite (exec_mono _ _ _ _ _ H2 L) in H1. congruence.
Qed.

(** A body followed by the rest of the trampoline's loop *)
Definition finishes c s (o : outcome (val D)) s' m : Prop :=
  exists fuel,
    exec fuel (Body c) s = Some (result_of o, s', m) \/
    exists f args s1 m1 m2, exec fuel (Body c) s = Some (RJump (Fn f) args, s1, m1) /\
      exec fuel (Loop (Fn f) args) s1 = Some (result_of o, s', m2) /\ m = max m1 m2.

Lemma finishes_loop i args s o s' m :
  finishes (body i args) s o s' m -> exists fuel, exec fuel (Loop (Fn (Plain i)) args) s = Some (result_of o, s', m).
Proof.
  intros [fuel [H|(f & args' & s1 & m1 & m2 & H1 & H2 & ->)]]; exists (S fuel); cbn.
  - rewrite H. destruct o; reflexivity.
  - rewrite H1, H2. reflexivity.
Qed.

Lemma finishes_tramp i args s o s' m :
  finishes (body i args) s o s' m -> exists fuel, exec fuel (CallTramp i args) s = Some (result_of o, s', S m).
Proof.
  intros H. destruct (finishes_loop _ _ _ _ _ _ H) as [fuel E]. exists (S fuel). cbn. now rewrite E.
Qed.

Lemma no_jump_result fuel : forall c s t args s' m,
  no_jump c -> exec fuel (Body c) s <> Some (RJump t args, s', m).
Proof.
  induction fuel as [|fuel IH]; intros c s t args s' m Hn H; [discriminate|].
  destruct Hn as [v|e|g k Hk|tt a k Hk]; cbn in H; try discriminate.
  - destruct (g s) as [s1 v]. eapply IH; eauto.
  - destruct tt as [d|f]; [eapply IH; eauto|].
    destruct (exec fuel _ s) as [[[r1 s1] n1]|]; [|discriminate].
    destruct (as_outcome r1) as [o|]; [|discriminate].
    destruct (exec fuel (Body (k o)) s1) as [[[r s2] n2]|] eqn:E2; [|discriminate].
    injection H as -> -> <-. eapply IH; [apply Hk|exact E2].
Qed.

Lemma finishes_prefix c k s o1 s1 n1 o s2 m (callee : task D St) fuel0 :
  exec fuel0 callee s = Some (result_of o1, s1, n1) ->
  (forall fuel, exec (S fuel) (Body c) s =
     match exec fuel callee s with
     | None => None
     | Some (r1, s1, n1) =>
         match as_outcome r1 with
         | None => None
         | Some o => match exec fuel (Body (k o)) s1 with
                     | None => None
                     | Some (r, s2, n2) => Some (r, s2, max (S n1) n2) end
         end
     end) ->
  finishes (k o1) s1 o s2 m -> finishes c s o s2 (max (S n1) m).
Proof.
  intros H0 Heq [fuel H].
  assert (A : as_outcome (result_of o1) = Some o1) by (destruct o1; reflexivity).
  assert (H0' : exec (max fuel0 fuel) callee s = Some (result_of o1, s1, n1)) by (eapply exec_mono; eauto; lia).
  exists (S (max fuel0 fuel)). destruct H as [H|(f & args & s3 & m1 & m2 & H1 & H2 & ->)].
  - left. rewrite Heq, H0', A. rewrite (exec_mono _ _ _ _ (max fuel0 fuel) H) by lia. reflexivity.
  - right. exists f, args, s3, (max (S n1) m1), m2. split; [|split].
    + rewrite Heq, H0', A. rewrite (exec_mono _ _ _ _ (max fuel0 fuel) H1) by lia. reflexivity.
    + eapply exec_mono; eauto. lia.
    + lia.
Qed.

Section Disc.
Hypothesis Hd : forall i args, disciplined body (body i args).

Lemma direct_pos c s o s' n : direct c s o s' n -> 1 <= n.
Proof. induction 1; lia. Qed.

Lemma direct_finishes c s o s' n : direct c s o s' n -> disciplined body c ->
  exists m, finishes c s o s' m /\ m <= 2 * n - 1.
Proof.
  induction 1 as [v s|e s|g k s s1 v o s2 n Hg H IH|f args k s o1 s1 n1 o s2 n2 H1 IH1 H2 IH2|d args k s o s2 n H IH|f args s o s1 n H IH];
    intros Hc.
  - exists 1. split; [exists 1; left; reflexivity|lia].
  - exists 1. split; [exists 1; left; reflexivity|lia].
  - inversion Hc; subst. destruct IH as (m & [fuel F] & L); [auto|]. exists m. split; [|lia].
    exists (S fuel). destruct F as [F|(f & args & s3 & m1 & m2 & F1 & F2 & ->)].
    + left. cbn. rewrite Hg. exact F.
    + right. exists f, args, s3, m1, m2. split; [|split; [|reflexivity]].
      * cbn. rewrite Hg. exact F1.
      * eapply exec_mono; eauto.
  - destruct (IH1 (Hd _ _)) as (m1 & F1 & L1).
    pose proof (direct_pos _ _ _ _ _ H1). pose proof (direct_pos _ _ _ _ _ H2).
    inversion Hc as [| | |i a k' Hk E|i a k' Hj Hk E| |]; subst f a k'; destruct (IH2 (Hk _)) as (m2 & F2 & L2); cbn [number] in *.
    + destruct (finishes_tramp _ _ _ _ _ _ F1) as [fu E1].
      exists (max (S (S m1)) m2). split; [|lia].
      eapply finishes_prefix; [exact E1|reflexivity|exact F2].
    + destruct F1 as [fu [E1|(f & args' & s3 & x & y & E1 & _)]]; [|exfalso; eapply no_jump_result; eauto].
      exists (max (S m1) m2). split; [|lia].
      eapply finishes_prefix; [exact E1|reflexivity|exact F2].
  - inversion Hc; subst. destruct IH as (m & [fuel F] & L); [auto|]. exists m. split; [|lia].
    exists (S fuel). destruct F as [F|(f & args' & s3 & m1 & m2 & F1 & F2 & ->)].
    + left. exact F.
    + right. exists f, args', s3, m1, m2. split; [exact F1|split; [|reflexivity]].
      eapply exec_mono; eauto.
  - destruct (IH (Hd _ _)) as (m & F & L). pose proof (direct_pos _ _ _ _ _ H).
    exists (max 1 m). split; [|lia].
    destruct (finishes_loop _ _ _ _ _ _ F) as [fuel E].
    exists (S fuel). right. exists (Plain (number f)), args, s, 1, m.
    split; [|split; [eapply exec_mono; eauto|reflexivity]]. destruct f; reflexivity.
Qed.

Lemma direct_exec i args s o s' n : direct (body i args) s o s' n ->
  exists fuel d, exec fuel (CallTramp i args) s = Some (result_of o, s', d) /\ d <= 2 * n.
Proof.
  intros H. pose proof (direct_pos _ _ _ _ _ H). destruct (direct_finishes _ _ _ _ _ H (Hd _ _)) as (m & F & L).
  destruct (finishes_tramp _ _ _ _ _ _ F) as [fuel E]. exists fuel, (S m). split; [exact E|lia].
Qed.

Definition sound_body c s (x : result D * St * nat) : Prop :=
  match x with
  | (RVal v, s', _) => exists n, direct c s (Ok v) s' n
  | (RExc e, s', _) => exists n, direct c s (Raise e) s' n
  | (RJump t args, s', _) => exists j, t = Fn (Plain j) /\
      forall o s2 n2, direct (body j args) s' o s2 n2 -> exists n, direct c s o s2 n
  end.
Definition sound_call (i : nat) args s (x : result D * St * nat) : Prop :=
  exists o n, fst (fst x) = result_of o /\ direct (body i args) s o (snd (fst x)) n.

Lemma exec_sound fuel : forall s x,
  (forall c, disciplined body c -> exec fuel (Body c) s = Some x -> sound_body c s x) /\
  (forall i args, exec fuel (CallTramp i args) s = Some x -> sound_call i args s x) /\
  (forall i args, exec fuel (Loop (Fn (Plain i)) args) s = Some x -> sound_call i args s x).
Proof.
  induction fuel as [|fuel IH]; intros s x; (split; [|split]); try discriminate.
  - intros c Hc H. destruct Hc as [v|e|g k Hk|i args k Hk|i args k Hj Hk|d args k Hk|f args]; cbn in H.
    + injection H as <-. exists 1. constructor.
    + injection H as <-. exists 1. constructor.
    + destruct (g s) as [s1 v] eqn:Hg. apply (proj1 (IH _ _) _ (Hk v)) in H.
      destruct x as [[[w|t a|e] s'] m]; cbn in H |- *.
      * destruct H as [n H]. exists n. econstructor; eauto.
      * destruct H as (j & -> & H). exists j. split; [reflexivity|]. intros o s2 n2 Ho.
        destruct (H _ _ _ Ho) as [n Hn]. exists n. econstructor; eauto.
      * destruct H as [n H]. exists n. econstructor; eauto.
    + destruct (exec fuel (CallTramp i args) s) as [[[r1 s1] n1]|] eqn:E1; [|discriminate].
      apply (proj1 (proj2 (IH _ _))) in E1. destruct E1 as (o1 & n & E1 & H1). cbn in E1, H1. subst r1.
      assert (A : as_outcome (result_of o1) = Some o1) by (destruct o1; reflexivity). rewrite A in H.
      destruct (exec fuel (Body (k o1)) s1) as [[[r s2] n2]|] eqn:E2; [|discriminate]. injection H as <-.
      apply (proj1 (IH _ _) _ (Hk o1)) in E2.
      destruct r as [w|t a|e]; cbn in E2 |- *.
      * destruct E2 as [n' H2]. eexists. eapply DCall with (f := Tramp i); eauto.
      * destruct E2 as (j & -> & H2). exists j. split; [reflexivity|]. intros o s3 n3 Ho.
        destruct (H2 _ _ _ Ho) as [n' Hn]. eexists. eapply DCall with (f := Tramp i); eauto.
      * destruct E2 as [n' H2]. eexists. eapply DCall with (f := Tramp i); eauto.
    + destruct (exec fuel (Body (body i args)) s) as [[[r1 s1] n1]|] eqn:E1; [|discriminate].
      assert (exists o1, r1 = result_of o1 /\ exists n, direct (body i args) s o1 s1 n) as (o1 & -> & n & H1).
      { destruct r1 as [v|t a|e].
        - apply (proj1 (IH _ _) _ (Hd _ _)) in E1. exists (Ok v). split; [reflexivity|exact E1].
        - exfalso. eapply no_jump_result; eauto.
        - apply (proj1 (IH _ _) _ (Hd _ _)) in E1. exists (Raise e). split; [reflexivity|exact E1]. }
      assert (A : as_outcome (result_of o1) = Some o1) by (destruct o1; reflexivity). rewrite A in H.
      destruct (exec fuel (Body (k o1)) s1) as [[[r s2] n2]|] eqn:E2; [|discriminate]. injection H as <-.
      apply (proj1 (IH _ _) _ (Hk o1)) in E2.
      destruct r as [w|t a|e]; cbn in E2 |- *.
      * destruct E2 as [n' H2]. eexists. eapply DCall with (f := Plain i); eauto.
      * destruct E2 as (j & -> & H2). exists j. split; [reflexivity|]. intros o s3 n3 Ho.
        destruct (H2 _ _ _ Ho) as [n' Hn]. eexists. eapply DCall with (f := Plain i); eauto.
      * destruct E2 as [n' H2]. eexists. eapply DCall with (f := Plain i); eauto.
    + apply (proj1 (IH _ _) _ (Hk _)) in H.
      destruct x as [[[w|t a|e] s'] m]; cbn in H |- *.
      * destruct H as [n H]. exists n. econstructor; eauto.
      * destruct H as (j & -> & H). exists j. split; [reflexivity|]. intros o s2 n2 Ho.
        destruct (H _ _ _ Ho) as [n Hn]. exists n. econstructor; eauto.
      * destruct H as [n H]. exists n. econstructor; eauto.
    + injection H as <-. cbn. exists (number f). split; [destruct f; reflexivity|].
      intros o s2 n2 Ho. exists n2. constructor; exact Ho.
  - intros i args H. cbn in H. destruct (exec fuel _ s) as [[[r s1] n]|] eqn:E; [|discriminate].
    injection H as <-. apply (proj2 (proj2 (IH _ _))) in E. exact E.
  - intros i args H. cbn in H.
    destruct (exec fuel (Body (body i args)) s) as [[[r1 s1] n1]|] eqn:E1; [|discriminate].
    apply (proj1 (IH _ _) _ (Hd _ _)) in E1. destruct r1 as [v|t a|e].
    + injection H as <-. destruct E1 as [n E1]. exists (Ok v), n. split; [reflexivity|exact E1].
    + destruct E1 as (j & -> & E1).
      destruct (exec fuel (Loop (Fn (Plain j)) a) s1) as [[[r s2] n2]|] eqn:E2; [|discriminate].
      injection H as <-. apply (proj2 (proj2 (IH _ _))) in E2. destruct E2 as (o & n & Eo & H2).
      cbn in Eo, H2. destruct (E1 _ _ _ H2) as [n' H3]. exists o, n'. split; [exact Eo|exact H3].
    + injection H as <-. destruct E1 as [n E1]. exists (Raise e), n. split; [reflexivity|exact E1].
Qed.

Lemma exec_direct fuel i args s r s' d : exec fuel (CallTramp i args) s = Some (r, s', d) ->
  exists o n, r = result_of o /\ direct (body i args) s o s' n /\ d <= 2 * n.
Proof.
  intros H. destruct (proj1 (proj2 (exec_sound fuel s (r, s', d))) _ _ H) as (o & n & E & Hn). cbn in E, Hn.
  exists o, n. split; [exact E|]. split; [exact Hn|].
  destruct (direct_exec _ _ _ _ _ _ Hn) as (fuel' & d' & E' & L).
  pose proof (exec_agree _ _ _ _ _ _ H E') as X. injection X as _ ->. exact L.
Qed.

Lemma inert_exec f args s r s' d fuel : exec fuel (Inert (make_jump (Fn f) args)) s = Some (r, s', d) <->
  exec fuel (CallTramp (number f) args) s = Some (r, s', d).
Proof. destruct fuel; [split; discriminate|]. destruct f; reflexivity. Qed.
End Disc.

Lemma no_call_depth (Hn : forall i args, no_call (body i args)) fuel : forall s r s' d,
  (forall c, no_call c -> exec fuel (Body c) s = Some (r, s', d) ->
     d = 1 /\ match r with RJump (Fn (Tramp _)) _ => False | _ => True end) /\
  (forall i args, exec fuel (Loop (Fn (Plain i)) args) s = Some (r, s', d) -> d = 1) /\
  (forall i args, exec fuel (CallTramp i args) s = Some (r, s', d) -> d = 2).
Proof.
  induction fuel as [|fuel IH]; intros s r s' d; (split; [|split]); try discriminate.
  - intros c Hc H. destruct Hc as [v|e|g k Hk|t args]; cbn in H.
    + injection H as <- _ <-. auto.
    + injection H as <- _ <-. auto.
    + destruct (g s) as [s1 v]. exact (proj1 (IH _ _ _ _) _ (Hk v) H).
    + injection H as <- _ <-. destruct t as [|[|]]; cbn; auto.
  - intros i args H. cbn in H.
    destruct (exec fuel (Body (body i args)) s) as [[[r1 s1] n1]|] eqn:E1; [|discriminate].
    apply (proj1 (IH _ _ _ _) _ (Hn _ _)) in E1. destruct E1 as [-> E1].
    destruct r1 as [v|[dd|[j|j]] a|e]; try (injection H as _ _ <-; reflexivity); [contradiction|].
    destruct (exec fuel (Loop (Fn (Plain j)) a) s1) as [[[r2 s2] n2]|] eqn:E2; [|discriminate].
    apply (proj1 (proj2 (IH _ _ _ _))) in E2. injection H as _ _ <-. subst. reflexivity.
  - intros i args H. cbn in H.
    destruct (exec fuel _ s) as [[[r1 s1] n1]|] eqn:E1; [|discriminate].
    apply (proj1 (proj2 (IH _ _ _ _))) in E1. injection H as _ _ <-. subst. reflexivity.
Qed.

(** A body that ends in a jump to data *)
Lemma jump_data fuel i args s d a s1 n :
  exec fuel (Body (body i args)) s = Some (RJump (Data d) a, s1, n) ->
  exists fuel' m, exec fuel' (CallTramp i args) s = Some (RExc RuntimeError, s1, m).
Proof. intros H. exists (S (S fuel)), (S n). cbn [TcoModel.exec]. rewrite H. reflexivity. Qed.
End TcoProofs.
