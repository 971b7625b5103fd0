(** Proofs for C58, C59. *)
From Coq Require Import List Arith Bool Lia.
From Verif Require Import Base MemoModel GmemoProofs InternModel InternSpec.
Import ListNotations.
Open Scope nat_scope.
Open Scope list_scope.

Lemma liveb_spec s i : liveb s i = true <-> alive s i.
Proof.
  unfold liveb, alive. rewrite existsb_exists. split.
  - intros ([t j] & Hi & E). apply Nat.eqb_eq in E. cbn in E. subst. eauto.
  - intros [t Hi]. exists (t, i). split; [exact Hi|]. apply Nat.eqb_refl.
Qed.
Lemma has_ref_spec s t i : has_ref s t i = true <-> In (t, i) (refs s).
Proof.
  unfold has_ref. rewrite existsb_exists. split.
  - intros ([t' j] & Hi & E). cbn in E. apply andb_true_iff in E as [A B]. apply Nat.eqb_eq in A, B. now subst.
  - intros Hi. exists (t, i). split; [exact Hi|]. cbn. now rewrite !Nat.eqb_refl.
Qed.
Lemma lookup_some s k i : lookup s k = Some i <-> registry s k = Some i /\ alive s i.
Proof.
  unfold lookup. destruct (registry s k) as [j|]; [|split; [discriminate|intros [? _]; discriminate]].
  rewrite <- liveb_spec. destruct (liveb s j) eqn:E.
  - split; [intros H; injection H as <-; auto|intros [H _]; exact H].
  - split; [discriminate|]. intros [H A]. injection H as <-. congruence.
Qed.
Lemma drop1_in r x l : In x (drop1 r l) -> In x l.
Proof. induction l as [|y l IH]; cbn; [auto|]. destruct (ref_dec y r); cbn; intuition. Qed.
Lemma drop1_other r x l : x <> r -> In x l -> In x (drop1 r l).
Proof.
  intros Hn. induction l as [|y l IH]; cbn; [auto|]. intros [->|H].
  - destruct (ref_dec x r); [contradiction|now left].
  - destruct (ref_dec y r); [exact H|]. right. auto.
Qed.

(** How deeply a thread holds the lock *)
Definition ob (o : bool) : nat := if o then 1 else 0.
Definition depth (p : pc) : nat :=
  match p with
  | Idle _ | CallLock _ => 0
  | Look _ o | Acquire _ o => ob o
  | Check _ o | Create _ o | Register _ _ o | Fetch _ o | Leave _ _ o => S (ob o)
  | CallCheck _ | Init _ _ => 1
  end.
Definition lock_ok (s : st) : Prop :=
  (forall t, depth (pcs s t) > 0 -> lock s = Some (t, depth (pcs s t))) /\
  (forall t d, lock s = Some (t, d) -> d = depth (pcs s t) /\ d > 0).

(** What is known of a thread's place *)
Definition pc_ok (s : st) (t : nat) (p : pc) : Prop :=
  match p with
  | Idle (Some (k, Obj i)) => i < made s /\ keyof s i = k
  | Look k true | Acquire k true | Check k true => forall i, alive s i -> keyof s i <> k
  | Create k _ => forall i, alive s i -> keyof s i <> k
  | Register k i _ => i < made s /\ keyof s i = k /\ In (t, i) (refs s) /\ forall j, alive s j -> keyof s j = k -> j = i
  | Fetch _ o => o = false
  | Leave k (Obj i) _ | Init k i => i < made s /\ keyof s i = k /\ In (t, i) (refs s)
  | Leave k _ o => o = false
  | _ => True
  end.
Record inv (s : st) : Prop := {
  inv_lock : lock_ok s;
  inv_pc : forall t, pc_ok s t (pcs s t);
  inv_made : forall i, alive s i -> i < made s;
  inv_reg : forall k i, registry s k = Some i -> i < made s /\ keyof s i = k;
  inv_live : forall i, alive s i -> registry s (keyof s i) = Some i \/ exists t o, pcs s t = Register (keyof s i) i o;
  inv_susp : forall t, suspended s t = []
}.

Lemma inv_init : inv init.
Proof.
  constructor; cbn; try (intros; exact I); try (intros ? [? []]); try discriminate; try reflexivity.
  - split; cbn; [intros; lia|discriminate].
Qed.

Lemma inv_one s : inv s -> one_per_key s.
Proof.
  intros H i j Hi Hj E.
  destruct (inv_live s H i Hi) as [A|(t & o & A)].
  - destruct (inv_live s H j Hj) as [B|(t' & o & B)].
    + rewrite E in A. congruence.
    + pose proof (inv_pc s H t') as P. rewrite B in P. cbn in P. apply P; auto.
  - pose proof (inv_pc s H t) as P. rewrite A in P. cbn in P. symmetry. apply P; auto.
Qed.

(** [in_cs]: places that exclude each other *)
Lemma cs_exclusive s t t' : lock_ok s -> depth (pcs s t) > 0 -> depth (pcs s t') > 0 -> t = t'.
Proof. intros [H _] A B. specialize (H t A) as H1. specialize (H t' B) as H2. congruence. Qed.

Lemma acquire_some b s t s' : acquire b s t = Some s' -> exists l, s' = set_lock s l.
Proof.
  unfold acquire. destruct (lock s) as [[t' n]|]; [destruct (b && (t' =? t)); [|discriminate]|];
    intros H; injection H as <-; eauto.
Qed.
Lemma release_set s : exists l, release s = set_lock s l.
Proof. unfold release. destruct (lock s) as [[t [|[|n]]]|]; eauto. Qed.

(** The lock, when the place of [t] changes and the lock follows *)
Lemma lock_move s t p l : lock_ok s ->
  ((l = lock s /\ depth p = depth (pcs s t)) \/
   (l = Some (t, depth p) /\ depth p > 0 /\ (lock s = None \/ exists n, lock s = Some (t, n))) \/
   (l = None /\ depth p = 0 /\ exists n, lock s = Some (t, n))) ->
  forall s', pcs s' = setf (pcs s) t p -> lock s' = l -> lock_ok s'.
Proof.
  intros [H1 H2] Hc s' Ep El. unfold lock_ok. rewrite Ep, El. split.
  - intros u. destruct (Nat.eq_dec u t) as [->|Hn].
    + rewrite setf_eq. intros Hd. destruct Hc as [[-> E]|[[-> _]|[-> [E _]]]]; [|reflexivity|lia].
      rewrite E in *. auto.
    + rewrite (setf_ne _ _ _ _ Hn). intros Hd. specialize (H1 u Hd).
      destruct Hc as [[-> E]|[(-> & E & [F|[n F]])|(-> & E & n & F)]]; congruence.
  - intros u d. destruct (Nat.eq_dec u t) as [->|Hn].
    + rewrite setf_eq. destruct Hc as [[-> E]|[(-> & E & _)|(-> & _)]].
      * rewrite E. auto.
      * intros Hs. injection Hs as <-. auto.
      * discriminate.
    + rewrite (setf_ne _ _ _ _ Hn). destruct Hc as [[-> E]|[(-> & E & _)|(-> & _)]].
      * auto.
      * intros Hs. injection Hs as <- <-. congruence.
      * discriminate.
Qed.

Lemma release_lock s t : lock_ok s -> depth (pcs s t) > 0 ->
  lock (release s) = match depth (pcs s t) with S (S n) => Some (t, S n) | _ => None end.
Proof.
  intros [H _] Hd. specialize (H t Hd). unfold release. rewrite H.
  now destruct (depth (pcs s t)) as [|[|n]].
Qed.
Lemma acquire_lock b s t s' : lock_ok s -> acquire b s t = Some s' ->
  lock s' = Some (t, S (depth (pcs s t))) /\ (lock s = None \/ exists n, lock s = Some (t, n)).
Proof.
  intros [H1 H2] E. unfold acquire in E. destruct (lock s) as [[t' n]|] eqn:El.
  - destruct (b && (t' =? t)) eqn:B; [|discriminate]. apply andb_true_iff in B as [_ B]. apply Nat.eqb_eq in B. subst t'.
    injection E as <-. destruct (H2 t n eq_refl) as [-> _]. cbn. eauto.
  - injection E as <-. cbn. destruct (depth (pcs s t)) eqn:D; [auto|].
    assert (X : None = Some (t, depth (pcs s t))) by (rewrite <- (H1 t); [reflexivity|lia]). discriminate.
Qed.

Lemma pc_frame s s' u p : made s' = made s -> keyof s' = keyof s -> (forall i, alive s' i -> alive s i) ->
  (forall i, In (u, i) (refs s) -> In (u, i) (refs s')) -> pc_ok s u p -> pc_ok s' u p.
Proof.
  intros Em Ek Ha Hr. destruct p as [[[k [i| | |]]|]|k [|]|k [|]|k [|]|k o|k i o|k o|k [i| | |] o|k|k|k i]; cbn [pc_ok];
    rewrite ?Em, ?Ek; auto; try (intros H j Hj; apply H; auto; fail).
  - intros (A & B & C & D). repeat split; auto.
  - intros (A & B & C). repeat split; auto.
  - intros (A & B & C). repeat split; auto.
Qed.
Lemma inv_simple s s' t p : inv s ->
  made s' = made s -> keyof s' = keyof s -> registry s' = registry s -> suspended s' = suspended s ->
  (forall u, pcs s' u = setf (pcs s) t p u) -> (forall i, alive s' i -> alive s i) ->
  (forall u i, u <> t -> In (u, i) (refs s) -> In (u, i) (refs s')) ->
  lock_ok s' -> pc_ok s' t p -> (forall k i o, pcs s t = Register k i o -> p = Register k i o) -> inv s'.
Proof.
  intros H Em Ek Eg Es Ep Ha Hr Hl Hp Hn. constructor; auto.
  - intros u. rewrite Ep. destruct (Nat.eq_dec u t) as [->|Hu].
    + now rewrite setf_eq.
    + rewrite (setf_ne _ _ _ _ Hu). apply (pc_frame s s'); auto. apply (inv_pc s H).
  - intros i Hi. rewrite Em. apply (inv_made s H). auto.
  - rewrite Eg, Em, Ek. apply (inv_reg s H).
  - intros i Hi. rewrite Ek, Eg. destruct (inv_live s H i (Ha i Hi)) as [A|(u & o & A)]; [auto|]. right.
    exists u, o. rewrite Ep. destruct (Nat.eq_dec u t) as [->|Hu].
    + rewrite setf_eq. now apply Hn in A.
    + now rewrite (setf_ne _ _ _ _ Hu).
  - rewrite Es. apply (inv_susp s H).
Qed.
Lemma setf_same {X} (f : nat -> X) t u : setf f t (f t) u = f u.
Proof. destruct (Nat.eq_dec u t) as [->|Hu]; [apply setf_eq|apply setf_ne; exact Hu]. Qed.
Lemma alive_cons s t i : alive s i -> forall j, alive (set_refs s ((t, i) :: refs s)) j -> alive s j.
Proof. intros Hi j [u [E|Hu]]; [injection E as <- <-; exact Hi|now exists u]. Qed.

Lemma lock_same s s' t p : lock_ok s -> (forall u, pcs s' u = setf (pcs s) t p u) -> lock s' = lock s ->
  depth p = depth (pcs s t) -> lock_ok s'.
Proof.
  intros [H1 H2] Ep El Ed. unfold lock_ok. rewrite El. split.
  - intros u. rewrite Ep. destruct (Nat.eq_dec u t) as [->|Hu]; [rewrite setf_eq, Ed|rewrite (setf_ne _ _ _ _ Hu)]; auto.
  - intros u d. rewrite Ep. destruct (Nat.eq_dec u t) as [->|Hu]; [rewrite setf_eq, Ed|rewrite (setf_ne _ _ _ _ Hu)]; auto.
Qed.
Lemma lock_acquired b s t s1 p : lock_ok s -> acquire b s t = Some s1 -> depth p = S (depth (pcs s t)) ->
  lock_ok (set_pc s1 t p).
Proof.
  intros H E Ed. destruct (acquire_some _ _ _ _ E) as [l ->]. destruct (acquire_lock _ _ _ _ H E) as [El Ho].
  cbn in El. apply (lock_move s t p l H); cbn; auto. right. left. rewrite Ed. split; [exact El|]. split; [lia|exact Ho].
Qed.
Lemma lock_released s t p : lock_ok s -> depth (pcs s t) = S (depth p) -> lock_ok (set_pc (release s) t p).
Proof.
  intros H Ed. pose proof (release_lock s t H) as R. rewrite Ed in R. specialize (R ltac:(lia)).
  destruct (release_set s) as [l El]. rewrite El in *. cbn in R.
  assert (Ho : lock s = Some (t, S (depth p))) by (rewrite <- Ed; apply H; lia).
  apply (lock_move s t p l H); cbn; auto. right. destruct (depth p) as [|n] eqn:D.
  - right. split; [exact R|]. split; [reflexivity|eauto].
  - left. split; [exact R|]. split; [lia|eauto].
Qed.

Lemma lock_refs s r t p : lock_ok (set_pc (release s) t p) -> lock_ok (set_pc (set_refs (release s) r) t p).
Proof. destruct (release_set s) as [l ->]. auto. Qed.

(** The object found by a lookup *)
Lemma found s k i : inv s -> lookup s k = Some i -> i < made s /\ keyof s i = k /\ alive s i.
Proof. intros H E. apply lookup_some in E as [A B]. destruct (inv_reg s H _ _ A). auto. Qed.
(** A live object that is not registered is being registered by a thread in its critical section *)
Lemma absent s k t : inv s -> lookup s k = None -> (forall k' i o, pcs s t <> Register k' i o) -> depth (pcs s t) > 0 ->
  forall i, alive s i -> keyof s i <> k.
Proof.
  intros H E Hn Hd i Hi <-. destruct (inv_live s H i Hi) as [A|(u & o & A)].
  - assert (X : lookup s (keyof s i) = Some i) by (apply lookup_some; auto). congruence.
  - assert (u = t) as -> by (apply (cs_exclusive s); [apply H|rewrite A; cbn; lia|exact Hd]).
    exact (Hn _ _ _ A).
Qed.

Lemma step_inv b s t a s' : inv s -> a <> Interrupt -> step b s t a = Some s' -> inv s'.
Proof.
  intros H Ha E. pose proof (inv_lock s H) as HL. pose proof (inv_pc s H t) as HP.
  assert (NR : forall p, (forall k i o, pcs s t <> Register k i o) -> forall k i o, pcs s t = Register k i o -> p = Register k i o)
    by (intros p Hx k i o Hy; now apply Hx in Hy).
  destruct a as [k|k| | |i|i t'| |]; cbn [step] in E; try congruence.
  - (* New *) destruct (pcs s t) as [x|k' o|k' o|k' o|k' o|k' i o|k' o|k' x o|k'|k'|k' i] eqn:P; try discriminate.
    injection E as <-. apply (inv_simple s _ t (Look k false)); auto; cbn; try (intros; reflexivity); try exact I.
    + now apply (lock_same s _ t (Look k false)); cbn; rewrite ?P.
    + rewrite P. discriminate.
  - destruct (pcs s t) as [x|k' o|k' o|k' o|k' o|k' i o|k' o|k' x o|k'|k'|k' i] eqn:P; try discriminate.
    injection E as <-. apply (inv_simple s _ t (CallLock k)); auto; cbn; try (intros; reflexivity); try exact I.
    + now apply (lock_same s _ t (CallLock k)); cbn; rewrite ?P.
    + rewrite P. discriminate.
  - (* Go *) unfold go in E. destruct (pcs s t) as [x|k o|k o|k o|k o|k i o|k o|k x o|k|k|k i] eqn:P; try discriminate.
    + (* Look *) destruct (lookup s k) as [i|] eqn:L; injection E as <-.
      * destruct (found s k i H L) as (F1 & F2 & F3). destruct o; cbn [returned].
        -- exfalso. cbn in HP. exact (HP i F3 F2).
        -- apply (inv_simple s _ t (Idle (Some (k, Obj i)))); auto; cbn [set_pc set_refs made keyof registry suspended pcs refs].
           ++ apply (alive_cons s t i F3).
           ++ intros u j _ Hj. now right.
           ++ now apply (lock_same s _ t (Idle (Some (k, Obj i)))); cbn; rewrite ?P.
           ++ cbn. auto.
           ++ rewrite P. discriminate.
      * apply (inv_simple s _ t (Acquire k o)); auto.
        -- now apply (lock_same s _ t (Acquire k o)); cbn; rewrite ?P.
        -- rewrite P. discriminate.
    + (* Acquire *) destruct (acquire b s t) as [s1|] eqn:A; [|discriminate]. injection E as <-.
      destruct (acquire_some _ _ _ _ A) as [l El].
      apply (inv_simple s _ t (Check k o)); auto; try (rewrite El; reflexivity); try (rewrite El; auto; fail).
      * apply (lock_acquired b s t s1); auto. rewrite P. reflexivity.
      * rewrite P. discriminate.
    + (* Check *) destruct (lookup s k) as [i|] eqn:L; injection E as <-.
      * destruct (found s k i H L) as (F1 & F2 & F3). destruct o; [exfalso; cbn in HP; exact (HP i F3 F2)|].
        apply (inv_simple s _ t (Fetch k false)); auto.
        -- now apply (lock_same s _ t (Fetch k false)); cbn; rewrite ?P.
        -- reflexivity.
        -- rewrite P. discriminate.
      * apply (inv_simple s _ t (Create k o)); auto.
        -- now apply (lock_same s _ t (Create k o)); cbn; rewrite ?P.
        -- cbn. apply (absent s k t H L); rewrite P; [discriminate|cbn; lia].
        -- rewrite P. discriminate.
    + (* Create *) injection E as <-. cbn in HP.
      assert (Hal : forall i, alive (mkst (S (made s)) (setf (keyof s) (made s) k) (registry s) ((t, made s) :: refs s) (lock s)
                 (setf (pcs s) t (Register k (made s) o)) (suspended s)) i -> i = made s \/ (i <> made s /\ alive s i)).
      { intros i [u [F|F]]; [injection F as <- <-; now left|]. right. split; [|now exists u].
        intros ->. assert (made s < made s) by (apply (inv_made s H); now exists u). lia. }
      assert (Hk : forall i, i < made s -> setf (keyof s) (made s) k i = keyof s i) by (intros i Hi; apply setf_ne; lia).
      constructor; cbn.
      * apply (lock_same s _ t (Register k (made s) o)); auto. now rewrite P.
      * intros u. destruct (Nat.eq_dec u t) as [->|Hu].
        -- rewrite setf_eq. cbn. split; [lia|]. split; [apply setf_eq|]. split; [now left|].
           intros j Hj Ej. destruct (Hal j Hj) as [->|[Hne Hj']]; [reflexivity|]. exfalso.
           rewrite (setf_ne _ _ _ _ Hne) in Ej. exact (HP j Hj' Ej).
        -- rewrite (setf_ne _ _ _ _ Hu). pose proof (inv_pc s H u) as HU.
           assert (Hd : depth (pcs s u) = 0).
           { destruct (depth (pcs s u)) eqn:D; [reflexivity|]. exfalso. apply Hu. apply (cs_exclusive s); [exact HL|lia|]. rewrite P. cbn. lia. }
           destruct (pcs s u) as [[[k' [i| | |]]|]|k' [|]|k' [|]|k' o'|k' o'|k' i o'|k' o'|k' x o'|k'|k'|k' i]; cbn in *; auto; try lia.
           destruct HU as [A B]. rewrite (Hk i A). auto.
      * intros i Hi. destruct (Hal i Hi) as [->|[_ Hi']]; [lia|]. apply (inv_made s H) in Hi'. lia.
      * intros k' i Hi. destruct (inv_reg s H _ _ Hi) as [A B]. rewrite (Hk i A). split; [lia|exact B].
      * intros i Hi. destruct (Hal i Hi) as [->|[Hne Hi']].
        -- right. exists t, o. rewrite setf_eq, setf_eq. reflexivity.
        -- rewrite (setf_ne _ _ _ _ Hne). destruct (inv_live s H i Hi') as [A|(u & o' & A)]; [auto|]. right.
           exists u, o'. destruct (Nat.eq_dec u t) as [->|Hu]; [congruence|]. now rewrite (setf_ne _ _ _ _ Hu).
      * apply (inv_susp s H).
    + (* Register *) injection E as <-. cbn in HP. destruct HP as (A & B & C & D). constructor; cbn.
      * apply (lock_same s _ t (Leave k (Obj i) o)); auto. now rewrite P.
      * intros u. destruct (Nat.eq_dec u t) as [->|Hu].
        -- rewrite setf_eq. cbn. auto.
        -- rewrite (setf_ne _ _ _ _ Hu). apply (pc_frame s); auto. apply (inv_pc s H).
      * apply (inv_made s H).
      * intros k' j. destruct (Nat.eq_dec k' k) as [->|Hk].
        -- rewrite setf_eq. intros F. injection F as <-. auto.
        -- rewrite (setf_ne _ _ _ _ Hk). apply (inv_reg s H).
      * intros j Hj. change (alive s j) in Hj. destruct (Nat.eq_dec (keyof s j) k) as [Ek|Hk].
        -- left. rewrite Ek, setf_eq. now rewrite (D j Hj Ek).
        -- rewrite (setf_ne _ _ _ _ Hk). destruct (inv_live s H j Hj) as [F|(u & o' & F)]; [auto|]. right.
           exists u, o'. destruct (Nat.eq_dec u t) as [->|Hu]; [|now rewrite (setf_ne _ _ _ _ Hu)].
           rewrite P in F. injection F as F1 F2 F3. congruence.
      * apply (inv_susp s H).
    + (* Fetch *) cbn in HP. subst o. destruct (lookup s k) as [i|] eqn:L; injection E as <-.
      * destruct (found s k i H L) as (F1 & F2 & F3).
        apply (inv_simple s _ t (Leave k (Obj i) false)); auto; cbn [set_pc set_refs made keyof registry suspended pcs refs].
        -- apply (alive_cons s t i F3).
        -- intros u j _ Hj. now right.
        -- now apply (lock_same s _ t (Leave k (Obj i) false)); cbn; rewrite ?P.
        -- cbn. auto.
        -- rewrite P. discriminate.
      * apply (inv_simple s _ t (Leave k RKeyError false)); auto.
        -- now apply (lock_same s _ t (Leave k RKeyError false)); cbn; rewrite ?P.
        -- reflexivity.
        -- rewrite P. discriminate.
    + (* Leave *) destruct (release_set s) as [l El].
      assert (G : forall p, pc_ok s t p -> depth (pcs s t) = S (depth p) -> inv (set_pc (release s) t p)).
      { intros p Hp Hd. apply (inv_simple s _ t p); auto; try (rewrite El; reflexivity); try (rewrite El; auto; fail).
        - now apply lock_released.
        - rewrite P. discriminate. }
      destruct x as [i| | |]; cbn in HP.
      * destruct o; injection E as <-; apply G; cbn; rewrite ?P; tauto.
      * subst o. injection E as <-. apply G; cbn; rewrite ?P; auto.
      * subst o. injection E as <-. apply G; cbn; rewrite ?P; auto.
      * subst o. injection E as <-. apply G; cbn; rewrite ?P; auto.
    + (* CallLock *) destruct (acquire b s t) as [s1|] eqn:A; [|discriminate]. injection E as <-.
      destruct (acquire_some _ _ _ _ A) as [l El].
      apply (inv_simple s _ t (CallCheck k)); auto; try (rewrite El; reflexivity); try (rewrite El; auto; fail).
      * apply (lock_acquired b s t s1); auto. rewrite P. reflexivity.
      * rewrite P. discriminate.
    + (* CallCheck *) destruct (lookup s k) as [i|] eqn:L; injection E as <-.
      * destruct (release_set s) as [l El].
        apply (inv_simple s _ t (Idle (Some (k, RTypeError)))); auto; try (rewrite El; reflexivity); try (rewrite El; auto; fail).
        -- apply lock_released; [exact HL|]. now rewrite P.
        -- rewrite P. discriminate.
      * apply (inv_simple s _ t (Look k true)); auto.
        -- now apply (lock_same s _ t (Look k true)); cbn; rewrite ?P.
        -- cbn. apply (absent s k t H L); rewrite P; [discriminate|cbn; lia].
        -- rewrite P. discriminate.
    + (* Init *) injection E as <-. destruct (release_set s) as [l El].
      apply (inv_simple s _ t (Idle (Some (k, Obj i)))); auto; try (rewrite El; reflexivity); try (rewrite El; auto; fail).
      * apply lock_released; [exact HL|]. now rewrite P.
      * rewrite El. cbn in *. tauto.
      * rewrite P. discriminate.
  - (* FailInit *) destruct (pcs s t) as [x|k o|k o|k o|k o|k i o|k o|k x o|k|k|k i] eqn:P; try discriminate.
    injection E as <-. pose proof (release_set s) as [l El].
    apply (inv_simple s _ t (Idle (Some (k, RInitError)))); auto; try (rewrite El; reflexivity).
    + rewrite El. intros j [u Hu]. exists u. cbn in Hu. now apply drop1_in in Hu.
    + intros u j Hu Hj. cbn. apply drop1_other; [congruence|exact Hj].
    + apply lock_refs. apply lock_released; [exact HL|]. now rewrite P.
    + rewrite P. discriminate.
  - (* Drop *) destruct (pcs s t) as [x|k' o|k' o|k' o|k' o|k' i' o|k' o|k' x o|k'|k'|k' i'] eqn:P; try discriminate.
    destruct (has_ref s t i); [|discriminate]. injection E as <-.
    apply (inv_simple s _ t (pcs s t)); auto; cbn [set_refs made keyof registry suspended pcs refs].
    + intros u. symmetry. apply setf_same.
    + intros j [u Hu]. exists u. cbn in Hu. now apply drop1_in in Hu.
    + intros u j Hu Hj. apply drop1_other; [congruence|exact Hj].
    + rewrite P. cbn. destruct x as [[k' [j| | |]]|]; cbn in *; auto.
  - (* Share *) destruct (pcs s t) as [x|k' o|k' o|k' o|k' o|k' i' o|k' o|k' x o|k'|k'|k' i'] eqn:P; try discriminate.
    destruct (has_ref s t i) eqn:R; [|discriminate]. injection E as <-. apply has_ref_spec in R.
    apply (inv_simple s _ t (pcs s t)); auto; cbn [set_refs made keyof registry suspended pcs refs].
    + intros u. symmetry. apply setf_same.
    + apply (alive_cons s t' i). now exists t.
    + intros u j Hu Hj. now right.
    + rewrite P. cbn. destruct x as [[k' [j| | |]]|]; cbn in *; auto.
  - (* Resume *) destruct (pcs s t) as [x|k' o|k' o|k' o|k' o|k' i' o|k' o|k' x o|k'|k'|k' i'] eqn:P; try discriminate.
    rewrite (inv_susp s H) in E. discriminate.
Qed.

Lemma run_inv b sched : forall s s', inv s -> uninterrupted sched -> run b s sched = Some s' -> inv s'.
Proof.
  induction sched as [|[t a] sched IH]; cbn; intros s s' H Hu E.
  - injection E as <-. exact H.
  - inversion Hu as [|x l Hx Hl]; subst. destruct (step b s t a) as [s1|] eqn:Es; [|discriminate].
    apply (IH s1 s'); auto. apply (step_inv b s t a s1); auto.
Qed.
Lemma reach_inv b s : reachable b s -> inv s.
Proof. intros (sched & Hu & E). exact (run_inv b sched _ _ inv_init Hu E). Qed.

Lemma reach_one b s : reachable b s -> one_per_key s.
Proof. intros H. apply inv_one. exact (reach_inv b s H). Qed.

(** A call that returns gives an object with the right key, which the thread then holds *)
Lemma go_result b s t s' k i : inv s -> step b s t Go = Some s' -> pcs s' t = Idle (Some (k, Obj i)) ->
  In (t, i) (refs s') /\ keyof s' i = k.
Proof.
  intros H E Ep. pose proof (step_inv b s t Go s' H ltac:(discriminate) E) as H'.
  assert (Hk : keyof s' i = k) by (pose proof (inv_pc s' H' t) as P; rewrite Ep in P; cbn in P; tauto).
  split; [|exact Hk]. pose proof (inv_pc s H t) as HP. cbn [step] in E. unfold go in E.
  destruct (pcs s t) as [x|k0 o|k0 o|k0 o|k0 o|k0 i0 o|k0 o|k0 x o|k0|k0|k0 i0]; try discriminate.
  - destruct (lookup s k0) as [j|]; injection E as <-; cbn in Ep; rewrite setf_eq in Ep; [|discriminate].
    destruct o; cbn in Ep; [discriminate|]. injection Ep as -> ->. now left.
  - destruct (acquire b s t) as [s1|]; [|discriminate]. injection E as <-. cbn in Ep. rewrite setf_eq in Ep. discriminate.
  - destruct (lookup s k0); injection E as <-; cbn in Ep; rewrite setf_eq in Ep; discriminate.
  - injection E as <-. cbn in Ep. rewrite setf_eq in Ep. discriminate.
  - injection E as <-. cbn in Ep. rewrite setf_eq in Ep. discriminate.
  - destruct (lookup s k0); injection E as <-; cbn in Ep; rewrite setf_eq in Ep; discriminate.
  - destruct (release_set s) as [l El]. destruct (release_set (release s)) as [l' El'].
    destruct x as [j| | |]; destruct o; injection E as <-; cbn in Ep; rewrite setf_eq in Ep; try discriminate.
    injection Ep as -> ->. rewrite El. cbn in *. tauto.
  - destruct (acquire b s t) as [s1|]; [|discriminate]. injection E as <-. cbn in Ep. rewrite setf_eq in Ep. discriminate.
  - destruct (lookup s k0); injection E as <-; cbn in Ep; rewrite setf_eq in Ep; discriminate.
  - destruct (release_set s) as [l El]. injection E as <-. cbn in Ep. rewrite setf_eq in Ep. injection Ep as -> ->.
    rewrite El. cbn in *. tauto.
Qed.
Lemma reach_step b s t a s' : reachable b s -> a <> Interrupt -> step b s t a = Some s' -> reachable b s'.
Proof.
  intros (sched & Hu & E) Ha Es. exists (sched ++ [(t, a)]). split.
  - apply Forall_app. split; [exact Hu|]. constructor; [exact Ha|constructor].
  - revert E. generalize init. induction sched as [|[u c] sched IH]; cbn; intros x E.
    + injection E as ->. now rewrite Es.
    + destruct (step b x u c); [|discriminate]. inversion Hu; subst. auto.
Qed.
Lemma reach_result b s t s' k i : reachable b s -> step b s t Go = Some s' -> pcs s' t = Idle (Some (k, Obj i)) ->
  In (t, i) (refs s') /\ keyof s' i = k /\ forall j, alive s' j -> keyof s' j = k -> j = i.
Proof.
  intros H E Ep. destruct (go_result b s t s' k i (reach_inv b s H) E Ep) as [A B]. split; [exact A|]. split; [exact B|].
  intros j Hj Ej. apply (reach_one b s'); [apply (reach_step b s t Go); auto; discriminate|exact Hj|now exists t|congruence].
Qed.

(** No deadlock *)
Definition no_outer (p : pc) : Prop :=
  match p with
  | Idle _ => True
  | Look _ o | Acquire _ o | Check _ o | Create _ o | Register _ _ o | Fetch _ o | Leave _ _ o => o = false
  | CallLock _ | CallCheck _ | Init _ _ => False
  end.
Lemma go_busy b s t : (b = true \/ no_outer (pcs s t)) -> lock_ok s -> depth (pcs s t) > 0 -> go b s t <> None.
Proof.
  intros Hb HL Hd. pose proof (proj1 HL t Hd) as El. unfold go.
  destruct (pcs s t) as [x|k o|k o|k o|k o|k i o|k o|k x o|k|k|k i]; cbn [depth] in Hd; try lia; try discriminate.
  - destruct (lookup s k); discriminate.
  - unfold acquire. rewrite El. destruct Hb as [->|Hb]; [rewrite Nat.eqb_refl; discriminate|]. cbn in Hb. subst o. cbn in Hd. lia.
  - destruct (lookup s k); discriminate.
  - destruct (lookup s k); discriminate.
  - destruct x, o; discriminate.
  - destruct (lookup s k); discriminate.
Qed.
Lemma progress b s t : (b = true \/ forall u, no_outer (pcs s u)) -> lock_ok s -> busy s t -> exists u, go b s u <> None.
Proof.
  intros Hb HL Hbusy. destruct (lock s) as [[u d]|] eqn:El.
  - exists u. destruct (proj2 HL u d El) as [-> Hd]. apply go_busy; auto. destruct Hb; auto.
  - exists t. destruct (depth (pcs s t)) as [|n] eqn:D.
    + unfold go, acquire. rewrite El. destruct (pcs s t) as [x|k o|k o|k o|k o|k i o|k o|k x o|k|k|k i] eqn:P; cbn in D; try lia; try discriminate.
      * exfalso. exact (Hbusy x P).
      * destruct (lookup s k); discriminate.
    + assert (X : lock s = Some (t, depth (pcs s t))) by (apply (proj1 HL); lia). congruence.
Qed.
Lemma no_outer_step b s t a s' : (forall u, no_outer (pcs s u)) -> (forall u, suspended s u = []) -> a <> Interrupt ->
  (forall k, a <> Construct k) -> step b s t a = Some s' -> forall u, no_outer (pcs s' u).
Proof.
  intros H Hs Ha Hc E. pose proof (H t) as Ht.
  assert (G : forall p s1, pcs s1 = setf (pcs s) t p -> no_outer p -> forall u, no_outer (pcs s1 u)).
  { intros p s1 -> Hp u. destruct (Nat.eq_dec u t) as [->|Hu]; [now rewrite setf_eq|]. now rewrite (setf_ne _ _ _ _ Hu). }
  destruct (release_set s) as [l El].
  destruct a as [k|k| | |i|i t'| |]; cbn [step] in E; try congruence.
  - destruct (pcs s t); try discriminate. injection E as <-. now apply (G (Look k false)).
  - unfold go in E. destruct (pcs s t) as [x|k o|k o|k o|k o|k i o|k o|k x o|k|k|k i]; cbn in Ht; try discriminate; try contradiction; subst.
    + destruct (lookup s k) as [i|]; injection E as <-; [now apply (G (Idle (Some (k, Obj i))))|now apply (G (Acquire k false))].
    + destruct (acquire b s t) as [s1|] eqn:A; [|discriminate]. injection E as <-. destruct (acquire_some _ _ _ _ A) as [l1 ->].
      now apply (G (Check k false)).
    + destruct (lookup s k) as [i|]; injection E as <-; [now apply (G (Fetch k false))|now apply (G (Create k false))].
    + injection E as <-. now apply (G (Register k (made s) false)).
    + injection E as <-. now apply (G (Leave k (Obj i) false)).
    + destruct (lookup s k) as [i|]; injection E as <-; [now apply (G (Leave k (Obj i) false))|now apply (G (Leave k RKeyError false))].
    + destruct x as [i| | |]; injection E as <-; rewrite El; eapply G; try reflexivity.
  - destruct (pcs s t); try discriminate. cbn in Ht. contradiction.
  - destruct (pcs s t); try discriminate. destruct (has_ref s t i); [|discriminate]. injection E as <-. exact H.
  - destruct (pcs s t); try discriminate. destruct (has_ref s t i); [|discriminate]. injection E as <-. exact H.
  - destruct (pcs s t); try discriminate. rewrite Hs in E. discriminate.
Qed.
Lemma no_outer_run b sched : forall s s', inv s -> (forall u, no_outer (pcs s u)) -> uninterrupted sched -> only_new sched ->
  run b s sched = Some s' -> forall u, no_outer (pcs s' u).
Proof.
  induction sched as [|[t a] sched IH]; cbn; intros s s' H Ho Hu Hn E.
  - injection E as <-. exact Ho.
  - inversion Hu as [|x l Hx Hl]; subst. inversion Hn as [|x l Hx' Hl']; subst.
    destruct (step b s t a) as [s1|] eqn:Es; [|discriminate].
    apply (IH s1 s'); auto; [apply (step_inv b s t a s1); auto|]. apply (no_outer_step b s t a s1); auto. apply (inv_susp s H).
Qed.
Lemma sym_progress b sched s t : uninterrupted sched -> only_new sched -> run b init sched = Some s -> busy s t ->
  exists u s', step b s u Go = Some s'.
Proof.
  intros Hu Hn E Hb. destruct (progress b s t) as [u Hgo]; auto.
  - right. apply (no_outer_run b sched init s inv_init); auto. intros u. exact I.
  - apply inv_lock. exact (run_inv b sched _ _ inv_init Hu E).
  - exists u. cbn. destruct (go b s u) as [s'|]; [eauto|contradiction].
Qed.
Lemma singleton_progress s t : reachable true s -> busy s t -> exists u s', step true s u Go = Some s'.
Proof.
  intros H Hb. destruct (progress true s t) as [u Hgo]; auto; [apply inv_lock; exact (reach_inv _ _ H)|].
  exists u. cbn. destruct (go true s u) as [s'|]; [eauto|contradiction].
Qed.

(** One thread *)
Definition calm (s : st) (p : pc) : Prop :=
  match p with
  | Acquire k _ | Check k _ => lookup s k = None
  | Fetch _ _ => False
  | Leave _ r _ | Idle (Some (_, r)) => r <> RKeyError
  | _ => True
  end.
Lemma lookup_lock s l k : lookup (set_lock s l) k = lookup s k.
Proof. reflexivity. Qed.
Lemma calm_step b s t a s' : calm s (pcs s t) -> suspended s t = [] -> a <> Interrupt -> step b s t a = Some s' -> calm s' (pcs s' t).
Proof.
  intros H Hs Ha E. destruct (release_set s) as [l El]. destruct (release_set (release s)) as [l2 El2].
  destruct a as [k|k| | |i|i t'| |]; cbn [step] in E; try congruence.
  - destruct (pcs s t); try discriminate. injection E as <-. cbn. rewrite setf_eq. exact I.
  - destruct (pcs s t); try discriminate. injection E as <-. cbn. rewrite setf_eq. exact I.
  - unfold go in E. destruct (pcs s t) as [x|k o|k o|k o|k o|k i o|k o|k x o|k|k|k i] eqn:P; cbn [calm] in H; try discriminate; try contradiction.
    + destruct (lookup s k) as [i|] eqn:L; injection E as <-; cbn [set_pc pcs]; rewrite setf_eq.
      * destruct o; cbn; [exact I|discriminate].
      * cbn. exact L.
    + destruct (acquire b s t) as [s1|] eqn:A; [|discriminate]. injection E as <-. destruct (acquire_some _ _ _ _ A) as [l1 ->].
      cbn [set_pc pcs]. rewrite setf_eq. exact H.
    + rewrite H in E. injection E as <-. cbn [set_pc pcs]. rewrite setf_eq. exact I.
    + injection E as <-. cbn. rewrite setf_eq. exact I.
    + injection E as <-. cbn. rewrite setf_eq. cbn. discriminate.
    + destruct x as [i| | |], o; injection E as <-; cbn; rewrite setf_eq; cbn; try exact I; try discriminate; exact H.
    + destruct (acquire b s t) as [s1|] eqn:A; [|discriminate]. injection E as <-. cbn. rewrite setf_eq. exact I.
    + destruct (lookup s k) as [i|]; injection E as <-; cbn; rewrite setf_eq; cbn; [discriminate|exact I].
    + injection E as <-. cbn. rewrite setf_eq. cbn. discriminate.
  - destruct (pcs s t); try discriminate. injection E as <-. cbn. rewrite setf_eq. cbn. discriminate.
  - destruct (pcs s t) eqn:P; try discriminate. destruct (has_ref s t i); [|discriminate]. injection E as <-. cbn [set_refs pcs].
    rewrite P. exact H.
  - destruct (pcs s t) eqn:P; try discriminate. destruct (has_ref s t i); [|discriminate]. injection E as <-. cbn [set_refs pcs].
    rewrite P. exact H.
  - destruct (pcs s t); try discriminate. rewrite Hs in E. discriminate.
Qed.
Lemma single_thread b t sched s k : uninterrupted sched -> by_thread t sched -> run b init sched = Some s ->
  pcs s t <> Idle (Some (k, RKeyError)).
Proof.
  intros Hu Ht E.
  assert (C : calm s (pcs s t)).
  { revert E. assert (H0 : calm init (pcs init t)) by exact I. revert H0. generalize inv_init. generalize init.
    induction sched as [|[u a] sched IH]; cbn; intros x Hi H0 E.
    - injection E as <-. exact H0.
    - inversion Hu as [|? ? Hx Hl]; subst. apply Forall_cons_iff in Ht as [Hx' Hl']. cbn in Hx, Hx'. subst u.
      destruct (step b x t a) as [s1|] eqn:Es; [|discriminate]. apply (IH Hl Hl' s1); auto.
      + apply (step_inv b x t a s1); auto.
      + apply (calm_step b x t a s1); auto. apply (inv_susp x Hi). }
  intros P. rewrite P in C. now apply C.
Qed.

(** The constructor *)
Lemma call_check b s t k : reachable b s -> pcs s t = CallCheck k ->
  exists s', step b s t Go = Some s' /\
  ((exists i, alive s i /\ keyof s i = k) /\ pcs s' t = Idle (Some (k, RTypeError)) /\ made s' = made s /\ refs s' = refs s /\ registry s' = registry s \/
   (forall i, alive s i -> keyof s i <> k) /\ pcs s' t = Look k true).
Proof.
  intros Hr P. pose proof (reach_inv b s Hr) as H. cbn [step]. unfold go. rewrite P. destruct (lookup s k) as [i|] eqn:L.
  - eexists. split; [reflexivity|]. left. destruct (found s k i H L) as (A & B & C).
    destruct (release_set s) as [l El]. rewrite El. cbn. rewrite setf_eq. eauto 8.
  - eexists. split; [reflexivity|]. right. cbn. rewrite setf_eq. split; [|reflexivity].
    apply (absent s k t H L); rewrite P; [discriminate|cbn; lia].
Qed.
Definition fresh_call (n k : nat) (p : pc) : Prop :=
  match p with
  | Idle _ => True
  | Look k' o | Acquire k' o | Check k' o | Create k' o => k' = k /\ o = true
  | Register k' i o | Leave k' (Obj i) o => k' = k /\ o = true /\ n <= i
  | Init k' i => k' = k /\ n <= i
  | _ => False
  end.
Lemma fresh_go b s t s' n k : inv s -> n <= made s -> fresh_call n k (pcs s t) -> step b s t Go = Some s' -> fresh_call n k (pcs s' t).
Proof.
  intros H Hn F E. pose proof (inv_pc s H t) as HP. cbn [step] in E. unfold go in E.
  destruct (pcs s t) as [x|k0 o|k0 o|k0 o|k0 o|k0 i o|k0 o|k0 x o|k0|k0|k0 i] eqn:P; cbn [fresh_call] in F; try discriminate; try contradiction.
  - destruct F as [-> ->]. destruct (lookup s k) as [i|] eqn:L.
    + exfalso. destruct (found s k i H L) as (A & B & C). exact (HP i C B).
    + injection E as <-. cbn. now rewrite setf_eq.
  - destruct (acquire b s t) as [s1|] eqn:A; [|discriminate]. injection E as <-. cbn. now rewrite setf_eq.
  - destruct F as [-> ->]. destruct (lookup s k) as [i|] eqn:L.
    + exfalso. destruct (found s k i H L) as (A & B & C). exact (HP i C B).
    + injection E as <-. cbn. now rewrite setf_eq.
  - injection E as <-. cbn. rewrite setf_eq. cbn. tauto.
  - injection E as <-. cbn. rewrite setf_eq. exact F.
  - destruct x as [i| | |]; cbn in F; try contradiction. destruct F as (-> & -> & F). injection E as <-. cbn. rewrite setf_eq. cbn. auto.
  - injection E as <-. cbn. rewrite setf_eq. exact I.
Qed.
Lemma other_pc b s t u a s' : u <> t -> step b s u a = Some s' -> pcs s' t = pcs s t.
Proof.
  intros Hn E. destruct (release_set s) as [l El]. destruct (release_set (release s)) as [l2 El2].
  assert (X : t <> u) by congruence.
  destruct a as [k|k| | |i|i t'| |]; cbn [step] in E.
  - destruct (pcs s u); try discriminate. injection E as <-. cbn. now apply setf_ne.
  - destruct (pcs s u); try discriminate. injection E as <-. cbn. now apply setf_ne.
  - unfold go in E. destruct (pcs s u) as [x|k o|k o|k o|k o|k i o|k o|k x o|k|k|k i]; try discriminate.
    + destruct (lookup s k) as [i|]; injection E as <-; cbn; now apply setf_ne.
    + destruct (acquire b s u) as [s1|] eqn:A; [|discriminate]. injection E as <-. destruct (acquire_some _ _ _ _ A) as [l1 ->].
      cbn. now apply setf_ne.
    + destruct (lookup s k) as [i|]; injection E as <-; cbn; now apply setf_ne.
    + injection E as <-; cbn; now apply setf_ne.
    + injection E as <-; cbn; now apply setf_ne.
    + destruct (lookup s k) as [i|]; injection E as <-; cbn; now apply setf_ne.
    + destruct x as [i| | |], o; injection E as <-; rewrite ?El2, ?El; cbn; now apply setf_ne.
    + destruct (acquire b s u) as [s1|] eqn:A; [|discriminate]. injection E as <-. destruct (acquire_some _ _ _ _ A) as [l1 ->].
      cbn. now apply setf_ne.
    + destruct (lookup s k) as [i|]; injection E as <-; rewrite ?El; cbn; now apply setf_ne.
    + injection E as <-; rewrite El; cbn; now apply setf_ne.
  - destruct (pcs s u); try discriminate. injection E as <-. rewrite El. cbn. now apply setf_ne.
  - destruct (pcs s u); try discriminate. destruct (has_ref s u i); [|discriminate]. injection E as <-. reflexivity.
  - destruct (pcs s u); try discriminate. destruct (has_ref s u i); [|discriminate]. injection E as <-. reflexivity.
  - destruct (pcs s u); try discriminate; injection E as <-; cbn; now apply setf_ne.
  - destruct (pcs s u); try discriminate. destruct (suspended s u); try discriminate. injection E as <-. cbn. now apply setf_ne.
Qed.
Lemma made_mono b s u a s' : step b s u a = Some s' -> made s <= made s'.
Proof.
  intros E. destruct (release_set s) as [l El]. destruct (release_set (release s)) as [l2 El2].
  destruct a as [k|k| | |i|i t'| |]; cbn [step] in E.
  - destruct (pcs s u); try discriminate. injection E as <-. cbn. lia.
  - destruct (pcs s u); try discriminate. injection E as <-. cbn. lia.
  - unfold go in E. destruct (pcs s u) as [x|k o|k o|k o|k o|k i o|k o|k x o|k|k|k i]; try discriminate.
    + destruct (lookup s k) as [i|]; injection E as <-; cbn; lia.
    + destruct (acquire b s u) as [s1|] eqn:A; [|discriminate]. injection E as <-. destruct (acquire_some _ _ _ _ A) as [l1 ->]. cbn. lia.
    + destruct (lookup s k) as [i|]; injection E as <-; cbn; lia.
    + injection E as <-; cbn; lia.
    + injection E as <-; cbn; lia.
    + destruct (lookup s k) as [i|]; injection E as <-; cbn; lia.
    + destruct x as [i| | |], o; injection E as <-; rewrite ?El2, ?El; cbn; lia.
    + destruct (acquire b s u) as [s1|] eqn:A; [|discriminate]. injection E as <-. destruct (acquire_some _ _ _ _ A) as [l1 ->]. cbn. lia.
    + destruct (lookup s k) as [i|]; injection E as <-; rewrite ?El; cbn; lia.
    + injection E as <-; rewrite El; cbn; lia.
  - destruct (pcs s u); try discriminate. injection E as <-. rewrite El. cbn. lia.
  - destruct (pcs s u); try discriminate. destruct (has_ref s u i); [|discriminate]. injection E as <-. cbn. lia.
  - destruct (pcs s u); try discriminate. destruct (has_ref s u i); [|discriminate]. injection E as <-. cbn. lia.
  - destruct (pcs s u); try discriminate; injection E as <-; cbn; lia.
  - destruct (pcs s u); try discriminate. destruct (suspended s u); try discriminate. injection E as <-. cbn. lia.
Qed.
(** While a constructor call runs, up to the start of __init__ *)
Lemma call_fresh b s t k sched s' i : reachable b s -> pcs s t = Look k true -> uninterrupted sched ->
  Forall (fun x => fst x = t -> snd x = Go) sched -> run b s sched = Some s' -> pcs s' t = Init k i -> made s <= i.
Proof.
  intros Hr P Hu Hg E Pi. pose proof (reach_inv b s Hr) as H.
  assert (F : fresh_call (made s) k (pcs s' t)); [|rewrite Pi in F; apply F].
  assert (F0 : fresh_call (made s) k (pcs s t)) by (rewrite P; cbn; auto).
  assert (Hm : made s <= made s) by lia. revert F0 Hm E. generalize (made s) at 1 2 4 as n. clear P Pi Hr. revert s H.
  induction sched as [|[u a] sched IH]; cbn; intros s H n F0 Hm E.
  - injection E as <-. exact F0.
  - inversion Hu as [|? ? Hx Hl]; subst. inversion Hg as [|? ? Hx' Hl']; subst. cbn in Hx, Hx'.
    destruct (step b s u a) as [s1|] eqn:Es; [|discriminate]. pose proof (made_mono b s u a s1 Es) as Hmm.
    apply (IH Hl Hl' s1); auto.
    + apply (step_inv b s u a s1); auto.
    + destruct (Nat.eq_dec u t) as [->|Hn].
      * rewrite (Hx' eq_refl) in Es. apply (fresh_go b s t s1 n k); auto.
      * now rewrite (other_pc b s t u a s1 Hn Es).
    + lia.
Qed.

(** To exhibit a run *)
Lemma witness {A} (f : st -> A) b sched a : option_map f (run b init sched) = Some a ->
  exists s, run b init sched = Some s /\ f s = a.
Proof. destruct (run b init sched) as [s|]; [|discriminate]. cbn. intros E. injection E as <-. eauto. Qed.
Lemma stuck b s : (forall t, t <> 0 -> pcs s t = Idle None) -> go b s 0 = None -> forall t, step b s t Go = None.
Proof. intros H H0 [|t]; [exact H0|]. cbn. unfold go. now rewrite (H (S t)). Qed.
Lemma idle_others b sched : (forall x, In x sched -> fst x = 0) -> forall s s', (forall t, t <> 0 -> pcs s t = Idle None) ->
  run b s sched = Some s' -> forall t, t <> 0 -> pcs s' t = Idle None.
Proof.
  induction sched as [|[u a] sched IH]; cbn; intros Hs s s' H E t Ht.
  - injection E as <-. auto.
  - destruct (step b s u a) as [s1|] eqn:Es; [|discriminate]. apply (IH (fun x Hx => Hs x (or_intror Hx)) s1 s'); auto.
    intros t' Ht'. specialize (Hs _ (or_introl eq_refl)). cbn in Hs. subst u. rewrite (other_pc b s t' 0 a s1); auto.
Qed.
