(** Proofs for infix arithmetic on sequences (C111). *)
From Coq Require Import List Bool Arith Lia.
From Verif Require Import Base CollModel InfModel InfSpec.
Import ListNotations.

Section Proofs.
Context {N : Type}.
Variable prim2 : binop -> N -> N -> outcome N.
Variable prim1 : @unop N -> N -> outcome N.
Variable pow3 : N -> N -> N -> outcome N.
Implicit Types h : @heap N.
Implicit Types t s : nat -> outcome (option N).
Definition lift1 (f : N -> outcome N) (x : outcome (option N)) : outcome (option N) :=
  do x <- x ; match x with None => Ok None | Some x => do z <- f x ; Ok (Some z) end.

(** [rep h i t F]: iterator i yields t; all it touches is in F. *)
Inductive rep h : nat -> (nat -> outcome (option N)) -> list nat -> Prop :=
| RSrc i f p t : nth_error h i = Some (Src f p) -> (forall k, t k = Ok (f (p + k))) -> rep h i t [i]
| RUn i op j s F t : nth_error h i = Some (Un op j) -> rep h j s F -> j < i -> ~ In i F -> (forall k, t k = lift1 op (s k)) -> rep h i t (i :: F)
| RZip i op a b s1 F1 s2 F2 t : nth_error h i = Some (Zip op a b) -> rep h a s1 F1 -> rep h b s2 F2 -> a < i -> b < i ->
    ~ In i F1 -> ~ In i F2 -> (forall j, In j F1 -> ~ In j F2) -> (forall k, t k = lift2 op (s1 k) (s2 k)) -> rep h i t (i :: F1 ++ F2)
| RLeft i op j c s F t : nth_error h i = Some (OnLeft op j c) -> rep h j s F -> j < i -> ~ In i F -> (forall k, t k = lift1 (fun x => op x c) (s k)) -> rep h i t (i :: F)
| RRight i op j c s F t : nth_error h i = Some (OnRight op c j) -> rep h j s F -> j < i -> ~ In i F -> (forall k, t k = lift1 (op c) (s k)) -> rep h i t (i :: F).
Lemma rep_ext h i t t' F : rep h i t F -> (forall k, t' k = t k) -> rep h i t' F.
Proof.
  intros R E. inversion R; subst.
  - eapply RSrc; eauto. intros k. now rewrite E.
  - eapply RUn; eauto. intros k. now rewrite E.
  - eapply RZip; eauto. intros k. now rewrite E.
  - eapply RLeft; eauto. intros k. now rewrite E.
  - eapply RRight; eauto. intros k. now rewrite E.
Qed.
Lemma rep_frame h h' i t F : rep h i t F -> (forall j, In j F -> nth_error h' j = nth_error h j) -> rep h' i t F.
Proof.
  intros R. induction R; intros E.
  - eapply RSrc; [rewrite E; [eassumption|now left]|auto].
  - eapply RUn; [rewrite E; [eassumption|now left]|apply IHR; intros; apply E; now right|auto|auto|auto].
  - eapply RZip; [rewrite E; [eassumption|now left]| | |eauto|eauto|eauto|eauto|eauto|eauto].
    + apply IHR1. intros; apply E. right. apply in_or_app. auto.
    + apply IHR2. intros; apply E. right. apply in_or_app. auto.
  - eapply RLeft; [rewrite E; [eassumption|now left]|apply IHR; intros; apply E; now right|auto|auto|auto].
  - eapply RRight; [rewrite E; [eassumption|now left]|apply IHR; intros; apply E; now right|auto|auto|auto].
Qed.
Lemma rep_in h i t F : rep h i t F -> In i F.
Proof. intros R. inversion R; now left. Qed.
Lemma rep_bound h i t F : rep h i t F -> forall j, In j F -> j < length h.
Proof.
  intros R. assert (B : forall h j (c : @cell N), nth_error h j = Some c -> j < length h) by (intros h0 j0 c0 E; apply nth_error_Some; congruence).
  induction R; intros j' [<-|Hj]; eauto.
  - destruct Hj.
  - apply in_app_or in Hj as [Hj|Hj]; auto.
Qed.
Lemma upd_same {A} (l : list A) n x : n < length l -> nth_error (upd l n x) n = Some x.
Proof. revert n. induction l as [|y l IH]; intros [|n] L; cbn in *; try lia; auto. apply IH. lia. Qed.
Lemma upd_other {A} (l : list A) n x m : n <> m -> nth_error (upd l n x) m = nth_error l m.
Proof. revert n m. induction l as [|y l IH]; intros [|n] [|m] L; cbn in *; try lia; auto. Qed.
Lemma upd_len {A} (l : list A) n x : length (upd l n x) = length l.
Proof. revert n. induction l as [|y l IH]; intros [|n]; cbn; auto. Qed.
Lemma NoDup_app_l {A} (a b : list A) : NoDup (a ++ b) -> NoDup a.
Proof. induction a as [|x a IH]; cbn; intros H; constructor; inversion H; subst; auto. intros Y. apply H2, in_or_app. auto. Qed.
Lemma NoDup_app_r {A} (a b : list A) : NoDup (a ++ b) -> NoDup b.
Proof. induction a as [|x a IH]; cbn; intros H; auto. inversion H; auto. Qed.
Lemma NoDup_app_disj {A} (a b : list A) : NoDup (a ++ b) -> forall x, In x a -> ~ In x b.
Proof.
  induction a as [|x a IH]; cbn; intros H y; [tauto|]. inversion H; subst. intros [<-|Y] Z; [apply H2, in_or_app; auto|exact (IH H3 _ Y Z)].
Qed.
Definition goes h i t F fuel : Prop :=
  exists h', next fuel h i = (t 0, h') /\ length h' = length h /\ (forall j, ~ In j F -> nth_error h' j = nth_error h j) /\
    ((exists z, t 0 = Ok (Some z)) -> rep h' i (fun k => t (S k)) F).
Lemma ends_ok h i t F fuel r h1 : length h1 = length h -> (forall j, ~ In j F -> nth_error h1 j = nth_error h j) -> In i F ->
  next fuel h i = (r, upd h1 i Done) -> r = t 0 -> (forall z, t 0 <> Ok (Some z)) -> goes h i t F fuel.
Proof.
  intros L O I E -> NZ. exists (upd h1 i Done). rewrite upd_len. split; [auto|]. split; [auto|]. split.
  - intros j NJ. rewrite upd_other; [auto|]. intros ->. contradiction.
  - intros [z Z]. exfalso. exact (NZ _ Z).
Qed.

Lemma next_rep i : forall h t F, rep h i t F -> forall fuel, i < fuel -> goes h i t F fuel.
Proof.
  induction i as [i IH] using lt_wf_ind. intros h t F R [|fuel] FU; [lia|].
  inversion R as [i' f p t' E T|i' op j s F' t' E R1 L NI T|i' op a b s1 F1 s2 F2 t' E R1 R2 La Lb N1 N2 D T|i' op j c s F' t' E R1 L NI T|i' op j c s F' t' E R1 L NI T]; subst i' t' F.
  - destruct (f p) as [z|] eqn:G.
    + exists (upd h i (Src f (S p))). assert (B : i < length h) by (apply nth_error_Some; congruence). cbn [next]. rewrite E, G, T, Nat.add_0_r, G.
      split; [reflexivity|]. split; [apply upd_len|]. split.
      * intros j NJ. apply upd_other. intros ->. apply NJ. now left.
      * intros _. eapply RSrc; [now apply upd_same|]. intros k. rewrite T. do 2 f_equal. lia.
    + exists h. cbn [next]. rewrite E, G, T, Nat.add_0_r, G. repeat split; auto. intros [z Z]. discriminate.
  - destruct (IH j L h s F' R1 fuel) as (h1 & X & LN & O & K); [lia|]. pose proof (T 0) as T0. unfold lift1, obind in T0.
    assert (O' : forall j', ~ In j' (i :: F') -> nth_error h1 j' = nth_error h j') by (intros j' NJ; apply O; intros Y; apply NJ; now right).
    destruct (s 0) as [[x|]|e] eqn:S0.
    + destruct (op x) as [z|e] eqn:OP.
      * exists h1. cbn [next]. rewrite E, X, OP, T0. repeat split; auto.
        intros _. eapply RUn; [rewrite O; eauto|apply K; eauto|auto|auto|]. intros k. apply T.
      * eapply (ends_ok h i t (i :: F') (S fuel) (Raise e) h1); auto; [now left|cbn [next]; now rewrite E, X, OP|intros z Z; congruence].
    + eapply (ends_ok h i t (i :: F') (S fuel) (Ok None) h1); auto; [now left|cbn [next]; now rewrite E, X|intros z Z; congruence].
    + eapply (ends_ok h i t (i :: F') (S fuel) (Raise e) h1); auto; [now left|cbn [next]; now rewrite E, X|intros z Z; congruence].
  - destruct (IH a La h s1 F1 R1 fuel) as (h1 & X & LN & O & K); [lia|]. pose proof (T 0) as T0. unfold lift2, obind in T0.
    assert (O' : forall j', ~ In j' (i :: F1 ++ F2) -> nth_error h1 j' = nth_error h j').
    { intros j' NJ. apply O. intros Y. apply NJ. right. apply in_or_app. auto. }
    destruct (s1 0) as [[x|]|e] eqn:S0.
    2:{ eapply (ends_ok h i t (i :: F1 ++ F2) (S fuel) (Ok None) h1); auto; [now left|cbn [next]; now rewrite E, X|intros z Z; congruence]. }
    2:{ eapply (ends_ok h i t (i :: F1 ++ F2) (S fuel) (Raise e) h1); auto; [now left|cbn [next]; now rewrite E, X|intros z Z; congruence]. }
    specialize (K (ex_intro _ x eq_refl)).
    assert (R2' : rep h1 b s2 F2). { eapply rep_frame; eauto. intros j Hj. apply O. intros Y. exact (D _ Y Hj). }
    destruct (IH b Lb h1 s2 F2 R2' fuel) as (h2 & X2 & LN2 & O2 & K2); [lia|].
    assert (O3 : forall j', ~ In j' (i :: F1 ++ F2) -> nth_error h2 j' = nth_error h j').
    { intros j' NJ. rewrite O2, O'; auto. intros Y. apply NJ. right. apply in_or_app. auto. }
    assert (LN3 : length h2 = length h) by lia.
    destruct (s2 0) as [[y|]|e] eqn:S2.
    2:{ eapply (ends_ok h i t (i :: F1 ++ F2) (S fuel) (Ok None) h2); auto; [now left|cbn [next]; now rewrite E, X, X2|intros z Z; congruence]. }
    2:{ eapply (ends_ok h i t (i :: F1 ++ F2) (S fuel) (Raise e) h2); auto; [now left|cbn [next]; now rewrite E, X, X2|intros z Z; congruence]. }
    destruct (op x y) as [z|e] eqn:OP.
    + exists h2. cbn [next]. rewrite E, X, X2, OP, T0. repeat split; auto. intros _.
      eapply (RZip h2 i op a b (fun k => s1 (S k)) F1 (fun k => s2 (S k)) F2); auto.
      * rewrite O2, O; auto.
      * eapply rep_frame; [exact K|]. intros j Hj. apply O2. intros Y. exact (D _ Hj Y).
      * apply K2. eauto.
    + eapply (ends_ok h i t (i :: F1 ++ F2) (S fuel) (Raise e) h2); auto; [now left|cbn [next]; now rewrite E, X, X2, OP|intros z Z; congruence].
  - destruct (IH j L h s F' R1 fuel) as (h1 & X & LN & O & K); [lia|]. pose proof (T 0) as T0. unfold lift1, obind in T0.
    assert (O' : forall j', ~ In j' (i :: F') -> nth_error h1 j' = nth_error h j') by (intros j' NJ; apply O; intros Y; apply NJ; now right).
    destruct (s 0) as [[x|]|e] eqn:S0.
    + destruct (op x c) as [z|e] eqn:OP.
      * exists h1. cbn [next]. rewrite E, X, OP, T0. repeat split; auto.
        intros _. eapply RLeft; [rewrite O; eauto|apply K; eauto|auto|auto|]. intros k. apply T.
      * eapply (ends_ok h i t (i :: F') (S fuel) (Raise e) h1); auto; [now left|cbn [next]; now rewrite E, X, OP|intros z Z; congruence].
    + eapply (ends_ok h i t (i :: F') (S fuel) (Ok None) h1); auto; [now left|cbn [next]; now rewrite E, X|intros z Z; congruence].
    + eapply (ends_ok h i t (i :: F') (S fuel) (Raise e) h1); auto; [now left|cbn [next]; now rewrite E, X|intros z Z; congruence].
  - destruct (IH j L h s F' R1 fuel) as (h1 & X & LN & O & K); [lia|]. pose proof (T 0) as T0. unfold lift1, obind in T0.
    assert (O' : forall j', ~ In j' (i :: F') -> nth_error h1 j' = nth_error h j') by (intros j' NJ; apply O; intros Y; apply NJ; now right).
    destruct (s 0) as [[x|]|e] eqn:S0.
    + destruct (op c x) as [z|e] eqn:OP.
      * exists h1. cbn [next]. rewrite E, X, OP, T0. repeat split; auto.
        intros _. eapply RRight; [rewrite O; eauto|apply K; eauto|auto|auto|]. intros k. apply T.
      * eapply (ends_ok h i t (i :: F') (S fuel) (Raise e) h1); auto; [now left|cbn [next]; now rewrite E, X, OP|intros z Z; congruence].
    + eapply (ends_ok h i t (i :: F') (S fuel) (Ok None) h1); auto; [now left|cbn [next]; now rewrite E, X|intros z Z; congruence].
    + eapply (ends_ok h i t (i :: F') (S fuel) (Raise e) h1); auto; [now left|cbn [next]; now rewrite E, X|intros z Z; congruence].
Qed.
Lemma pull_rep n : forall h i t F, rep h i t F -> fst (pull n h i) = upto n t.
Proof.
  induction n as [|n IH]; intros h i t F R; [reflexivity|]. destruct (next_rep i h t F R (S i)) as (h' & X & _ & _ & K); [lia|].
  cbn [pull upto]. rewrite X. destruct (t 0) as [[z|]|e]; auto. specialize (IH h' i _ F (K (ex_intro _ z eq_refl))).
  destruct (pull n h' i) as [[l x] h2]. cbn [fst] in *. rewrite <- IH. reflexivity.
Qed.

(** ** Values *)
Definition ext h h' : Prop := exists new, h' = h ++ new.
Lemma ext_refl h : ext h h.
Proof. exists []. now rewrite app_nil_r. Qed.
Lemma ext_trans a b c : ext a b -> ext b c -> ext a c.
Proof. intros [x ->] [y ->]. exists (x ++ y). now rewrite app_assoc. Qed.
Lemma ext_len h h' : ext h h' -> length h <= length h'.
Proof. intros [x ->]. rewrite app_length. lia. Qed.
Lemma ext_get h h' j : ext h h' -> j < length h -> nth_error h' j = nth_error h j.
Proof. intros [x ->] L. now apply nth_error_app1. Qed.
Lemma rep_grow h h' i t F : ext h h' -> rep h i t F -> rep h' i t F.
Proof. intros X R. eapply rep_frame; eauto. intros j Hj. apply ext_get; auto. eapply rep_bound; eauto. Qed.
Lemma ext_alloc h c : ext h (snd (alloc h c)).
Proof. exists [c]. reflexivity. Qed.
Definition vrep h (v : @val N) t F : Prop :=
  match bare v with
  | Tup l => (forall k, t k = Ok (nth_error l k)) /\ F = []
  | Gen i => rep h i t F
  | _ => False
  end.
Lemma vrep_grow h h' v t F : ext h h' -> vrep h v t F -> vrep h' v t F.
Proof. unfold vrep. destruct (bare v); auto. apply rep_grow. Qed.
Lemma vrep_bound h v t F : vrep h v t F -> forall j, In j F -> j < length h.
Proof. unfold vrep. destruct (bare v); try tauto; [intros [_ ->] j []|apply rep_bound]. Qed.
Lemma iter_bare h v : iter h v = iter h (bare v).
Proof. induction v; auto. Qed.
Lemma iter_rep h v t F : vrep h v t F -> exists i h' F', iter h v = Ok (i, h') /\ ext h h' /\ rep h' i t F' /\
  (forall j, In j F' -> In j F \/ length h <= j < length h').
Proof.
  unfold vrep. rewrite iter_bare. destruct (bare v) as [z|l|i|v']; try tauto.
  - intros [T ->]. exists (length h), (h ++ [Src (nth_error l) 0]), [length h]. split; [reflexivity|]. split; [now exists [Src (nth_error l) 0]|]. split.
    + eapply RSrc; [rewrite nth_error_app2, Nat.sub_diag by lia; reflexivity|]. exact T.
    + intros j [<-|[]]. right. rewrite app_length. cbn. lia.
  - intros R. exists i, h, F. repeat split; auto. apply ext_refl.
Qed.
Definition mrep h v (m : @meaning N) F : Prop :=
  match m with
  | Scalar (Ok z) => v = Num z
  | Scalar (Raise _) => False
  | Seq t => vrep h v t F
  end.
Lemma mrep_grow h h' v m F : ext h h' -> mrep h v m F -> mrep h' v m F.
Proof. destruct m as [[z|]|t]; cbn; auto. apply vrep_grow. Qed.
Definition good (m : @meaning N) : Prop := match m with Scalar (Raise _) => False | _ => True end.
(** the result of a termwise operation *)
Definition made h (r : outcome (val * heap)) (m : @meaning N) (F : list nat) : Prop :=
  exists v h' F', r = Ok (v, h') /\ ext h h' /\ mrep h' v m F' /\ (forall j, In j F' -> In j F \/ length h <= j < length h') /\
    (is_seq m = true -> exists i, v = M (Gen i)).
Lemma not_num v t F h : vrep h v t F -> forall z, v <> Num z.
Proof. intros V z ->. exact V. Qed.
Lemma alloc_made h h1 c t F F' : ext h h1 -> rep (h1 ++ [c]) (length h1) t F' -> (forall j, In j F' -> In j F \/ length h <= j < length h1 + 1) ->
  made h (mret (alloc h1 c)) (Seq t) F.
Proof.
  intros X R B. exists (M (Gen (length h1))), (h1 ++ [c]), F'. split; [reflexivity|]. split; [eapply ext_trans; [exact X|now exists [c]]|]. split; [exact R|].
  split; [|eauto]. intros j Hj. rewrite app_length. cbn. auto.
Qed.
Lemma new_cell h (c : @cell N) : nth_error (h ++ [c]) (length h) = Some c.
Proof. rewrite nth_error_app2, Nat.sub_diag by lia. reflexivity. Qed.
Lemma fresh_not h1 i t F : rep h1 i t F -> ~ In (length h1) F.
Proof. intros R Y. apply (rep_bound _ _ _ _ R) in Y. lia. Qed.
Lemma unop_made f h a m F : mrep h a m F -> good (unary f m) -> made h (stream_unop f h a) (unary f m) F.
Proof.
  intros R G. unfold stream_unop. destruct m as [[x|x]|t]; cbn [mrep unary] in *; try tauto.
  - subst a. cbn [iterable]. unfold obind in *. destruct (f x) as [z|e] eqn:E; cbn in G; [|destruct G].
    exists (Num z), h, []. cbn. repeat split; auto; try apply ext_refl; try discriminate; intros j [].
  - assert (IT : iterable a = true) by (destruct a; auto; exfalso; exact R). rewrite IT.
    destruct (iter_rep _ _ _ _ R) as (i & h1 & F' & E & X & R1 & B). unfold obind. rewrite E. cbn [fst snd].
    eapply alloc_made with (F' := length h1 :: F'); auto.
    + eapply RUn; [apply new_cell|apply (rep_grow h1); [now exists [Un f i]|exact R1]| |now apply (fresh_not h1 i t)|reflexivity].
      apply rep_in in R1 as R2. exact (rep_bound _ _ _ _ R1 _ R2).
    + pose proof (ext_len _ _ X). intros j [<-|Hj]; [right; lia|]. apply B in Hj as [Hj|Hj]; auto. right. lia.
Qed.
Lemma binop_made f h a b m n F1 F2 : mrep h a m F1 -> mrep h b n F2 -> (forall j, In j F1 -> ~ In j F2) -> good (binary f m n) ->
  made h (stream_binop f h a b) (binary f m n) (F1 ++ F2).
Proof.
  intros R1 R2 D G. unfold stream_binop. destruct m as [[x|x]|s]; cbn [mrep] in R1; try tauto; destruct n as [[y|y]|t]; cbn [mrep] in R2; try tauto; cbn [binary] in *.
  - subst a b. unfold obind in *. destruct (f x y) as [z|e] eqn:E; cbn in G; [|destruct G].
    exists (Num z), h, []. cbn. repeat split; auto; try apply ext_refl; try discriminate; intros j [].
  - subst a. destruct (iter_rep _ _ _ _ R2) as (i & h1 & F' & E & X & RI & B).
    assert (Q : made h (do r <- iter h b ; mret (alloc (snd r) (OnRight f x (fst r)))) (Seq (fun k => lift2 f (omap Some (Ok x)) (t k))) (F1 ++ F2)).
    { unfold obind. rewrite E. cbn [fst snd]. eapply alloc_made with (F' := length h1 :: F'); auto.
      - eapply RRight; [apply new_cell|apply (rep_grow h1); [now exists [OnRight f x i]|exact RI]| |now apply (fresh_not h1 i t)|reflexivity].
        apply rep_in in RI as RJ. exact (rep_bound _ _ _ _ RI _ RJ).
      - pose proof (ext_len _ _ X). intros j [<-|Hj]; [right; lia|]. apply B in Hj as [Hj|Hj]; [left; apply in_or_app; auto|right; lia]. }
    destruct b; auto. exfalso. exact R2.
  - subst b. destruct (iter_rep _ _ _ _ R1) as (i & h1 & F' & E & X & RI & B).
    assert (Q : made h (do r <- iter h a ; mret (alloc (snd r) (OnLeft f (fst r) y))) (Seq (fun k => lift2 f (s k) (omap Some (Ok y)))) (F1 ++ F2)).
    { unfold obind. rewrite E. cbn [fst snd]. eapply alloc_made with (F' := length h1 :: F'); auto.
      - eapply RLeft; [apply new_cell|apply (rep_grow h1); [now exists [OnLeft f i y]|exact RI]| |now apply (fresh_not h1 i s)|].
        + apply rep_in in RI as RJ. exact (rep_bound _ _ _ _ RI _ RJ).
        + intros k. unfold lift2, lift1, obind. destruct (s k) as [[?|]|]; reflexivity.
      - pose proof (ext_len _ _ X). intros j [<-|Hj]; [right; lia|]. apply B in Hj as [Hj|Hj]; [left; apply in_or_app; auto|right; lia]. }
    destruct a; auto. exfalso. exact R1.
  - destruct (iter_rep _ _ _ _ R1) as (i & h1 & F1' & E & X & RI & B). destruct (iter_rep h1 b t F2 (vrep_grow _ _ _ _ _ X R2)) as (i2 & h2 & F2' & E2 & X2 & RI2 & B2).
    pose proof (ext_len _ _ X). pose proof (ext_len _ _ X2). pose proof (vrep_bound _ _ _ _ R1) as V1. pose proof (vrep_bound _ _ _ _ R2) as V2.
    assert (Q : made h (do r <- iter h a ; do r2 <- iter (snd r) b ; mret (alloc (snd r2) (Zip f (fst r) (fst r2)))) (Seq (fun k => lift2 f (s k) (t k))) (F1 ++ F2)).
    { unfold obind. rewrite E. cbn [fst snd]. rewrite E2. cbn [fst snd]. pose proof (rep_grow _ _ _ _ _ X2 RI) as RI'.
      eapply alloc_made with (F' := length h2 :: F1' ++ F2'); [eapply ext_trans; eauto| |].
      - eapply RZip; [apply new_cell|apply (rep_grow h2); [now exists [Zip f i i2]|exact RI']|apply (rep_grow h2); [now exists [Zip f i i2]|exact RI2]| | | | | |reflexivity].
        + pose proof (rep_in _ _ _ _ RI') as RJ. exact (rep_bound _ _ _ _ RI' _ RJ).
        + pose proof (rep_in _ _ _ _ RI2) as RJ. exact (rep_bound _ _ _ _ RI2 _ RJ).
        + now apply (fresh_not h2 i s).
        + now apply (fresh_not h2 i2 t).
        + intros j J1 J2. apply B in J1 as [J1|J1]; apply B2 in J2 as [J2|J2].
          * exact (D _ J1 J2).
          * apply V1 in J1. lia.
          * apply V2 in J2. lia.
          * lia.
      - intros j [<-|Hj]; [right; lia|]. apply in_app_or in Hj as [Hj|Hj]; [apply B in Hj as [Hj|Hj]|apply B2 in Hj as [Hj|Hj]]; try (left; apply in_or_app; auto; fail); right; lia. }
    destruct a; try (exfalso; exact R1); destruct b; try (exfalso; exact R2); exact Q.
Qed.
Lemma made_ext h r t t' F : made h r (Seq t) F -> (forall k, t' k = t k) -> made h r (Seq t') F.
Proof.
  intros (v & h' & F' & E & X & R & B & I) T. exists v, h', F'. repeat split; auto. cbn in R |- *. unfold vrep in *. destruct (bare v); auto.
  - destruct R as [R ->]. split; auto. intros k. now rewrite T.
  - eapply rep_ext; eauto.
Qed.
Lemma made_app h r m F1 F2 : made h r m (F1 ++ F2) -> made h r m (F2 ++ F1).
Proof.
  intros (v & h' & F' & E & X & R & B & I). exists v, h', F'. repeat split; auto. intros j Hj. apply B in Hj as [Hj|Hj]; auto. left.
  apply in_or_app. apply in_app_or in Hj. tauto.
Qed.
Hypothesis mir : mirrored prim2.
Lemma mirror_made o o' h a b m n F1 F2 : (forall x y, prim2 o x y = prim2 o' y x) -> is_seq m && is_seq n = false ->
  mrep h a m F1 -> mrep h b n F2 -> (forall j, In j F1 -> ~ In j F2) -> good (binary (prim2 o) m n) ->
  made h (stream_binop (prim2 o') h b a) (binary (prim2 o) m n) (F1 ++ F2).
Proof.
  intros MI NS R1 R2 D G. apply made_app.
  assert (D' : forall j, In j F2 -> ~ In j F1) by (intros j A B; exact (D _ B A)).
  assert (G' : good (binary (prim2 o') n m)).
  { destruct m as [[x|x]|s]; cbn [mrep] in *; try tauto; destruct n as [[y|y]|t]; cbn [mrep] in *; try tauto; cbn in *; auto. now rewrite <- MI. }
  pose proof (binop_made (prim2 o') h b a n m F2 F1 R2 R1 D' G') as Q.
  destruct m as [[x|x]|s]; cbn [mrep] in *; try tauto; destruct n as [[y|y]|t]; cbn [mrep] in *; try tauto; try discriminate NS; cbn [binary] in *.
  - cbn [obind] in *. now rewrite MI.
  - eapply made_ext; [exact Q|]. intros k. unfold lift2, obind, omap. destruct (t k) as [[?|]|]; auto. cbn. now rewrite MI.
  - eapply made_ext; [exact Q|]. intros k. unfold lift2, obind, omap. destruct (s k) as [[?|]|]; auto. cbn. now rewrite MI.
Qed.
Lemma infix_made o h a b m n F1 F2 : mrep h a m F1 -> mrep h b n F2 -> (forall j, In j F1 -> ~ In j F2) -> good (binary (prim2 o) m n) ->
  (compares o && is_seq m && is_seq n = true -> is_m a = true) ->
  (is_seq m || is_seq n = true -> (is_seq m && is_m a) || (is_seq n && is_m b) = true) ->
  made h (infix prim2 o h a b) (binary (prim2 o) m n) (F1 ++ F2).
Proof.
  intros R1 R2 D G C MM. unfold infix. destruct (is_m a) eqn:MA.
  - replace (method prim2 o h a b) with (stream_binop (prim2 o) h a b) by (destruct o; reflexivity). now apply binop_made.
  - destruct (is_m b) eqn:MB.
    + assert (NS : compares o = true -> is_seq m && is_seq n = false).
      { intros CO. rewrite CO in C. cbn in C. destruct (is_seq m && is_seq n) eqn:SS; auto. specialize (C eq_refl). discriminate. }
      destruct o; cbn [rmethod]; try (now apply binop_made); cbn [method]; specialize (NS eq_refl); apply mirror_made; auto; intros x y; destruct (mir x y) as (M1 & M2 & M3 & M4); auto;
        destruct (mir y x) as (M1' & M2' & M3' & M4'); auto.
    + rewrite !andb_false_r in MM. cbn in MM. destruct m as [[x|x]|s]; cbn [mrep is_seq] in *; try tauto; destruct n as [[y|y]|t]; cbn [mrep is_seq] in *; try tauto;
        try (specialize (MM eq_refl); discriminate).
      subst a b. cbn [binary] in *. unfold obind in *. destruct (prim2 o x y) as [z|e] eqn:E; cbn in G; [|destruct G].
      exists (Num z), h, []. cbn. repeat split; auto; try apply ext_refl; try discriminate; intros j [].
Qed.
Lemma prefix_made o h a m F : mrep h a m F -> good (unary (prim1 o) m) -> (is_seq m = true -> is_m a = true) ->
  made h (prefix prim1 o h a) (unary (prim1 o) m) F.
Proof.
  intros R G MM. unfold prefix. destruct (is_m a) eqn:MA.
  - replace (umethod prim1 o h a) with (stream_unop (prim1 o) h a) by (destruct o as [| | | |[d|]| | |]; reflexivity). now apply unop_made.
  - destruct m as [[x|x]|s]; cbn [mrep is_seq] in *; try tauto; [|specialize (MM eq_refl); discriminate].
    subst a. cbn [unary] in *. unfold obind in *. destruct (prim1 o x) as [z|e] eqn:E; cbn in G; [|destruct G].
    exists (Num z), h, []. cbn. repeat split; auto; try apply ext_refl; try discriminate; intros j [].
Qed.
Lemma power3_made h a b c m n F1 F2 : mrep h a m F1 -> mrep h b n F2 -> (forall j, In j F1 -> ~ In j F2) -> good (binary (fun x y => pow3 x y c) m n) ->
  (is_seq m || is_seq n = true -> is_m a = true) ->
  made h (power3 pow3 h a b c) (binary (fun x y => pow3 x y c) m n) (F1 ++ F2).
Proof.
  intros R1 R2 D G MM. unfold power3. destruct (is_m a) eqn:MA.
  - now apply binop_made.
  - destruct m as [[x|x]|s]; cbn [mrep is_seq] in *; try tauto; destruct n as [[y|y]|t]; cbn [mrep is_seq orb] in *; try tauto;
        try (specialize (MM eq_refl); discriminate).
    subst a b. cbn [binary] in *. unfold obind in *. destruct (pow3 x y c) as [z|e] eqn:E; cbn in G; [|destruct G].
    exists (Num z), h, []. cbn. repeat split; auto; try apply ext_refl; try discriminate; intros j [].
Qed.

(** ** Expressions *)
Variable gens : nat -> nat -> option N.
Let means := means prim2 prim1 pow3 gens.
Lemma terms_bare v : terms gens v = terms gens (bare v).
Proof. induction v; auto. Qed.
Lemma gens_bare v : gens_of_val v = gens_of_val (bare (N:=N) v).
Proof. induction v; auto. Qed.
Lemma bare_not v w : bare (N:=N) v <> M w.
Proof. induction v; cbn; congruence || auto. Qed.
(** the whole property of [eval] *)
Definition evals h e : Prop :=
  exists v h' F, eval prim2 prim1 pow3 h e = Ok (v, h') /\ ext h h' /\ mrep h' v (means e) F /\
    (forall j, In j F -> In j (gens_of e) \/ length h <= j < length h') /\ (is_seq (means e) = true -> is_m v = mathified e).
Lemma eval_ok e : forall h, (forall i, In i (gens_of e) -> yields h gens i) -> NoDup (gens_of e) -> scalars_ok prim2 prim1 pow3 gens e ->
  infixable prim2 prim1 pow3 gens e -> evals h e.
Proof.
  induction e as [v|f|o a IHa b IHb|o a IHa|a IHa b IHb c]; intros h Y ND SC IX.
  - cbn [gens_of] in *. destruct v as [z|l|i|v].
    + exists (Num z), h, []. repeat split; try apply ext_refl; try discriminate. intros j [].
    + exists (Tup l), h, []. split; [reflexivity|]. split; [apply ext_refl|]. split; [split; auto|]. split; [intros j []|reflexivity].
    + exists (Gen i), h, [i]. split; [reflexivity|]. split; [apply ext_refl|]. split.
      * destruct (Y i) as (f & p & E & K); [now left|]. eapply RSrc; [exact E|]. intros k. cbn. now rewrite K.
      * split; [auto|reflexivity].
    + cbn in IX. unfold evals. change (means (Leaf (M v))) with (Seq (terms gens (M v))). rewrite terms_bare, (gens_bare (M v)) in *. cbn [bare gens_of_val] in *.
      destruct (bare v) as [z|l|i|w] eqn:BV; [tauto| | |exfalso; exact (bare_not _ _ BV)].
      * exists (M v), h, []. split; [reflexivity|]. split; [apply ext_refl|]. split; [cbn; unfold vrep; cbn; rewrite BV; auto|]. split; [intros j []|reflexivity].
      * exists (M v), h, [i]. split; [reflexivity|]. split; [apply ext_refl|]. split.
        -- cbn. unfold vrep. cbn. rewrite BV. destruct (Y i) as (f & p & E & K); [now left|]. eapply RSrc; [exact E|]. intros k. cbn. now rewrite K.
        -- split; [|reflexivity]. intros j Hj. cbn [gens_of]. rewrite gens_bare. cbn [bare]. rewrite BV. auto.
  - exists (M (Gen (length h))), (h ++ [Src f 0]), [length h]. split; [reflexivity|]. split; [now exists [Src f 0]|]. split.
    + eapply RSrc; [apply new_cell|]. reflexivity.
    + split; [|reflexivity]. intros j [<-|[]]. right. rewrite app_length. cbn. lia.
  - cbn [gens_of] in *. destruct SC as (G & SA & SB). destruct IX as (IA & IB & IC & ID).
    assert (LT : forall i, In i (gens_of a ++ gens_of b) -> i < length h) by (intros i Hi; destruct (Y i Hi) as (f & p & E & _); apply nth_error_Some; congruence).
    destruct (IHa h) as (va & h1 & Fa & Ea & Xa & Ra & Ba & Ma); auto; [intros i Hi; apply Y, in_or_app; auto|now apply NoDup_app_l in ND|].
    destruct (IHb h1) as (vb & h2 & Fb & Eb & Xb & Rb & Bb & Mb); auto.
    { intros i Hi. destruct (Y i) as (f & p & E & K); [apply in_or_app; auto|]. exists f, p. split; auto. rewrite (ext_get h h1); auto. apply LT, in_or_app. auto. }
    { now apply NoDup_app_r in ND. }
    pose proof (ext_len _ _ Xa). pose proof (ext_len _ _ Xb).
    destruct (infix_made o h2 va vb (means a) (means b) Fa Fb) as (v & h3 & F & E & X & R & B & MV); auto.
    { eapply mrep_grow; eauto. }
    { intros j J1 J2. apply Ba in J1 as [J1|J1]; apply Bb in J2 as [J2|J2].
      - exact (NoDup_app_disj _ _ ND _ J1 J2).
      - assert (j < length h) by (apply LT, in_or_app; auto). lia.
      - assert (j < length h) by (apply LT, in_or_app; auto). lia.
      - lia. }
    { intros Q. rewrite Ma; [apply IC; exact Q|]. apply andb_true_iff in Q as [Q _]. now apply andb_true_iff in Q as [_ Q]. }
    { intros Q. specialize (ID Q). fold means in ID. destruct (is_seq (means a)); cbn [andb orb] in *; [rewrite Ma by auto|]; destruct (is_seq (means b)); cbn [andb orb] in *; try rewrite Mb by auto; auto. }
    exists v, h3, F. cbn [eval]. unfold obind. rewrite Ea. cbn [fst snd]. rewrite Eb. cbn [fst snd]. split; [exact E|]. split; [eapply ext_trans; [exact Xa|eapply ext_trans; eauto]|].
    split; [exact R|]. pose proof (ext_len _ _ X). split.
    + intros j Hj. apply B in Hj as [Hj|Hj]; [|right; lia]. cbn [gens_of]. apply in_app_or in Hj as [Hj|Hj]; [apply Ba in Hj as [Hj|Hj]|apply Bb in Hj as [Hj|Hj]]; try (left; apply in_or_app; auto; fail); right; lia.
    + intros Q. destruct (MV Q) as [i ->]. reflexivity.
  - cbn [gens_of] in *. destruct SC as (G & SA). destruct IX as (IA & IC). destruct (IHa h) as (va & h1 & Fa & Ea & Xa & Ra & Ba & Ma); auto.
    destruct (prefix_made o h1 va (means a) Fa) as (v & h3 & F & E & X & R & B & MV); auto.
    { intros Q. rewrite Ma; auto. }
    exists v, h3, F. cbn [eval]. unfold obind. rewrite Ea. cbn [fst snd]. split; [exact E|]. split; [eapply ext_trans; eauto|]. split; [exact R|].
    pose proof (ext_len _ _ X). pose proof (ext_len _ _ Xa). split.
    + intros j Hj. apply B in Hj as [Hj|Hj]; [|right; lia]. apply Ba in Hj as [Hj|Hj]; auto. right. lia.
    + intros Q. destruct (MV Q) as [i ->]. reflexivity.
  - cbn [gens_of] in *. destruct SC as (G & SA & SB). destruct IX as (IA & IB & IC).
    assert (LT : forall i, In i (gens_of a ++ gens_of b) -> i < length h) by (intros i Hi; destruct (Y i Hi) as (f & p & E & _); apply nth_error_Some; congruence).
    destruct (IHa h) as (va & h1 & Fa & Ea & Xa & Ra & Ba & Ma); auto; [intros i Hi; apply Y, in_or_app; auto|now apply NoDup_app_l in ND|].
    destruct (IHb h1) as (vb & h2 & Fb & Eb & Xb & Rb & Bb & Mb); auto.
    { intros i Hi. destruct (Y i) as (f & p & E & K); [apply in_or_app; auto|]. exists f, p. split; auto. rewrite (ext_get h h1); auto. apply LT, in_or_app. auto. }
    { now apply NoDup_app_r in ND. }
    pose proof (ext_len _ _ Xa). pose proof (ext_len _ _ Xb).
    destruct (power3_made h2 va vb c (means a) (means b) Fa Fb) as (v & h3 & F & E & X & R & B & MV); auto.
    { eapply mrep_grow; eauto. }
    { intros j J1 J2. apply Ba in J1 as [J1|J1]; apply Bb in J2 as [J2|J2].
      - exact (NoDup_app_disj _ _ ND _ J1 J2).
      - assert (j < length h) by (apply LT, in_or_app; auto). lia.
      - assert (j < length h) by (apply LT, in_or_app; auto). lia.
      - lia. }
    { intros Q. destruct (IC Q) as [Q1 Q2]. rewrite Ma; auto. }
    exists v, h3, F. cbn [eval]. unfold obind. rewrite Ea. cbn [fst snd]. rewrite Eb. cbn [fst snd]. split; [exact E|]. split; [eapply ext_trans; [exact Xa|eapply ext_trans; eauto]|].
    split; [exact R|]. pose proof (ext_len _ _ X). split.
    + intros j Hj. apply B in Hj as [Hj|Hj]; [|right; lia]. cbn [gens_of]. apply in_app_or in Hj as [Hj|Hj]; [apply Ba in Hj as [Hj|Hj]|apply Bb in Hj as [Hj|Hj]]; try (left; apply in_or_app; auto; fail); right; lia.
    + intros Q. destruct (MV Q) as [i ->]. reflexivity.
Qed.
Lemma run_ok e h n t : (forall i, In i (gens_of e) -> yields h gens i) -> NoDup (gens_of e) -> scalars_ok prim2 prim1 pow3 gens e ->
  infixable prim2 prim1 pow3 gens e -> means e = Seq t -> run prim2 prim1 pow3 n h e = Ok (upto n t).
Proof.
  intros Y ND SC IX E. destruct (eval_ok e h Y ND SC IX) as (v & h' & F & EV & X & R & B & _). rewrite E in R. cbn in R.
  destruct (iter_rep _ _ _ _ R) as (i & h1 & F' & EI & X1 & RI & _). unfold run, obind. rewrite EV. cbn [fst snd]. rewrite EI. cbn [fst snd].
  now rewrite (pull_rep _ _ _ _ _ RI).
Qed.
Lemma scalar_ok e h z : (forall i, In i (gens_of e) -> yields h gens i) -> NoDup (gens_of e) -> scalars_ok prim2 prim1 pow3 gens e ->
  infixable prim2 prim1 pow3 gens e -> means e = Scalar (Ok z) -> exists h', eval prim2 prim1 pow3 h e = Ok (Num z, h').
Proof.
  intros Y ND SC IX E. destruct (eval_ok e h Y ND SC IX) as (v & h' & F & EV & X & R & B & _). rewrite E in R. cbn in R. subst v. eauto.
Qed.
(** evaluating runs nothing: what was there is unchanged *)
Lemma eval_lazy e h : (forall i, In i (gens_of e) -> yields h gens i) -> NoDup (gens_of e) -> scalars_ok prim2 prim1 pow3 gens e ->
  infixable prim2 prim1 pow3 gens e -> exists v new, eval prim2 prim1 pow3 h e = Ok (v, h ++ new).
Proof. intros Y ND SC IX. destruct (eval_ok e h Y ND SC IX) as (v & h' & F & EV & [new ->] & _). eauto. Qed.
End Proofs.
