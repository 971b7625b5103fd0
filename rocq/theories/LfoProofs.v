(** Proofs for C133. *)
From Coq Require Import List ZArith Bool Arith Lia.
From Verif Require Import Base LitModel LitSpec LfoModel LfoSpec.
Import ListNotations.
Open Scope list_scope.
Open Scope nat_scope.

Definition unf {A B} (p : proc A B) : proc A B := match p with POut b k => POut b k | PRead i k => PRead i k | PRet => PRet | PThrow e => PThrow e end.
Lemma unf_eq {A B} (p : proc A B) : p = unf p.
Proof. destruct p; reflexivity. Qed.

(** * The principle *)
Section Principle.
Context {A B : Type}.
Variable P : hpromise A B.
Notation proc := (proc A B).
Notation history := (list (nat * ev A)).
Inductive hup (J : proc -> history -> Prop) : proc -> history -> list (ans B) -> Prop :=
| hup_loop p h : J p h -> hup J p h []
| hup_out b k h d : hup J k h d -> hup J (POut b k) h (b :: d)
| hup_ret h : hnext P h = Ends -> hup J PRet h []
| hup_throw e h : hnext P h = Raises e -> hup J (PThrow e) h [].
Variable J : proc -> history -> Prop.
Hypothesis HJ : forall p h, J p h -> exists i k, p = PRead i k /\ hnext P h = Ask i /\
  forall v, exists d, hout P (h ++ [(i, v)]) = hout P h ++ d /\ hup J (k v) (h ++ [(i, v)]) d.
Lemma hup_run p tr q : run p tr q -> forall h done d, hup J p h d -> done ++ d = hout P h ->
  prefix (done ++ outs tr) (hout P (h ++ events tr)) /\
  (forall tr1 i v tr2, tr = tr1 ++ LRead i v :: tr2 -> done ++ outs tr1 = hout P (h ++ events tr1) /\ hnext P (h ++ events tr1) = Ask i) /\
  (q = PRet -> done ++ outs tr = hout P (h ++ events tr) /\ hnext P (h ++ events tr) = Ends) /\
  (forall e, q = PThrow e -> done ++ outs tr = hout P (h ++ events tr) /\ hnext P (h ++ events tr) = Raises e).
Proof.
  induction 1 as [p|b k tr q R IH|i k v tr q R IH]; intros h done d U E.
  - cbn. rewrite !app_nil_r. split; [now exists d|]. split; [intros [|] i v tr2 X; discriminate|].
    inversion U as [p' h' Hj|b k h' d' U'|h' Hn|e h' Hn]; subst; try rewrite app_nil_r in E.
    + destruct (HJ _ _ Hj) as (i & k & -> & _). split; discriminate.
    + split; discriminate.
    + split; [auto|discriminate].
    + split; [discriminate|]. intros e' [= <-]. auto.
  - inversion U as [p' h' Hj|b' k' h' d' U'|h' Hn|e h' Hn]; subst.
    + destruct (HJ _ _ Hj) as (i & k' & Ek & _). discriminate.
    + assert (E' : (done ++ [b]) ++ d' = hout P h) by (rewrite <- app_assoc; exact E).
      destruct (IH h (done ++ [b]) d' U' E') as (H1 & H2 & H3 & H4). rewrite <- app_assoc in H1, H3. split; [exact H1|]. split; [|split; [exact H3|]].
      * intros [|x tr1] i v tr2 X; [discriminate|]. injection X as <- X. destruct (H2 _ _ _ _ X) as [X1 X2]. rewrite <- app_assoc in X1. auto.
      * intros e X. destruct (H4 e X) as [X1 X2]. rewrite <- app_assoc in X1. auto.
  - inversion U as [p' h' Hj|b' k' h' d' U'|h' Hn|e h' Hn]; subst. destruct (HJ _ _ Hj) as (i' & k' & [= <- <-] & Hn & Hv). rewrite app_nil_r in E.
    destruct (Hv v) as (d' & Eo & U'). assert (E' : done ++ d' = hout P (h ++ [(i, v)])) by (rewrite Eo, E; reflexivity).
    destruct (IH _ done d' U' E') as (H1 & H2 & H3 & H4). rewrite <- app_assoc in H1, H3. split; [exact H1|]. split; [|split; [exact H3|]].
    + intros [|x tr1] i' v' tr2 X.
      * injection X as <- <- <-. cbn. rewrite !app_nil_r. auto.
      * injection X as <- X. destruct (H2 _ _ _ _ X) as [X1 X2]. rewrite <- app_assoc in X1, X2. auto.
    + intros e X. destruct (H4 e X) as [X1 X2]. rewrite <- app_assoc in X1, X2. auto.
Qed.
Lemma hup_keeps p d : hup J p [] d -> hout P [] = d -> hkeeps P p.
Proof. intros U E tr q R. apply (hup_run _ _ _ R [] [] d U). now rewrite E. Qed.
Lemma hup_emit l k h d : hup J k h d -> hup J (emit l k) h (map Given l ++ d).
Proof. intros U. induction l as [|b l IH]; cbn; [exact U|now constructor]. Qed.
End Principle.

(** * Rows *)
Section Rows.
Context {A : Type}.
Variable longest : bool.
Variable fill : A.
Variable m : nat.
Notation history := (list (nat * ev A)).
Notation count j h := (length (column j h)).
Notation pad := (pad fill).
Notation rows := (rows longest fill m).
Notation over := (over longest m).
Notation complete := (complete longest m).

Lemma column_snoc j (h : history) i v : column j (h ++ [(i, v)]) = column j h ++ match v with Item a => if i =? j then [a] else [] | _ => [] end.
Proof. unfold column. rewrite flat_map_app. f_equal. cbn. apply app_nil_r. Qed.
Lemma ended_snoc j (h : history) i v : ended j (h ++ [(i, v)]) = ended j h || match v with Stop => i =? j | _ => false end.
Proof. unfold ended. rewrite existsb_app. f_equal. cbn. apply orb_false_r. Qed.
Lemma failed_snoc (h : history) i v : failed (h ++ [(i, v)]) = match v with Fail e => Some e | _ => None end.
Proof. unfold failed. rewrite rev_app_distr. cbn. now destruct v. Qed.
Lemma count_le j (h : history) : count j h <= length h.
Proof. induction h as [|[i v] h IH]; [auto|]. cbn [column flat_map]. rewrite app_length. fold (column j h). cbn [length]. destruct v; [destruct (i =? j)|..]; cbn; lia. Qed.

(** the state of zip: [r] rows are complete, and [xs] is the beginning of the next *)
Record inv (h : history) (act : list bool) (xs : list A) (r : nat) : Prop := mkInv {
  i_act : length act = m;
  i_xs : length xs <= m;
  i_ended : forall j, j < m -> nth j act false = negb (ended j h);
  i_some : exists j, j < m /\ nth j act false = true;
  i_open : forall j, j < m -> ended j h = false -> count j h = if j <? length xs then S r else r;
  i_done : forall j, j < m -> ended j h = true -> count j h <= r /\ longest = true;
  i_row : forall j, j < length xs -> nth j xs fill = nth r (column j h) fill;
  i_fail : failed h = None }.

Lemma gap_spec act : (forall j, j < gap act -> nth j act true = false) /\ (gap act < length act -> nth (gap act) act false = true) /\ gap act <= length act.
Proof.
  induction act as [|[|] act (H1 & H2 & H3)]; cbn; [split; [lia|split; lia]|split; [lia|split; [reflexivity|lia]]|].
  split; [intros [|j] L; [reflexivity|apply H1; lia]|]. split; [intros L; apply H2; lia|lia].
Qed.
Lemma nth_skipn {X} k (l : list X) j d : nth j (skipn k l) d = nth (k + j) l d.
Proof. revert l. induction k as [|k IH]; intros [|x l]; try reflexivity; [now destruct j|]. cbn. apply IH. Qed.
Lemma pad_len act xs : length (pad act xs) = length xs + gap (skipn (length xs) act).
Proof. unfold LfoModel.pad. now rewrite app_length, repeat_length. Qed.
Lemma pad_inv h act xs r : inv h act xs r -> inv h act (pad act xs) r.
Proof.
  intros [Ia Ix Ie Is Io Id Ir If]. destruct (gap_spec (skipn (length xs) act)) as (G1 & G2 & G3). rewrite skipn_length in G2, G3.
  assert (Gap : forall j, length xs <= j -> j < length (pad act xs) -> j < m /\ ended j h = true).
  { intros j L1 L2. rewrite pad_len in L2. assert (Lj : j < m) by lia. split; [exact Lj|]. specialize (G1 (j - length xs)). rewrite nth_skipn in G1. replace (length xs + (j - length xs)) with j in G1 by lia.
    specialize (Ie j Lj). rewrite (nth_indep act false true) in Ie by lia. rewrite G1 in Ie by lia. now destruct (ended j h). }
  constructor; auto.
  - rewrite pad_len. lia.
  - intros j Lj Ej. rewrite (Io j Lj Ej). destruct (Nat.ltb_spec j (length xs)) as [L|L].
    + replace (j <? length (pad act xs)) with true; [reflexivity|]. symmetry. apply Nat.ltb_lt. rewrite pad_len. lia.
    + destruct (Nat.ltb_spec j (length (pad act xs))) as [L'|L']; [|reflexivity]. destruct (Gap j L L') as [_ X]. congruence.
  - intros j Lj. unfold LfoModel.pad. destruct (Nat.lt_ge_cases j (length xs)) as [L|L]; [rewrite app_nth1 by exact L; now apply Ir|].
    rewrite app_nth2 by exact L. destruct (Gap j L Lj) as [Lm Ej]. destruct (Id j Lm Ej) as [C _]. rewrite (nth_overflow (column j h)) by exact C.
    rewrite pad_len in Lj. rewrite nth_repeat. reflexivity.
Qed.
Lemma pad_stop h act xs r : inv h act xs r -> length (pad act xs) < m -> ended (length (pad act xs)) h = false.
Proof.
  intros I L. pose proof I as [Ia Ix Ie Is Io Id Ir If]. destruct (gap_spec (skipn (length xs) act)) as (G1 & G2 & G3). rewrite skipn_length in G2, G3.
  specialize (Ie _ L). rewrite pad_len in *. rewrite nth_skipn in G2. rewrite G2 in Ie by lia. now destruct (ended (length xs + gap (skipn (length xs) act)) h).
Qed.
(** the row is full: the next one begins *)
Lemma full_inv h act ys r : inv h act ys r -> length ys = m -> inv h act [] (S r) /\ ys = row fill m h r.
Proof.
  intros [Ia Ix Ie Is Io Id Ir If] L. split.
  - constructor; auto; cbn; try lia.
    + intros j Lj Ej. rewrite (Io j Lj Ej), L. now apply Nat.ltb_lt in Lj as ->.
    + intros j Lj Ej. destruct (Id j Lj Ej). split; [lia|assumption].
  - unfold row. apply (nth_ext _ _ fill fill); [now rewrite map_length, seq_length|]. intros j Lj. rewrite (Ir j Lj).
    rewrite (nth_indep (map (fun j => nth r (column j h) fill) (seq 0 m)) fill (nth r (column 0 h) fill)) by (rewrite map_length, seq_length; lia).
    rewrite (map_nth (fun j => nth r (column j h) fill) (seq 0 m) 0 j). now rewrite seq_nth by lia.
Qed.
Lemma not_full_empty h act r : inv h act [] r -> length (pad act []) < m.
Proof.
  intros I. pose proof (pad_inv _ _ _ _ I) as I'. pose proof I as [Ia Ix Ie (j & Lj & Ej) Io Id Ir If]. rewrite pad_len. cbn. destruct (gap_spec act) as (G1 & G2 & G3).
  destruct (Nat.lt_ge_cases j (gap act)) as [L|L]; [|lia]. specialize (G1 j L). rewrite (nth_indep act true false) in G1 by lia. congruence.
Qed.
(** the complete rows *)
Lemma filter_seq (f : nat -> bool) r k n : (forall j, j < k -> f j = true) -> (forall j, k <= j -> f j = false) -> filter f (seq r n) = seq r (Nat.min n (k - r)).
Proof.
  intros H1 H2. revert r. induction n as [|n IH]; intros r; [reflexivity|]. cbn [seq filter]. rewrite IH.
  destruct (Nat.lt_ge_cases r k) as [L|L].
  - rewrite (H1 r L). replace (Nat.min (S n) (k - r)) with (S (Nat.min n (k - S r))) by lia. reflexivity.
  - rewrite (H2 r L). replace (k - S r) with 0 by lia. replace (k - r) with 0 by lia. now rewrite !Nat.min_0_r.
Qed.
Lemma rows_are (h : history) r : (forall k, k < r -> complete h k = true) -> (forall k, r <= k -> complete h k = false) -> rows h = map (row fill m h) (seq 0 r).
Proof.
  intros H1 H2. unfold LfoSpec.rows. rewrite (filter_seq _ 0 r) by assumption. f_equal. f_equal.
  destruct r as [|r]; [lia|]. specialize (H1 r ltac:(lia)). unfold LfoSpec.complete in H1. apply andb_true_iff in H1. destruct H1 as [_ H1]. apply existsb_exists in H1.
  destruct H1 as (j & _ & L). apply Nat.ltb_lt in L. pose proof (count_le j h). lia.
Qed.
Lemma forallb_seq (f : nat -> bool) : forallb f (seq 0 m) = true <-> forall j, j < m -> f j = true.
Proof.
  rewrite forallb_forall. split; intros H j; [intros L; apply H, in_seq; lia|intros I; apply in_seq in I; apply H; lia].
Qed.
Lemma existsb_seq (f : nat -> bool) : existsb f (seq 0 m) = true <-> exists j, j < m /\ f j = true.
Proof.
  rewrite existsb_exists. split; intros (j & H1 & H2); exists j; (split; [|exact H2]); [apply in_seq in H1; lia|apply in_seq; lia].
Qed.
Lemma forallb_ext {X} (f g : X -> bool) l : (forall x, f x = g x) -> forallb f l = forallb g l.
Proof. intros H. induction l as [|x l IH]; [reflexivity|]. cbn. now rewrite H, IH. Qed.
Lemma existsb_ext {X} (f g : X -> bool) l : (forall x, f x = g x) -> existsb f l = existsb g l.
Proof. intros H. induction l as [|x l IH]; [reflexivity|]. cbn. now rewrite H, IH. Qed.
Lemma done_rows h act xs r k : inv h act xs r -> k < r -> complete h k = true.
Proof.
  intros [Ia Ix Ie (j & Lj & Ej) Io Id Ir If] L. unfold LfoSpec.complete. apply andb_true_iff. split.
  - apply forallb_seq. intros i Li. destruct (ended i h) eqn:E.
    + destruct (Id i Li E) as [_ ->]. apply orb_true_r.
    + rewrite (Io i Li E). apply orb_true_iff. left. apply Nat.ltb_lt. destruct (i <? length xs); lia.
  - apply existsb_seq. exists j. split; [exact Lj|]. assert (E : ended j h = false) by (rewrite (Ie j Lj) in Ej; now destruct (ended j h)). rewrite (Io j Lj E). apply Nat.ltb_lt. destruct (j <? length xs); lia.
Qed.
Lemma rows_part h act xs r : inv h act xs r -> length (pad act xs) < m -> rows h = map (row fill m h) (seq 0 r).
Proof.
  intros I L. apply rows_are; [intros k Lk; now apply (done_rows h act xs r)|]. intros k Lk. pose proof (pad_stop _ _ _ _ I L) as E. pose proof (pad_inv _ _ _ _ I) as I'.
  apply not_true_iff_false. intros C. unfold LfoSpec.complete in C. apply andb_true_iff in C. destruct C as [C _]. rewrite forallb_seq in C. specialize (C _ L). rewrite E, andb_false_r, orb_false_r in C.
  rewrite (i_open _ _ _ _ I' _ L E), Nat.ltb_irrefl in C. apply Nat.ltb_lt in C. lia.
Qed.
Lemma rows_full h act ys r : inv h act ys r -> length ys = m -> rows h = map (row fill m h) (seq 0 (S r)).
Proof. intros I L. destruct (full_inv _ _ _ _ I L) as [I' _]. apply (rows_part h act []); [exact I'|]. exact (not_full_empty _ _ _ I'). Qed.
Lemma turn_is h act xs r : inv h act xs r -> length (pad act xs) < m -> turn m h = Some (length (pad act xs)) /\ over h = false.
Proof.
  intros I L. pose proof (pad_stop _ _ _ _ I L) as E. pose proof (pad_inv _ _ _ _ I) as I'. set (p := length (pad act xs)) in *. split.
  - unfold turn. set (f := fun i => _). assert (F : f p = true).
    { unfold f. rewrite E. cbn. apply forallb_seq. intros j Lj. destruct (ended j h) eqn:Ej; [reflexivity|]. cbn. apply Nat.leb_le. rewrite (i_open _ _ _ _ I' _ L E), (i_open _ _ _ _ I' _ Lj Ej). fold p. rewrite Nat.ltb_irrefl. destruct (j <? p); lia. }
    assert (N : forall j, j < p -> f j = false).
    { intros j Lj. apply not_true_iff_false. unfold f. intros C. apply andb_true_iff in C. destruct C as [C1 C2]. apply negb_true_iff in C1. rewrite forallb_seq in C2. specialize (C2 p L). rewrite E in C2. cbn in C2. apply Nat.leb_le in C2.
      rewrite (i_open _ _ _ _ I' _ L E), (i_open _ _ _ _ I' j (Nat.lt_trans _ _ _ Lj L) C1) in C2. fold p in C2. rewrite Nat.ltb_irrefl in C2. apply Nat.ltb_lt in Lj. rewrite Lj in C2. cbn beta iota in C2. lia. }
    clear - L F N. assert (Q : forall n s, s <= p -> p < s + n -> List.find f (seq s n) = Some p); [|apply Q; lia].
    induction n as [|n IH]; intros s L1 L2; [lia|]. cbn. destruct (Nat.eq_dec s p) as [->|Ne]; [now rewrite F|]. rewrite N by lia. apply IH; lia.
  - unfold LfoSpec.over. destruct longest eqn:El; apply not_true_iff_false; intros C.
    + rewrite forallb_seq in C. rewrite (C _ L) in E. discriminate.
    + apply existsb_seq in C. destruct C as (j & Lj & Ej). destruct (i_done _ _ _ _ I' j Lj Ej). congruence.
Qed.
(** reading *)
Lemma read_item h act xs r a : inv h act xs r -> length (pad act xs) < m -> inv (h ++ [(length (pad act xs), Item a)]) act (pad act xs ++ [a]) r.
Proof.
  intros I L. pose proof (pad_stop _ _ _ _ I L) as E. pose proof (pad_inv _ _ _ _ I) as [Ia Ix Ie Is Io Id Ir If]. set (ys := pad act xs) in *. clearbody ys.
  constructor; auto.
  - rewrite app_length. cbn. lia.
  - intros j Lj. rewrite ended_snoc, orb_false_r. auto.
  - intros j Lj Ej. rewrite ended_snoc, orb_false_r in Ej. rewrite column_snoc, !app_length. cbn [length]. rewrite (Io j Lj Ej). destruct (Nat.eqb_spec (length ys) j) as [<-|Ne].
    + rewrite Nat.ltb_irrefl. replace (length ys <? length ys + 1) with true by (symmetry; apply Nat.ltb_lt; lia). cbn [length]. lia.
    + cbn [length]. rewrite Nat.add_0_r. destruct (Nat.ltb_spec j (length ys)), (Nat.ltb_spec j (length ys + 1)); try reflexivity; lia.
  - intros j Lj Ej. rewrite ended_snoc, orb_false_r in Ej. destruct (Id j Lj Ej) as [C Lg]. split; [|exact Lg]. rewrite column_snoc, app_length.
    destruct (Nat.eqb_spec (length ys) j) as [<-|Ne]; [congruence|cbn; lia].
  - intros j Lj. rewrite app_length in Lj. cbn in Lj. rewrite column_snoc. destruct (Nat.eqb_spec (length ys) j) as [<-|Ne].
    + rewrite app_nth2, Nat.sub_diag by lia. assert (C : count (length ys) h = r) by (rewrite (Io _ L E), Nat.ltb_irrefl; reflexivity).
      rewrite app_nth2, C, Nat.sub_diag by lia. reflexivity.
    + rewrite app_nil_r, app_nth1 by lia. apply Ir. lia.
  - now rewrite failed_snoc.
Qed.
Lemma nth_upd (l : list bool) i j x : j < length l -> nth j (upd l i x) false = if j =? i then x else nth j l false.
Proof. revert i j. induction l as [|y l IH]; intros [|i] [|j] L; cbn in *; try lia; try reflexivity. apply IH. lia. Qed.
Lemma len_upd (l : list bool) i x : length (upd l i x) = length l.
Proof. revert i. induction l as [|z l IH]; intros [|i]; cbn; auto. Qed.
Lemma stop_goes_on h act xs r : inv h act xs r -> length (pad act xs) < m -> goes_on longest (upd act (length (pad act xs)) false) = true ->
  inv (h ++ [(length (pad act xs), Stop)]) (upd act (length (pad act xs)) false) (pad act xs ++ [fill]) r.
Proof.
  intros I L G. pose proof (pad_stop _ _ _ _ I L) as E. pose proof (pad_inv _ _ _ _ I) as [Ia Ix Ie Is Io Id Ir If]. set (ys := pad act xs) in *. clearbody ys.
  unfold goes_on in G. apply andb_true_iff in G. destruct G as [Lg G].
  constructor; auto.
  - now rewrite len_upd.
  - rewrite app_length. cbn. lia.
  - intros j Lj. rewrite nth_upd by lia. rewrite ended_snoc, Nat.eqb_sym. destruct (length ys =? j); [now rewrite orb_true_r|]. rewrite orb_false_r. auto.
  - apply existsb_exists in G. destruct G as (x & Ix' & ->). apply (In_nth _ _ false) in Ix'. destruct Ix' as (j & Lj & Ej). rewrite len_upd in Lj. exists j. split; [lia|exact Ej].
  - intros j Lj Ej. rewrite ended_snoc in Ej. apply orb_false_iff in Ej. destruct Ej as [Ej Ne]. apply Nat.eqb_neq in Ne. rewrite column_snoc, app_nil_r, app_length. cbn [length]. rewrite (Io j Lj Ej).
    destruct (Nat.ltb_spec j (length ys)), (Nat.ltb_spec j (length ys + 1)); try reflexivity; lia.
  - intros j Lj Ej. split; [|exact Lg]. rewrite column_snoc, app_nil_r. rewrite ended_snoc in Ej. destruct (ended j h) eqn:X; [now apply Id|]. cbn in Ej. apply Nat.eqb_eq in Ej. subst j.
    rewrite (Io _ L E), Nat.ltb_irrefl. lia.
  - intros j Lj. rewrite app_length in Lj. cbn in Lj. rewrite column_snoc, app_nil_r. destruct (Nat.eq_dec j (length ys)) as [->|Ne].
    + rewrite app_nth2, Nat.sub_diag by lia. rewrite (nth_overflow (column (length ys) h)); [reflexivity|]. rewrite (Io _ L E), Nat.ltb_irrefl. lia.
    + rewrite app_nth1 by lia. apply Ir. lia.
  - now rewrite failed_snoc.
Qed.
(** what is complete stays as it is *)
Lemma row_stays h act xs r k v : inv h act xs r -> length (pad act xs) < m -> k < r -> row fill m (h ++ [(length (pad act xs), v)]) k = row fill m h k.
Proof.
  intros I L Lk. pose proof (pad_stop _ _ _ _ I L) as E. pose proof (pad_inv _ _ _ _ I) as [Ia Ix Ie Is Io Id Ir If]. unfold row. apply map_ext_in. intros j Ij. apply in_seq in Ij.
  rewrite column_snoc. destruct v as [a| |e]; rewrite ?app_nil_r; try reflexivity. destruct (Nat.eqb_spec (length (pad act xs)) j) as [<-|Ne]; [|now rewrite app_nil_r].
  apply app_nth1. rewrite (Io _ L E), Nat.ltb_irrefl. exact Lk.
Qed.
Lemma rows_stay h act xs r v : inv h act xs r -> length (pad act xs) < m -> map (row fill m (h ++ [(length (pad act xs), v)])) (seq 0 r) = rows h.
Proof. intros I L. rewrite (rows_part _ _ _ _ I L). apply map_ext_in. intros k Ik. apply in_seq in Ik. apply (row_stays h act xs r); auto. lia. Qed.
Lemma next_rows h act xs r v act' xs' : inv h act xs r -> length (pad act xs) < m -> inv (h ++ [(length (pad act xs), v)]) act' xs' r ->
  (length (pad act' xs') < m -> rows (h ++ [(length (pad act xs), v)]) = rows h) /\
  (length (pad act' xs') = m -> rows (h ++ [(length (pad act xs), v)]) = rows h ++ [pad act' xs'] /\ inv (h ++ [(length (pad act xs), v)]) act' [] (S r)).
Proof.
  intros I L I'. split; intros L'.
  - rewrite (rows_part _ _ _ _ I' L'). now apply rows_stay.
  - pose proof (pad_inv _ _ _ _ I') as I2. destruct (full_inv _ _ _ _ I2 L') as [I3 Er]. split; [|exact I3]. rewrite (rows_full _ _ _ _ I2 L'), seq_S, map_app, (rows_stay h act xs r v I L). cbn. now rewrite <- Er.
Qed.
Lemma stop_over h act xs r : inv h act xs r -> length (pad act xs) < m -> goes_on longest (upd act (length (pad act xs)) false) = false ->
  over (h ++ [(length (pad act xs), Stop)]) = true /\ rows (h ++ [(length (pad act xs), Stop)]) = rows h.
Proof.
  intros I L G. pose proof (pad_stop _ _ _ _ I L) as E. pose proof (pad_inv _ _ _ _ I) as I'. pose proof I' as [Ia Ix Ie Is Io Id Ir If]. rewrite <- (rows_stay h act xs r Stop I L). set (p := length (pad act xs)) in *. 
  unfold goes_on in G. destruct (Bool.bool_dec longest true) as [Lg|Lg].
  - rewrite Lg in G. cbn in G. assert (All : forall j, j < m -> ended j (h ++ [(p, Stop)]) = true).
    { intros j Lj. rewrite ended_snoc. destruct (Nat.eqb_spec p j) as [Ne|Ne]; [apply orb_true_r|]. rewrite orb_false_r. apply negb_false_iff. rewrite <- (Ie j Lj).
      assert (X : nth j (upd act p false) false = false). { apply not_true_iff_false. intros X. assert (Y : existsb (fun x => x) (upd act p false) = true); [|congruence]. apply existsb_exists. exists true. split; [|reflexivity]. rewrite <- X. apply nth_In. rewrite len_upd. lia. }
      rewrite nth_upd in X by lia. destruct (Nat.eqb_spec j p); [congruence|exact X]. }
    split; [unfold LfoSpec.over; rewrite Lg; apply forallb_seq; exact All|]. apply rows_are.
    + intros k Lk. unfold LfoSpec.complete. apply andb_true_iff. split; [apply forallb_seq; intros j Lj; rewrite (All j Lj), Lg; apply orb_true_r|]. apply existsb_seq. exists p. split; [exact L|].
      rewrite column_snoc, app_nil_r, (Io _ L E), Nat.ltb_irrefl. now apply Nat.ltb_lt.
    + intros k Lk. unfold LfoSpec.complete. apply andb_false_iff. right. apply not_true_iff_false. intros C. apply existsb_seq in C. destruct C as (j & Lj & C). rewrite column_snoc, app_nil_r in C. apply Nat.ltb_lt in C.
      destruct (ended j h) eqn:Ej; [destruct (Id j Lj Ej); lia|]. pose proof (All j Lj) as X. rewrite ended_snoc, Ej in X. cbn in X. apply Nat.eqb_eq in X. subst j. rewrite (Io _ L E), Nat.ltb_irrefl in C. lia.
  - apply not_true_is_false in Lg. split; [unfold LfoSpec.over; rewrite Lg; apply existsb_seq; exists p; split; [exact L|]; now rewrite ended_snoc, Nat.eqb_refl, orb_true_r|]. apply rows_are.
    + intros k Lk. unfold LfoSpec.complete. assert (Q : forall j, j < m -> k <? count j (h ++ [(p, Stop)]) = true).
      { intros j Lj. rewrite column_snoc, app_nil_r. destruct (ended j h) eqn:Ej; [destruct (Id j Lj Ej); congruence|]. rewrite (Io j Lj Ej). apply Nat.ltb_lt. fold p. destruct (j <? p); lia. }
      apply andb_true_iff. split; [apply forallb_seq; intros j Lj; now rewrite (Q j Lj)|apply existsb_seq; exists p; auto].
    + intros k Lk. unfold LfoSpec.complete. apply andb_false_iff. left. apply not_true_iff_false. intros C. rewrite forallb_seq in C. specialize (C p L). rewrite Lg, column_snoc, app_nil_r, (Io _ L E), Nat.ltb_irrefl, orb_false_r in C. apply Nat.ltb_lt in C. lia.
Qed.
Lemma fail_same h act xs r e : inv h act xs r -> length (pad act xs) < m -> rows (h ++ [(length (pad act xs), Fail e)]) = rows h.
Proof.
  intros I L. rewrite <- (rows_stay h act xs r (Fail e) I L). pose proof (pad_stop _ _ _ _ I L) as E. pose proof (pad_inv _ _ _ _ I) as I'. pose proof I' as [Ia Ix Ie Is Io Id Ir If].
  assert (Q : forall k, complete (h ++ [(length (pad act xs), Fail e)]) k = complete h k).
  { intros k. unfold LfoSpec.complete. f_equal; [apply forallb_ext|apply existsb_ext]; intros j; rewrite column_snoc, ?ended_snoc, ?app_nil_r, ?orb_false_r; reflexivity. }
  assert (Qr : forall k, row fill m (h ++ [(length (pad act xs), Fail e)]) k = row fill m h k).
  { intros k. unfold row. apply map_ext. intros j. now rewrite column_snoc, app_nil_r. }
  apply rows_are; intros k Lk; rewrite Q; [now apply (done_rows h act xs r)|].
  apply not_true_iff_false. intros C. unfold LfoSpec.complete in C. apply andb_true_iff in C. destruct C as [C _]. rewrite forallb_seq in C. specialize (C _ L). rewrite E, andb_false_r, orb_false_r in C.
  rewrite (Io _ L E), Nat.ltb_irrefl in C. apply Nat.ltb_lt in C. lia.
Qed.
Lemma inv_all : 0 < m -> inv [] (repeat true m) [] 0.
Proof.
  intros L. assert (T : forall j, j < m -> nth j (repeat true m) false = true).
  { intros j Lj. rewrite (nth_indep _ false true) by (rewrite repeat_length; lia). apply nth_repeat. }
  constructor.
  - apply repeat_length.
  - cbn. lia.
  - intros j Lj. now rewrite T.
  - exists 0. auto.
  - reflexivity.
  - discriminate.
  - cbn. lia.
  - reflexivity.
Qed.
End Rows.

(** * The loops, one step *)
Section Equations.
Context {A B St : Type}.
Variable longest : bool.
Variable fill : A.
Variable m : nat.
Lemma give_rows_eq (f : St -> list A -> outcome (B * St)) (exc : exn -> proc A B) s act xs : give_rows longest fill m f exc s act xs =
  if length (pad fill act xs) =? m then
    match f s (pad fill act xs) with
    | Ok (b, s) => POut (Given b) (give_rows longest fill m f exc s act [])
    | Raise e => exc e
    end
  else PRead (length (pad fill act xs)) (fun v =>
    match v with
    | Item a => give_rows longest fill m f exc s act (pad fill act xs ++ [a])
    | Stop => if goes_on longest (upd act (length (pad fill act xs)) false) then give_rows longest fill m f exc s (upd act (length (pad fill act xs)) false) (pad fill act xs ++ [fill]) else PRet
    | Fail e => PThrow e
    end).
Proof.
  rewrite (unf_eq (give_rows longest fill m f exc s act xs)) at 1. unfold unf, give_rows. fold (@give_rows A B St longest fill m).
  destruct (length (pad fill act xs) =? m); [|reflexivity]. destruct (f s (pad fill act xs)) as [[b s']|e]; [reflexivity|]. now destruct (exc e).
Qed.
Lemma take_rows_eq (f : St -> list A -> outcome St) (exc : St -> exn -> proc A B) k s act xs : take_rows longest fill m f exc k s act xs =
  match settle fill m f s act xs with
  | inl (s, e) => exc s e
  | inr (s, ys) => PRead (length ys) (fun v =>
      match v with
      | Item a => take_rows longest fill m f exc k s act (ys ++ [a])
      | Stop => if goes_on longest (upd act (length ys) false) then take_rows longest fill m f exc k s (upd act (length ys) false) (ys ++ [fill]) else k s
      | Fail e => PThrow e
      end)
  end.
Proof.
  rewrite (unf_eq (take_rows longest fill m f exc k s act xs)) at 1. unfold unf, take_rows. fold (@take_rows A B St longest fill m).
  destruct (settle fill m f s act xs) as [[s' e]|[s' ys]]; [|reflexivity]. now destruct (exc s' e).
Qed.
End Equations.

(** * Something for each row *)
Section Give.
Context {A B St : Type}.
Variable longest : bool.
Variable fill : A.
Variable m : nat.
Variable f : St -> list A -> outcome (B * St).
Variable exc : exn -> proc A B.
Variable exca : exn -> act.
Variable s0 : St.
Variable pre : list (ans B).
Variable P : hpromise A B.
Notation rows := (rows longest fill m).
Notation inv := (inv longest fill m).
Notation pad := (pad fill).
Fixpoint through (s : St) (rs : list (list A)) : list B * (St + exn) :=
  match rs with
  | [] => ([], inl s)
  | r :: rs => match f s r with Ok (b, s) => let (bs, x) := through s rs in (b :: bs, x) | Raise e => ([], inr e) end
  end.
Lemma through_snoc rs r : forall s, through s (rs ++ [r]) =
  match through s rs with
  | (bs, inl s) => match f s r with Ok (b, s) => (bs ++ [b], inl s) | Raise e => (bs, inr e) end
  | (bs, inr e) => (bs, inr e)
  end.
Proof.
  induction rs as [|x rs IH]; intros s; cbn; [destruct (f s r) as [[b s']|e]; reflexivity|].
  destruct (f s x) as [[b s']|e]; [|reflexivity]. rewrite IH. destruct (through s' rs) as [bs [s''|e]]; [|reflexivity]. destruct (f s'' r) as [[b' s''']|e]; reflexivity.
Qed.
Hypothesis Hexc : forall e, match exca e with Ends => exc e = PRet | Raises x => exc e = PThrow x | Ask _ => False end.
Hypothesis Hout : forall h, hout P h = pre ++ map Given (fst (through s0 (rows h))).
Hypothesis Hnext : forall h, hnext P h = after longest m h (match snd (through s0 (rows h)) with inl _ => None | inr e => Some (exca e) end) Ends.
Definition GJ (p : proc A B) (h : list (nat * ev A)) : Prop := exists s act xs r,
  p = give_rows longest fill m f exc s act xs /\ inv h act xs r /\ length (pad act xs) < m /\ snd (through s0 (rows h)) = inl s.
Lemma give_next h act xs r v act' xs' s : inv h act xs r -> length (pad act xs) < m -> snd (through s0 (rows h)) = inl s ->
  inv (h ++ [(length (pad act xs), v)]) act' xs' r -> failed (h ++ [(length (pad act xs), v)]) = None ->
  exists d, hout P (h ++ [(length (pad act xs), v)]) = hout P h ++ d /\ hup P GJ (give_rows longest fill m f exc s act' xs') (h ++ [(length (pad act xs), v)]) d.
Proof.
  intros I L Es I' Nf. destruct (next_rows _ _ _ _ _ _ _ _ _ _ I L I') as [N1 N2].
  pose proof (i_xs _ _ _ _ _ _ _ (pad_inv _ _ _ _ _ _ _ I')) as Lx. destruct (Nat.eq_dec (length (pad act' xs')) m) as [Em|Nm].
  - destruct (N2 Em) as [Er I2]. destruct (through s0 (rows h)) as [bs x] eqn:Et. cbn in Es. subst x.
    rewrite give_rows_eq. rewrite (proj2 (Nat.eqb_eq _ _) Em).
    destruct (f s (pad act' xs')) as [[b s']|e] eqn:Ef.
    + exists [Given b]. split.
      * rewrite !Hout, Er, through_snoc, Et, Ef. cbn [fst]. now rewrite map_app, app_assoc.
      * apply hup_out, hup_loop. exists s', act', [], (S r). split; [reflexivity|]. split; [exact I2|]. split; [now apply (not_full_empty longest fill m _ _ _ I2)|].
        rewrite Er, through_snoc, Et, Ef. reflexivity.
    + exists []. assert (Ex : through s0 (rows (h ++ [(length (pad act xs), v)])) = (bs, inr e)) by (rewrite Er, through_snoc, Et, Ef; reflexivity). split.
      * rewrite !Hout, Ex, Et, app_nil_r. reflexivity.
      * assert (Hn : hnext P (h ++ [(length (pad act xs), v)]) = exca e) by (rewrite Hnext, Ex; unfold after; now rewrite Nf).
        specialize (Hexc e). destruct (exca e) as [i| |x]; [destruct Hexc| |]; rewrite Hexc; constructor; exact Hn.
  - assert (Lm : length (pad act' xs') < m) by lia. exists []. split; [rewrite !Hout, (N1 Lm), app_nil_r; reflexivity|]. apply hup_loop. exists s, act', xs', r. rewrite (N1 Lm). auto.
Qed.
Lemma give_step p h : GJ p h -> exists i k, p = PRead i k /\ hnext P h = Ask i /\
  forall v, exists d, hout P (h ++ [(i, v)]) = hout P h ++ d /\ hup P GJ (k v) (h ++ [(i, v)]) d.
Proof.
  intros (s & act & xs & r & -> & I & L & Es). destruct (turn_is _ _ _ _ _ _ _ I L) as [Et Eo].
  exists (length (pad act xs)). eexists. split; [|split].
  - rewrite give_rows_eq. rewrite (proj2 (Nat.eqb_neq _ _)) by lia. reflexivity.
  - rewrite Hnext, Es. unfold after. now rewrite (i_fail _ _ _ _ _ _ _ I), Eo, Et.
  - intros [a| |e]; cbv beta iota zeta.
    + apply (give_next h act xs r (Item a) act (pad act xs ++ [a]) s I L Es); [now apply read_item|now rewrite failed_snoc].
    + destruct (goes_on longest (upd act (length (pad act xs)) false)) eqn:G.
      * apply (give_next h act xs r Stop _ _ s I L Es); [now apply stop_goes_on|now rewrite failed_snoc].
      * destruct (stop_over _ _ _ _ _ _ _ I L G) as [Ov Er]. exists []. split; [rewrite !Hout, Er, app_nil_r; reflexivity|]. apply hup_ret. rewrite Hnext, Er, Es. unfold after. now rewrite failed_snoc, Ov.
    + exists []. rewrite !Hout, (fail_same _ _ _ _ _ _ _ e I L), app_nil_r. split; [reflexivity|]. apply hup_throw. rewrite Hnext. unfold after. now rewrite failed_snoc.
Qed.
Lemma rows_nil : 0 < m -> rows [] = [].
Proof. reflexivity. Qed.
Lemma give_keeps p : 0 < m -> hup P GJ p [] (pre) -> hkeeps P p.
Proof. intros L U. apply (hup_keeps P GJ give_step p pre U). rewrite Hout, (rows_nil L). cbn. apply app_nil_r. Qed.
Lemma give_start : 0 < m -> GJ (give_rows longest fill m f exc s0 (repeat true m) []) [].
Proof.
  intros L. pose proof (inv_all longest fill m L) as I. exists s0, (repeat true m), [], 0. split; [reflexivity|]. split; [exact I|]. split; [now apply (not_full_empty longest fill m _ _ _ I)|]. now rewrite (rows_nil L).
Qed.
End Give.

(** * Something at the end *)
Section Take.
Context {A B St : Type}.
Variable longest : bool.
Variable fill : A.
Variable m : nat.
Variable f : St -> list A -> outcome St.
Variable exc : St -> exn -> proc A B.
Variable k : St -> proc A B.
Variables (eo : St -> exn -> list (ans B)) (ex : St -> exn -> act) (ko : St -> list (ans B)) (kx : St -> act).
Variable s0 : St.
Variable pre : list (ans B).
Variable P : hpromise A B.
Notation rows := (rows longest fill m).
Notation inv := (inv longest fill m).
Notation pad := (pad fill).
Inductive flush : proc A B -> list (ans B) -> act -> Prop :=
| fl_ret : flush PRet [] Ends
| fl_throw e : flush (PThrow e) [] (Raises e)
| fl_out b p d x : flush p d x -> flush (POut b p) (b :: d) x.
Lemma flush_hup (J : proc A B -> list (nat * ev A) -> Prop) p d x h : flush p d x -> hnext P h = x -> hup P J p h d.
Proof. induction 1; intros E; [apply hup_ret|apply hup_throw|apply hup_out]; auto. Qed.
Fixpoint folded (s : St) (rs : list (list A)) : St + (St * exn) :=
  match rs with
  | [] => inl s
  | r :: rs => match f s r with Ok s => folded s rs | Raise e => inr (s, e) end
  end.
Lemma folded_snoc rs r : forall s, folded s (rs ++ [r]) =
  match folded s rs with
  | inl s => match f s r with Ok s => inl s | Raise e => inr (s, e) end
  | inr x => inr x
  end.
Proof. induction rs as [|x rs IH]; intros s; cbn; [reflexivity|]. destruct (f s x); [apply IH|reflexivity]. Qed.
Hypothesis Hexc : forall s e, flush (exc s e) (eo s e) (ex s e).
Hypothesis Hk : forall s, flush (k s) (ko s) (kx s).
Hypothesis Hout : forall h, hout P h = pre ++
  match failed h, folded s0 (rows h) with
  | None, inl s => if over longest m h then ko s else []
  | None, inr (s, e) => eo s e
  | Some _, _ => []
  end.
Hypothesis Hnext : forall h, hnext P h = after longest m h (match folded s0 (rows h) with inl _ => None | inr (s, e) => Some (ex s e) end)
                                               (match folded s0 (rows h) with inl s => kx s | inr _ => Ends end).
Definition TJ (p : proc A B) (h : list (nat * ev A)) : Prop := exists s act xs r,
  inv h act xs r /\ length (pad act xs) < m /\ folded s0 (rows h) = inl s /\
  exists s1 xs1, p = take_rows longest fill m f exc k s1 act xs1 /\ settle fill m f s1 act xs1 = inr (s, pad act xs).
Lemma out_before h act xs r s : inv h act xs r -> length (pad act xs) < m -> folded s0 (rows h) = inl s -> hout P h = pre.
Proof. intros I L Es. rewrite Hout, Es, (i_fail _ _ _ _ _ _ _ I). destruct (turn_is _ _ _ _ _ _ _ I L) as [_ ->]. apply app_nil_r. Qed.
Lemma take_next h act xs r v act' xs' s : inv h act xs r -> length (pad act xs) < m -> folded s0 (rows h) = inl s ->
  inv (h ++ [(length (pad act xs), v)]) act' xs' r ->
  exists d, hout P (h ++ [(length (pad act xs), v)]) = hout P h ++ d /\ hup P TJ (take_rows longest fill m f exc k s act' xs') (h ++ [(length (pad act xs), v)]) d.
Proof.
  intros I L Es I'. destruct (next_rows _ _ _ _ _ _ _ _ _ _ I L I') as [N1 N2]. rewrite (out_before _ _ _ _ _ I L Es).
  pose proof (i_fail _ _ _ _ _ _ _ I') as Nf. pose proof (i_xs _ _ _ _ _ _ _ (pad_inv _ _ _ _ _ _ _ I')) as Lx. destruct (Nat.eq_dec (length (pad act' xs')) m) as [Em|Nm].
  - destruct (N2 Em) as [Er I2]. pose proof (not_full_empty longest fill m _ _ _ I2) as Le. destruct (f s (pad act' xs')) as [s'|e] eqn:Ef.
    + assert (Ex : folded s0 (rows (h ++ [(length (pad act xs), v)])) = inl s') by (rewrite Er, folded_snoc, Es, Ef; reflexivity).
      exists []. split; [rewrite (out_before _ _ _ _ _ I2 Le Ex), app_nil_r; reflexivity|]. apply hup_loop. exists s', act', [], (S r). split; [exact I2|]. split; [exact Le|]. split; [exact Ex|].
      exists s, xs'. split; [reflexivity|]. unfold settle. now rewrite (proj2 (Nat.eqb_eq _ _) Em), Ef.
    + assert (Ex : folded s0 (rows (h ++ [(length (pad act xs), v)])) = inr (s, e)) by (rewrite Er, folded_snoc, Es, Ef; reflexivity).
      exists (eo s e). split; [rewrite Hout, Nf, Ex; reflexivity|].
      assert (Et : take_rows longest fill m f exc k s act' xs' = exc s e).
      { rewrite take_rows_eq. unfold settle. rewrite (proj2 (Nat.eqb_eq _ _) Em), Ef. reflexivity. }
      rewrite Et. apply (flush_hup _ _ _ (ex s e)); [apply Hexc|]. rewrite Hnext, Ex. unfold after. now rewrite Nf.
  - assert (Lm : length (pad act' xs') < m) by lia. exists []. assert (Ex : folded s0 (rows (h ++ [(length (pad act xs), v)])) = inl s) by (rewrite (N1 Lm); exact Es).
    split; [rewrite (out_before _ _ _ _ _ I' Lm Ex), app_nil_r; reflexivity|]. apply hup_loop. exists s, act', xs', r. split; [exact I'|]. split; [exact Lm|]. split; [exact Ex|].
    exists s, xs'. split; [reflexivity|]. unfold settle. now rewrite (proj2 (Nat.eqb_neq _ _) Nm).
Qed.
Lemma take_step p h : TJ p h -> exists i k, p = PRead i k /\ hnext P h = Ask i /\
  forall v, exists d, hout P (h ++ [(i, v)]) = hout P h ++ d /\ hup P TJ (k v) (h ++ [(i, v)]) d.
Proof.
  intros (s & act & xs & r & I & L & Es & s1 & xs1 & -> & Eset). destruct (turn_is _ _ _ _ _ _ _ I L) as [Et Eo].
  exists (length (pad act xs)). eexists. split; [|split].
  - rewrite take_rows_eq. rewrite Eset. reflexivity.
  - rewrite Hnext, Es. unfold after. now rewrite (i_fail _ _ _ _ _ _ _ I), Eo, Et.
  - intros [a| |e]; cbv beta iota zeta.
    + apply (take_next h act xs r (Item a) act (pad act xs ++ [a]) s I L Es). now apply read_item.
    + destruct (goes_on longest (upd act (length (pad act xs)) false)) eqn:G.
      * apply (take_next h act xs r Stop _ _ s I L Es). now apply stop_goes_on.
      * destruct (stop_over _ _ _ _ _ _ _ I L G) as [Ov Er]. rewrite (out_before _ _ _ _ _ I L Es). exists (ko s).
        split; [rewrite Hout, failed_snoc, Er, Es, Ov; reflexivity|]. apply (flush_hup _ _ _ (kx s)); [apply Hk|]. rewrite Hnext, Er, Es. unfold after. now rewrite failed_snoc, Ov.
    + exists []. rewrite (out_before _ _ _ _ _ I L Es). split; [rewrite Hout, failed_snoc; reflexivity|]. apply hup_throw. rewrite Hnext. unfold after. now rewrite failed_snoc.
Qed.
Lemma take_keeps p : 0 < m -> hup P TJ p [] pre -> hkeeps P p.
Proof.
  intros L U. apply (hup_keeps P TJ take_step p pre U). pose proof (inv_all longest fill m L) as I. apply (out_before [] _ _ _ s0 I); [now apply (not_full_empty longest fill m _ _ _ I)|reflexivity].
Qed.
Lemma take_start : 0 < m -> TJ (take_rows longest fill m f exc k s0 (repeat true m) []) [].
Proof.
  intros L. pose proof (inv_all longest fill m L) as I. pose proof (not_full_empty longest fill m _ _ _ I) as Le. exists s0, (repeat true m), [], 0. split; [exact I|]. split; [exact Le|]. split; [reflexivity|].
  exists s0, []. split; [reflexivity|]. unfold settle. rewrite (proj2 (Nat.eqb_neq _ _)) by lia. reflexivity.
Qed.
End Take.

(** * Column after column *)
Section Columns.
Context {A B : Type}.
Variable longest : bool.
Variable fill : A.
Variable m : nat.
Variable k : list (list A) -> proc A B.
Variables (ko : list (list A) -> list (ans B)) (kx : list (list A) -> act).
Variable pre : list (ans B).
Variable P : hpromise A B.
Notation rrows := (rrows longest fill m).
Notation history := (list (nat * ev A)).
Lemma columns_eq i cols xs : columns m i cols xs k =
  PRead i (fun v =>
    match v with
    | Item a => columns m i cols (xs ++ [a]) k
    | Stop => if S i =? m then k (cols ++ [xs]) else columns m (S i) (cols ++ [xs]) [] k
    | Fail e => PThrow e
    end).
Proof. rewrite (unf_eq (columns m i cols xs k)) at 1. reflexivity. Qed.

Lemma fold_max ls : forall l k, k <? fold_left Nat.max ls l = (k <? l) || existsb (fun x => k <? x) ls.
Proof.
  induction ls as [|x ls IH]; intros l j; cbn [fold_left existsb]; [now rewrite orb_false_r|]. rewrite IH, orb_assoc. f_equal.
  destruct (Nat.ltb_spec j (Nat.max l x)), (Nat.ltb_spec j l), (Nat.ltb_spec j x); try reflexivity; lia.
Qed.
Lemma fold_min ls : forall l k, k <? fold_left Nat.min ls l = (k <? l) && forallb (fun x => k <? x) ls.
Proof.
  induction ls as [|x ls IH]; intros l j; cbn [fold_left forallb]; [now rewrite andb_true_r|]. rewrite IH, andb_assoc. f_equal.
  destruct (Nat.ltb_spec j (Nat.min l x)), (Nat.ltb_spec j l), (Nat.ltb_spec j x); try reflexivity; lia.
Qed.
Lemma existsb_map {X Y} (g : X -> Y) f l : existsb f (map g l) = existsb (fun x => f (g x)) l.
Proof. induction l as [|x l IH]; [reflexivity|]. cbn. now rewrite IH. Qed.
Lemma forallb_map {X Y} (g : X -> Y) f l : forallb f (map g l) = forallb (fun x => f (g x)) l.
Proof. induction l as [|x l IH]; [reflexivity|]. cbn. now rewrite IH. Qed.
Lemma rrows_zip (h : history) : 0 < m -> zip_lists longest fill (map (fun j => rev (column j h)) (seq 0 m)) = rrows h.
Proof.
  intros L. unfold zip_lists, LfoSpec.rrows. rewrite map_map.
  assert (El : map (fun j => length (rev (column j h))) (seq 0 m) = map (fun j => length (column j h)) (seq 0 m)) by (apply map_ext; intros j; apply rev_length).
  rewrite El. clear El. set (n := match map _ _ with [] => 0 | _ :: _ => _ end).
  assert (En : forall j, j <? n = (if longest then @existsb nat else @forallb nat) (fun i => j <? length (column i h)) (seq 0 m)).
  { intros j. assert (Z : seq 0 m = 0 :: seq 1 (m - 1)) by (destruct m; [lia|]; cbn; now rewrite Nat.sub_0_r). unfold n. rewrite Z. cbn [map].
    destruct (Bool.bool_dec longest true) as [Lg|Lg]; [rewrite Lg|apply not_true_is_false in Lg; rewrite Lg].
    - rewrite fold_max, existsb_map. reflexivity.
    - rewrite fold_min, forallb_map. reflexivity. }
  assert (Ln : n <= length h).
  { destruct (Nat.le_gt_cases n (length h)) as [Q|Q]; [exact Q|exfalso]. specialize (En (length h)). rewrite (proj2 (Nat.ltb_lt _ _) Q) in En. symmetry in En.
    assert (Hj : exists j, length h <? length (column j h) = true).
    { destruct (Bool.bool_dec longest true) as [Lg|Lg]; [rewrite Lg in En|apply not_true_is_false in Lg; rewrite Lg in En].
      - apply existsb_exists in En. destruct En as (j & _ & E). now exists j.
      - rewrite forallb_forall in En. exists 0. apply En, in_seq. lia. }
    destruct Hj as (j & E). apply Nat.ltb_lt in E. pose proof (count_le j h). lia. }
  rewrite (filter_ext _ (fun j => j <? n)) by (intros j; symmetry; apply En).
  rewrite (filter_seq _ 0 n); [|intros j Lj; now apply Nat.ltb_lt|intros j Lj; now apply Nat.ltb_ge].
  rewrite Nat.sub_0_r, Nat.min_r by exact Ln. apply map_ext. intros j. unfold rrow. now rewrite map_map.
Qed.

Hypothesis Hm : 0 < m.
Hypothesis Hk : forall cols, flush (k cols) (ko (zip_lists longest fill (map (@rev A) cols))) (kx (zip_lists longest fill (map (@rev A) cols))).
Hypothesis Hout : forall h, hout P h = pre ++ if all_read m h then ko (rrows h) else [].
Hypothesis Hnext : forall h, hnext P h = after_columns m h (kx (rrows h)).
Definition CJ (p : proc A B) (h : history) : Prop := exists i cols xs,
  p = columns m i cols xs k /\ i < m /\ length cols = i /\ cols = map (fun j => column j h) (seq 0 i) /\ column i h = xs /\
  (forall j, i < j -> column j h = []) /\ (forall j, ended j h = (j <? i)) /\ failed h = None.
Lemma find_open (h : history) i : i < m -> (forall j, ended j h = (j <? i)) -> first_open m h = Some i.
Proof.
  intros L E. unfold first_open. assert (G : forall n s, s <= i -> i < s + n -> List.find (fun j => negb (ended j h)) (seq s n) = Some i).
  { induction n as [|n IH]; intros s L1 L2; [lia|]. cbn. rewrite E. destruct (Nat.ltb_spec s i) as [L3|L3]; cbn; [apply IH; lia|]. f_equal. lia. }
  apply G; lia.
Qed.
Lemma find_none (h : history) : (forall j, ended j h = (j <? m)) -> first_open m h = None.
Proof.
  intros E. unfold first_open. destruct (List.find _ _) as [j|] eqn:F; [|reflexivity]. apply find_some in F. destruct F as [I F]. rewrite E in F. apply in_seq in I.
  rewrite (proj2 (Nat.ltb_lt j m)) in F by lia. discriminate F.
Qed.
Lemma col_step p h : CJ p h -> exists i k, p = PRead i k /\ hnext P h = Ask i /\
  forall v, exists d, hout P (h ++ [(i, v)]) = hout P h ++ d /\ hup P CJ (k v) (h ++ [(i, v)]) d.
Proof.
  intros (i & cols & xs & -> & Li & Lc & Ec & Ex & Eo & Ee & Nf). exists i. eexists. split; [apply columns_eq|]. pose proof (find_open h i Li Ee) as Fo. split.
  - rewrite Hnext. unfold after_columns. now rewrite Nf, Fo.
  - assert (O : hout P h = pre) by (rewrite Hout; unfold all_read; rewrite Nf, Fo; apply app_nil_r). rewrite O.
    assert (Same : forall v, map (fun j => column j (h ++ [(i, v)])) (seq 0 i) = cols).
    { intros v. rewrite Ec. apply map_ext_in. intros j Ij. apply in_seq in Ij. rewrite column_snoc. destruct v; rewrite ?app_nil_r; try reflexivity. rewrite (proj2 (Nat.eqb_neq i j)) by lia. apply app_nil_r. }
    intros [a| |e]; cbv beta iota.
    + exists []. assert (E' : forall j, ended j (h ++ [(i, Item a)]) = (j <? i)) by (intros j; rewrite ended_snoc, orb_false_r; apply Ee).
      split; [rewrite Hout; unfold all_read; now rewrite failed_snoc, (find_open _ i Li E')|]. apply hup_loop. exists i, cols, (xs ++ [a]). split; [reflexivity|]. split; [exact Li|]. split; [exact Lc|].
      split; [now rewrite Same|]. split; [rewrite column_snoc, Nat.eqb_refl; now rewrite Ex|]. split; [|split; [exact E'|apply failed_snoc]].
      intros j Lj. rewrite column_snoc, (Eo j Lj), (proj2 (Nat.eqb_neq i j)) by lia. reflexivity.
    + assert (E' : forall j, ended j (h ++ [(i, @Stop A)]) = (j <? S i)).
      { intros j. rewrite ended_snoc, Ee. destruct (Nat.ltb_spec j i), (Nat.ltb_spec j (S i)), (Nat.eqb_spec i j); try reflexivity; lia. }
      assert (Ec' : cols ++ [xs] = map (fun j => column j (h ++ [(i, Stop)])) (seq 0 (S i))).
      { rewrite seq_S, map_app, Same. cbn. now rewrite column_snoc, app_nil_r, Ex. }
      destruct (Nat.eqb_spec (S i) m) as [Em|Nm].
      * rewrite Em in E', Ec'. assert (Ez : zip_lists longest fill (map (@rev A) (cols ++ [xs])) = rrows (h ++ [(i, Stop)])) by (rewrite Ec', map_map; now apply rrows_zip).
        exists (ko (rrows (h ++ [(i, Stop)]))). split; [rewrite Hout; unfold all_read; now rewrite failed_snoc, (find_none _ E')|].
        rewrite <- Ez. apply (flush_hup _ _ _ _ (kx (zip_lists longest fill (map (@rev A) (cols ++ [xs]))))); [apply Hk|]. rewrite Ez, Hnext. unfold after_columns. now rewrite failed_snoc, (find_none _ E').
      * exists []. assert (Li' : S i < m) by lia. split; [rewrite Hout; unfold all_read; now rewrite failed_snoc, (find_open _ _ Li' E')|]. apply hup_loop. exists (S i), (cols ++ [xs]), [].
        split; [reflexivity|]. split; [exact Li'|]. split; [rewrite app_length; cbn; lia|]. split; [exact Ec'|]. split; [rewrite column_snoc, app_nil_r; apply Eo; lia|]. split; [|split; [exact E'|apply failed_snoc]].
        intros j Lj. rewrite column_snoc, app_nil_r. apply Eo. lia.
    + exists []. split; [rewrite Hout; unfold all_read; now rewrite failed_snoc|]. apply hup_throw. rewrite Hnext. unfold after_columns. now rewrite failed_snoc.
Qed.
Lemma col_start : CJ (columns m 0 [] [] k) [].
Proof. exists 0, [], []. repeat (split; [first [reflexivity|exact Hm|intros; reflexivity]|]). reflexivity. Qed.
Lemma col_keeps p : hup P CJ p [] pre -> hkeeps P p.
Proof.
  intros U. apply (hup_keeps P CJ col_step p pre U). rewrite Hout. unfold all_read. cbn [failed rev]. rewrite (find_open [] 0 Hm); [apply app_nil_r|]. intros j. now destruct j.
Qed.
End Columns.

(** * The tools *)
Section Tools.
Context {A B : Type}.
Variable longest : bool.
Variable fill : A.
Variable m : nat.
Hypothesis Hm : 0 < m.

Lemma through_plain (f : list A -> outcome B) rs : through (plain f) tt rs = (fst (results f rs), match snd (results f rs) with None => inl tt | Some e => inr e end).
Proof.
  induction rs as [|r rs IH]; [reflexivity|]. cbn [through results]. unfold plain at 1. destruct (f r) as [b|e]; [|reflexivity]. cbn. rewrite IH. now destruct (results f rs).
Qed.
Lemma last_shift {X} (l : list X) : forall a b, last (a :: l) b = last l a.
Proof. induction l as [|x l IH]; intros a b; [reflexivity|]. change (last (x :: l) b = last (x :: l) a). now rewrite !IH. Qed.
Lemma through_scan (f : list A -> B -> outcome B) rs : forall s,
  through (scan_body f) s rs = (fst (accumulated f s rs), match snd (accumulated f s rs) with None => inl (last (fst (accumulated f s rs)) s) | Some e => inr e end).
Proof.
  induction rs as [|r rs IH]; intros s; [reflexivity|]. cbn [through accumulated]. unfold scan_body at 1. destruct (f r s) as [b|e]; [|reflexivity]. cbn [omap]. rewrite IH. destruct (accumulated f b rs) as [bs o]. cbn [fst snd].
  now rewrite last_shift.
Qed.
Lemma folded_fold (f : list A -> B -> outcome B) rs : forall s,
  folded (fun acc row => f row acc) s rs = match accumulated f s rs with (bs, None) => inl (last bs s) | (bs, Some e) => inr (last bs s, e) end.
Proof.
  induction rs as [|r rs IH]; intros s; [reflexivity|]. cbn [folded accumulated]. destruct (f r s) as [b|e]; [|reflexivity]. rewrite IH. destruct (accumulated f b rs) as [bs o]. now rewrite last_shift.
Qed.
Lemma folded_map (f : list A -> outcome B) rs : forall s,
  folded (fun ys row => omap (fun y => ys ++ [y]) (f row)) s rs = match results f rs with (bs, None) => inl (s ++ bs) | (bs, Some e) => inr (s ++ bs, e) end.
Proof.
  induction rs as [|r rs IH]; intros s; [cbn; now rewrite app_nil_r|]. cbn [folded results]. destruct (f r) as [b|e]; [|cbn; now rewrite app_nil_r]. cbn [omap]. rewrite IH. destruct (results f rs) as [bs o]. now rewrite <- app_assoc.
Qed.
Lemma folded_rows (rs : list (list A)) : forall s, folded (fun rs row => Ok (rs ++ [row])) s rs = inl (s ++ rs).
Proof. induction rs as [|r rs IH]; intros s; cbn [folded]; [now rewrite app_nil_r|]. rewrite IH. now rewrite <- app_assoc. Qed.
Lemma flush_emit (l : list B) : flush (A := A) (emit l PRet) (map Given l) Ends.
Proof. induction l as [|b l IH]; [constructor|]. cbn. now constructor. Qed.
Lemma flush_map (f : list A -> outcome B) rs : flush (map_list f rs) (map Given (fst (results f rs))) (match snd (results f rs) with Some e => as_end e | None => Ends end).
Proof.
  induction rs as [|r rs IH]; [constructor|]. cbn [map_list results]. destruct (f r) as [b|e]; [|destruct e; constructor]. destruct (results f rs) as [bs o]. now constructor.
Qed.
Lemma flush_scan (f : list A -> B -> outcome B) rs : forall s,
  flush (scan_list f s rs) (map Given (fst (accumulated f s rs))) (match snd (accumulated f s rs) with Some e => replaced e | None => Ends end).
Proof.
  induction rs as [|r rs IH]; intros s; [constructor|]. cbn [scan_list accumulated]. destruct (f r s) as [b|e]; [|destruct e; constructor]. specialize (IH b). destruct (accumulated f b rs) as [bs o]. now constructor.
Qed.
Lemma flush_fold (f : list A -> B -> outcome B) rs : forall s,
  flush (fold_list f s rs) (match accumulated f s rs with (bs, None) => [Given (last bs s)] | _ => [] end) (match snd (accumulated f s rs) with Some e => replaced e | None => Ends end).
Proof.
  induction rs as [|r rs IH]; intros s; [repeat constructor|]. cbn [fold_list accumulated]. destruct (f r s) as [b|e]; [|destruct e; constructor]. specialize (IH b). destruct (accumulated f b rs) as [bs o]. cbn [snd] in *. now rewrite last_shift.
Qed.

Lemma map_keeps f : hkeeps (map_promise longest fill m f) (map_ (B := B) longest fill m f).
Proof.
  unfold map_. apply (give_keeps longest fill m (plain f) in_builtin as_end tt [Returned]); [intros e; now destruct e|..]; try exact Hm.
  - intros h. rewrite through_plain. reflexivity.
  - intros h. rewrite through_plain. cbn. now destruct (snd (results f (rows longest fill m h))).
  - apply hup_out, hup_loop. now apply give_start.
Qed.
Lemma scanl_keeps f init : hkeeps (scanl_promise longest fill m f init) (scanl (B := B) longest fill m f init).
Proof.
  unfold scanl. apply (give_keeps longest fill m (scan_body f) (fun e => PThrow (in_generator e)) replaced init [Returned; Given init]); [intros e; now destruct e|..]; try exact Hm.
  - intros h. rewrite through_scan. reflexivity.
  - intros h. rewrite through_scan. cbn. now destruct (snd (accumulated f init (rows longest fill m h))).
  - apply hup_out, hup_out, hup_loop. now apply give_start.
Qed.
Lemma foldl_keeps f init : hkeeps (foldl_promise longest fill m f init) (foldl (B := B) longest fill m f init).
Proof.
  unfold foldl. eapply (take_keeps longest fill m) with (eo := fun _ _ => []) (ex := fun _ e => replaced e) (ko := fun s => [Given s]) (kx := fun _ => Ends) (pre := []); try exact Hm.
  5: apply hup_loop; now apply take_start.
  - intros s e. destruct e; constructor.
  - intros s. repeat constructor.
  - intros h. rewrite folded_fold. cbn. destruct (failed h); [reflexivity|]. destruct (accumulated f init (rows longest fill m h)) as [bs [e|]]; reflexivity.
  - intros h. rewrite folded_fold. cbn. destruct (accumulated f init (rows longest fill m h)) as [bs [e|]]; reflexivity.
Qed.
Lemma mapr_keeps f : hkeeps (mapr_promise longest fill m f) (mapr (B := B) longest fill m f).
Proof.
  unfold mapr. eapply (take_keeps longest fill m) with (eo := fun s e => match e with StopIterationE => map Given (rev s) | _ => [] end) (ex := fun _ e => as_end e) (ko := fun s => map Given (rev s)) (kx := fun _ => Ends) (pre := [Returned]); try exact Hm.
  5: apply hup_out, hup_loop; now apply take_start.
  - intros s e. destruct e; try constructor. apply flush_emit.
  - intros s. apply flush_emit.
  - intros h. rewrite folded_map. cbn. destruct (failed h); [reflexivity|]. destruct (results f (rows longest fill m h)) as [bs [e|]]; [|reflexivity]. now destruct e.
  - intros h. rewrite folded_map. cbn. destruct (results f (rows longest fill m h)) as [bs [e|]]; reflexivity.
Qed.
Lemma scanr_keeps f init : hkeeps (scanr_promise longest fill m f init) (scanr (B := B) longest fill m f init).
Proof.
  unfold scanr, with_rows. eapply (take_keeps longest fill m) with (eo := fun s e => []) (ex := fun _ e => Raises e) (ko := fun s => Given init :: map Given (fst (accumulated f init (rev s))))
    (kx := fun s => match snd (accumulated f init (rev s)) with Some e => replaced e | None => Ends end) (pre := [Returned]); try exact Hm.
  5: apply hup_out, hup_loop; now apply take_start.
  - intros s e. constructor.
  - intros s. constructor. apply flush_scan.
  - intros h. rewrite folded_rows. cbn. now destruct (failed h).
  - intros h. rewrite folded_rows. reflexivity.
Qed.
Lemma foldr_keeps f init : hkeeps (foldr_promise longest fill m f init) (foldr (B := B) longest fill m f init).
Proof.
  unfold foldr, with_rows. eapply (take_keeps longest fill m) with (eo := fun s e => []) (ex := fun _ e => Raises e) (ko := fun s => match accumulated f init (rev s) with (bs, None) => [Given (last bs init)] | _ => [] end)
    (kx := fun s => match snd (accumulated f init (rev s)) with Some e => replaced e | None => Ends end) (pre := []); try exact Hm.
  5: apply hup_loop; now apply take_start.
  - intros s e. constructor.
  - intros s. apply flush_fold.
  - intros h. rewrite folded_rows. cbn. now destruct (failed h).
  - intros h. rewrite folded_rows. reflexivity.
Qed.
Lemma rmap_keeps f : hkeeps (rmap_promise longest fill m f) (rmap (B := B) longest fill m f).
Proof.
  unfold rmap. eapply (col_keeps longest fill m) with (ko := fun rs => map Given (fst (results f rs))) (kx := fun rs => match snd (results f rs) with Some e => as_end e | None => Ends end) (pre := [Returned]); try exact Hm.
  4: apply hup_out, hup_loop; now apply col_start.
  - intros cols. apply flush_map.
  - reflexivity.
  - reflexivity.
Qed.
Lemma rscanl_keeps f init : hkeeps (rscanl_promise longest fill m f init) (rscanl (B := B) longest fill m f init).
Proof.
  unfold rscanl. eapply (col_keeps longest fill m) with (ko := fun rs => Returned :: Given init :: map Given (fst (accumulated f init rs)))
    (kx := fun rs => match snd (accumulated f init rs) with Some e => replaced e | None => Ends end) (pre := []); try exact Hm.
  4: apply hup_loop; now apply col_start.
  - intros cols. constructor. constructor. apply flush_scan.
  - reflexivity.
  - reflexivity.
Qed.
Lemma rfoldl_keeps f init : hkeeps (rfoldl_promise longest fill m f init) (rfoldl (B := B) longest fill m f init).
Proof.
  unfold rfoldl. eapply (col_keeps longest fill m) with (ko := fun rs => match accumulated f init rs with (bs, None) => [Given (last bs init)] | _ => [] end)
    (kx := fun rs => match snd (accumulated f init rs) with Some e => replaced e | None => Ends end) (pre := []); try exact Hm.
  4: apply hup_loop; now apply col_start.
  - intros cols. apply flush_fold.
  - reflexivity.
  - reflexivity.
Qed.
End Tools.

(** * One iterable *)
Section Shift.
Context {A B : Type}.
Variable P : hpromise A B.
Definition shift (e : nat * ev A) : hpromise A B := mkH (fun h => hout P (e :: h)) (fun h => hnext P (e :: h)).
Lemma hkeeps_read i k : hout P [] = [] -> hnext P [] = Ask i -> (forall v, hkeeps (shift (i, v)) (k v)) -> hkeeps P (PRead i k).
Proof.
  intros O N K tr q R. inversion R as [p|b k' tr' q' R'|i' k' v tr' q' R']; subst.
  - cbn. rewrite O. split; [now exists []|]. split; [intros [|x tr1] j v tr2 E; discriminate E|]. split; [discriminate|]. discriminate.
  - destruct (K v _ _ R') as (K1 & K2 & K3 & K4). cbn [shift hout hnext] in *. split; [exact K1|]. split; [|split; [exact K3|exact K4]].
    intros [|x tr1] j w tr2 E; [inversion E; subst; cbn; now rewrite O|]. injection E as <- E. cbn. apply (K2 tr1 j w tr2 E).
Qed.
Lemma hkeeps_flush p d x : flush p d x -> hout P [] = d -> hnext P [] = x -> hkeeps P p.
Proof.
  intros F O N. apply (hup_keeps P (fun _ _ => False)) with (d := d); [intros ? ? []| |exact O]. apply (flush_hup P _ p d x); assumption.
Qed.
End Shift.
Lemma hkeeps_ext {A B} (P Q : hpromise A B) p : (forall h, hout P h = hout Q h) -> (forall h, hnext P h = hnext Q h) -> hkeeps P p -> hkeeps Q p.
Proof.
  intros E1 E2 K tr q R. destruct (K tr q R) as (K1 & K2 & K3 & K4). rewrite <- E1, <- E2. split; [exact K1|]. split; [|split; [exact K3|exact K4]]. intros tr1 i v tr2 E. rewrite <- E1, <- E2. exact (K2 tr1 i v tr2 E).
Qed.

Section One.
Context {A B : Type}.
Variable fill : A.
Notation history := (list (nat * ev A)).
Definition single (a : A) : list A := [a].
Lemma rows_one (h : history) : rows false fill 1 h = map single (column 0 h).
Proof.
  unfold rows. rewrite (filter_seq _ 0 (length (column 0 h))).
  - rewrite Nat.sub_0_r, Nat.min_r by apply count_le. unfold row. cbn [seq map]. generalize (column 0 h). intros l. rewrite <- (map_map (fun k => nth k l fill) single). f_equal.
    induction l as [|a l IH]; [reflexivity|]. cbn [length seq map]. f_equal. rewrite <- seq_shift, map_map. exact IH.
  - intros j L. unfold complete. cbn [seq forallb existsb]. apply Nat.ltb_lt in L. now rewrite L.
  - intros j L. unfold complete. cbn [seq forallb existsb]. apply Nat.ltb_ge in L. now rewrite L.
Qed.
Lemma rrows_one (h : history) : rrows false fill 1 h = map single (rev (column 0 h)).
Proof.
  rewrite <- rrows_zip by lia. unfold zip_lists. cbn [seq map fold_left]. generalize (rev (column 0 h)). intros l. rewrite <- (map_map (fun k => nth k l fill) single). f_equal.
  induction l as [|a l IH]; [reflexivity|]. cbn [length seq map]. f_equal. rewrite <- seq_shift, map_map. exact IH.
Qed.
Lemma after_is_one (h : history) e x : after false 1 h e x = after_one h e x.
Proof.
  unfold after, after_one, over, turn. cbn. destruct (failed h); [reflexivity|]. destruct e; [reflexivity|]. destruct (ended 0 h); [reflexivity|]. cbn. now rewrite Nat.leb_refl.
Qed.
Lemma over_one (h : history) : over false 1 h = ended 0 h.
Proof. unfold over. cbn. apply orb_false_r. Qed.
Lemma open_one (h : history) : first_open 1 h = if ended 0 h then None else Some 0.
Proof. unfold first_open. cbn. now destruct (ended 0 h). Qed.
Lemma accumulated_one (f : A -> B -> outcome B) l : forall acc, accumulated (one f) acc (map single l) = accumulate f acc l.
Proof. induction l as [|a l IH]; intros acc; [reflexivity|]. cbn. destruct (f a acc) as [b|e]; [|reflexivity]. now rewrite IH. Qed.
Lemma failed_cons i a (h : history) : failed ((i, Item a) :: h) = failed h.
Proof. unfold failed. cbn [rev]. destruct (rev h) as [|x r]; reflexivity. Qed.

Lemma scan_first_keeps (init : A -> B) f : hkeeps (scan_first_promise init f) (scan_first fill init f).
Proof.
  unfold scan_first, read_first. apply hkeeps_read; [reflexivity|reflexivity|]. intros [a| |e].
  - apply (hkeeps_ext (scanl_promise false fill 1 (one f) (init a))); [| |apply scanl_keeps; lia].
    + intros h. cbn [hout scanl_promise shift scan_first_promise]. rewrite rows_one, accumulated_one. cbn [column flat_map Nat.eqb app]. fold (column 0 h). cbn [from_first]. now destruct (accumulate f (init a) (column 0 h)).
    + intros h. cbn [hnext scanl_promise shift scan_first_promise]. rewrite rows_one, accumulated_one, after_is_one. unfold after_one. rewrite failed_cons. cbn [column flat_map Nat.eqb app ended existsb orb]. fold (column 0 h) (ended 0 h).
      cbn [from_first]. now destruct (accumulate f (init a) (column 0 h)).
  - apply (hkeeps_flush _ _ [Returned] Ends); [repeat constructor|reflexivity|reflexivity].
  - apply (hkeeps_flush _ _ [] (Raises e)); [constructor|reflexivity|reflexivity].
Qed.
Lemma fold_first_keeps none (init : A -> B) f : hkeeps (fold_first_promise none init f) (fold_first fill none init f).
Proof.
  unfold fold_first, read_first. apply hkeeps_read; [reflexivity|reflexivity|]. intros [a| |e].
  - apply (hkeeps_ext (foldl_promise false fill 1 (one f) (init a))); [| |apply foldl_keeps; lia].
    + intros h. cbn [hout foldl_promise shift fold_first_promise]. rewrite rows_one, accumulated_one, over_one, failed_cons. cbn [column flat_map Nat.eqb app ended existsb orb]. fold (column 0 h) (ended 0 h).
      cbn [from_first]. destruct (accumulate f (init a) (column 0 h)) as [bs o]. cbn [fst snd]. now rewrite last_shift.
    + intros h. cbn [hnext foldl_promise shift fold_first_promise]. rewrite rows_one, accumulated_one, after_is_one. unfold after_one. rewrite failed_cons. cbn [column flat_map Nat.eqb app ended existsb orb]. fold (column 0 h) (ended 0 h).
      cbn [from_first]. now destruct (accumulate f (init a) (column 0 h)).
  - apply (hkeeps_flush _ _ [Given none] Ends); [repeat constructor|reflexivity|reflexivity].
  - apply (hkeeps_flush _ _ [] (Raises e)); [constructor|reflexivity|reflexivity].
Qed.
Lemma mm_is lt gt (x : A) lohi : mm lt gt x lohi = smaller_larger lt gt x lohi.
Proof. destruct lohi as [a b]. unfold mm, smaller_larger. cbn. destruct (lt x a); [|reflexivity]. cbn. now destruct (gt x b). Qed.
Lemma accumulate_ext (f g : A -> B -> outcome B) : (forall a b, f a b = g a b) -> forall l acc, accumulate f acc l = accumulate g acc l.
Proof. intros E. induction l as [|a l IH]; intros acc; [reflexivity|]. cbn. rewrite E. destruct (g a acc); [|reflexivity]. now rewrite IH. Qed.
Lemma from_first_ext (init : A -> B) f g : (forall a b, f a b = g a b) -> forall l, from_first init f l = from_first init g l.
Proof. intros E [|a l]; [reflexivity|]. cbn. now rewrite (accumulate_ext f g E). Qed.
End One.

Section OneMore.
Context {A : Type}.
Variable fill none : A.
Notation history := (list (nat * ev A)).
Variable f : A -> A -> outcome A.
Notation same := (fun a : A => a).

Lemma running_minmax_keeps lt gt : hkeeps (scan_first_promise (fun a => (a, a)) (smaller_larger lt gt)) (running_minmax fill lt gt).
Proof.
  apply (hkeeps_ext (scan_first_promise (fun a => (a, a)) (mm lt gt))); [| |apply scan_first_keeps]; intros h; cbn [hout hnext scan_first_promise]; destruct (column 0 h); try reflexivity; now rewrite (from_first_ext _ (mm lt gt) (smaller_larger lt gt) (mm_is lt gt)).
Qed.
Lemma minmax_keeps lt gt : hkeeps (fold_first_promise (none, none) (fun a => (a, a)) (smaller_larger lt gt)) (minmax fill none lt gt).
Proof.
  apply (hkeeps_ext (fold_first_promise (none, none) (fun a => (a, a)) (mm lt gt))); [| |apply fold_first_keeps]; intros h; cbn [hout hnext fold_first_promise]; now rewrite (from_first_ext _ (mm lt gt) (smaller_larger lt gt) (mm_is lt gt)).
Qed.
Definition g_out (empty : list (ans A)) (out : A -> list (list A) -> list (ans A)) (rs : list (list A)) : list (ans A) :=
  match rs with [] => empty | (a :: _) :: rs => out a rs | [] :: _ => [] end.
Definition g_exc (rs : list (list A)) : act :=
  match rs with [] => Ends | (a :: _) :: rs => match snd (accumulated (one f) a rs) with Some e => replaced e | None => Ends end | [] :: _ => Raises IndexError end.
Definition o_scan (a : A) (rs : list (list A)) : list (ans A) := Given a :: map Given (fst (accumulated (one f) a rs)).
Definition o_fold (a : A) (rs : list (list A)) : list (ans A) := match accumulated (one f) a rs with (bs, None) => [Given (last bs a)] | _ => [] end.
Lemma flush_gscan rs : flush (from_last PRet (fun a rs => POut (Given a) (scan_list (one f) a rs)) rs) (g_out [] o_scan rs) (g_exc rs).
Proof. destruct rs as [|[|a r] rs]; try constructor. apply flush_scan. Qed.
Lemma flush_gfold rs : flush (from_last (POut (Given none) PRet) (fun a rs => fold_list (one f) a rs) rs) (g_out [Given none] o_fold rs) (g_exc rs).
Proof. destruct rs as [|[|a r] rs]; [repeat constructor|constructor|]. apply flush_fold. Qed.
Lemma gscan_is l : g_out [] o_scan (map single l) = map Given (fst (from_first same f l)).
Proof. destruct l as [|a l]; [reflexivity|]. cbn. unfold o_scan. rewrite accumulated_one. now destruct (accumulate f a l). Qed.
Lemma gfold_is l : g_out [Given none] o_fold (map single l) = value_of none (from_first same f l).
Proof. destruct l as [|a l]; [reflexivity|]. cbn. unfold o_fold. rewrite accumulated_one. destruct (accumulate f a l) as [bs [e|]]; [reflexivity|]. cbn [value_of]. now rewrite last_shift. Qed.
Lemma gexc_is l : g_exc (map single l) = match snd (from_first same f l) with Some e => replaced e | None => Ends end.
Proof. destruct l as [|a l]; [reflexivity|]. cbn. rewrite accumulated_one. now destruct (accumulate f a l). Qed.

Lemma scanr1_keeps : hkeeps (at_the_end [Returned] (fun l => map Given (fst (from_first same f l))) (fun l => snd (from_first same f l))) (scanr1 fill f).
Proof.
  unfold scanr1, with_rows. eapply (take_keeps false fill 1) with (eo := fun s e => []) (ex := fun _ e => Raises e) (ko := fun rs => g_out [] o_scan (rev rs)) (kx := fun rs => g_exc (rev rs)) (pre := [Returned]); try lia.
  5: apply hup_out, hup_loop; apply take_start; lia.
  - intros s e. constructor.
  - intros rs. apply flush_gscan.
  - intros h. rewrite folded_rows, over_one, rows_one. cbn [app hout at_the_end]. now rewrite <- map_rev, gscan_is.
  - intros h. rewrite folded_rows, rows_one, after_is_one. cbn [app hnext at_the_end]. now rewrite <- map_rev, gexc_is.
Qed.
Lemma reducer_keeps : hkeeps (at_the_end [] (fun l => value_of none (from_first same f l)) (fun l => snd (from_first same f l))) (reducer fill none f).
Proof.
  unfold reducer, with_rows. eapply (take_keeps false fill 1) with (eo := fun s e => []) (ex := fun _ e => Raises e) (ko := fun rs => g_out [Given none] o_fold (rev rs)) (kx := fun rs => g_exc (rev rs)) (pre := []); try lia.
  5: apply hup_loop; apply take_start; lia.
  - intros s e. constructor.
  - intros rs. apply flush_gfold.
  - intros h. rewrite folded_rows, over_one, rows_one. cbn [app hout at_the_end]. now rewrite <- map_rev, gfold_is.
  - intros h. rewrite folded_rows, rows_one, after_is_one. cbn [app hnext at_the_end]. now rewrite <- map_rev, gexc_is.
Qed.
Lemma all_read_one (h : history) {X} (a b : X) : (if all_read 1 h then a else b) = match failed h with None => if ended 0 h then a else b | Some _ => b end.
Proof. unfold all_read. rewrite open_one. destruct (failed h); [reflexivity|]. now destruct (ended 0 h). Qed.
Lemma after_columns_one (h : history) x : after_columns 1 h x = after_one h None x.
Proof. unfold after_columns, after_one. rewrite open_one. destruct (failed h); [reflexivity|]. now destruct (ended 0 h). Qed.
Lemma rscanl1_keeps : hkeeps (at_the_end [] (fun l => Returned :: map Given (fst (from_first same f l))) (fun l => snd (from_first same f l))) (rscanl1 fill f).
Proof.
  unfold rscanl1. eapply (col_keeps false fill 1) with (ko := fun rs => Returned :: g_out [] o_scan rs) (kx := g_exc) (pre := []); try lia.
  4: apply hup_loop; apply col_start; lia.
  - intros cols. constructor. apply flush_gscan.
  - intros h. rewrite rrows_one, gscan_is, all_read_one. reflexivity.
  - intros h. rewrite rrows_one, gexc_is, after_columns_one. reflexivity.
Qed.
Lemma rreducel_keeps : hkeeps (at_the_end [] (fun l => value_of none (from_first same f l)) (fun l => snd (from_first same f l))) (rreducel fill none f).
Proof.
  unfold rreducel. eapply (col_keeps false fill 1) with (ko := fun rs => g_out [Given none] o_fold rs) (kx := g_exc) (pre := []); try lia.
  4: apply hup_loop; apply col_start; lia.
  - intros cols. apply flush_gfold.
  - intros h. rewrite rrows_one, gfold_is, all_read_one. reflexivity.
  - intros h. rewrite rrows_one, gexc_is, after_columns_one. reflexivity.
Qed.
End OneMore.

(** * An iterable that has ended, or failed, is not asked again *)
Section Again.
Context {A B : Type}.
Variable longest : bool.
Variable fill : A.
Variable m : nat.
Lemma as_end_no i e : as_end e <> Ask i.
Proof. destruct e; discriminate. Qed.
Lemma replaced_no i e : replaced e <> Ask i.
Proof. destruct e; discriminate. Qed.
Lemma after_ask (h : list (nat * ev A)) exc x i : (forall j, exc <> Some (Ask j)) -> x <> Ask i -> after longest m h exc x = Ask i -> failed h = None /\ ended i h = false /\ i < m.
Proof.
  unfold after. intros N X. destruct (failed h); [discriminate|]. destruct exc as [a|]; [intros ->; now destruct (N i)|]. destruct (over longest m h); [intros E; now destruct X|].
  destruct (turn m h) as [j|] eqn:T; [|discriminate]. intros E. injection E as ->. apply find_some in T. destruct T as [I T]. apply andb_true_iff in T. destruct T as [T _]. apply in_seq in I.
  split; [reflexivity|]. split; [now destruct (ended i h)|lia].
Qed.
Lemma after_columns_ask (h : list (nat * ev A)) x i : x <> Ask i -> after_columns m h x = Ask i -> failed h = None /\ ended i h = false /\ i < m.
Proof.
  unfold after_columns. intros X. destruct (failed h); [discriminate|]. destruct (first_open m h) as [j|] eqn:T; [|intros E; now destruct X].
  intros E. injection E as ->. apply find_some in T. destruct T as [I T]. apply in_seq in I. split; [reflexivity|]. split; [now destruct (ended i h)|lia].
Qed.
Lemma opt_no (g : exn -> act) (G : forall i e, g e <> Ask i) o j : option_map g o <> Some (Ask j).
Proof. destruct o as [e|]; [|discriminate]. cbn. intros E. injection E as E. now destruct (G j e). Qed.
Lemma end_no (g : exn -> act) (G : forall i e, g e <> Ask i) o j : match o with Some e => g e | None => Ends end <> Ask j.
Proof. destruct o as [e|]; [apply G|discriminate]. Qed.
Lemma not_again f g init (p : proc A B) : 0 < m ->
  In p [map_ longest fill m f; mapr longest fill m f; rmap longest fill m f; scanl longest fill m g init; scanr longest fill m g init;
        rscanl longest fill m g init; foldl longest fill m g init; foldr longest fill m g init; rfoldl longest fill m g init] ->
  forall tr1 i v tr2 q, run p (tr1 ++ LRead i v :: tr2) q -> failed (events tr1) = None /\ ended i (events tr1) = false /\ i < m.
Proof.
  intros Hm I tr1 i v tr2 q R. assert (K : exists P, hkeeps P p /\ forall h, hnext P h = Ask i -> failed h = None /\ ended i h = false /\ i < m).
  { repeat (destruct I as [<- |I]); [..|destruct I]; eexists; (split; [first [apply map_keeps|apply mapr_keeps|apply rmap_keeps|apply scanl_keeps|apply scanr_keeps|apply rscanl_keeps|apply foldl_keeps|apply foldr_keeps|apply rfoldl_keeps]; exact Hm|]);
    intros h; first [apply after_ask|apply after_columns_ask]; try discriminate; intros; try (apply opt_no; intros; first [apply as_end_no|apply replaced_no]); try (apply end_no; intros; first [apply as_end_no|apply replaced_no]). }
  destruct K as (P & K & N). destruct (K _ _ R) as (_ & K2 & _). apply N. apply (K2 tr1 i v tr2 eq_refl).
Qed.
End Again.
