From Coq Require Import List Bool Arith Lia.
From Verif Require Import Base ImzModel ImzSpec.
Import ListNotations.
Open Scope list_scope.

Lemma upd_length {X} (l : list X) n x : length (upd l n x) = length l.
Proof. revert n. induction l; intros [|n]; simpl; auto. Qed.
Lemma upd_eq {X} (l : list X) n x : n < length l -> nth_error (upd l n x) n = Some x.
Proof. revert n. induction l; intros [|n]; simpl; intros; try lia; auto. apply IHl. lia. Qed.
Lemma upd_ne {X} (l : list X) n m x : n <> m -> nth_error (upd l n x) m = nth_error l m.
Proof. revert n m. induction l; intros [|n] [|m]; simpl; intros; auto; try congruence. Qed.
Lemma nth_some {X} (l : list X) n x : nth_error l n = Some x -> n < length l.
Proof. intro. apply nth_error_Some. congruence. Qed.
Lemma nth_snoc {X} (l : list X) x n y : nth_error (l ++ [x]) n = Some y -> nth_error l n = Some y \/ (n = length l /\ y = x).
Proof.
  intro H. destruct (lt_dec n (length l)).
  - left. rewrite nth_error_app1 in H; auto.
  - right. rewrite nth_error_app2 in H by lia. destruct (n - length l) as [|k] eqn:E; simpl in H.
    + split; [lia | congruence].
    + now destruct k.
Qed.
Lemma nth_last {X} (l : list X) x : nth_error (l ++ [x]) (length l) = Some x.
Proof. rewrite nth_error_app2 by lia. now rewrite Nat.sub_diag. Qed.
Lemma nth_old {X} (l l' : list X) n y : nth_error l n = Some y -> nth_error (l ++ l') n = Some y.
Proof. intro H. rewrite nth_error_app1; auto. now apply nth_some in H. Qed.

Section P.
Context {V I A K : Type}.
Variable keqb : K -> K -> bool.
Variable resolve : A -> outcome K.
Variable factory : A -> outcome (iterable I).
Variable advance : I -> outcome V * I.
Variable start : list I.
Hypothesis Heq : equivalence keqb.
Notation st := (st V I A K).
Notation op := (op A).
Notation res := (res V).
Notation sequence := (sequence factory advance start).
Notation alike := (alike keqb resolve).
Notation first_like := (first_like keqb resolve).
Notation plain := (plain advance).

Definition refl := proj1 Heq.
Definition sym := proj1 (proj2 Heq).
Definition trans := proj2 (proj2 Heq).

Definition rest (g : gen A) (its : list I) (k : nat) : outcome V :=
  match g with
  | GNew a => sequence a k
  | GIter n => match nth_error its n with Some i => plain k i | None => fails TypeError k end
  | GDone => Raise StopIterationE
  end.

Lemma given_snoc i (h : list (op * res)) o r : given i (h ++ [(o, r)]) =
  given i h ++ match o, r with Next j, RItem x => if j =? i then [x] else [] | _, _ => [] end.
Proof.
  induction h as [|[o' r'] h IH]; simpl.
  - destruct o as [| j |]; destruct r as [|x|]; auto.
  - destruct o' as [| j |]; destruct r' as [|x|]; auto. destruct (j =? i); rewrite IH; auto.
Qed.
Lemma made_snoc (h : list (op * res)) o r : made (h ++ [(o, r)]) =
  made h ++ match o, r with Call a, RCall (Ok _) => [a] | _, _ => [] end.
Proof.
  induction h as [|[o' r'] h IH]; simpl.
  - destruct o; destruct r as [[|]| |]; auto.
  - destruct o'; destruct r' as [[|]| |]; auto; simpl; rewrite IH; auto.
Qed.
Lemma first_app a l l' : first_like a (l ++ l') = match first_like a l with Some b => Some b | None => first_like a l' end.
Proof. induction l as [|b l IH]; simpl; auto. destruct (alike b a); auto. Qed.
Lemma first_none a l : (forall b, In b l -> alike b a = false) -> first_like a l = None.
Proof. induction l as [|b l IH]; simpl; auto. intro H. rewrite (H b) by auto. apply IH. auto. Qed.

Lemma find_some k l p : find keqb k l = Some p -> exists m : memo V A K, nth_error l p = Some m /\ keqb (mkey m) k = true.
Proof.
  revert p. induction l as [|m l IH]; simpl; intros p H; [discriminate|].
  destruct (keqb (mkey m) k) eqn:E.
  - injection H as <-. exists m; auto.
  - destruct (find keqb k l) as [q|]; [|discriminate]. injection H as <-. simpl. apply IH; auto.
Qed.
Lemma find_none k l : find keqb k l = None -> forall m : memo V A K, In m l -> keqb (mkey m) k = false.
Proof.
  induction l as [|m l IH]; simpl; intros H m'; [contradiction | intros [<- | H']].
  - destruct (keqb (mkey m) k); congruence.
  - destruct (keqb (mkey m) k); [discriminate|]. apply IH; auto. destruct (find keqb k l); congruence.
Qed.

(** ** The invariant.  [ops]: the whole history, also what is yet to come *)
Variable ops : list op.
Hypothesis Hex : exist factory start.

Definition good_gen (its : list I) (a : A) (m : memo V A K) : Prop :=
  match mgen m with
  | GNew b => b = a /\ items m = []
  | GIter n => n < length its /\ (length start <= n \/ factory a = Ok (Same n))
  | GDone => True
  end /\
  (private keqb resolve factory ops a ->
   (forall k r, nth_error (items m) k = Some r -> r = sequence a k) /\
   (forall k, rest (mgen m) its k = sequence a (length (items m) + k))).

Record Inv (h : list (op * res)) (s : st) : Prop := {
  I_len : length (insts s) = length (made h);
  I_inst : forall i x, nth_error (insts s) i = Some x -> exists m a k,
     nth_error (memos s) (imemo x) = Some m /\ nth_error (made h) i = Some a /\ resolve a = Ok k /\
     keqb (mkey m) k = true /\ given i h = firstn (pos x) (items m) /\ pos x <= length (items m);
  I_none : forall i, length (insts s) <= i -> given i h = [];
  I_keys : forall p q m m', nth_error (memos s) p = Some m -> nth_error (memos s) q = Some m' ->
     keqb (mkey m) (mkey m') = true -> p = q;
  I_memo : forall p m, nth_error (memos s) p = Some m -> exists a,
     resolve a = Ok (mkey m) /\ first_like a (made h) = Some a /\ In a (made h) /\ good_gen (iters s) a m /\
     ((exists b, mgen m = GNew b) \/ In a (calls s));
  I_sep : forall p q m m' n, nth_error (memos s) p = Some m -> nth_error (memos s) q = Some m' -> p <> q ->
     mgen m = GIter n -> mgen m' = GIter n -> n < length start;
  I_calls : forall b, In b (calls s) -> exists p m, nth_error (memos s) p = Some m /\ resolve b = Ok (mkey m) /\
     (forall a, mgen m <> GNew a) /\ first_like b (made h) = Some b;
  I_once : forall p q b c, nth_error (calls s) p = Some b -> nth_error (calls s) q = Some c -> alike b c = true -> p = q;
  I_iters : forall n, n < length start -> nth_error (iters s) n = nth_error start n \/ In (Outside n) ops \/
     exists b, In b (calls s) /\ factory b = Ok (Same n);
  I_long : length start <= length (iters s) }.

Lemma Inv0 : Inv [] (init start).
Proof.
  constructor; simpl; auto; try (intros [|] *; simpl; congruence); intros; try contradiction;
    try (destruct i; discriminate); try (destruct p; discriminate).
Qed.

Lemma alike_key a b k k' : resolve a = Ok k -> resolve b = Ok k' -> alike a b = keqb k k'.
Proof. unfold ImzSpec.alike. now intros -> ->. Qed.

(** The arguments that have made instances *)
Lemma made_memo h s : Inv h s -> forall a, In a (made h) -> exists k p m,
  resolve a = Ok k /\ nth_error (memos s) p = Some m /\ keqb (mkey m) k = true.
Proof.
  intros H a Ha. apply In_nth_error in Ha. destruct Ha as [i Hi].
  destruct (nth_error (insts s) i) as [x|] eqn:E.
  - destruct (I_inst _ _ H _ _ E) as (m & b & k & E1 & E2 & E3 & E4 & _).
    exists k, (imemo x), m. split; [congruence | auto].
  - apply nth_error_None in E. rewrite (I_len _ _ H) in E. apply nth_some in Hi. lia.
Qed.

(** A call *)
Lemma Inv_call h s a : Inv h s -> let '(r, s') := call keqb resolve a s in Inv (h ++ [(Call a, RCall r)]) s'.
Proof.
  intro H. unfold call. destruct (resolve a) as [k|e] eqn:Ek.
  2: { assert (Em : made (h ++ [(Call a, RCall (Raise e))]) = made h) by (rewrite made_snoc; now rewrite app_nil_r).
       assert (Eg : forall i, given i (h ++ [(Call a, RCall (Raise e))]) = given i h)
         by (intro; rewrite given_snoc; now rewrite app_nil_r).
       destruct H. constructor; auto; rewrite ?Em; auto.
       - intros i x Hi. rewrite Eg. auto.
       - intros i Hi. rewrite Eg. auto. }
  set (mr := match find keqb k (memos s) with
             | Some m => (m, memos s)
             | None => (length (memos s), memos s ++ [mkMemo k (GNew a) []])
             end).
  destruct mr as [m ms] eqn:Emr.
  assert (Em : made (h ++ [(Call a, RCall (Ok (length (insts s))))]) = made h ++ [a]) by (rewrite made_snoc; auto).
  assert (Eg : forall i, given i (h ++ [(Call a, RCall (Ok (length (insts s))))]) = given i h)
    by (intro; rewrite given_snoc; now rewrite app_nil_r).
  (* old memos stay *)
  assert (Hold : forall p x, nth_error (memos s) p = Some x -> nth_error ms p = Some x).
  { unfold mr in Emr. destruct (find keqb k (memos s)); injection Emr as <- <-; auto. intros. now apply nth_old. }
  assert (Hnew : forall p x, nth_error ms p = Some x -> nth_error (memos s) p = Some x \/
      (p = length (memos s) /\ x = mkMemo k (GNew a) [] /\ find keqb k (memos s) = None)).
  { unfold mr in Emr. destruct (find keqb k (memos s)) eqn:Ef; injection Emr as <- <-; auto.
    intros p x Hp. apply nth_snoc in Hp. tauto. }
  assert (Hm : exists x, nth_error ms m = Some x /\ keqb (mkey x) k = true).
  { unfold mr in Emr. destruct (find keqb k (memos s)) eqn:Ef; injection Emr as <- <-.
    - now apply find_some.
    - exists (mkMemo k (GNew a) []). rewrite nth_last. split; auto. apply refl. }
  assert (Hfst : forall b, first_like b (made h) = Some b -> first_like b (made h ++ [a]) = Some b).
  { intros b Hb. rewrite first_app, Hb. auto. }
  constructor; cbn [insts memos iters calls]; rewrite ?Em.
  - rewrite !app_length, (I_len _ _ H). auto.
  - intros i x Hi. rewrite Eg. apply nth_snoc in Hi as [Hi | [-> ->]].
    + destruct (I_inst _ _ H _ _ Hi) as (m1 & b & k1 & E1 & E2 & E3 & E4 & E5 & E6).
      exists m1, b, k1. repeat split; auto. now apply nth_old.
    + destruct Hm as (x & Hx & Hk). exists x, a, k. cbn [imemo pos]. repeat split; auto; [| | lia].
      * rewrite (I_len _ _ H). apply nth_last.
      * simpl. apply (I_none _ _ H). lia.
  - intros i Hi. rewrite Eg. apply (I_none _ _ H). rewrite app_length in Hi. lia.
  - intros p q x y Hp Hq Hk. apply Hnew in Hp as [Hp | (-> & -> & Hf)]; apply Hnew in Hq as [Hq | (-> & -> & Hf')]; auto.
    + eapply (I_keys _ _ H); eauto.
    + exfalso. cbn [mkey] in Hk. apply nth_error_In in Hp. rewrite (find_none _ _ Hf' _ Hp) in Hk. discriminate.
    + exfalso. cbn [mkey] in Hk. apply nth_error_In in Hq. apply sym in Hk. rewrite (find_none _ _ Hf _ Hq) in Hk. discriminate.
  - intros p x Hp. apply Hnew in Hp as [Hp | (-> & -> & Hf)].
    + destruct (I_memo _ _ H _ _ Hp) as (b & E1 & E2 & E3 & E4 & E5). exists b. repeat split; auto.
      * apply in_app_iff; auto.
      * apply E4.
      * now apply E4.
      * now apply E4.
    + exists a. repeat split; auto.
      * rewrite first_app, first_none.
        { simpl. rewrite (alike_key _ _ _ _ Ek Ek), refl. auto. }
        intros b Hb. destruct (made_memo _ _ H _ Hb) as (kb & q & y & E1 & E2 & E3).
        rewrite (alike_key _ _ _ _ E1 Ek). destruct (keqb kb k) eqn:E; auto. exfalso.
        apply nth_error_In in E2. assert (keqb (mkey y) k = true) by (eapply trans; eauto).
        rewrite (find_none _ _ Hf _ E2) in H0. discriminate.
      * apply in_app_iff; simpl; auto.
      * intros k' r Hr. destruct k'; discriminate.
      * left. exists a. reflexivity.
  - intros p q x y n Hp Hq Hpq G1 G2. apply Hnew in Hp as [Hp | (-> & -> & Hf)]; [|discriminate G1].
    apply Hnew in Hq as [Hq | (-> & -> & Hf)]; [|discriminate G2]. exact (I_sep _ _ H _ _ _ _ _ Hp Hq Hpq G1 G2).
  - intros b Hb. destruct (I_calls _ _ H _ Hb) as (p & x & E1 & E2 & E3 & E4). exists p, x. repeat split; auto.
  - apply (I_once _ _ H).
  - apply (I_iters _ _ H).
  - apply (I_long _ _ H).
Qed.

(** An iterator is advanced, and so is the generator that goes through it. *)
Lemma plain_next i v i' k : advance i = (Ok v, i') -> plain (S k) i = plain k i'.
Proof. simpl. now intros ->. Qed.

(** A generator's step: what it gives, and how it goes on *)
Lemma go_on_spec n its i : nth_error its n = Some i -> exists r g i',
  go_on (A := A) advance n its = (r, g, upd its n i') /\ r = plain 0 i /\ (forall k, rest g (upd its n i') k = plain (S k) i) /\
  (g = GIter n \/ g = GDone).
Proof.
  intro Hn. unfold go_on, next_iter. rewrite Hn. destruct (advance i) as [[v|e] i'] eqn:E.
  - exists (Ok v), (GIter n), i'. repeat split; auto.
    + simpl. now rewrite E.
    + intro k. simpl rest. rewrite upd_eq by now apply nth_some in Hn. now rewrite (plain_next _ _ _ _ E).
  - exists (Raise e), GDone, i'. repeat split; auto.
    + simpl. now rewrite E.
    + intro k. simpl. now rewrite E.
Qed.

(** What next of a generator does to the iterators: it advances one ([at_]), or none *)
Lemma upd_app {X} (l : list X) x y : upd (l ++ [x]) (length l) y = l ++ [y].
Proof. induction l; simpl; congruence. Qed.

Lemma next_spec (s : st) (a : A) (m : memo V A K) p h : Inv h s -> nth_error (memos s) p = Some m ->
  resolve a = Ok (mkey m) -> good_gen (iters s) a m ->
  exists r g its cs, next_gen factory advance (mgen m) s = (r, g, mkSt its (memos s) (insts s) cs) /\
    (cs = calls s \/ (mgen m = GNew a /\ cs = calls s ++ [a])) /\ (mgen m = GNew a -> cs = calls s ++ [a]) /\
    length (iters s) <= length its /\
    (forall a, g <> GNew a) /\
    (forall n, g = GIter n -> n < length its /\ (length start <= n \/ factory a = Ok (Same n)) /\
       (mgen m = GIter n \/ (mgen m = GNew a /\ (n < length start \/ n = length (iters s))))) /\
    (forall n, nth_error its n = nth_error (iters s) n \/ mgen m = GIter n \/ (mgen m = GNew a /\ (factory a = Ok (Same n) \/ length (iters s) <= n))) /\
    (private keqb resolve factory ops a -> r = sequence a (length (items m)) /\ forall k, rest g its k = sequence a (S (length (items m)) + k)).
Proof.
  intros H Hp Hk [G1 G2]. unfold next_gen. destruct (mgen m) as [b | n |] eqn:Eg.
  - destruct G1 as [-> Hit]. rewrite Hit in *. simpl length in *. cbn [iters memos insts calls].
    assert (Hfail : forall e k, fails (V := V) e (S k) = Raise StopIterationE) by reflexivity.
    destruct (factory a) as [[i | n |]|e] eqn:Ef.
    + destruct (go_on_spec (length (iters s)) (iters s ++ [i]) i (nth_last _ _)) as (r & g & i' & E1 & E2 & E3 & E4).
      rewrite E1. rewrite upd_app in *. exists r, g, (iters s ++ [i']), (calls s ++ [a]).
      repeat split; auto.
      * rewrite app_length. lia.
      * destruct E4 as [-> | ->]; discriminate.
      * destruct E4 as [-> | ->]; [|discriminate]. injection H0 as <-. rewrite app_length. simpl. lia.
      * left. destruct E4 as [-> | ->]; [|discriminate]. injection H0 as <-. apply (I_long _ _ H).
      * right. split; auto. destruct E4 as [-> | ->]; [|discriminate]. injection H0 as <-. auto.
      * intros n. destruct (le_lt_dec (length (iters s)) n); auto. left. rewrite nth_error_app1; auto.
      * rewrite E2. unfold ImzSpec.sequence. now rewrite Ef.
      * intro k. rewrite E3. unfold ImzSpec.sequence. now rewrite Ef.
    + pose proof (Hex _ _ Ef) as Hn.
      destruct (nth_error (iters s) n) as [i|] eqn:Ei.
      2: { apply nth_error_None in Ei. pose proof (I_long _ _ H). lia. }
      destruct (go_on_spec n (iters s) i Ei) as (r & g & i' & E1 & E2 & E3 & E4).
      rewrite E1. exists r, g, (upd (iters s) n i'), (calls s ++ [a]).
      assert (Hs : private keqb resolve factory ops a -> forall k, sequence a k = plain k i).
      { intros Hpr k. destruct (Hpr _ Ef) as [P1 P2].
        unfold ImzSpec.sequence. rewrite Ef. destruct (I_iters _ _ H _ Hn) as [E | [E | (b & Hb & Eb)]].
        - now rewrite <- E, Ei.
        - contradiction.
        - exfalso. destruct (I_calls _ _ H _ Hb) as (q & m' & Q1 & Q2 & Q3 & _).
          pose proof (P2 _ _ Q2 Eb) as Hal.
          rewrite (alike_key _ _ _ _ Hk Q2) in Hal.
          rewrite (I_keys _ _ H _ _ _ _ Hp Q1 Hal) in Hp. rewrite Q1 in Hp. injection Hp as <-. apply (Q3 a). auto. }
      repeat split; auto.
      * rewrite upd_length. lia.
      * destruct E4 as [-> | ->]; discriminate.
      * destruct E4 as [-> | ->]; [|discriminate]. injection H0 as <-. rewrite upd_length. now apply nth_some in Ei.
      * right. destruct E4 as [-> | ->]; [|discriminate]. injection H0 as <-. auto.
      * right. split; auto. left. destruct E4 as [-> | ->]; [|discriminate]. injection H0 as <-. auto.
      * intros n'. destruct (Nat.eq_dec n n') as [<-|]; auto. left. now apply upd_ne.
      * rewrite Hs; auto.
      * intro k. rewrite Hs; auto.
    + exists (Raise TypeError), GDone, (iters s), (calls s ++ [a]). repeat split; auto; try discriminate.
      * unfold ImzSpec.sequence. now rewrite Ef.
      * intro k. unfold ImzSpec.sequence. rewrite Ef. reflexivity.
    + exists (Raise (in_generator e)), GDone, (iters s), (calls s ++ [a]). repeat split; auto; try discriminate.
      * unfold ImzSpec.sequence. rewrite Ef. now destruct e.
      * intro k. unfold ImzSpec.sequence. rewrite Ef. now destruct e.
  - destruct G1 as [Hn Hown]. destruct (nth_error (iters s) n) as [i|] eqn:Ei.
    2: { apply nth_error_None in Ei. lia. }
    destruct (go_on_spec n (iters s) i Ei) as (r & g & i' & E1 & E2 & E3 & E4).
    rewrite E1. exists r, g, (upd (iters s) n i'), (calls s).
    assert (Hs : private keqb resolve factory ops a -> forall k, plain k i = sequence a (length (items m) + k)).
    { intros Hpr k. destruct (G2 Hpr) as [_ G3]. rewrite <- G3. simpl. now rewrite Ei. }
    repeat split; auto; try discriminate.
    + rewrite upd_length. lia.
    + destruct E4 as [-> | ->]; discriminate.
    + destruct E4 as [-> | ->]; [|discriminate]. injection H0 as <-. rewrite upd_length. auto.
    + destruct E4 as [-> | ->]; [|discriminate]. injection H0 as <-. auto.
    + left. destruct E4 as [-> | ->]; [|discriminate]. now injection H0 as <-.
    + intros n'. destruct (Nat.eq_dec n n') as [<-|]; auto. left. now apply upd_ne.
    + rewrite E2, Hs by auto. f_equal. lia.
    + intro k. rewrite E3, Hs by auto. f_equal. lia.
  - exists (Raise StopIterationE), GDone, (iters s), (calls s).
    split; [now destruct s|]. split; [auto|]. split; [discriminate|]. split; [auto|]. split; [discriminate|]. split; [discriminate|].
    split; [auto|]. intro Hpr. destruct (G2 Hpr) as [_ G3]. split.
    + specialize (G3 0). simpl in G3. rewrite G3. f_equal. lia.
    + intro k. specialize (G3 (S k)). simpl in G3. simpl. rewrite G3. f_equal. lia.
Qed.

Lemma firstn_full {X} (l : list X) x k : k = length l -> firstn (S k) (l ++ [x]) = l ++ [x].
Proof. intros ->. rewrite firstn_all2; auto. rewrite app_length. simpl. lia. Qed.
Lemma firstn_more {X} (l : list X) k x : nth_error l k = Some x -> firstn (S k) l = firstn k l ++ [x].
Proof. revert k. induction l; intros [|k] H; simpl in *; try discriminate. - now injection H as ->. - f_equal. now apply IHl. Qed.

Lemma Inv_next h s i : Inv h s ->
  let '(r, s') := next factory advance i s in Inv (h ++ [(Next i, match r with Some r => RItem r | None => RNone end)]) s'.
Proof.
  intro H. unfold next.
  assert (Em : forall r, made (h ++ [(Next i, r)]) = made h) by (intro; rewrite made_snoc; now rewrite app_nil_r).
  destruct (nth_error (insts s) i) as [x|] eqn:Ex.
  2: { assert (Eg : forall j, given j (h ++ [(Next i, RNone)]) = given j h)
         by (intro; rewrite given_snoc; now rewrite app_nil_r).
       destruct H. constructor; auto; rewrite ?Em; auto.
       - intros j x Hi. rewrite Eg. auto.
       - intros j Hi. rewrite Eg. auto. }
  destruct (I_inst _ _ H _ _ Ex) as (m & a & k & E1 & E2 & E3 & E4 & E5 & E6). rewrite E1.
  pose proof (nth_some _ _ _ Ex) as Hi.
  destruct (nth_error (items m) (pos x)) as [r|] eqn:Er.
  - (* known already *)
    assert (Eg : forall j, given j (h ++ [(Next i, RItem r)]) = given j h ++ if i =? j then [r] else [])
      by (intro; now rewrite given_snoc).
    destruct H as [L1 L2 L3 L4 L5 L6 L7 L8 L9 L10]. constructor; cbn [insts memos iters calls]; rewrite ?Em, ?upd_length; auto.
    + intros j y Hj. rewrite Eg. destruct (Nat.eqb_spec i j) as [<- | Hij].
      * rewrite upd_eq in Hj by auto. injection Hj as <-. exists m, a, k. cbn [imemo pos]. repeat split; auto.
        { now rewrite E5, (firstn_more _ _ _ Er). }
        { apply nth_some in Er. lia. }
      * rewrite upd_ne in Hj by auto. rewrite app_nil_r. auto.
    + intros j Hj. rewrite Eg. destruct (Nat.eqb_spec i j) as [<- | Hij]; [lia|]. rewrite app_nil_r. auto.
  - (* a new item *)
    assert (Hpos : pos x = length (items m)) by (apply nth_error_None in Er; lia).
    destruct (I_memo _ _ H _ _ E1) as (a0 & M1 & M2 & M3 & M4 & M5).
    destruct (next_spec s a0 m (imemo x) h H E1 M1 M4) as (r & g & its & cs & N1 & N2 & N2' & N3 & N4 & N5 & N6 & N7).
    rewrite N1. cbn [insts memos iters calls].
    assert (Eg : forall j, given j (h ++ [(Next i, RItem r)]) = given j h ++ if i =? j then [r] else [])
      by (intro; now rewrite given_snoc).
    set (m' := mkMemo (mkey m) g (items m ++ [r])).
    pose proof (nth_some _ _ _ E1) as Hp.
    assert (Hget : forall p y, nth_error (upd (memos s) (imemo x) m') p = Some y ->
        (p = imemo x /\ y = m') \/ (p <> imemo x /\ nth_error (memos s) p = Some y)).
    { intros p y Hy. destruct (Nat.eq_dec (imemo x) p) as [<-|Hne].
      - rewrite upd_eq in Hy by auto. left. split; congruence.
      - rewrite upd_ne in Hy by auto. auto. }
    (* what the other memos go through is left alone *)
    assert (Hother : forall p y b n, nth_error (memos s) p = Some y -> p <> imemo x -> resolve b = Ok (mkey y) ->
        good_gen (iters s) b y -> mgen y = GIter n -> private keqb resolve factory ops b -> nth_error its n = nth_error (iters s) n).
    { intros p y b n P1 P2 P3 [P4 _] P5 P6. rewrite P5 in P4. destruct P4 as [P4 P4'].
      destruct M4 as [M4 _].
      assert (Hsame : forall n, factory a0 = Ok (Same n) -> factory b = Ok (Same n) -> False).
      { intros n0 F1 F2. destruct (P6 _ F2) as [_ P7]. specialize (P7 _ _ M1 F1). rewrite (alike_key _ _ _ _ P3 M1) in P7.
        apply P2. eapply (I_keys _ _ H); eauto. }
      destruct (N6 n) as [Q | [Q | [Q1 [Q2 | Q2]]]]; auto; exfalso.
      - pose proof (I_sep _ _ H _ _ _ _ _ P1 E1 P2 P5 Q) as Hn. rewrite Q in M4. destruct M4 as [_ M4].
        destruct P4' as [|F2]; [lia|]. destruct M4 as [|F1]; [lia|]. eapply Hsame; eauto.
      - destruct P4' as [F2|F2]; [|eapply Hsame; eauto]. pose proof (Hex _ _ Q2). lia.
      - lia. }
    constructor; cbn [insts memos iters calls]; rewrite ?Em, ?upd_length.
    + apply (I_len _ _ H).
    + intros j y Hj. rewrite Eg. destruct (Nat.eqb_spec i j) as [<- | Hij].
      * rewrite upd_eq in Hj by auto. injection Hj as <-. exists m', a, k. cbn [imemo pos]. repeat split; auto.
        { now apply upd_eq. }
        { rewrite E5, Hpos. unfold m'. cbn [items]. rewrite firstn_full by auto. now rewrite firstn_all. }
        { unfold m'. cbn [items]. rewrite app_length. simpl. lia. }
      * rewrite upd_ne in Hj by auto. rewrite app_nil_r.
        destruct (I_inst _ _ H _ _ Hj) as (my & b & kb & B1 & B2 & B3 & B4 & B5 & B6).
        destruct (Nat.eq_dec (imemo x) (imemo y)) as [Hxy|Hxy].
        { rewrite <- Hxy in *. rewrite E1 in B1. injection B1 as <-. exists m', b, kb. repeat split; auto.
          - now apply upd_eq.
          - unfold m'. cbn [items]. rewrite firstn_app. replace (pos y - length (items m)) with 0 by lia. simpl. now rewrite app_nil_r.
          - unfold m'. cbn [items]. rewrite app_length. lia. }
        { exists my, b, kb. repeat split; auto. rewrite upd_ne; auto. }
    + intros j Hj. rewrite Eg. destruct (Nat.eqb_spec i j) as [<- | Hij]; [lia|]. rewrite app_nil_r. now apply (I_none _ _ H).
    + intros p q y z Hy Hz Hk. apply Hget in Hy as [[-> ->] | [Hy1 Hy2]]; apply Hget in Hz as [[-> ->] | [Hz1 Hz2]]; auto.
      * eapply (I_keys _ _ H); eauto.
      * eapply (I_keys _ _ H); eauto.
      * eapply (I_keys _ _ H); eauto.
    + intros p y Hy. apply Hget in Hy as [[-> ->] | [Hy1 Hy2]].
      * exists a0. repeat split; auto.
        { unfold m'. cbn [mgen]. destruct g as [b | n |]; auto.
          - destruct (N4 b). auto.
          - destruct (N5 n eq_refl) as (Q1 & Q2 & _). auto. }
        { intros k0 r0 Hk0. unfold m' in Hk0. cbn [items] in Hk0. apply nth_snoc in Hk0 as [Hk0 | [-> ->]].
          - destruct M4 as [_ M4]. destruct (M4 H0) as [M6 _]. auto.
          - apply N7; auto. }
        { intro k0. unfold m'. cbn [mgen items]. rewrite app_length. simpl. destruct (N7 H0) as [_ N8]. rewrite N8. f_equal. lia. }
        { right. destruct M5 as [[b Q]|M5].
          - destruct M4 as [M4 _]. rewrite Q in M4. destruct M4 as [-> _]. rewrite (N2' Q). apply in_app_iff. simpl. auto.
          - destruct N2 as [-> | [_ ->]]; auto. apply in_app_iff. auto. }
      * destruct (I_memo _ _ H _ _ Hy2) as (b & B1 & B2 & B3 & B4 & B5'). exists b. repeat split; auto.
        { destruct B4 as [B4 _]. destruct (mgen y) as [| n |]; auto. destruct B4. split; auto. lia. }
        { destruct B4 as [_ B4]. now apply B4. }
        { intro k0. pose proof B4 as B5. destruct B4 as [_ B4]. destruct (B4 H0) as [_ B6]. rewrite <- B6.
          unfold rest. destruct (mgen y) as [| n |] eqn:Ey; auto.
          now rewrite (Hother _ _ _ _ Hy2 Hy1 B1 B5 Ey H0). }
        { destruct B5' as [|B5']; auto. right. destruct N2 as [-> | [_ ->]]; auto. apply in_app_iff; auto. }
    + intros p q y z n Hy Hz Hpq G1 G2.
      assert (Haux : forall p y, p <> imemo x -> nth_error (memos s) p = Some y -> mgen y = GIter n -> g = GIter n -> n < length start).
      { intros p0 y0 Hp0 Hy0 G3 G4. destruct (N5 _ G4) as (_ & _ & [Q | [_ [Q | Q]]]); auto.
        - eapply (I_sep _ _ H _ _ _ _ _ Hy0 E1); eauto.
        - destruct (I_memo _ _ H _ _ Hy0) as (b & _ & _ & _ & [B4 _] & _). rewrite G3 in B4. lia. }
      apply Hget in Hy as [[-> ->] | [Hy1 Hy2]]; apply Hget in Hz as [[-> ->] | [Hz1 Hz2]].
      * congruence.
      * eapply Haux; eauto.
      * eapply Haux; eauto.
      * eapply (I_sep _ _ H _ _ _ _ _ Hy2 Hz2); eauto.
    + intros b Hb.
      assert (Hb' : In b (calls s) \/ (b = a0 /\ mgen m = GNew a0)).
      { destruct N2 as [-> | [Q ->]]; auto. apply in_app_iff in Hb as [Hb | [<- | []]]; auto. }
      destruct Hb' as [Hb' | [-> Hb']].
      * destruct (I_calls _ _ H _ Hb') as (p & y & B1 & B2 & B3 & B4). destruct (Nat.eq_dec (imemo x) p) as [<-|Hne].
        { exists (imemo x), m'. repeat split; auto; [now apply upd_eq|]. unfold m'. cbn [mkey]. congruence. }
        { exists p, y. repeat split; auto. rewrite upd_ne; auto. }
      * exists (imemo x), m'. repeat split; auto. now apply upd_eq.
    + destruct N2 as [-> | [Q ->]]; [apply (I_once _ _ H)|].
      assert (Hnot : forall p b, nth_error (calls s) p = Some b -> alike b a0 = false).
      { intros p b Hb. apply nth_error_In in Hb. destruct (I_calls _ _ H _ Hb) as (q & y & B1 & B2 & B3 & B4).
        rewrite (alike_key _ _ _ _ B2 M1). destruct (keqb (mkey y) (mkey m)) eqn:Ek; auto. exfalso.
        rewrite (I_keys _ _ H _ _ _ _ B1 E1 Ek) in B1. rewrite E1 in B1. injection B1 as <-. eapply B3; eauto. }
      intros p q b c Hb Hc Hal. apply nth_snoc in Hb as [Hb | [-> ->]]; apply nth_snoc in Hc as [Hc | [-> ->]]; auto.
      * eapply (I_once _ _ H); eauto.
      * rewrite (Hnot _ _ Hb) in Hal. discriminate.
      * destruct (I_calls _ _ H _ (nth_error_In _ _ Hc)) as (q0 & y & B1 & B2 & B3 & B4).
        pose proof (Hnot _ _ Hc) as Hn. rewrite (alike_key _ _ _ _ M1 B2) in Hal. rewrite (alike_key _ _ _ _ B2 M1) in Hn.
        apply sym in Hal. congruence.
    + intros n Hn. destruct (N6 n) as [Q | [Q | [Q1 [Q2 | Q2]]]].
      * rewrite Q. destruct (I_iters _ _ H _ Hn) as [L | [L | (b & Hb & Fb)]]; auto.
        right. right. exists b. split; auto. destruct N2 as [-> | [_ ->]]; auto. apply in_app_iff; auto.
      * right. right. exists a0. destruct M5 as [[b Q']|M5]; [congruence|]. split.
        { destruct N2 as [-> | [_ ->]]; auto. apply in_app_iff; auto. }
        { destruct M4 as [M4 _]. rewrite Q in M4. destruct M4 as [_ [|]]; auto. lia. }
      * right. right. exists a0. split; auto. rewrite (N2' Q1). apply in_app_iff; simpl; auto.
      * pose proof (I_long _ _ H). lia.
    + pose proof (I_long _ _ H). lia.
Qed.

Lemma Inv_step h s o : (forall n, o = Outside n -> In o ops) -> Inv h s ->
  let '(r, s') := step keqb resolve factory advance start o s in Inv (h ++ [(o, r)]) s'.
Proof.
  intros Ho H. destruct o as [a | i | n]; simpl.
  - pose proof (Inv_call _ _ a H). destruct (call keqb resolve a s). auto.
  - pose proof (Inv_next _ _ i H). destruct (next factory advance i s). auto.
  - specialize (Ho n eq_refl).
    assert (Em : forall r, made (h ++ [(Outside n, r)]) = made h) by (intro; rewrite made_snoc; now rewrite app_nil_r).
    assert (Eg : forall j r, given j (h ++ [(Outside n, r)]) = given j h) by (intros; rewrite given_snoc; now rewrite app_nil_r).
    destruct (Nat.ltb_spec n (length start)) as [Hn | Hn].
    2: { destruct H. constructor; auto; rewrite ?Em; auto.
         - intros j x Hi. rewrite Eg. auto.
         - intros j Hi. rewrite Eg. auto. }
    unfold next_iter. destruct (nth_error (iters s) n) as [i|] eqn:Ei.
    2: { apply nth_error_None in Ei. pose proof (I_long _ _ H). lia. }
    destruct (advance i) as [r i'].
    destruct H as [L1 L2 L3 L4 L5 L6 L7 L8 L9 L10]. constructor; cbn [insts memos iters calls]; rewrite ?Em; auto.
    + intros j x Hi. rewrite Eg. auto.
    + intros j Hi. rewrite Eg. auto.
    + intros p m Hm. destruct (L5 _ _ Hm) as (a & A1 & A2 & A3 & [A4 A4'] & A5). exists a. repeat split; auto.
      * destruct (mgen m); auto. now rewrite upd_length.
      * now apply A4'.
      * intro k. destruct (A4' H) as [_ A6]. rewrite <- A6. unfold rest. destruct (mgen m) as [| n' |] eqn:Eg'; auto.
        rewrite upd_ne; auto. intros <-. destruct A4 as [_ [A4 | A4]]; [lia|]. destruct (H _ A4). contradiction.
    + intros n' Hn'. destruct (Nat.eq_dec n n') as [<-|]; auto. rewrite upd_ne by auto. auto.
    + now rewrite upd_length.
Qed.

Lemma Inv_run l : forall h s, (forall o, In o l -> In o ops) -> Inv h s ->
  let '(rs, s') := run keqb resolve factory advance start l s in Inv (h ++ combine l rs) s' /\ length rs = length l.
Proof.
  induction l as [|o l IH]; intros h s Hl H; simpl.
  - rewrite app_nil_r. auto.
  - pose proof (Inv_step h s o (fun n E => Hl o (or_introl eq_refl)) H) as H1.
    destruct (step keqb resolve factory advance start o s) as [r s1].
    pose proof (IH _ s1 (fun o' Ho => Hl o' (or_intror Ho)) H1) as H2.
    destruct (run keqb resolve factory advance start l s1) as [rs s2]. destruct H2 as [H2 H3].
    rewrite <- app_assoc in H2. simpl in *. auto.
Qed.
End P.

Section Q.
Context {V I A K : Type}.
Variable keqb : K -> K -> bool.
Variable resolve : A -> outcome K.
Variable factory : A -> outcome (iterable I).
Variable advance : I -> outcome V * I.
Variable start : list I.
Hypothesis Heq : equivalence keqb.
Hypothesis Hex : exist factory start.

Lemma reached ops rs s : fimemoize keqb resolve factory advance start ops = (rs, s) ->
  Inv keqb resolve factory advance start ops (combine ops rs) s.
Proof.
  intro E. pose proof (Inv_run keqb resolve factory advance start Heq ops Hex ops [] (init start) (fun o H => H) (Inv0 _ _ _ _ _ _)) as H.
  unfold fimemoize in E. rewrite E in H. apply H.
Qed.

Lemma inst_of ops rs s i r k : fimemoize keqb resolve factory advance start ops = (rs, s) ->
  nth_error (given i (combine ops rs)) k = Some r -> exists x, nth_error (insts s) i = Some x.
Proof.
  intros E H. apply reached in E. destruct (nth_error (insts s) i) as [x|] eqn:Ex; eauto.
  apply nth_error_None in Ex. rewrite (I_none _ _ _ _ _ _ _ _ E _ Ex) in H. destruct k; discriminate.
Qed.
Lemma nth_firstn {X} (l : list X) n k x : nth_error (firstn n l) k = Some x -> nth_error l k = Some x.
Proof. revert n k. induction l; intros [|n] [|k]; simpl; intros; try discriminate; auto. eapply IHl; eauto. Qed.

Lemma sequence_ok ops rs s i k r a b : fimemoize keqb resolve factory advance start ops = (rs, s) ->
  nth_error (made (combine ops rs)) i = Some a -> first_like keqb resolve a (made (combine ops rs)) = Some b ->
  private keqb resolve factory ops b ->
  nth_error (given i (combine ops rs)) k = Some r -> r = sequence factory advance start b k.
Proof.
  intros E Ha Hb Hp Hr. destruct (inst_of _ _ _ _ _ _ E Hr) as [x Hx]. apply reached in E.
  destruct (I_inst _ _ _ _ _ _ _ _ E _ _ Hx) as (m & a' & k' & E1 & E2 & E3 & E4 & E5 & E6).
  rewrite Ha in E2. injection E2 as <-. rewrite E5 in Hr. apply nth_firstn in Hr.
  destruct (I_memo _ _ _ _ _ _ _ _ E _ _ E1) as (c & C1 & C2 & C3 & [_ C4] & _).
  assert (Hc : c = b).
  { assert (Hal : forall d, alike keqb resolve d c = alike keqb resolve d a).
    { intro d. unfold alike. rewrite C1, E3. destruct (resolve d) as [kd|]; auto.
      destruct Heq as (R & S & T). apply Bool.eq_iff_eq_true. split; intro Q; [apply T with (mkey m); auto | apply T with k'; auto]. }
    assert (Hf : forall l, first_like keqb resolve c l = first_like keqb resolve a l).
    { induction l as [|d l IH]; simpl; auto. rewrite Hal, IH. auto. }
    rewrite Hf, Hb in C2. congruence. }
  subst c. destruct (C4 Hp) as [C5 _]. auto.
Qed.

Lemma same_ok ops rs s i j k r r' a b : fimemoize keqb resolve factory advance start ops = (rs, s) ->
  nth_error (made (combine ops rs)) i = Some a -> nth_error (made (combine ops rs)) j = Some b -> alike keqb resolve a b = true ->
  nth_error (given i (combine ops rs)) k = Some r -> nth_error (given j (combine ops rs)) k = Some r' -> r = r'.
Proof.
  intros E Ha Hb Hal Hr Hr'. destruct (inst_of _ _ _ _ _ _ E Hr) as [x Hx]. destruct (inst_of _ _ _ _ _ _ E Hr') as [y Hy]. apply reached in E.
  destruct (I_inst _ _ _ _ _ _ _ _ E _ _ Hx) as (m & a' & ka & E1 & E2 & E3 & E4 & E5 & E6).
  destruct (I_inst _ _ _ _ _ _ _ _ E _ _ Hy) as (m' & b' & kb & F1 & F2 & F3 & F4 & F5 & F6).
  rewrite Ha in E2. injection E2 as <-. rewrite Hb in F2. injection F2 as <-.
  unfold alike in Hal. rewrite E3, F3 in Hal. destruct Heq as (R & S & T).
  assert (Hm : imemo x = imemo y).
  { eapply (I_keys _ _ _ _ _ _ _ _ E _ _ _ _ E1 F1). apply T with ka; auto. apply T with kb; auto. }
  rewrite Hm in E1. rewrite E1 in F1. injection F1 as <-.
  rewrite E5 in Hr. rewrite F5 in Hr'. apply nth_firstn in Hr, Hr'. congruence.
Qed.

Lemma once_ok ops rs s : fimemoize keqb resolve factory advance start ops = (rs, s) ->
  (forall p q b c, nth_error (calls s) p = Some b -> nth_error (calls s) q = Some c -> alike keqb resolve b c = true -> p = q) /\
  (forall b, In b (calls s) -> first_like keqb resolve b (made (combine ops rs)) = Some b).
Proof.
  intro E. apply reached in E. split; [apply (I_once _ _ _ _ _ _ _ _ E)|].
  intros b Hb. destruct (I_calls _ _ _ _ _ _ _ _ E _ Hb) as (p & m & _ & _ & _ & H). auto.
Qed.

(** Asking again: nothing is done. *)
Lemma again_ok ops rs s i j a b : fimemoize keqb resolve factory advance start ops = (rs, s) ->
  nth_error (made (combine ops rs)) i = Some a -> nth_error (made (combine ops rs)) j = Some b -> alike keqb resolve a b = true ->
  length (given i (combine ops rs)) < length (given j (combine ops rs)) ->
  let s' := snd (step keqb resolve factory advance start (Next i) s) in iters s' = iters s /\ calls s' = calls s.
Proof.
  intros E Ha Hb Hal Hlt. apply reached in E.
  destruct (nth_error (insts s) i) as [x|] eqn:Hx.
  2: { simpl. unfold next. rewrite Hx. auto. }
  destruct (nth_error (insts s) j) as [y|] eqn:Hy.
  2: { apply nth_error_None in Hy. rewrite (I_none _ _ _ _ _ _ _ _ E _ Hy) in Hlt. simpl in Hlt. lia. }
  destruct (I_inst _ _ _ _ _ _ _ _ E _ _ Hx) as (m & a' & ka & E1 & E2 & E3 & E4 & E5 & E6).
  destruct (I_inst _ _ _ _ _ _ _ _ E _ _ Hy) as (m' & b' & kb & F1 & F2 & F3 & F4 & F5 & F6).
  rewrite Ha in E2. injection E2 as <-. rewrite Hb in F2. injection F2 as <-.
  unfold alike in Hal. rewrite E3, F3 in Hal. destruct Heq as (R & S & T).
  assert (Hm : imemo x = imemo y).
  { eapply (I_keys _ _ _ _ _ _ _ _ E _ _ _ _ E1 F1). apply T with ka; auto. apply T with kb; auto. }
  rewrite E5, F5, !firstn_length in Hlt. rewrite <- Hm in F1. rewrite E1 in F1. injection F1 as <-.
  simpl. unfold next. rewrite Hx, E1. destruct (nth_error (items m) (pos x)) eqn:En; simpl; auto.
  apply nth_error_None in En. lia.
Qed.

(** A generator that has raised is at its end. *)
Definition stopped (s : st V I A K) : Prop := forall p m e, nth_error (memos s) p = Some m -> In (Raise e) (items m) -> mgen m = GDone.
Lemma next_gen_stop g (s : st V I A K) r g' s' : next_gen factory advance g s = (r, g', s') ->
  memos s' = memos s /\ insts s' = insts s /\ match r with Raise _ => g' = GDone | Ok _ => g <> GDone end.
Proof.
  assert (G : forall n its, match go_on (A := A) advance n its with (Raise _, g', _) => g' = GDone | (Ok _, _, _) => True end).
  { intros n its. unfold go_on. destruct (next_iter advance n its) as [[|] ?]; auto. }
  unfold next_gen. destruct g as [a | n |]; cbn [memos insts iters].
  - destruct (factory a) as [[i | n |]|e].
    + specialize (G (length (iters s)) (iters s ++ [i])). destruct (go_on advance (length (iters s)) (iters s ++ [i])) as [[[v|e] g1] its].
      * intro Q. injection Q as <- <- <-. repeat split. discriminate.
      * intro Q. injection Q as <- <- <-. repeat split. auto.
    + specialize (G n (iters s)). destruct (go_on advance n (iters s)) as [[[v|e] g1] its].
      * intro Q. injection Q as <- <- <-. repeat split. discriminate.
      * intro Q. injection Q as <- <- <-. repeat split. auto.
    + intro Q. injection Q as <- <- <-. auto.
    + intro Q. injection Q as <- <- <-. auto.
  - specialize (G n (iters s)). destruct (go_on advance n (iters s)) as [[[v|e] g1] its].
    + intro Q. injection Q as <- <- <-. repeat split. discriminate.
    + intro Q. injection Q as <- <- <-. repeat split. auto.
  - intro Q. injection Q as <- <- <-. auto.
Qed.
Lemma stopped_step o s : stopped s -> stopped (snd (step keqb resolve factory advance start o s)).
Proof.
  intro H. destruct o as [a | i | n]; simpl.
  - unfold call. destruct (resolve a) as [k|]; [|apply H].
    destruct (find keqb k (memos s)); [apply H|]. intros p m e Hp He. simpl in Hp. apply nth_snoc in Hp as [Hp | [_ ->]]; [eapply H; eauto | destruct He].
  - unfold next. destruct (nth_error (insts s) i) as [x|]; [|apply H]. destruct (nth_error (memos s) (imemo x)) as [m|] eqn:Em; [|apply H].
    destruct (nth_error (items m) (pos x)); [apply H|].
    destruct (next_gen factory advance (mgen m) s) as [[r g] s1] eqn:En. apply next_gen_stop in En as (N1 & N2 & N3).
    intros p y e Hp He. cbn in Hp. rewrite N1 in Hp. destruct (Nat.eq_dec (imemo x) p) as [<-|Hne].
    + rewrite upd_eq in Hp by now apply nth_some in Em. injection Hp as <-. cbn [items mgen] in *.
      apply in_app_iff in He as [He | [-> | []]]; auto.
      pose proof (H _ _ _ Em He) as Hd. destruct r; auto. congruence.
    + rewrite upd_ne in Hp by auto. eapply H; eauto.
  - destruct (n <? length start); [|apply H]. destruct (next_iter advance n (iters s)). apply H.
Qed.
Lemma stopped_run l : forall s, stopped s -> stopped (snd (run keqb resolve factory advance start l s)).
Proof.
  induction l as [|o l IH]; intros s H; simpl; auto.
  pose proof (stopped_step o s H) as H1. destruct (step keqb resolve factory advance start o s) as [r s1].
  pose proof (IH s1 H1) as H2. destruct (run keqb resolve factory advance start l s1). auto.
Qed.

Lemma after_ok ops rs s i e : fimemoize keqb resolve factory advance start ops = (rs, s) ->
  In (Raise e) (given i (combine ops rs)) ->
  let s' := snd (step keqb resolve factory advance start (Next i) s) in iters s' = iters s /\ calls s' = calls s.
Proof.
  intros E He.
  assert (Hs : stopped s).
  { pose proof (stopped_run ops (init start)) as Q. unfold fimemoize in E. rewrite E in Q. apply Q.
    intros p m x Hp. destruct p; discriminate. }
  apply reached in E. simpl. unfold next. destruct (nth_error (insts s) i) as [x|] eqn:Hx; [|auto].
  destruct (I_inst _ _ _ _ _ _ _ _ E _ _ Hx) as (m & a & k & E1 & E2 & E3 & E4 & E5 & E6). rewrite E1.
  destruct (nth_error (items m) (pos x)); [simpl; auto|].
  rewrite E5 in He. assert (Hi : In (Raise e) (items m)).
  { apply In_nth_error in He as [q Hq]. apply nth_firstn in Hq. eapply nth_error_In; eauto. }
  rewrite (Hs _ _ _ E1 Hi). simpl. auto.
Qed.

(** Calls alone do nothing. *)
Lemma lazy_run l : (forall o, In o l -> exists a, o = Call a) -> forall s : st V I A K,
  let s' := snd (run keqb resolve factory advance start l s) in iters s' = iters s /\ calls s' = calls s.
Proof.
  induction l as [|o l IH]; intros H s; [simpl; auto|].
  destruct (H o (or_introl eq_refl)) as [a ->]. cbn [run].
  assert (H1 : iters (snd (step keqb resolve factory advance start (Call a) s)) = iters s /\ calls (snd (step keqb resolve factory advance start (Call a) s)) = calls s).
  { simpl. unfold call. destruct (resolve a) as [k|]; auto. destruct (find keqb k (memos s)); auto. }
  destruct (step keqb resolve factory advance start (Call a) s) as [r s1]. simpl in H1.
  pose proof (IH (fun o Ho => H o (or_intror Ho)) s1) as H2. destruct (run keqb resolve factory advance start l s1). simpl in *.
  destruct H1, H2. split; congruence.
Qed.
Lemma lazy_ok ops rs s : (forall o, In o ops -> exists a, o = Call a) -> fimemoize keqb resolve factory advance start ops = (rs, s) ->
  iters s = start /\ calls s = [].
Proof. intros H E. pose proof (lazy_run ops H (init start)) as Q. unfold fimemoize in E. rewrite E in Q. apply Q. Qed.
End Q.

Section R.
Context {V I arg : Type}.
Variable it : iterable I.
Variable advance : I -> outcome V * I.
Variable start : list I.
Definition none_resolve (a : list arg) : outcome unit := match a with [] => Ok tt | _ => Raise TypeError end.

Lemma always_eq : equivalence (fun _ _ : unit => true).
Proof. split; [|split]; auto. Qed.
Lemma made_nil (ops : list (op (list arg))) rs s : imemoize it advance start ops = (rs, s) -> forall i a, nth_error (made (combine ops rs)) i = Some a -> a = [].
Proof.
  unfold imemoize. generalize (init (V := V) (A := list arg) (K := unit) start). revert rs s. induction ops as [|o l IH]; intros rs s s0 E i a Ha.
  - destruct i; discriminate.
  - cbn [run] in E. destruct o as [b | j | n]; cbn [step] in E.
    + unfold call in E. destruct b as [|b0 b].
      * match type of E with context [let '(m, ms) := ?X in _] => destruct X as [m ms] end.
        match type of E with context [run ?x1 ?x2 ?x3 ?x4 ?x5 l ?x6] => destruct (run x1 x2 x3 x4 x5 l x6) as [rs' s'] eqn:Er end.
        injection E as <- <-. cbn in Ha. destruct i as [|i]; simpl in Ha; [congruence|]. eapply IH; eauto.
      * match type of E with context [run ?x1 ?x2 ?x3 ?x4 ?x5 l ?x6] => destruct (run x1 x2 x3 x4 x5 l x6) as [rs' s'] eqn:Er end.
        injection E as <- <-. cbn in Ha. eapply IH; eauto.
    + destruct (next (fun _ : list arg => Ok it) advance j s0) as [r1 s1].
      match type of E with context [run ?x1 ?x2 ?x3 ?x4 ?x5 l ?x6] => destruct (run x1 x2 x3 x4 x5 l x6) as [rs' s'] eqn:Er end.
      injection E as <- <-. cbn in Ha. destruct r1; eapply IH; eauto.
    + destruct (n <? length start).
      * destruct (next_iter advance n (iters s0)) as [r1 its].
        match type of E with context [run ?x1 ?x2 ?x3 ?x4 ?x5 l ?x6] => destruct (run x1 x2 x3 x4 x5 l x6) as [rs' s'] eqn:Er end.
        injection E as <- <-. cbn in Ha. eapply IH; eauto.
      * match type of E with context [run ?x1 ?x2 ?x3 ?x4 ?x5 l ?x6] => destruct (run x1 x2 x3 x4 x5 l x6) as [rs' s'] eqn:Er end.
        injection E as <- <-. cbn in Ha. eapply IH; eauto.
Qed.
Lemma im_sequence_ok (ops : list (op (list arg))) rs s i k r : imemoize it advance start ops = (rs, s) ->
  (forall n, it = Same n -> n < length start /\ ~ In (Outside n) ops) ->
  nth_error (given i (combine ops rs)) k = Some r -> r = sequence (fun _ : list arg => Ok it) advance start [] k.
Proof.
  intros E Hit Hr.
  assert (Hex : exist (fun _ : list arg => Ok it) start) by (intros a n Q; apply Hit; congruence).
  pose proof (reached _ _ _ _ _ always_eq Hex _ _ _ E) as H.
  destruct (inst_of _ _ _ _ _ always_eq Hex _ _ _ _ _ _ E Hr) as [x Hx].
  destruct (I_inst _ _ _ _ _ _ _ _ H _ _ Hx) as (m & a & k' & E1 & E2 & E3 & _).
  pose proof (made_nil _ _ _ E _ _ E2) as ->.
  apply (sequence_ok _ _ _ _ _ always_eq Hex _ _ _ _ _ _ [] [] E E2); auto.
  - destruct (made (combine ops rs)) as [|b l] eqn:Em; [destruct i; discriminate|].
    assert (b = []) by (apply (made_nil _ _ _ E 0 b); now rewrite Em). subst b. reflexivity.
  - intros n Q. injection Q as ->. split; [apply Hit; auto|]. intros [|b0 b] k2 Hk2 _; [reflexivity | discriminate].
Qed.
End R.
