(** Lemmas about the iterator utilities. *)
From Verif Require Import Base BaseProofs ItrModel ItrSpec.
From Coq Require Import ZArith List Bool Arith Lia.
Import ListNotations.
Open Scope nat_scope.

(** ** take, drop, split_at *)
Lemma split_at_spec {A} n (l : list A) : (0 <= n)%Z ->
  exists a b, take n l = Ok a /\ drop (Some n) l = Ok b /\ split_at n l = Ok (a, b)
              /\ a ++ b = l /\ zlen a = Z.min n (zlen l).
Proof.
  intro H. exists (firstn (Z.to_nat n) l), (skipn (Z.to_nat n) l).
  unfold split_at, take, drop. destruct (Z.ltb_spec n 0); [lia|]. cbn [obind].
  repeat split. - apply firstn_skipn. - unfold zlen. rewrite firstn_length. lia.
Qed.
Lemma take_drop_neg {A} n (l : list A) : (n < 0)%Z ->
  take n l = Raise ValueError /\ drop (Some n) l = Raise ValueError /\ split_at n l = Raise ValueError.
Proof. intro H. unfold split_at, take, drop. destruct (Z.ltb_spec n 0); [auto|lia]. Qed.
Lemma take_app {A} n (l r : list A) : (n <= zlen l)%Z -> take n (l ++ r) = take n l.
Proof.
  intro H. unfold take. destruct (n <? 0)%Z eqn:E; [reflexivity|]. f_equal.
  rewrite firstn_app. unfold zlen in H. replace (Z.to_nat n - length l) with 0 by lia.
  simpl. apply app_nil_r.
Qed.

(** ** unpack *)
Lemma unpack_loop_spec {A} todo : forall j k fill (out it : list A) tl0,
  unpack_loop todo j k fill out it tl0 =
  if todo <=? length it
  then (out ++ firstn todo it, skipn todo it,
        if (j <=? k) && (k <? j + todo) then Some (skipn (k - j) it) else tl0)
  else (out ++ it ++ repeat fill (todo - length it), [], Some []).
Proof.
  induction todo as [|todo IH]; intros.
  - simpl. rewrite app_nil_r. destruct (Nat.leb_spec j k), (Nat.ltb_spec k (j + 0)); try reflexivity; lia.
  - cbn [unpack_loop]. destruct it as [|x it].
    + destruct (Nat.leb_spec (S todo) (length (@nil A))); [simpl in *; lia|].
      cbn [app]. change (length (@nil A)) with 0. rewrite Nat.sub_0_r. reflexivity.
    + rewrite IH. cbn [length firstn skipn].
      destruct (Nat.leb_spec todo (length it)), (Nat.leb_spec (S todo) (S (length it))); try lia.
      * rewrite <- app_assoc. cbn [app]. f_equal.
        destruct (Nat.eqb_spec j k).
        -- subst. rewrite Nat.sub_diag.
           destruct (Nat.leb_spec (S k) k), (Nat.leb_spec k k), (Nat.ltb_spec k (k + S todo)); try lia.
           reflexivity.
        -- replace (S j + todo) with (j + S todo) by lia.
           destruct (Nat.leb_spec (S j) k), (Nat.leb_spec j k), (Nat.ltb_spec k (j + S todo)); try lia; try reflexivity.
           cbn [andb]. f_equal. replace (k - j) with (S (k - S j)) by lia. reflexivity.
      * rewrite <- app_assoc. cbn [app]. replace (S todo - S (length it)) with (todo - length it) by lia.
        reflexivity.
Qed.

Lemma skipn_skipn' {A} a b (l : list A) : skipn a (skipn b l) = skipn (b + a) l.
Proof. revert l; induction b; intro l; [reflexivity|]. destruct l; [now rewrite !skipn_nil|]. simpl. apply IHb. Qed.

Lemma unpack_enough {A} n k (l : list A) fill : (0 <= n <= zlen l)%Z -> (0 <= k)%Z ->
  unpack n l (Some k) fill = Ok (firstn (Z.to_nat n) l, skipn (Z.to_nat k) l).
Proof.
  unfold zlen. intros Hn Hk. unfold unpack. destruct (Z.ltb_spec n 0), (Z.ltb_spec k 0); try lia.
  rewrite unpack_loop_spec. destruct (Nat.leb_spec (Z.to_nat n) (length l)); [|lia].
  cbn [app]. destruct (Nat.leb_spec 0 (Z.to_nat k)), (Nat.ltb_spec (Z.to_nat k) (0 + Z.to_nat n)); cbn [andb]; try lia.
  - rewrite Nat.sub_0_r. reflexivity.
  - f_equal. f_equal. destruct (Nat.eqb_spec (Z.to_nat k) (Z.to_nat n)) as [->|]; [reflexivity|].
    rewrite skipn_skipn'. f_equal. lia.
Qed.
Lemma unpack_default {A} n (l : list A) fill : unpack n l None fill = unpack n l (Some n) fill.
Proof. reflexivity. Qed.
Lemma unpack_short {A} n k (l : list A) fill : (zlen l < n)%Z -> (0 <= k)%Z ->
  unpack n l (Some k) fill = Ok (l ++ repeat fill (Z.to_nat n - length l), []).
Proof.
  unfold zlen. intros Hn Hk. unfold unpack. destruct (Z.ltb_spec n 0), (Z.ltb_spec k 0); try lia.
  rewrite unpack_loop_spec. destruct (Nat.leb_spec (Z.to_nat n) (length l)); [lia|]. reflexivity.
Qed.

(** ** butlastn, lastn, nth, last *)
Lemma butlastn_loop_spec {A} : forall (it q : list A), q <> [] ->
  butlastn_loop q it = firstn (S (length it)) (q ++ it).
Proof.
  induction it as [|y it IH]; intros [|x q] Hq; try congruence.
  - simpl. reflexivity.
  - cbn [butlastn_loop]. rewrite IH by (destruct q; discriminate).
    rewrite <- app_assoc. cbn [app length firstn]. reflexivity.
Qed.
Lemma butlastn_firstn {A} n (l : list A) : butlastn n l = firstn (length l - n) l.
Proof.
  unfold butlastn. destruct (Nat.ltb_spec (length l) (n + 1)).
  - replace (length l - n) with 0 by lia. reflexivity.
  - rewrite butlastn_loop_spec.
    + rewrite firstn_skipn, skipn_length. f_equal. lia.
    + intro E. apply (f_equal (@length A)) in E. rewrite firstn_length in E. simpl in E. lia.
Qed.
Lemma deque_fold {A} n (l : list A) : forall d, length d <= n ->
  fold_left (deque_push n) l d = skipn (length (d ++ l) - n) (d ++ l).
Proof.
  induction l as [|x l IH]; intros d Hd.
  - rewrite app_nil_r. replace (length d - n) with 0 by lia. reflexivity.
  - cbn [fold_left]. unfold deque_push at 2. destruct (Nat.ltb_spec n (length (d ++ [x]))) as [H|H].
    + rewrite app_length in H. simpl in H. rewrite IH.
      * destruct d as [|y d]; cbn [app tl].
        -- simpl in *. replace n with 0 by lia. replace (length l - 0) with (length l) by lia. reflexivity.
        -- rewrite <- app_assoc. cbn [app].
           simpl in H. assert (n = S (length d)) by (simpl in Hd; lia). subst n.
           cbn [length]. rewrite !app_length. cbn [length].
           replace (S (length d + S (length l)) - S (length d)) with (S (length l)) by lia.
           replace (length d + S (length l) - S (length d)) with (length l) by lia. reflexivity.
      * destruct d; simpl; rewrite ?app_length; simpl in *; lia.
    + rewrite IH by assumption. rewrite <- app_assoc. reflexivity.
Qed.
Lemma lastn_skipn {A} n (l : list A) : lastn n l = skipn (length l - n) l.
Proof. unfold lastn, deque_maxlen. rewrite deque_fold by (simpl; lia). reflexivity. Qed.

Lemma butlastn_lastn {A} n (l : list A) :
  butlastn n l ++ lastn n l = l /\ length (lastn n l) = Nat.min n (length l).
Proof.
  rewrite butlastn_firstn, lastn_skipn. split; [apply firstn_skipn|]. rewrite skipn_length. lia.
Qed.
Lemma hd_skipn {A} n (l : list A) d : match skipn n l with x :: _ => x | [] => d end = nth n l d.
Proof. revert l; induction n; intros [|x l]; simpl; auto. Qed.
Lemma nth_spec {A} n (l : list A) d : (0 <= n)%Z -> nth_ n l d = Ok (nth (Z.to_nat n) l d).
Proof.
  intro H. unfold nth_, drop. destruct (Z.ltb_spec n 0); [lia|].
  destruct (Z.eqb_spec n 0); cbn [obind].
  - subst. destruct l; reflexivity.
  - rewrite <- hd_skipn. destruct (skipn (Z.to_nat n) l); reflexivity.
Qed.
Lemma first_second_spec {A} (x y : A) l d :
  first (x :: l) d = Ok x /\ first [] d = Ok d /\
  second (x :: y :: l) d = Ok y /\ second [x] d = Ok d /\ second [] d = Ok d.
Proof. repeat split; reflexivity. Qed.
Lemma last_spec {A} (l : list A) d : last_ l d = last l d.
Proof.
  unfold last_. change (deque_maxlen 1 l) with (lastn 1 l). rewrite lastn_skipn.
  induction l as [|a l' _] using rev_ind; [reflexivity|].
  rewrite last_last, app_length. simpl length. rewrite Nat.add_sub.
  rewrite skipn_app, skipn_all, Nat.sub_diag. reflexivity.
Qed.
Lemma tail_spec {A} (l : list A) : tail_ l = Ok (tl l).
Proof. destruct l; reflexivity. Qed.

(** ** uniqify, uniq *)
Section Uniq.
Context {A K : Type} (keq : K -> K -> bool) (key : A -> K).
Hypothesis keq_spec : forall a b, keq a b = true <-> a = b.

Lemma existsb_key k seen : existsb (keq k) seen = true <-> In k seen.
Proof.
  rewrite existsb_exists. split.
  - intros (x & Hx & E). apply keq_spec in E. subst. exact Hx.
  - intro H. exists k. split; [exact H|]. now apply keq_spec.
Qed.
Lemma skipn_cons_nth (l : list A) i x r : skipn i l = x :: r -> nth_error l i = Some x /\ skipn (S i) l = r.
Proof.
  revert l. induction i; intros [|y l] H; simpl in H; try discriminate.
  - injection H as -> ->. split; reflexivity.
  - apply IHi in H. exact H.
Qed.
Lemma skipn_nil_len (l : list A) i : skipn i l = [] -> length l <= i.
Proof. intro H. apply (f_equal (@length A)) in H. rewrite skipn_length in H. simpl in H. lia. Qed.

Lemma uniqify_picks l : forall r i seen, skipn i l = r ->
  (forall k, In k seen <-> exists j y, j < i /\ nth_error l j = Some y /\ key y = k) ->
  picks l (first_occurrence key l) i (uniqify_loop keq key seen r).
Proof.
  induction r as [|x r IH]; intros i seen Hr Hs.
  - apply picks_end. now apply skipn_nil_len.
  - apply skipn_cons_nth in Hr as [Hx Hr]. cbn [uniqify_loop].
    destruct (existsb (keq (key x)) seen) eqn:E.
    + apply existsb_key, Hs in E as (j & y & Hj & Hy & Ek).
      eapply picks_skip; [exact Hx| |].
      * intros (x' & Hx' & F). rewrite Hx in Hx'. injection Hx' as <-. exact (F j y Hj Hy Ek).
      * apply IH; [exact Hr|]. intro k. rewrite Hs. split.
        -- intros (j' & y' & ? & ?). exists j', y'. split; [lia|assumption].
        -- intros (j' & y' & Hj' & Hy' & Ek'). destruct (Nat.eq_dec j' i).
           ++ subst j'. rewrite Hx in Hy'. injection Hy' as <-. exists j, y. repeat split; auto. congruence.
           ++ exists j', y'. split; [lia|auto].
    + assert (N : ~ In (key x) seen) by (intro F; apply existsb_key in F; congruence).
      eapply picks_take; [exact Hx| |].
      * exists x. split; [exact Hx|]. intros j y Hj Hy Ek. apply N, Hs. exists j, y. auto.
      * apply IH; [exact Hr|]. intro k. simpl. rewrite Hs. split.
        -- intros [<-|(j' & y' & ? & ?)].
           ++ exists i, x. auto.
           ++ exists j', y'. split; [lia|assumption].
        -- intros (j' & y' & Hj' & Hy' & Ek'). destruct (Nat.eq_dec j' i).
           ++ subst j'. rewrite Hx in Hy'. injection Hy' as <-. left. exact Ek'.
           ++ right. exists j', y'. split; [lia|auto].
Qed.
Lemma uniqify_spec l : picks l (first_occurrence key l) 0 (uniqify keq key l).
Proof.
  apply uniqify_picks; [reflexivity|]. intro k. simpl. split; [tauto|]. intros (j & y & H & _). lia.
Qed.

Lemma uniq_picks l : forall r i p, skipn (S i) l = r -> nth_error l i = Some p ->
  picks l (run_start key l) (S i) (uniq_loop keq key (key p) r).
Proof.
  induction r as [|x r IH]; intros i p Hr Hp.
  - apply picks_end. now apply skipn_nil_len.
  - apply skipn_cons_nth in Hr as [Hx Hr]. cbn [uniq_loop].
    destruct (keq (key p) (key x)) eqn:E.
    + apply keq_spec in E. eapply picks_skip; [exact Hx| |].
      * intros (x' & Hx' & F). rewrite Hx in Hx'. injection Hx' as <-. exact (F i p eq_refl Hp E).
      * rewrite E. apply IH; assumption.
    + eapply picks_take; [exact Hx| |apply IH; assumption].
      exists x. split; [exact Hx|]. intros j y Ej Hy Ek. injection Ej as <-.
      rewrite Hp in Hy. injection Hy as <-. apply keq_spec in Ek. congruence.
Qed.
Lemma uniq_spec l : picks l (run_start key l) 0 (uniq keq key l).
Proof.
  destruct l as [|x l]; [apply picks_end; simpl; lia|].
  cbn [uniq]. eapply picks_take; [reflexivity| |].
  - exists x. split; [reflexivity|]. intros; discriminate.
  - apply uniq_picks; reflexivity.
Qed.
End Uniq.

(** [picks] determines its output. *)
Lemma picks_fun {A} (l : list A) P : forall i o1 o2, picks l P i o1 -> picks l P i o2 -> o1 = o2.
Proof.
  intros i o1 o2 H. revert o2.
  induction H as [i L|i x out N p H IH|i x out N p H IH]; intros o2 H2; inversion H2; subst; try reflexivity;
    try (assert (nth_error l i <> None) by congruence; rewrite nth_error_Some in *; lia); try tauto.
  - f_equal; [congruence|]. apply IH. assumption.
  - apply IH. assumption.
Qed.

(** ** window, chunked *)
Lemma windowed_spec {A} : forall it (xs : list A), xs <> [] -> forall i,
  nth_error (windowed xs it) i =
  if i <=? length it then Some (firstn (length xs) (skipn i (xs ++ it))) else None.
Proof.
  induction it as [|y it IH]; intros xs Hx i.
  - cbn [windowed length]. destruct i; simpl.
    + rewrite app_nil_r, firstn_all. reflexivity.
    + destruct i; reflexivity.
  - cbn [windowed]. destruct i as [|i]; cbn [nth_error].
    + cbn [skipn]. rewrite firstn_app, Nat.sub_diag, firstn_all. simpl. rewrite app_nil_r. reflexivity.
    + rewrite IH by (destruct xs; [congruence|destruct xs; discriminate]).
      cbn [length]. change (S i <=? S (length it)) with (i <=? length it).
      destruct xs as [|x xs]; [congruence|]. cbn [tl app skipn length].
      rewrite <- app_assoc. cbn [app]. rewrite app_length. simpl (length [y]).
      rewrite Nat.add_1_r. reflexivity.
Qed.
Lemma window_spec {A} n (l : list A) : (2 <= n)%Z ->
  exists ws, window n l = Ok ws /\
    forall i w, nth_error ws i = Some w <->
      (i + Z.to_nat n <= length l /\ w = firstn (Z.to_nat n) (skipn i l)).
Proof.
  intro H. unfold window. destruct (Z.ltb_spec n 2); [lia|].
  destruct (Nat.ltb_spec (length l) (Z.to_nat n)); eexists; (split; [reflexivity|]); intros i w.
  - split; [destruct i; discriminate|intros []; lia].
  - rewrite windowed_spec.
    + rewrite firstn_skipn, firstn_length, skipn_length, Nat.min_l by lia.
      destruct (Nat.leb_spec i (length l - Z.to_nat n)); split.
      * intro E. injection E as <-. split; [lia|reflexivity].
      * intros [_ ->]. reflexivity.
      * discriminate.
      * intros []; lia.
    + intro E. apply (f_equal (@length A)) in E. rewrite firstn_length in E. simpl in E. lia.
Qed.

Lemma chunker_spec {A} n : 0 < n -> forall fuel (it : list A), length it < fuel ->
  concat (chunker n fuel it) = it /\
  (forall i c, nth_error (chunker n fuel it) i = Some c -> 0 < length c <= n) /\
  (forall i c, nth_error (chunker n fuel it) i = Some c -> S i < length (chunker n fuel it) -> length c = n).
Proof.
  intro Hn. induction fuel as [|fuel IH]; intros it Hf; [lia|].
  cbn [chunker]. destruct (firstn n it) as [|x cit] eqn:E.
  - assert (it = []) as ->.
    { apply (f_equal (@length A)) in E. rewrite firstn_length in E. simpl in E. destruct it; [reflexivity|simpl in E; lia]. }
    repeat split; try (destruct i; discriminate); intros; destruct i; discriminate.
  - assert (Hit : length it <> 0) by (destruct it; [rewrite firstn_nil in E; discriminate|simpl; lia]).
    assert (Hl : length (skipn n it) < fuel) by (rewrite skipn_length; lia).
    destruct (IH _ Hl) as (C & B & F). split; [|split].
    + cbn [concat]. rewrite C, <- E. apply firstn_skipn.
    + intros [|i] c N.
      * simpl in N. injection N as <-. rewrite <- E, firstn_length. lia.
      * exact (B i c N).
    + intros [|i] c N L.
      * simpl in N. injection N as <-. rewrite <- E, firstn_length. apply Nat.min_l.
        cbn [length] in L. destruct (chunker n fuel (skipn n it)) eqn:Q; [simpl in L; lia|].
        destruct (le_lt_dec n (length it)); [assumption|]. exfalso.
        rewrite skipn_all2 in Q by lia. destruct fuel; simpl in Q; [discriminate|].
        rewrite firstn_nil in Q. discriminate.
      * apply (F i c N). cbn [length] in L. lia.
Qed.

(** ** within *)
Lemma window2_list l ws : window 2 l = Ok ws ->
  ws = (fix pairs (l : list Z) := match l with a :: (b :: _) as r => [a; b] :: pairs r | _ => [] end) l.
Proof.
  unfold window. simpl Z.to_nat. destruct l as [|a [|b l]]; simpl; try (intro E; injection E as <-; reflexivity).
  intro E. injection E as <-. revert a b. induction l as [|c l IH]; intros a b; [reflexivity|].
  cbn [windowed tl app]. f_equal. exact (IH b c).
Qed.

(** ** flatten *)
Section FlattenP.
Context {A : Type}.
Fixpoint item_ind' (P : item A -> Prop) (HL : forall a, P (Leaf a))
  (HN : forall t es, Forall P es -> P (Node t es)) (e : item A) : P e :=
  match e with
  | Leaf a => HL a
  | Node t es => HN t es ((fix go (l : list (item A)) : Forall P l :=
      match l with [] => Forall_nil P | x :: l' => Forall_cons x (item_ind' P HL HN x) (go l') end) es)
  end.

Lemma flat_map_ext_Forall {X Y} (f g : X -> list Y) l :
  Forall (fun x => f x = g x) l -> flat_map f l = flat_map g l.
Proof. induction 1; simpl; congruence. Qed.
Lemma flat_map_flat_map {X Y Z} (f : X -> list Y) (g : Y -> list Z) l :
  flat_map g (flat_map f l) = flat_map (fun x => flat_map g (f x)) l.
Proof. induction l; simpl; [reflexivity|]. rewrite flat_map_app. congruence. Qed.

Lemma flatten_no_pred (pred : item A -> bool) e x : In x (flatten_elt pred e) ->
  match x with Leaf _ => True | Node _ _ => pred x = false end.
Proof.
  induction e as [a|t es IH] using item_ind'; intro H.
  - simpl in H. destruct H as [<-|[]]. exact I.
  - cbn [flatten_elt] in H. destruct (pred (Node t es)) eqn:E.
    + apply in_flat_map in H as (y & Hy & Hx). rewrite Forall_forall in IH. exact (IH y Hy Hx).
    + destruct H as [<-|[]]. exact E.
Qed.
Lemma flatten_leaves (pred : item A -> bool) e :
  flat_map (flatten_elt (fun _ => true)) (flatten_elt pred e) = flatten_elt (fun _ => true) e.
Proof.
  induction e as [a|t es IH] using item_ind'; [reflexivity|].
  cbn [flatten_elt]. destruct (pred (Node t es)).
  - rewrite flat_map_flat_map. apply flat_map_ext_Forall. exact IH.
  - simpl. apply app_nil_r.
Qed.
Lemma flatten_in_leaves (pred : item A -> bool) e :
  flat_map (flatten_elt (fun _ => true)) (flatten_in_elt pred e) = flatten_elt (fun _ => true) e.
Proof.
  induction e as [a|t es IH] using item_ind'; [reflexivity|].
  cbn [flatten_in_elt flatten_elt]. destruct (pred (Node t es)).
  - rewrite flat_map_flat_map. apply flat_map_ext_Forall. exact IH.
  - cbn [flat_map flatten_elt]. rewrite app_nil_r, flat_map_flat_map. apply flat_map_ext_Forall. exact IH.
Qed.
Lemma flatten_leaf_only e x : In x (flatten_elt (fun _ : item A => true) e) -> exists a, x = Leaf a.
Proof. intro H. pose proof (flatten_no_pred _ _ _ H). destruct x; [eauto|discriminate]. Qed.
End FlattenP.

(** ** inn *)
Lemma inn_scan_spec (up : bool) x it n : forall d i fuel, n = i + d -> d < fuel ->
  (match it n with None => True | Some b => if up then (x < b)%Z else (b < x)%Z end) ->
  (forall j, i <= j < n -> exists b, it j = Some b) ->
  (forall j b, i <= j < n -> it j = Some b -> if up then (b <= x)%Z else (x <= b)%Z) ->
  inn_scan up x it i fuel = (if existsb (fun j => match it j with Some b => (b =? x)%Z | None => false end) (seq i d) then Found else NotFound).
Proof.
  induction d as [|d IH]; intros i fuel Hn Hf Hend Hall Hle; (destruct fuel as [|fuel]; [lia|]); cbn [inn_scan].
  - rewrite Nat.add_0_r in Hn. subst n. simpl seq. cbn [existsb]. destruct (it i) as [b|]; [|reflexivity].
    destruct up.
    + destruct (Z.leb_spec b x); [lia|reflexivity].
    + destruct (Z.leb_spec x b); [lia|reflexivity].
  - assert (Hi : i <= i < n) by lia. destruct (Hall i Hi) as [b Hb]. pose proof (Hle i b Hi Hb) as Lb.
    cbn [seq existsb]. rewrite Hb. replace (if up then (b <=? x)%Z else (x <=? b)%Z) with true.
    2: { symmetry. destruct up; apply Z.leb_le; assumption. }
    cbn [negb]. destruct (b =? x)%Z; cbn [orb]; [reflexivity|].
    apply IH; try assumption; try lia.
    + intros j Hj. apply Hall. lia.
    + intros j c Hj Hc. apply (Hle j c); [lia|exact Hc].
Qed.

(** the first index from [i] on where a decidable property holds *)
Lemma first_index (P : nat -> bool) : forall d i, P (i + d) = true ->
  exists n, i <= n <= i + d /\ P n = true /\ forall j, i <= j < n -> P j = false.
Proof.
  induction d; intros i H.
  - rewrite Nat.add_0_r in H. exists i. repeat split; try lia; auto; intros; lia.
  - destruct (P i) eqn:E.
    + exists i. repeat split; try lia; auto; intros; lia.
    + destruct (IHd (S i)) as (n & Hn & Pn & F); [now rewrite Nat.add_succ_comm|].
      exists n. split; [lia|]. split; [exact Pn|]. intros j Hj. destruct (Nat.eq_dec j i); [subst; auto|]. apply F. lia.
Qed.

Lemma inn_skip_const x y0 it : forall d i fuel,
  (forall j, i <= j < i + d -> it j = Some y0) ->
  inn_skip x y0 it i (d + fuel) = inn_skip x y0 it (i + d) fuel.
Proof.
  induction d as [|d IH]; intros i fuel H; [now rewrite Nat.add_0_r|].
  cbn [Nat.add inn_skip]. rewrite (H i) by lia. rewrite Z.eqb_refl.
  rewrite IH by (intros; apply H; lia). f_equal. lia.
Qed.
Lemma inn_skip_diverges x y0 it : (forall j, 0 < j -> it j = Some y0) ->
  forall fuel i, 0 < i -> inn_skip x y0 it i fuel = OutOfFuel.
Proof.
  intros H. induction fuel as [|fuel IH]; intros i Hi; [reflexivity|].
  cbn [inn_skip]. rewrite (H i Hi), Z.eqb_refl. apply IH. lia.
Qed.

Lemma inn_spec (up : bool) x it :
  it_closed it -> monotone up it ->
  (exists i, it i = None \/ exists b, it i = Some b /\ beyond up x b) ->
  (exists i, it i <> it 0) ->
  exists fuel0, forall fuel, fuel0 <= fuel ->
    inn x it fuel = Found /\ (exists i, it i = Some x) \/
    inn x it fuel = NotFound /\ ~ (exists i, it i = Some x).
Proof.
  intros Hcl Hm (e & He) (d & Hd).
  destruct (it 0) as [y0|] eqn:E0.
  2: { exists 0. intros fuel _. right. unfold inn. rewrite E0. split; [reflexivity|].
       intros (i & Hi). rewrite (Hcl 0 i) in Hi; [discriminate|lia|exact E0]. }
  destruct (Z.eqb_spec y0 x) as [->|Hne].
  { exists 0. intros fuel _. left. unfold inn. rewrite E0, Z.eqb_refl. eauto. }
  (* first index that differs from y0 *)
  destruct (first_index (fun i => match it i with Some b => negb (b =? y0)%Z | None => true end) (d - 1) 1) as (p & Hp & Pp & Fp).
  { assert (d <> 0) by (intro; subst; congruence). replace (1 + (d - 1)) with d by lia.
    destruct (it d) as [b|]; [|reflexivity]. destruct (Z.eqb_spec b y0); [congruence|reflexivity]. }
  assert (Fp' : forall j, 1 <= j < p -> it j = Some y0).
  { intros j Hj. specialize (Fp j Hj). destruct (it j) as [b|]; [|discriminate].
    apply negb_false_iff, Z.eqb_eq in Fp. congruence. }
  assert (Before : forall j, j < p -> it j = Some y0).
  { intros j Hj. destruct j; [exact E0|]. apply Fp'. lia. }
  destruct (it p) as [yp|] eqn:Ep.
  2: { exists p. intros fuel Hf. right. split.
       - unfold inn. rewrite E0. destruct (Z.eqb_spec y0 x); [congruence|].
         replace fuel with ((p - 1) + (fuel - (p - 1))) by lia.
         rewrite inn_skip_const by (intros; apply Fp'; lia).
         replace (1 + (p - 1)) with p by lia. destruct (fuel - (p - 1)) eqn:Q; [lia|].
         cbn [inn_skip]. rewrite Ep. reflexivity.
       - intros (i & Hi). destruct (le_lt_dec p i).
         + rewrite (Hcl p i) in Hi; [discriminate|assumption|exact Ep].
         + rewrite Before in Hi by assumption. congruence. }
  apply negb_true_iff, Z.eqb_neq in Pp.
  assert (Hskip : forall fuel, p <= fuel -> inn x it fuel =
     if (yp =? x)%Z then Found else inn_scan (0 <? yp - y0)%Z x it (S p) (fuel - p)).
  { intros fuel Hf. unfold inn. rewrite E0. destruct (Z.eqb_spec y0 x); [congruence|].
    replace fuel with ((p - 1) + (fuel - (p - 1))) at 1 by lia.
    rewrite inn_skip_const by (intros; apply Fp'; lia).
    replace (1 + (p - 1)) with p by lia. replace (fuel - (p - 1)) with (S (fuel - p)) by lia.
    cbn [inn_skip]. rewrite Ep. destruct (Z.eqb_spec yp y0); [congruence|]. reflexivity. }
  destruct (Z.eqb_spec yp x) as [->|Hnp].
  { exists p. intros fuel Hf. left. rewrite Hskip by assumption. eauto. }
  assert (Hup : (0 <? yp - y0)%Z = up).
  { pose proof (Hm 0 p y0 yp ltac:(lia) E0 Ep) as Q. destruct up.
    - apply Z.ltb_lt. lia. - apply Z.ltb_ge. lia. }
  (* first index from S p on that ends the scan *)
  set (stopb := fun i => match it i with Some b => if up then (x <? b)%Z else (b <? x)%Z | None => true end).
  assert (Hstop : exists m, stopb m = true /\ S p <= m).
  { exists (Nat.max e (S p)). split; [|lia]. unfold stopb. destruct He as [He|(b & Hb & Bb)].
    - rewrite (Hcl e) by (lia || assumption). reflexivity.
    - destruct (it (Nat.max e (S p))) as [c|] eqn:Ec; [|reflexivity].
      pose proof (Hm e _ b c (Nat.le_max_l _ _) Hb Ec) as Q. unfold beyond in Bb.
      destruct up; apply Z.ltb_lt; lia. }
  destruct Hstop as (m & Sm & Lm).
  destruct (first_index stopb (m - S p) (S p)) as (n & Hn & Pn & Fn).
  { now replace (S p + (m - S p)) with m by lia. }
  exists (p + S (n - S p)). intros fuel Hf. rewrite Hskip by lia. destruct (Z.eqb_spec yp x); [congruence|].
  rewrite Hup.
  assert (Hscan := inn_scan_spec up x it n (n - S p) (S p) (fuel - p) ltac:(lia) ltac:(lia)).
  assert (Fn' : forall j, S p <= j < n -> exists b, it j = Some b /\ if up then (b <= x)%Z else (x <= b)%Z).
  { intros j Hj. specialize (Fn j Hj). unfold stopb in Fn. destruct (it j) as [b|]; [|discriminate].
    exists b. split; [reflexivity|]. destruct up; apply Z.ltb_ge in Fn; lia. }
  rewrite Hscan; clear Hscan.
  2: { unfold stopb in Pn. destruct (it n) as [b|]; [|exact I]. destruct up; apply Z.ltb_lt in Pn; lia. }
  2: { intros j Hj. destruct (Fn' j Hj) as (b & ? & _). eauto. }
  2: { intros j b Hj Hb. destruct (Fn' j Hj) as (b' & Hb' & L). rewrite Hb in Hb'. injection Hb' as <-. exact L. }
  destruct (existsb _ _) eqn:Ex.
  - left. split; [reflexivity|]. apply existsb_exists in Ex as (j & _ & Hj).
    destruct (it j) as [b|] eqn:Eb; [|discriminate]. apply Z.eqb_eq in Hj. subst. eauto.
  - right. split; [reflexivity|]. intros (i & Hi).
    assert (Q : forall j, S p <= j < n -> it j <> Some x).
    { intros j Hj Hx. assert (T : existsb (fun j => match it j with Some b => (b =? x)%Z | None => false end) (seq (S p) (n - S p)) = true).
      { apply existsb_exists. exists j. split; [apply in_seq; lia|]. rewrite Hx. apply Z.eqb_refl. }
      congruence. }
    destruct (le_lt_dec n i) as [Hni|Hni].
    + unfold stopb in Pn. destruct (it n) as [b|] eqn:Eb.
      * pose proof (Hm n i b x Hni Eb Hi) as L. destruct up; apply Z.ltb_lt in Pn; lia.
      * rewrite (Hcl n i Hni Eb) in Hi. discriminate.
    + destruct (le_lt_dec (S p) i).
      * apply (Q i); [lia|exact Hi].
      * destruct (Nat.eq_dec i p); [subst; congruence|]. rewrite Before in Hi by lia. congruence.
Qed.

(** ** iindex, find *)
Lemma iindex_loop_spec {A} (eqb : A -> A -> bool) x : forall l j k,
  iindex_loop eqb x j l = Ok k <->
  exists e, j <= k /\ nth_error l (k - j) = Some e /\ eqb e x = true /\
    forall i f, i < k - j -> nth_error l i = Some f -> eqb f x = false.
Proof.
  induction l as [|e l IH]; intros j k; cbn [iindex_loop].
  - split; [discriminate|]. intros (e & _ & H & _). destruct (k - j); discriminate.
  - destruct (eqb e x) eqn:E.
    + split.
      * intro H. injection H as <-. exists e. rewrite Nat.sub_diag. repeat split; auto. intros; lia.
      * intros (f & Hjk & Hf & Ef & F). f_equal. destruct (k - j) eqn:Q; [lia|].
        specialize (F 0 e ltac:(lia) eq_refl). congruence.
    + rewrite IH. split; intros (f & Hjk & Hf & Ef & F).
      * exists f. replace (k - j) with (S (k - S j)) by lia. repeat split; auto; [lia|].
        intros [|i] g Hi Hg; [simpl in Hg; congruence|]. apply (F i g); [lia|exact Hg].
      * destruct (k - j) eqn:Q; [simpl in Hf; congruence|].
        exists f. replace (k - S j) with n by lia. repeat split; auto; [lia|].
        intros i g Hi Hg. apply (F (S i) g); [lia|exact Hg].
Qed.
Lemma iindex_raise {A} (eqb : A -> A -> bool) x : forall l j,
  (forall e, In e l -> eqb e x = false) -> iindex_loop eqb x j l = Raise ValueError.
Proof.
  induction l as [|e l IH]; intros j H; cbn [iindex_loop]; [reflexivity|].
  rewrite (H e (or_introl eq_refl)). apply IH. intros; apply H; now right.
Qed.

(** ** zip and friends *)
Lemma fold_min_le {A} (cs : list (list A)) : forall m,
  fold_left (fun m c => Nat.min m (length c)) cs m <= m /\
  forall c, In c cs -> fold_left (fun m c => Nat.min m (length c)) cs m <= length c.
Proof.
  induction cs as [|c cs IH]; intro m; simpl.
  - split; [lia|tauto].
  - destruct (IH (Nat.min m (length c))) as [L R]. split; [lia|]. intros d [<-|Hd]; [lia|auto].
Qed.
Lemma min_len_le {A} (cols : list (list A)) c : In c cols -> min_len cols <= length c.
Proof.
  destruct cols as [|c0 cs]; [intros []|]. intros [<-|H]; simpl.
  - exact (proj1 (fold_min_le cs _)). - exact (proj2 (fold_min_le cs _) c H).
Qed.
Lemma fold_min_glb {A} (cs : list (list A)) : forall m k, k <= m -> (forall c, In c cs -> k <= length c) ->
  k <= fold_left (fun m c => Nat.min m (length c)) cs m.
Proof.
  induction cs as [|c cs IH]; intros m k Hk H; simpl; [assumption|].
  apply IH; [|intros; apply H; now right]. assert (k <= length c) by (apply H; now left). lia.
Qed.
Lemma min_len_glb {A} (cols : list (list A)) k : cols <> [] -> (forall c, In c cols -> k <= length c) -> k <= min_len cols.
Proof.
  destruct cols as [|c0 cs]; [congruence|]. intros _ H. apply fold_min_glb.
  - apply H; now left. - intros; apply H; now right.
Qed.
Lemma max_len_ge_fold {A} (cs : list (list A)) : forall m,
  m <= fold_left (fun m c => Nat.max m (length c)) cs m /\
  forall c, In c cs -> length c <= fold_left (fun m c => Nat.max m (length c)) cs m.
Proof.
  induction cs as [|c cs IH]; intro m; simpl; [split; [lia|tauto]|].
  destruct (IH (Nat.max m (length c))) as [L R]. split; [lia|]. intros d [<-|Hd]; [lia|auto].
Qed.
Lemma max_len_lub_fold {A} (cs : list (list A)) : forall m k, m <= k -> (forall c, In c cs -> length c <= k) ->
  fold_left (fun m c => Nat.max m (length c)) cs m <= k.
Proof.
  induction cs as [|c cs IH]; intros m k Hk H; simpl; [assumption|].
  apply IH; [|intros; apply H; now right]. assert (length c <= k) by (apply H; now left). lia.
Qed.
Lemma min_len_map {A} (f : list A -> list A) (cols : list (list A)) :
  (forall c, length (f c) = length c) -> min_len (map f cols) = min_len cols.
Proof.
  intro H. destruct cols as [|c cs]; [reflexivity|]. simpl. rewrite H. generalize (length c).
  induction cs as [|d cs IH]; intro m; simpl; [reflexivity|]. rewrite H. apply IH.
Qed.
Lemma max_len_map {A} (f : list A -> list A) (cols : list (list A)) :
  (forall c, length (f c) = length c) -> max_len (map f cols) = max_len cols.
Proof.
  intro H. unfold max_len. generalize 0.
  induction cols as [|d cs IH]; intro m; simpl; [reflexivity|]. rewrite H. apply IH.
Qed.
Lemma zip_length {A} (cols : list (list A)) : length (zip cols) = min_len cols.
Proof. unfold zip. rewrite map_length, seq_length. reflexivity. Qed.
Lemma nth_error_map_seq {B} (f : nat -> B) n i : i < n -> nth_error (map f (seq 0 n)) i = Some (f i).
Proof.
  intro H. rewrite nth_error_map, (nth_error_nth' _ 0) by (rewrite seq_length; assumption).
  rewrite seq_nth by assumption. reflexivity.
Qed.
Lemma zip_nth {A} (cols : list (list A)) i : i < min_len cols ->
  exists row, nth_error (zip cols) i = Some row /\ map Some row = map (fun c => nth_error c i) cols.
Proof.
  intro H. exists (somes (map (fun c => nth_error c i) cols)). split.
  - unfold zip. apply (nth_error_map_seq (fun i => somes (map (fun c => nth_error c i) cols))). assumption.
  - apply somes_all. intros o Ho. apply in_map_iff in Ho as (c & <- & Hc).
    apply nth_error_Some. pose proof (min_len_le _ _ Hc). lia.
Qed.
Lemma nth_error_rev {A} (l : list A) i : i < length l -> nth_error (rev l) i = nth_error l (length l - 1 - i).
Proof.
  intro H. destruct l as [|d l0] eqn:E; [simpl in H; lia|]. rewrite <- E in *.
  rewrite !(nth_error_nth' _ d) by (rewrite ?rev_length; lia).
  f_equal. rewrite rev_nth by assumption. f_equal. lia.
Qed.
Lemma nth_rev_default {A} (l : list A) i d : nth i (rev l) d = if i <? length l then nth (length l - 1 - i) l d else d.
Proof.
  destruct (Nat.ltb_spec i (length l)).
  - rewrite rev_nth by assumption. f_equal. lia.
  - apply nth_overflow. rewrite rev_length. assumption.
Qed.

Lemma zipr_nth {A} (cols : list (list A)) i : i < min_len cols ->
  exists row, nth_error (zipr cols) i = Some row /\
    map Some row = map (fun c => nth_error c (min_len cols - 1 - i)) cols.
Proof.
  intro H. unfold zipr, rev_. rewrite nth_error_rev by (rewrite zip_length; assumption).
  rewrite zip_length. apply zip_nth. lia.
Qed.
Lemma rzip_nth {A} (cols : list (list A)) i : i < min_len cols ->
  exists row, nth_error (rzip cols) i = Some row /\
    map Some row = map (fun c => nth_error c (length c - 1 - i)) cols.
Proof.
  intro H. unfold rzip. assert (H' : i < min_len (map rev_ cols)).
  { rewrite min_len_map; [assumption|]. intro; apply rev_length. }
  destruct (zip_nth _ _ H') as (row & Hr & E). exists row. split; [exact Hr|].
  rewrite E, map_map. apply map_ext_in. intros c Hc. apply nth_error_rev.
  pose proof (min_len_le _ _ Hc). lia.
Qed.
Lemma rzip_zipr_equal {A} (cols : list (list A)) :
  (forall c d, In c cols -> In d cols -> length c = length d) -> rzip cols = zipr cols.
Proof.
  intro H. apply nth_error_ext. intro i.
  assert (L1 : length (rzip cols) = min_len cols).
  { unfold rzip. rewrite zip_length. apply min_len_map. intro; apply rev_length. }
  assert (L2 : length (zipr cols) = min_len cols).
  { unfold zipr, rev_. rewrite rev_length. apply zip_length. }
  destruct (le_lt_dec (min_len cols) i) as [Hi|Hi].
  - rewrite (proj2 (nth_error_None _ _)), (proj2 (nth_error_None _ _)) by lia. reflexivity.
  - destruct (rzip_nth cols i Hi) as (r1 & -> & E1), (zipr_nth cols i Hi) as (r2 & -> & E2).
    f_equal. assert (E : map Some r1 = map Some r2).
    { rewrite E1, E2. apply map_ext_in. intros c Hc. f_equal. f_equal.
      assert (M : length c <= min_len cols).
      { apply min_len_glb; [intro; subst; destruct Hc|]. intros d Hd. rewrite (H c d Hc Hd). lia. }
      pose proof (min_len_le _ _ Hc). lia. }
    clear - E. revert r2 E. induction r1 as [|a r1 IH]; intros [|b r2] E; simpl in E; try discriminate; [reflexivity|].
    injection E as -> E. f_equal. apply IH. exact E.
Qed.
Lemma zipl_nth {A} fill (cols : list (list A)) i :
  nth_error (zip_longest fill cols) i = if i <? max_len cols then Some (map (fun c => nth i c fill) cols) else None.
Proof.
  destruct (Nat.ltb_spec i (max_len cols)).
  - unfold zip_longest. apply (nth_error_map_seq (fun i => map (fun c => nth i c fill) cols)). assumption.
  - apply nth_error_None. unfold zip_longest. rewrite map_length, seq_length. assumption.
Qed.
Lemma rzipl_nth {A} fill (cols : list (list A)) i :
  nth_error (rzip_longest fill cols) i =
  if i <? max_len cols then Some (map (fun c => if i <? length c then nth (length c - 1 - i) c fill else fill) cols) else None.
Proof.
  unfold rzip_longest. rewrite zipl_nth, max_len_map by (intro; apply rev_length).
  destruct (i <? max_len cols); [|reflexivity]. f_equal. rewrite map_map. apply map_ext. intro c.
  apply nth_rev_default.
Qed.
Lemma ziprl_nth {A} fill (cols : list (list A)) i :
  nth_error (zipr_longest fill cols) i =
  if i <? max_len cols then Some (map (fun c => nth (max_len cols - 1 - i) c fill) cols) else None.
Proof.
  unfold zipr_longest, rev_.
  assert (L : length (zip_longest fill cols) = max_len cols) by (unfold zip_longest; rewrite map_length, seq_length; reflexivity).
  destruct (Nat.ltb_spec i (max_len cols)).
  - rewrite nth_error_rev by lia. rewrite L, zipl_nth. destruct (Nat.ltb_spec (max_len cols - 1 - i) (max_len cols)); [reflexivity|lia].
  - apply nth_error_None. rewrite rev_length. lia.
Qed.

(** ** partition *)
Lemma partition_spec {A} (pred : A -> bool) l f t : partition_ pred l = (f, t) ->
  picks l (fun i => exists x, nth_error l i = Some x /\ pred x = false) 0 f /\
  picks l (fun i => exists x, nth_error l i = Some x /\ pred x = true) 0 t.
Proof.
  unfold partition_. intro H. injection H as <- <-.
  assert (G : forall (q : A -> bool) r i, skipn i l = r ->
    picks l (fun i => exists x, nth_error l i = Some x /\ q x = true) i (filter q r)).
  { intros q. induction r as [|x r IH]; intros i Hr.
    - apply picks_end. now apply skipn_nil_len.
    - apply skipn_cons_nth in Hr as [Hx Hr]. cbn [filter]. destruct (q x) eqn:E.
      + eapply picks_take; eauto.
      + eapply picks_skip; eauto. intros (y & Hy & Ey). congruence. }
  split; [|apply G; reflexivity].
  assert (P := G (fun x => negb (pred x)) l 0 eq_refl).
  assert (M : forall (P Q : nat -> Prop), (forall i, P i <-> Q i) -> forall i o, picks l P i o -> picks l Q i o).
  { intros P' Q' PQ i o Hp. induction Hp; [apply picks_end|eapply picks_take|eapply picks_skip]; eauto; rewrite <- PQ; assumption. }
  eapply M; [|exact P]. intro i. simpl. split; intros (x & Hx & E); exists x; (split; [exact Hx|]).
  - now apply negb_true_iff. - now apply negb_true_iff.
Qed.

(** ** interleave *)
Lemma roundrobin_spec {A} (iters : list (list A)) out rest : roundrobin iters = (out, rest) ->
  match rest with
  | Some r => map Some out = map (fun c => nth_error c 0) iters /\ r = map (@tl A) iters
  | None => exists a b, iters = a ++ [] :: b /\ map Some out = map (fun c => nth_error c 0) a
  end.
Proof.
  revert out rest. induction iters as [|[|x it] iters IH]; intros out rest H; cbn [roundrobin] in H.
  - injection H as <- <-. split; reflexivity.
  - injection H as <- <-. exists [], iters. split; reflexivity.
  - destruct (roundrobin iters) as [o r]. specialize (IH o r eq_refl). injection H as <- <-.
    destruct r as [r|].
    + destruct IH as [E ->]. simpl. split; [now rewrite E|reflexivity].
    + destruct IH as (a & b & -> & E). exists ((x :: it) :: a), b. simpl. split; [reflexivity|now rewrite E].
Qed.

Lemma interleave_spec {A} : forall fuel (iters : list (list A)), iters <> [] -> min_len iters < fuel ->
  exists out, interleave fuel iters = Some out /\ interleaved iters out.
Proof.
  induction fuel as [|fuel IH]; intros iters Hne Hf; [lia|].
  cbn [interleave]. destruct (roundrobin iters) as [o [r|]] eqn:E; apply roundrobin_spec in E.
  - destruct E as [Eo ->].
    assert (Hpos : forall d, In d iters -> 0 < length d).
    { intros d Hd. assert (Q : In (nth_error d 0) (map Some o)) by (rewrite Eo; apply in_map_iff; eauto).
      apply in_map_iff in Q as (x & Hx & _). destruct d; [discriminate|simpl; lia]. }
    assert (Hmin : min_len (map (@tl A) iters) < min_len iters).
    { enough (S (min_len (map (@tl A) iters)) <= min_len iters) by lia.
      apply min_len_glb; [exact Hne|]. intros c Hc.
      assert (Q : min_len (map (@tl A) iters) <= length (tl c)) by (apply min_len_le, in_map, Hc).
      pose proof (Hpos c Hc). destruct c; simpl in *; lia. }
    destruct (IH (map (@tl A) iters)) as (out & Ei & m & a & c & b & Es & Ec & Ha & Hb & Eo2).
    { destruct iters; [congruence|discriminate]. }
    { lia. }
    rewrite Ei. exists (o ++ out). split; [reflexivity|].
    (* pull the split back through map tl *)
    assert (S : exists a' c' b', iters = a' ++ c' :: b' /\ map (@tl A) a' = a /\ tl c' = c).
    { clear - Es. revert a Es. induction iters as [|d iters IH]; intros a Es.
      - destruct a; discriminate.
      - destruct a as [|e a]; simpl in Es.
        + injection Es as E1 E2. exists [], d, iters. auto.
        + injection Es as E1 E2. destruct (IH a E2) as (a' & c' & b' & -> & <- & <-).
          exists (d :: a'), c', b'. simpl. now rewrite E1. }
    destruct S as (a' & c' & b' & -> & <- & <-).
    assert (Hc' : 0 < length c') by (apply Hpos, in_or_app; right; now left).
    exists (S m), a', c', b'. split; [reflexivity|]. split; [destruct c'; simpl in *; lia|].
    split; [|split].
    + intros d Hd. pose proof (Hpos d Hd). pose proof (Ha (tl d) (in_map _ _ _ Hd)). destruct d; simpl in *; lia.
    + intros d Hd. pose proof (Hb (tl d) (in_map _ _ _ Hd)). destruct d; simpl in *; lia.
    + rewrite map_app, Eo, Eo2. cbn [seq flat_map]. rewrite <- app_assoc. f_equal.
      assert (NT : forall (d : list A) k, nth_error (tl d) k = nth_error d (S k)).
      { intros [|x d] k; [destruct k; reflexivity|reflexivity]. }
      f_equal.
      * rewrite <- seq_shift, flat_map_concat_map, (flat_map_concat_map _ (map S _)), map_map. f_equal.
        apply map_ext. intro k. rewrite map_map. apply map_ext. intro d. apply NT.
      * rewrite map_map. apply map_ext. intro d. apply NT.
  - destruct E as (a & b & -> & Eo). exists o. split; [reflexivity|].
    exists 0, a, [], b. repeat split; try lia.
    + intros d Hd. assert (Q : In (nth_error d 0) (map Some o)) by (rewrite Eo; apply in_map_iff; eauto).
      apply in_map_iff in Q as (x & Hx & _). destruct d; [discriminate|simpl; lia].
    + exact Eo.
Qed.
Lemma interleave_none {A} fuel : @interleave A fuel [] = None.
Proof. induction fuel as [|fuel IH]; [reflexivity|]. cbn [interleave roundrobin]. rewrite IH. reflexivity. Qed.

(** ** subset, allsame *)
Lemma subset_spec {A} (eqb : A -> A -> bool) (Heq : forall a b, eqb a b = true <-> a = b) p w :
  subset eqb p w = true <-> incl p w.
Proof.
  unfold subset. rewrite forallb_forall. unfold incl. split; intros H x Hx; specialize (H x Hx).
  - apply existsb_exists in H as (y & Hy & E). apply Heq in E. now subst.
  - apply existsb_exists. exists x. split; [exact H|]. now apply Heq.
Qed.
Lemma allsame_spec {A} (eqb : A -> A -> bool) (Heq : forall a b, eqb a b = true <-> a = b) l :
  allsame eqb l = true <-> forall x y, In x l -> In y l -> x = y.
Proof.
  destruct l as [|x0 l]; simpl; [tauto|]. rewrite forallb_forall. split.
  - intros H x y [<-|Hx] [<-|Hy]; auto.
    + symmetry. now apply Heq, H. + now apply Heq, H.
    + transitivity x0; [now apply Heq, H|symmetry; now apply Heq, H].
  - intros H x Hx. apply Heq, H; auto.
Qed.

(** ** powerset *)
Lemma subseq_refl_app {A} (s l r : list A) : subseq s l -> subseq s (l ++ r).
Proof. induction 1; simpl; constructor; assumption. Qed.
Lemma subseq_snoc {A} (s l : list A) x : subseq s l -> subseq (s ++ [x]) (l ++ [x]).
Proof.
  induction 1; simpl; try (constructor; assumption).
  induction l; simpl; [constructor; constructor|constructor; assumption].
Qed.
Lemma subseq_snoc_inv {A} (l : list A) x : forall s, subseq s (l ++ [x]) ->
  subseq s l \/ exists s', s = s' ++ [x] /\ subseq s' l.
Proof.
  induction l as [|y l IH]; intros s H; simpl in H.
  - inversion H as [|? s' ? H'|? s' ? H']; subst.
    + left; constructor.
    + inversion H'; subst. right. exists []. split; [reflexivity|constructor].
    + inversion H'; subst. left; constructor.
  - inversion H as [|? s' ? H'|? s' ? H']; subst.
    + left; constructor.
    + destruct (IH _ H') as [Q|(s'' & -> & Q)].
      * left; now constructor.
      * right. exists (y :: s''). split; [reflexivity|now constructor].
    + destruct (IH _ H') as [Q|(s'' & -> & Q)].
      * left; now constructor.
      * right. exists s''. split; [reflexivity|now constructor].
Qed.
Lemma subseq_In {A} (s l : list A) x : subseq s l -> In x s -> In x l.
Proof. induction 1; simpl; intros; [tauto|intuition|right; auto]. Qed.

(** the bag after processing [pre] holds exactly the non-empty subsequences of [pre] *)
Definition bag_ok {A} (pre : list A) (bag : list (list A)) : Prop :=
  (forall s, In s bag <-> s <> [] /\ subseq s pre) /\ length bag = 2 ^ length pre - 1.

Lemma bag_step {A} (pre : list A) bag x : bag_ok pre bag ->
  bag_ok (pre ++ [x]) (bag ++ [[x]] ++ map (fun c => c ++ [x]) bag).
Proof.
  intros [H L]. split.
  - intro s. rewrite !in_app_iff, H, in_map_iff. simpl. split.
    + intros [[Hn Hs]|[[<-|[]]|(c & <- & Hc)]].
      * split; [exact Hn|]. now apply subseq_refl_app.
      * split; [discriminate|]. apply (subseq_snoc [] pre x). constructor.
      * apply H in Hc as [_ Hc]. split; [destruct c; discriminate|]. now apply subseq_snoc.
    + intros [Hn Hs]. apply subseq_snoc_inv in Hs as [Hs|(s' & -> & Hs)].
      * left. auto.
      * destruct s' as [|y s']; [right; left; left; reflexivity|].
        right; right. exists (y :: s'). split; [reflexivity|]. apply H. split; [discriminate|exact Hs].
  - rewrite !app_length, map_length, L. simpl length. rewrite Nat.add_1_r. cbn [Nat.pow].
    pose proof (Nat.pow_nonzero 2 (length pre)). lia.
Qed.
Lemma powerset_loop_spec {A} : forall it (pre : list A) bag, bag_ok pre bag ->
  bag_ok (pre ++ it) (bag ++ powerset_loop bag it).
Proof.
  induction it as [|x it IH]; intros pre bag H.
  - simpl. now rewrite !app_nil_r.
  - cbn [powerset_loop]. specialize (IH (pre ++ [x]) _ (bag_step pre bag x H)).
    rewrite <- app_assoc in IH. cbn [app] in IH.
    rewrite <- app_assoc in IH. cbn [app] in *. exact IH.
Qed.
Lemma powerset_spec {A} (l : list A) :
  (forall s, In s (powerset l) <-> s <> [] /\ subseq s l) /\ length (powerset l) = 2 ^ length l - 1.
Proof.
  assert (B : bag_ok (@nil A) []).
  { split; [|reflexivity]. intro s. simpl. split; [tauto|]. intros [Hn H]. inversion H; congruence. }
  exact (powerset_loop_spec l [] [] B).
Qed.
Lemma powerset_NoDup_loop {A} : forall it (pre : list A) bag, NoDup (pre ++ it) -> bag_ok pre bag -> NoDup bag ->
  NoDup (bag ++ powerset_loop bag it).
Proof.
  induction it as [|x it IH]; intros pre bag Hnd Hb Hd.
  - simpl. now rewrite app_nil_r.
  - cbn [powerset_loop].
    replace (bag ++ [x] :: map (fun c => c ++ [x]) bag ++ powerset_loop (bag ++ [[x]] ++ map (fun c => c ++ [x]) bag) it)
      with ((bag ++ [[x]] ++ map (fun c => c ++ [x]) bag) ++ powerset_loop (bag ++ [[x]] ++ map (fun c => c ++ [x]) bag) it)
      by (rewrite <- app_assoc; reflexivity).
    assert (Hx : ~ In x pre).
    { apply NoDup_remove_2 in Hnd. intro F. apply Hnd, in_or_app. now left. }
    apply IH with (pre := pre ++ [x]).
    + rewrite <- app_assoc. exact Hnd.
    + now apply bag_step.
    + assert (Q : forall c, In c bag -> ~ In x c).
      { intros c Hc F. apply Hb in Hc as [_ Hc]. exact (Hx (subseq_In _ _ _ Hc F)). }
      assert (NA : forall (a b : list (list A)), NoDup a -> NoDup b -> (forall s, In s a -> ~ In s b) -> NoDup (a ++ b)).
      { intros a b Ha Hb' Hab. induction Ha as [|s a Hs Ha IHa]; [exact Hb'|]. simpl. constructor.
        - intro F. apply in_app_or in F as [F|F]; [auto|]. apply (Hab s); [now left|exact F].
        - apply IHa. intros t Ht. apply Hab. now right. }
      apply NA; [exact Hd| |].
      * simpl. constructor.
        -- intro F. apply in_map_iff in F as (c & Ec & Hc). apply Hb in Hc as [Hn _].
           destruct c as [|y [|z c]]; [congruence|discriminate|discriminate].
        -- apply FinFun.Injective_map_NoDup; [|exact Hd]. intros c d E. now apply app_inj_tail in E as [-> _].
      * intros s Hs F. apply (Q s Hs). simpl in F. destruct F as [<-|F]; [now left|].
        apply in_map_iff in F as (c & <- & _). apply in_or_app. right. now left.
Qed.
Lemma powerset_NoDup {A} (l : list A) : NoDup l -> NoDup (powerset l).
Proof.
  intro H. apply (powerset_NoDup_loop l [] []); [exact H| |constructor].
  split; [|reflexivity]. intro s. simpl. split; [tauto|]. intros [Hn Hs]. inversion Hs; congruence.
Qed.

(** ** iterate *)
Lemma iterate1_nth {A} (f : A -> A) : forall n x i, i < n -> nth_error (iterate1 f x n) i = Some (Nat.iter i f x).
Proof.
  induction n as [|n IH]; intros x i H; [lia|]. cbn [iterate1]. destruct i as [|i]; [reflexivity|].
  cbn [nth_error]. rewrite IH by lia. f_equal. clear. induction i as [|i IH]; [reflexivity|].
  change (Nat.iter (S i) f (f x)) with (f (Nat.iter i f (f x))). rewrite IH. reflexivity.
Qed.

(** ** Wrap-ups in the form used by ItrProps.v *)
Lemma chunked_spec {A} n (l : list A) : (2 <= n)%Z ->
  exists cs, chunked n l = Ok cs /\ concat cs = l /\
    (forall i c, nth_error cs i = Some c -> 0 < length c <= Z.to_nat n) /\
    (forall i c, nth_error cs i = Some c -> S i < length cs -> length c = Z.to_nat n).
Proof.
  intro H. unfold chunked. destruct (Z.ltb_spec n 2); [lia|]. eexists. split; [reflexivity|].
  apply chunker_spec; lia.
Qed.
Lemma window_chunked_small {A} n (l : list A) : (n < 2)%Z -> window n l = Raise ValueError /\ chunked n l = Raise ValueError.
Proof. intro H. unfold window, chunked. destruct (Z.ltb_spec n 2); [auto|lia]. Qed.
Lemma flatten_only_leaves {A} (l : list (item A)) x : In x (flatten (fun _ => true) l) -> exists a, x = Leaf a.
Proof. intro H. apply in_flat_map in H as (e & _ & H). exact (flatten_leaf_only e x H). Qed.
Lemma flatten_result {A} (pred : item A -> bool) (l : list (item A)) x : In x (flatten pred l) ->
  (exists a, x = Leaf a) \/ pred x = false.
Proof.
  intro H. apply in_flat_map in H as (e & _ & H). apply flatten_no_pred in H. destruct x; eauto.
Qed.
Lemma flatten_preserves {A} (pred : item A -> bool) (l : list (item A)) :
  flatten (fun _ => true) (flatten pred l) = flatten (fun _ => true) l /\
  flatten (fun _ => true) (flatten_in pred l) = flatten (fun _ => true) l /\
  flatten (fun _ => true) (flatten1 pred l) = flatten (fun _ => true) l.
Proof.
  unfold flatten, flatten_in, flatten1. rewrite !flat_map_flat_map.
  repeat split; apply flat_map_ext; intro e.
  - apply flatten_leaves. - apply flatten_in_leaves.
  - destruct e as [a|t es]; [reflexivity|]. destruct (pred (Node t es)).
    + reflexivity. + cbn [flat_map]. apply app_nil_r.
Qed.
Lemma flatten_equations {A} (pred : item A -> bool) e l :
  flatten pred [] = [] /\ flatten1 pred [] = [] /\ flatten_in pred [] = [] /\
  match e with
  | Leaf a => flatten pred (e :: l) = e :: flatten pred l /\
              flatten1 pred (e :: l) = e :: flatten1 pred l /\
              flatten_in pred (e :: l) = e :: flatten_in pred l
  | Node t es =>
      (pred e = true -> flatten pred (e :: l) = flatten pred es ++ flatten pred l /\
                        flatten1 pred (e :: l) = es ++ flatten1 pred l /\
                        flatten_in pred (e :: l) = flatten_in pred es ++ flatten_in pred l) /\
      (pred e = false -> flatten pred (e :: l) = e :: flatten pred l /\
                         flatten1 pred (e :: l) = e :: flatten1 pred l /\
                         flatten_in pred (e :: l) = Node t (flatten_in pred es) :: flatten_in pred l)
  end.
Proof.
  repeat (split; [reflexivity|]). destruct e as [a|t es]; [repeat split|].
  unfold flatten, flatten1, flatten_in. split; intro E; cbn [flat_map flatten_elt flatten_in_elt]; rewrite E; auto.
Qed.
Lemma iindex_spec {A} (eqb : A -> A -> bool) x l k :
  iindex eqb x l = Ok k <->
  exists e, nth_error l k = Some e /\ eqb e x = true /\
    forall i f, i < k -> nth_error l i = Some f -> eqb f x = false.
Proof.
  unfold iindex. rewrite iindex_loop_spec. rewrite Nat.sub_0_r. split; intros (e & H).
  - exists e. tauto. - exists e. split; [lia|tauto].
Qed.
Lemma iindex_absent {A} (eqb : A -> A -> bool) x l :
  (forall e, In e l -> eqb e x = false) -> iindex eqb x l = Raise ValueError.
Proof. apply iindex_raise. Qed.
Lemma find_spec {A} (pred : A -> bool) l d :
  (exists a x b, l = a ++ x :: b /\ pred x = true /\ (forall y, In y a -> pred y = false) /\ find_ pred l d = x) \/
  ((forall y, In y l -> pred y = false) /\ find_ pred l d = d).
Proof.
  unfold find_. induction l as [|x l IH]; [right; split; [intros y []|reflexivity]|].
  cbn [filter]. destruct (pred x) eqn:E.
  - left. exists [], x, l. repeat split; auto. intros y [].
  - destruct IH as [(a & y & b & -> & Py & Ha & F)|[Hn F]].
    + left. exists (x :: a), y, b. repeat split; auto. intros z [<-|Hz]; auto.
    + right. split; [|exact F]. intros y [<-|Hy]; auto.
Qed.
Lemma zip_positions {A} (cols : list (list A)) i : i < min_len cols ->
  (exists row, nth_error (zip cols) i = Some row /\ map Some row = map (fun c => nth_error c i) cols) /\
  (exists row, nth_error (zipr cols) i = Some row /\
               map Some row = map (fun c => nth_error c (min_len cols - 1 - i)) cols) /\
  (exists row, nth_error (rzip cols) i = Some row /\
               map Some row = map (fun c => nth_error c (length c - 1 - i)) cols).
Proof. intro H. split; [|split]; [now apply zip_nth|now apply zipr_nth|now apply rzip_nth]. Qed.
Lemma min_len_attained {A} (cols : list (list A)) : cols <> [] -> exists c, In c cols /\ length c = min_len cols.
Proof.
  destruct cols as [|c0 cs]; [congruence|]. intros _. simpl.
  assert (G : forall m, (exists c, In c cs /\ length c = fold_left (fun m c => Nat.min m (length c)) cs m) \/
                        fold_left (fun m c => Nat.min m (length c)) cs m = m).
  { induction cs as [|c cs IH]; intro m; simpl; [auto|].
    destruct (IH (Nat.min m (length c))) as [(d & Hd & E)|E].
    - left. exists d. auto.
    - destruct (Nat.min_spec m (length c)) as [[_ Q]|[_ Q]].
      + right. lia. + left. exists c. split; [auto|lia]. }
  destruct (G (length c0)) as [(c & Hc & E)|E].
  - exists c. auto. - exists c0. split; [auto|now rewrite E].
Qed.
Lemma zip_lengths {A} (cols : list (list A)) :
  length (zip cols) = min_len cols /\ length (zipr cols) = min_len cols /\ length (rzip cols) = min_len cols /\
  (forall c, In c cols -> min_len cols <= length c) /\
  (cols <> [] -> exists c, In c cols /\ length c = min_len cols).
Proof.
  split; [apply zip_length|]. split; [unfold zipr, rev_; rewrite rev_length; apply zip_length|].
  split; [unfold rzip; rewrite zip_length; apply min_len_map; intro; apply rev_length|].
  split; [intro; apply min_len_le|apply min_len_attained].
Qed.
Lemma zip_longest_positions {A} (fill : A) (cols : list (list A)) i :
  nth_error (zip_longest fill cols) i =
    (if i <? max_len cols then Some (map (fun c => nth i c fill) cols) else None) /\
  nth_error (zipr_longest fill cols) i =
    (if i <? max_len cols then Some (map (fun c => nth (max_len cols - 1 - i) c fill) cols) else None) /\
  nth_error (rzip_longest fill cols) i =
    (if i <? max_len cols
     then Some (map (fun c => if i <? length c then nth (length c - 1 - i) c fill else fill) cols) else None).
Proof. split; [|split]; [apply zipl_nth|apply ziprl_nth|apply rzipl_nth]. Qed.
Lemma maps_are_zips {A B} (f : list A -> B) (fill : A) (cols : list (list A)) :
  mapr f cols = map f (zipr cols) /\ rmap f cols = map f (rzip cols) /\
  mapr_longest f fill cols = map f (zipr_longest fill cols) /\
  rmap_longest f fill cols = map f (rzip_longest fill cols).
Proof.
  unfold mapr, rmap, mapr_longest, rmap_longest, zipr, rzip, zipr_longest, rzip_longest, map_, map_longest, rev_.
  rewrite !map_rev. auto.
Qed.
Lemma equal_lengths {A B} (f : list A -> B) (cols : list (list A)) :
  (forall c d, In c cols -> In d cols -> length c = length d) ->
  rzip cols = zipr cols /\ rmap f cols = mapr f cols.
Proof.
  intro H. assert (E := rzip_zipr_equal cols H). split; [exact E|].
  unfold rmap, mapr, map_, rev_. rewrite <- map_rev. unfold rzip, zipr, rev_ in E. unfold rev_ in *. now rewrite E.
Qed.
Lemma pad_spec {A} n (fill : A) l :
  length (pad n fill l) = Nat.max n (length l) /\
  forall i, nth i (pad n fill l) fill = nth i l fill.
Proof.
  unfold pad. split; [rewrite app_length, repeat_length; lia|].
  intro i. destruct (le_lt_dec (length l) i).
  - rewrite app_nth2 by assumption. rewrite (nth_overflow l) by assumption.
    generalize (i - length l). intro j. revert j. induction (n - length l) as [|m IH]; intros [|j]; simpl; auto.
  - now apply app_nth1.
Qed.
Lemma butlast_snoc {A} (l : list A) x : butlast (l ++ [x]) = l /\ butlast (@nil A) = [].
Proof.
  split; [|reflexivity]. unfold butlast. rewrite butlastn_firstn, app_length. cbn. rewrite Nat.add_sub. rewrite firstn_app, Nat.sub_diag, firstn_all. cbn. apply app_nil_r.
Qed.
Lemma max_len_from {A} (cols : list (list A)) : forall m, let r := fold_left (fun m c => Nat.max m (length c)) cols m in
  m <= r /\ (forall c, In c cols -> length c <= r) /\ (r = m \/ exists c, In c cols /\ length c = r).
Proof.
  induction cols as [|c cols IH]; intros m; cbn; [intuition|]. destruct (IH (Nat.max m (length c))) as (H1 & H2 & H3). cbn in *. split; [lia|]. split.
  - intros c' [<-|I]; [lia|auto].
  - destruct H3 as [H3|(c' & I & E)]; [|right; eauto]. destruct (Nat.max_spec m (length c)) as [[Hm E]|[Hm E]]; rewrite E in *; [right; eauto|left; congruence].
Qed.
Lemma zip_longest_lengths {A} (fill : A) (cols : list (list A)) :
  exists n, length (zip_longest fill cols) = n /\ length (zipr_longest fill cols) = n /\ length (rzip_longest fill cols) = n /\
    (forall c, In c cols -> length c <= n) /\ (cols = [] -> n = 0) /\ (cols <> [] -> exists c, In c cols /\ length c = n).
Proof.
  exists (max_len cols). assert (P := zip_longest_positions fill cols).
  assert (L : forall B (l : list B) n, (forall i, nth_error l i = None <-> n <= i) -> length l = n).
  { intros B l n H. destruct (Nat.lt_trichotomy (length l) n) as [C|[C|C]]; auto.
    - exfalso. assert (nth_error l (length l) = None) by (apply nth_error_None; lia). apply H in H0. lia.
    - exfalso. assert (nth_error l n = None) by (apply H; lia). apply nth_error_None in H0. lia. }
  assert (N : forall B (g : nat -> B) i, (if i <? max_len cols then Some (g i) else None) = None <-> max_len cols <= i).
  { intros B g i. destruct (Nat.ltb_spec i (max_len cols)); split; intros; try discriminate; try lia; reflexivity. }
  repeat split.
  - apply L. intros i. destruct (P i) as (-> & _). apply (N _ (fun i => map (fun c => nth i c fill) cols)).
  - apply L. intros i. destruct (P i) as (_ & -> & _). apply (N _ (fun i => map (fun c => nth (max_len cols - 1 - i) c fill) cols)).
  - apply L. intros i. destruct (P i) as (_ & _ & ->). apply (N _ (fun i => map (fun c => if i <? length c then nth (length c - 1 - i) c fill else fill) cols)).
  - apply (max_len_from cols 0).
  - intros ->. reflexivity.
  - intros Ne. destruct (max_len_from cols 0) as (_ & _ & [H|H]); [|exact H]. fold (max_len cols) in H. destruct cols as [|c cols]; [congruence|]. exists c. split; [now left|].
    destruct (max_len_from (c :: cols) 0) as (_ & H2 & _). fold (max_len (c :: cols)) in H2. specialize (H2 c (or_introl eq_refl)). lia.
Qed.
Lemma zip_none {A} : zip (@nil (list A)) = [] /\ zipr (@nil (list A)) = [] /\ rzip (@nil (list A)) = [].
Proof. repeat split. Qed.
