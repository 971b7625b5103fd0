(** Facts about the built-ins of Base.v. *)
From Verif Require Import Base.
From Coq Require Import ZArith List Bool Lia FinFun.
Import ListNotations.
Open Scope Z_scope.

Lemma range_len_nonneg r : 0 <= range_len r \/ r_step r = 0.
Proof.
  unfold range_len. destruct (Z.eq_dec (r_step r) 0) as [E|E]; [right; exact E|left].
  destruct (Z.ltb_spec 0 (r_step r)).
  - destruct (Z.ltb_spec (r_start r) (r_stop r)); [|lia].
    assert (0 <= (r_stop r - r_start r - 1) / r_step r) by (apply Z.div_pos; lia). lia.
  - destruct (Z.ltb_spec (r_stop r) (r_start r)); [|lia].
    assert (0 <= (r_start r - r_stop r - 1) / - r_step r) by (apply Z.div_pos; lia). lia.
Qed.

Lemma range_len_spec r i :
  r_step r <> 0 -> 0 <= i ->
  (i < range_len r <->
   if 0 <? r_step r then range_item r i < r_stop r else r_stop r < range_item r i).
Proof.
  intros Hs Hi. unfold range_len, range_item.
  destruct (Z.ltb_spec 0 (r_step r)) as [Hp|Hp].
  - destruct (Z.ltb_spec (r_start r) (r_stop r)) as [H|H].
    + pose proof (Z.div_mod (r_stop r - r_start r - 1) (r_step r) Hs) as D.
      pose proof (Z.mod_pos_bound (r_stop r - r_start r - 1) (r_step r) Hp) as M.
      set (q := (r_stop r - r_start r - 1) / r_step r) in *.
      set (m := (r_stop r - r_start r - 1) mod r_step r) in *. nia.
    + nia.
  - destruct (Z.ltb_spec (r_stop r) (r_start r)) as [H|H].
    + assert (Hp' : 0 < - r_step r) by lia.
      assert (Hs' : - r_step r <> 0) by lia.
      pose proof (Z.div_mod (r_start r - r_stop r - 1) (- r_step r) Hs') as D.
      pose proof (Z.mod_pos_bound (r_start r - r_stop r - 1) (- r_step r) Hp') as M.
      set (q := (r_start r - r_stop r - 1) / - r_step r) in *.
      set (m := (r_start r - r_stop r - 1) mod - r_step r) in *. nia.
    + nia.
Qed.

Lemma range_list_length r : r_step r <> 0 -> zlen (range_list r) = range_len r.
Proof.
  intros H. unfold zlen, range_list. rewrite map_length, seq_length.
  destruct (range_len_nonneg r); lia.
Qed.

Lemma range_list_nth r i :
  r_step r <> 0 -> 0 <= i < range_len r ->
  znth (range_list r) i = Some (range_item r i).
Proof.
  intros Hs Hi. unfold znth. destruct (Z.ltb_spec i 0); [lia|].
  unfold range_list. rewrite nth_error_map.
  rewrite (nth_error_nth' _ 0%nat) by (rewrite seq_length; lia).
  rewrite seq_nth by lia. simpl. f_equal. f_equal. lia.
Qed.

Lemma range_list_In_idx r x :
  r_step r <> 0 ->
  (In x (range_list r) <-> exists i, 0 <= i < range_len r /\ x = range_item r i).
Proof.
  intros Hs. unfold range_list. rewrite in_map_iff. split.
  - intros (i & E & Hi). apply in_seq in Hi. exists (Z.of_nat i).
    split; [|congruence]. destruct (range_len_nonneg r); lia.
  - intros (i & Hi & E). exists (Z.to_nat i). rewrite Z2Nat.id by lia. split; [congruence|].
    apply in_seq. lia.
Qed.

Lemma range_list_In r x :
  r_step r <> 0 ->
  (In x (range_list r) <->
   (if 0 <? r_step r then r_start r <= x < r_stop r else r_stop r < x <= r_start r)
   /\ (x - r_start r) mod r_step r = 0).
Proof.
  intros Hs. rewrite range_list_In_idx by exact Hs. split.
  - intros (i & Hi & E). pose proof (proj1 (range_len_spec r i Hs (proj1 Hi)) (proj2 Hi)) as B.
    rewrite <- E in B. unfold range_item in E. subst x.
    split.
    + destruct (Z.ltb_spec 0 (r_step r)); nia.
    + replace (r_start r + i * r_step r - r_start r) with (i * r_step r) by lia.
      apply Z.mod_mul. exact Hs.
  - intros (B & M). exists ((x - r_start r) / r_step r).
    assert (E : x = range_item r ((x - r_start r) / r_step r)).
    { unfold range_item. pose proof (Z.div_mod (x - r_start r) (r_step r) Hs). lia. }
    assert (0 <= (x - r_start r) / r_step r).
    { pose proof (Z.div_mod (x - r_start r) (r_step r) Hs).
      destruct (Z.ltb_spec 0 (r_step r)); nia. }
    split; [|exact E]. split; [assumption|].
    apply range_len_spec; [assumption|assumption|]. rewrite <- E.
    destruct (Z.ltb_spec 0 (r_step r)); lia.
Qed.

Lemma range_item_inj r i j : r_step r <> 0 -> range_item r i = range_item r j -> i = j.
Proof. unfold range_item. intros. nia. Qed.

Lemma range_list_NoDup r : r_step r <> 0 -> NoDup (range_list r).
Proof.
  intros Hs. unfold range_list. apply FinFun.Injective_map_NoDup; [|apply seq_NoDup].
  intros i j E. apply range_item_inj in E; [lia|exact Hs].
Qed.

(** Slicing produces in-range indices. *)
Lemma slice_indices_step s n a b c : slice_indices s n = Ok (a, b, c) -> c <> 0.
Proof.
  unfold slice_indices. destruct (_ =? 0) eqn:E; [discriminate|].
  intros H. injection H as <- <- <-. apply Z.eqb_neq. exact E.
Qed.

Lemma slice_indices_bounds s n a b c :
  0 <= n -> slice_indices s n = Ok (a, b, c) ->
  if 0 <? c then 0 <= a <= n /\ 0 <= b <= n else -1 <= a <= n - 1 /\ -1 <= b <= n - 1.
Proof.
  intros Hn. unfold slice_indices, clamp_index.
  destruct (match sl_step s with None => 1 | Some k => k end =? 0) eqn:E; [discriminate|].
  intros H. injection H as <- <- <-. apply Z.eqb_neq in E.
  set (c := match sl_step s with None => 1 | Some k => k end) in *.
  destruct (Z.ltb_spec 0 c); destruct (Z.ltb_spec c 0); try lia;
  (destruct (sl_start s) as [k|]; [destruct (Z.ltb_spec k 0)|]);
  (destruct (sl_stop s) as [k'|]; [destruct (Z.ltb_spec k' 0)|]); lia.
Qed.

Lemma slice_indices_In s n a b c x :
  0 <= n -> slice_indices s n = Ok (a, b, c) ->
  In x (range_list (mkrange a b c)) -> 0 <= x < n.
Proof.
  intros Hn H Hx. pose proof (slice_indices_bounds _ _ _ _ _ Hn H) as B.
  pose proof (slice_indices_step _ _ _ _ _ H) as Hc.
  apply range_list_In in Hx; [|exact Hc]. simpl in Hx.
  destruct (Z.ltb_spec 0 c); lia.
Qed.

Lemma zlen_nonneg {A} (l : list A) : 0 <= zlen l.
Proof. unfold zlen. lia. Qed.

Lemma znth_Some {A} (l : list A) i : 0 <= i < zlen l -> exists a, znth l i = Some a.
Proof.
  unfold znth, zlen. intros H. destruct (Z.ltb_spec i 0); [lia|].
  destruct (nth_error l (Z.to_nat i)) eqn:E; [eauto|].
  apply nth_error_None in E. lia.
Qed.

Lemma znth_None {A} (l : list A) i : i < 0 \/ zlen l <= i -> znth l i = None.
Proof.
  unfold znth, zlen. intros H. destruct (Z.ltb_spec i 0); [reflexivity|].
  apply nth_error_None. lia.
Qed.

Lemma znth_Some_inv {A} (l : list A) i a : znth l i = Some a -> 0 <= i < zlen l.
Proof.
  unfold znth, zlen. destruct (Z.ltb_spec i 0); [discriminate|]. intros Q.
  assert (Q2 : nth_error l (Z.to_nat i) <> None) by congruence.
  apply nth_error_Some in Q2. lia.
Qed.

Lemma znth_map {A B} (f : A -> B) l i : znth (map f l) i = option_map f (znth l i).
Proof. unfold znth. destruct (i <? 0); [reflexivity|]. apply nth_error_map. Qed.

Lemma znth_ext {A} (l l' : list A) : (forall i, znth l i = znth l' i) -> l = l'.
Proof.
  revert l'. induction l as [|a l IH]; intros [|b l'] H.
  - reflexivity.
  - specialize (H 0). discriminate.
  - specialize (H 0). discriminate.
  - pose proof (H 0) as H0. unfold znth in H0. simpl in H0. injection H0 as ->.
    f_equal. apply IH. intros i. specialize (H (i + 1)). unfold znth in *.
    destruct (Z.ltb_spec i 0); [reflexivity|].
    destruct (Z.ltb_spec (i + 1) 0); [lia|].
    replace (Z.to_nat (i + 1)) with (S (Z.to_nat i)) in H by lia. exact H.
Qed.

Lemma somes_map_Some {A B} (f : A -> B) (g : A -> option B) l :
  (forall a, In a l -> g a = Some (f a)) -> somes (map g l) = map f l.
Proof.
  induction l as [|a l IH]; intros H; [reflexivity|].
  simpl. unfold somes in *. simpl. rewrite (H a (or_introl eq_refl)). simpl.
  f_equal. apply IH. intros b Hb. apply H. right; exact Hb.
Qed.

Lemma somes_all {A} (l : list (option A)) :
  (forall o, In o l -> o <> None) -> map Some (somes l) = l.
Proof.
  induction l as [|o l IH]; intros H; [reflexivity|].
  unfold somes. simpl. destruct o as [a|].
  - simpl. f_equal. apply IH. intros o' Ho. apply H. right; exact Ho.
  - exfalso. apply (H None); [left; reflexivity|reflexivity].
Qed.

Lemma somes_length {A} (l : list (option A)) :
  (forall o, In o l -> o <> None) -> length (somes l) = length l.
Proof. intros H. rewrite <- (map_length Some (somes l)), somes_all by exact H. reflexivity. Qed.

Lemma upd_length {A} (l : list A) n x : length (upd l n x) = length l.
Proof. revert n. induction l as [|a l IH]; intros [|n]; simpl; auto. Qed.

Lemma zupd_length {A} (l : list A) i x : zlen (zupd l i x) = zlen l.
Proof. unfold zlen, zupd. destruct (i <? 0); [reflexivity|]. rewrite upd_length. reflexivity. Qed.

Lemma nth_error_upd {A} (l : list A) n x m :
  nth_error (upd l n x) m =
  if (Nat.eqb n m && Nat.ltb m (length l))%bool then Some x else nth_error l m.
Proof.
  revert n m. induction l as [|a l IH]; intros [|n] [|m]; simpl; try reflexivity.
  - rewrite andb_false_r. reflexivity.
  - rewrite IH. reflexivity.
Qed.

Lemma znth_zupd {A} (l : list A) i x j :
  0 <= i < zlen l -> znth (zupd l i x) j = if j =? i then Some x else znth l j.
Proof.
  intros H. unfold znth, zupd, zlen in *.
  destruct (Z.ltb_spec i 0); [lia|].
  destruct (Z.ltb_spec j 0).
  - destruct (Z.eqb_spec j i); [lia|reflexivity].
  - rewrite nth_error_upd.
    destruct (Nat.eqb_spec (Z.to_nat i) (Z.to_nat j)); destruct (Z.eqb_spec j i); try lia; simpl.
    + destruct (Nat.ltb_spec (Z.to_nat j) (length l)); [reflexivity|lia].
    + reflexivity.
Qed.

Lemma zupd_out {A} (l : list A) i x : i < 0 \/ zlen l <= i -> zupd l i x = l.
Proof.
  intros H. unfold zupd, zlen in *. destruct (Z.ltb_spec i 0); [reflexivity|].
  destruct H as [H|H]; [lia|]. assert (length l <= Z.to_nat i)%nat by lia. clear - H1.
  revert H1. generalize (Z.to_nat i). induction l as [|a l IH]; intros n Hn; [reflexivity|].
  destruct n; simpl in *; [lia|]. f_equal. apply IH. lia.
Qed.

(** The value of a Python slice, position by position. *)
Lemma py_slice_nth {A} (l : list A) s v :
  py_slice l s = Ok v ->
  exists r, range_slice (range0 (zlen l)) s = Ok r /\ r_step r <> 0 /\
    zlen v = range_len r /\
    (forall x, In x (range_list r) -> 0 <= x < zlen l) /\
    forall i, 0 <= i < range_len r -> znth v i = znth l (range_item r i).
Proof.
  unfold py_slice, range_slice. intros H.
  assert (RL : range_len (range0 (zlen l)) = zlen l).
  { unfold range_len, range0. simpl. pose proof (zlen_nonneg l).
    destruct (Z.ltb_spec 0 (zlen l)); [|lia]. rewrite Z.div_1_r. lia. }
  rewrite RL. destruct (slice_indices s (zlen l)) as [[[a b] c]|e] eqn:E; [|discriminate].
  cbn [obind] in H. injection H as <-. cbn [obind].
  exists (mkrange a b c).
  assert (IN : forall x, In x (range_list (mkrange a b c)) -> 0 <= x < zlen l).
  { intros x Hx. eapply slice_indices_In; eauto. apply zlen_nonneg. }
  pose proof (slice_indices_step _ _ _ _ _ E) as Hc.
  assert (NN : forall o, In o (map (znth l) (range_list (mkrange a b c))) -> o <> None).
  { intros o Ho. apply in_map_iff in Ho as (x & <- & Hx). destruct (znth_Some l x (IN x Hx)). congruence. }
  split; [unfold range_item, range0; cbn [r_start r_stop r_step]; f_equal; f_equal; lia|]. split; [exact Hc|]. split; [|split; [exact IN|]].
  - unfold zlen. rewrite somes_length by exact NN. rewrite map_length.
    apply range_list_length. exact Hc.
  - intros i Hi.
    assert (Q : znth (map Some (somes (map (znth l) (range_list (mkrange a b c))))) i
                = Some (znth l (range_item (mkrange a b c) i))).
    { rewrite somes_all by exact NN. rewrite znth_map, range_list_nth by (assumption || exact Hc).
      reflexivity. }
    rewrite znth_map in Q. destruct (znth (somes _) i); simpl in Q; congruence.
Qed.

Lemma nth_error_ext {A} (l l' : list A) : (forall i, nth_error l i = nth_error l' i) -> l = l'.
Proof.
  revert l'. induction l as [|a l IH]; intros [|b l'] H.
  - reflexivity.
  - specialize (H 0%nat). discriminate.
  - specialize (H 0%nat). discriminate.
  - pose proof (H 0%nat) as H0. simpl in H0. injection H0 as ->. f_equal. apply IH. intros i. apply (H (S i)).
Qed.

Lemma skipn_nth {A} (l : list A) n x : nth_error l n = Some x -> x :: skipn (S n) l = skipn n l.
Proof.
  revert n. induction l as [|y l IH]; intros [|n] N; try discriminate.
  - simpl in N. injection N as ->. reflexivity.
  - exact (IH n N).
Qed.
