From Coq Require Import String List Bool ZArith Lia.
From Verif Require Import Base BaseProofs CollModel CollProofs BindModel FunModel FunSpec FunProofs.
Import ListNotations.
Open Scope list_scope.
Open Scope Z_scope.

(** ** slices with step 1 *)
Lemma znth_skipn {A} (l : list A) k i : 0 <= k -> 0 <= i -> znth (skipn (Z.to_nat k) l) i = znth l (k + i).
Proof.
  intros H1 H2. unfold znth. destruct (Z.ltb_spec i 0), (Z.ltb_spec (k + i) 0); try lia.
  replace (Z.to_nat (k + i)) with (Z.to_nat k + Z.to_nat i)%nat by lia.
  generalize (Z.to_nat k) (Z.to_nat i). clear. induction l as [|a l IH]; intros [|m] j; cbn; auto.
  - destruct j; reflexivity.
Qed.
Lemma znth_firstn {A} (l : list A) k i : 0 <= i < k -> znth (firstn (Z.to_nat k) l) i = znth l i.
Proof.
  intros H. unfold znth. destruct (Z.ltb_spec i 0); [lia|].
  assert (Z.to_nat i < Z.to_nat k)%nat by lia. revert H1.
  generalize (Z.to_nat k) (Z.to_nat i). clear. induction l as [|a l IH]; intros [|m] j Q; cbn; auto; try lia.
  destruct j; cbn; [reflexivity|]. apply IH. lia.
Qed.
Lemma zlen_skipn {A} (l : list A) k : 0 <= k <= zlen l -> zlen (skipn (Z.to_nat k) l) = zlen l - k.
Proof. unfold zlen. intros H. rewrite skipn_length. lia. Qed.
Lemma zlen_firstn {A} (l : list A) k : 0 <= k <= zlen l -> zlen (firstn (Z.to_nat k) l) = k.
Proof. unfold zlen. intros H. rewrite firstn_length. lia. Qed.
Lemma znth_app1 {A} (l m : list A) i : 0 <= i < zlen l -> znth (l ++ m) i = znth l i.
Proof. unfold znth, zlen. intros H. destruct (Z.ltb_spec i 0); [lia|]. apply nth_error_app1. lia. Qed.
Lemma znth_app2 {A} (l m : list A) i : zlen l <= i -> znth (l ++ m) i = znth m (i - zlen l).
Proof.
  unfold znth, zlen. intros H. destruct (Z.ltb_spec i 0), (Z.ltb_spec (i - Z.of_nat (length l)) 0); try lia.
  rewrite nth_error_app2 by lia. f_equal. lia.
Qed.
Lemma zlen_app {A} (l m : list A) : zlen (l ++ m) = zlen l + zlen m.
Proof. unfold zlen. rewrite app_length. lia. Qed.
Lemma znth_ext2 {A} (l m : list A) : zlen l = zlen m -> (forall i, 0 <= i < zlen l -> znth l i = znth m i) -> l = m.
Proof.
  intros H E. apply znth_ext. intros i. destruct (Z_lt_ge_dec i 0); [rewrite !znth_None by lia; reflexivity|].
  destruct (Z_lt_ge_dec i (zlen l)); [apply E; lia|]. rewrite !znth_None by lia. reflexivity.
Qed.

Lemma range1_len a b : a <= b -> range_len (mkrange a b 1) = b - a.
Proof.
  intros H. unfold range_len. cbn [r_step r_start r_stop]. rewrite (proj2 (Z.ltb_lt 0 1)) by lia.
  destruct (Z.ltb_spec a b); [rewrite Z.div_1_r; lia|lia].
Qed.
Lemma slice_run {A} (l : list A) sl a b :
  slice_indices sl (zlen l) = Ok (a, b, 1) -> 0 <= a <= b -> b <= zlen l ->
  py_slice l sl = Ok (firstn (Z.to_nat (b - a)) (skipn (Z.to_nat a) l)).
Proof.
  intros E H1 H2. destruct (py_slice l sl) as [v|e] eqn:Q; [|unfold py_slice in Q; rewrite E in Q; discriminate].
  f_equal. destruct (py_slice_nth _ _ _ Q) as (r & Er & _ & Lv & _ & Nv).
  unfold range_slice in Er.
  assert (R0 : range_len (range0 (zlen l)) = zlen l).
  { unfold range0. rewrite range1_len by apply zlen_nonneg. lia. }
  rewrite R0, E in Er. cbn [obind] in Er.
  assert (Er2 : r = mkrange a b 1).
  { unfold range_item, range0 in Er. cbn [r_start r_step] in Er.
    replace (0 + a * 1) with a in Er by lia. replace (0 + b * 1) with b in Er by lia.
    replace (1 * 1) with 1 in Er by lia. congruence. }
  subst r. rewrite range1_len in Lv, Nv by lia.
  assert (L2 : zlen (firstn (Z.to_nat (b - a)) (skipn (Z.to_nat a) l)) = b - a).
  { apply zlen_firstn. rewrite zlen_skipn by lia. lia. }
  apply znth_ext2; [congruence|]. intros i Hi. rewrite Lv in Hi. rewrite Nv by lia.
  rewrite znth_firstn, znth_skipn by lia. unfold range_item. cbn. f_equal. lia.
Qed.
Lemma slice_from {A} (l : list A) k : 0 <= k <= zlen l ->
  py_slice l (mkslice (Some k) None None) = Ok (skipn (Z.to_nat k) l).
Proof.
  intros H. rewrite slice_run with (a := k) (b := zlen l); try lia.
  - f_equal. rewrite firstn_all2; [reflexivity|]. rewrite skipn_length. unfold zlen in *. lia.
  - unfold slice_indices. cbn. unfold clamp_index. destruct (Z.ltb_spec k 0); [lia|]. do 3 f_equal. lia.
Qed.
Lemma slice_to {A} (l : list A) k : 0 <= k <= zlen l ->
  py_slice l (mkslice None (Some k) None) = Ok (firstn (Z.to_nat k) l).
Proof.
  intros H. rewrite slice_run with (a := 0) (b := k); try lia.
  - cbn. rewrite Z.sub_0_r. reflexivity.
  - unfold slice_indices. cbn. unfold clamp_index. destruct (Z.ltb_spec k 0); [lia|]. do 3 f_equal. lia.
Qed.
Lemma slice_from_neg {A} (l : list A) k : 0 < k <= zlen l ->
  py_slice l (mkslice (Some (- k)) None None) = Ok (skipn (Z.to_nat (zlen l - k)) l).
Proof.
  intros H. rewrite slice_run with (a := zlen l - k) (b := zlen l); try lia.
  - f_equal. rewrite firstn_all2; [reflexivity|]. rewrite skipn_length. unfold zlen in *. lia.
  - unfold slice_indices. cbn -[Z.opp]. unfold clamp_index. destruct (Z.ltb_spec (- k) 0); [|lia]. do 3 f_equal. lia.
Qed.
Lemma slice_to_neg {A} (l : list A) k : 0 < k <= zlen l ->
  py_slice l (mkslice None (Some (- k)) None) = Ok (firstn (Z.to_nat (zlen l - k)) l).
Proof.
  intros H. rewrite slice_run with (a := 0) (b := zlen l - k); try lia.
  - cbn [skipn Z.to_nat]. rewrite Z.sub_0_r. reflexivity.
  - unfold slice_indices. cbn -[Z.opp]. unfold clamp_index. destruct (Z.ltb_spec (- k) 0); [|lia]. do 3 f_equal. lia.
Qed.

(** ** rotate *)
Lemma neg_mod k n : 0 < n -> (- k) mod n = if k mod n =? 0 then 0 else n - k mod n.
Proof.
  intros H. destruct (Z.eqb_spec (k mod n) 0) as [E|E].
  - apply Z.mod_opp_l_z; lia.
  - apply Z.mod_opp_l_nz; lia.
Qed.
Lemma rotate_eq {A} (k : Z) (args : list A) : - zlen args < k < zlen args ->
  rotate_args k args =
  Ok (skipn (Z.to_nat (k mod zlen args)) args ++ firstn (Z.to_nat (k mod zlen args)) args).
Proof.
  intros H. unfold rotate_args. destruct (Z.eqb_spec (zlen args) 0); [lia|].
  rewrite (proj2 (Z.ltb_lt _ _)), (proj2 (Z.ltb_lt _ _)) by lia. cbn [andb negb].
  pose proof (zlen_nonneg args). rewrite neg_mod by lia.
  pose proof (Z.mod_pos_bound k (zlen args)) as B.
  destruct (Z.eqb_spec (k mod zlen args) 0) as [E|E].
  - rewrite E. cbn [Z.opp]. rewrite slice_from, slice_to by lia. reflexivity.
  - rewrite slice_from_neg, slice_to_neg by lia. cbn [obind].
    replace (zlen args - (zlen args - k mod zlen args)) with (k mod zlen args) by lia. reflexivity.
Qed.
Lemma rotate_shifted {A} (k : Z) (args : list A) : - zlen args < k < zlen args ->
  exists l, rotate_args k args = Ok l /\ shifted k args l.
Proof.
  intros H. eexists. split; [now apply rotate_eq|]. pose proof (zlen_nonneg args).
  pose proof (Z.mod_pos_bound k (zlen args)) as B. set (p := k mod zlen args) in *.
  split.
  - rewrite app_length, skipn_length, firstn_length. unfold zlen in *. lia.
  - intros i Hi. destruct (Z_lt_ge_dec i (zlen args - p)) as [Q|Q].
    + rewrite znth_app1 by (rewrite zlen_skipn; lia). rewrite znth_skipn by lia. f_equal.
      rewrite <- Zplus_mod_idemp_r. fold p. rewrite Z.mod_small by lia. lia.
    + rewrite znth_app2 by (rewrite zlen_skipn; lia). rewrite zlen_skipn by lia.
      rewrite znth_firstn by lia. f_equal.
      rewrite <- Zplus_mod_idemp_r. fold p.
      apply Z.mod_unique_pos with (q := 1); lia.
Qed.
Lemma shifted_trans {A} j k (a b c : list A) : shifted j a b -> shifted k b c -> shifted (j + k) a c.
Proof.
  intros [L1 H1] [L2 H2]. split; [congruence|]. intros i Hi.
  assert (LB : zlen b = zlen a) by (unfold zlen; lia).
  rewrite H2 by lia. rewrite LB. rewrite H1 by (apply Z.mod_pos_bound; lia).
  f_equal. rewrite Zplus_mod_idemp_l. f_equal. lia.
Qed.
Lemma shifted_inj {A} k (a b c : list A) : shifted k a b -> shifted k a c -> b = c.
Proof.
  intros [L1 H1] [L2 H2]. apply znth_ext2; [unfold zlen; lia|]. intros i Hi.
  assert (zlen b = zlen a) by (unfold zlen; lia). rewrite H1, H2 by lia. reflexivity.
Qed.
Lemma shifted_mod {A} k (a b : list A) : shifted k a b <-> shifted (k mod zlen a) a b.
Proof.
  unfold shifted. split; intros [L H]; (split; [exact L|]); intros i Hi; rewrite H by exact Hi; f_equal;
    rewrite Zplus_mod_idemp_r; reflexivity.
Qed.
Lemma rotate_rotate {A} j k (args : list A) l1 l2 :
  rotate_args k args = Ok l1 -> rotate_args j l1 = Ok l2 -> shifted (k + j) args l2.
Proof.
  intros E1 E2.
  assert (R : forall (m : Z) (x y : list A), rotate_args m x = Ok y -> shifted m x y).
  { intros m x y E. destruct (Z_lt_ge_dec (- zlen x) m) as [a|a], (Z_lt_ge_dec m (zlen x)) as [b|b].
    1: { destruct (rotate_shifted m x (conj a b)) as (l & El & Sl). congruence. }
    all: exfalso; unfold rotate_args in E; destruct (zlen x =? 0); try discriminate;
      destruct (Z.ltb_spec (- zlen x) m), (Z.ltb_spec m (zlen x)); try lia; discriminate. }
  eapply shifted_trans; eauto.
Qed.
Lemma rotate_out {A} k (args : list A) : args <> [] -> k <= - zlen args \/ zlen args <= k ->
  rotate_args k args = Raise IndexError.
Proof.
  intros N H. unfold rotate_args. destruct (Z.eqb_spec (zlen args) 0) as [E|E].
  - destruct args; [congruence|]. unfold zlen in E. cbn in E. lia.
  - destruct (Z.ltb_spec (- zlen args) k), (Z.ltb_spec k (zlen args)); try lia; reflexivity.
Qed.

Section Args.
Context {D S : Type}.
Implicit Types (f g : func D S) (v : val D) (fs : list (func D S)).

(** ** tokth *)
Lemma py_index_app {A} (a : list A) x b : py_index (a ++ x :: b) (zlen a) = Ok x.
Proof.
  unfold py_index. pose proof (zlen_nonneg a). destruct (Z.ltb_spec (zlen a) 0); [lia|].
  rewrite znth_app2, Z.sub_diag by lia. reflexivity.
Qed.
Lemma tokth_eq k f before x after ctx kw s :
  k = zlen before \/ (k = - zlen (x :: after) /\ before <> []) ->
  code (tokth k f) ctx (before ++ x :: after) kw s =
  match code f ctx [x] [] s with
  | (Ok y, s') => (Ok (Vals (before ++ y :: after) kw), s')
  | (Raise e, s') => (Raise e, s')
  end.
Proof.
  intros H. cbn [tokth code].
  assert (L : zlen (before ++ x :: after) = zlen before + zlen after + 1)
    by (rewrite zlen_app; unfold zlen; cbn; lia).
  pose proof (zlen_nonneg before) as P1. pose proof (zlen_nonneg after) as P2.
  assert (PX : zlen (x :: after) = zlen after + 1) by (unfold zlen; cbn; lia).
  assert (PB : before <> [] -> 0 < zlen before).
  { destruct before; [congruence|]. intros _. unfold zlen. cbn. lia. }
  assert (K : - zlen (before ++ x :: after) < k < zlen (before ++ x :: after)).
  { destruct H as [H|[H Q]]; [|specialize (PB Q)]; lia. }
  assert (J : k mod zlen (before ++ x :: after) = zlen before).
  { rewrite L. destruct H as [H|[H _]].
    - rewrite Z.mod_small; lia.
    - symmetry. apply Z.mod_unique_pos with (q := -1); lia. }
  destruct (Z.eqb_spec (zlen (before ++ x :: after)) 0); [lia|].
  rewrite (proj2 (Z.ltb_lt _ _)), (proj2 (Z.ltb_lt _ _)) by lia. cbn [andb negb]. rewrite J.
  unfold bind_, lift. rewrite slice_to by lia. rewrite py_index_app.
  assert (F : firstn (Z.to_nat (zlen before)) (before ++ x :: after) = before).
  { unfold zlen. rewrite Nat2Z.id, firstn_app, Nat.sub_diag. cbn. rewrite firstn_all, app_nil_r. reflexivity. }
  rewrite F. destruct (code f ctx [x] [] s) as [[y|e] s']; [|reflexivity].
  assert (B : (if zlen before + 1 <? zlen (before ++ x :: after)
               then lift (py_slice (before ++ x :: after) (mkslice (Some (zlen before + 1)) None None))
               else ret_ []) s' = (Ok after, s')).
  { destruct (Z.ltb_spec (zlen before + 1) (zlen (before ++ x :: after))).
    - unfold lift. rewrite slice_from by lia. do 2 f_equal.
      unfold zlen. replace (Z.to_nat (Z.of_nat (length before) + 1)) with (length before + 1)%nat by lia.
      rewrite skipn_app, skipn_all2 by lia. replace (length before + 1 - length before)%nat with 1%nat by lia.
      reflexivity.
    - assert (after = []) as ->; [|reflexivity]. destruct after; [reflexivity|]. unfold zlen in *. cbn in *. lia. }
  unfold lift in B. rewrite B. unfold ret_. rewrite <- app_assoc. reflexivity.
Qed.
Lemma to1st_eq f x after ctx kw s :
  code (to1st f) ctx (x :: after) kw s =
  match code f ctx [x] [] s with
  | (Ok y, s') => (Ok (Vals (y :: after) kw), s')
  | (Raise e, s') => (Raise e, s')
  end.
Proof. apply (tokth_eq 0 f [] x after). left. reflexivity. Qed.
Lemma to2nd_eq f w x after ctx kw s :
  code (to2nd f) ctx (w :: x :: after) kw s =
  match code f ctx [x] [] s with
  | (Ok y, s') => (Ok (Vals (w :: y :: after) kw), s')
  | (Raise e, s') => (Raise e, s')
  end.
Proof. apply (tokth_eq 1 f [w] x after). left. reflexivity. Qed.
Lemma tolast_eq f w before x ctx kw s :
  code (tolast f) ctx ((w :: before) ++ [x]) kw s =
  match code f ctx [x] [] s with
  | (Ok y, s') => (Ok (Vals ((w :: before) ++ [y]) kw), s')
  | (Raise e, s') => (Raise e, s')
  end.
Proof. apply (tokth_eq (-1) f (w :: before) x []). right. split; [reflexivity|discriminate]. Qed.
Lemma tolast_one f x ctx kw s : code (tolast f) ctx [x] kw s = (Raise IndexError, s).
Proof. reflexivity. Qed.
Lemma to_eq k f specs : exists c, to ((k, f) :: specs) = Ok c /\ forall ctx args kw s,
  code c ctx args kw s = chain ctx (tokth k f) (map (fun kf => tokth (fst kf) (snd kf)) specs) args kw s.
Proof.
  unfold to. cbn [map fst snd].
  destruct (composel_ok (tokth k f) (map (fun kf => tokth (fst kf) (snd kf)) specs)) as (c & E & _ & C).
  - left. reflexivity.
  - constructor; [reflexivity|]. apply Forall_forall. intros g H. apply in_map_iff in H as (? & <- & _). reflexivity.
  - exists c. auto.
Qed.

(** ** flip, apply *)
Lemma flip_flip f : same (flip (flip f)) f.
Proof. intros ctx args kw s. cbn. rewrite rev_involutive. reflexivity. Qed.
Lemma apply_eq items ctx f front (v : val D) l kw s : items v = Ok l ->
  match front ++ [v] with
  | arg0 :: more => apply items ctx f arg0 more kw s
  | [] => (Raise TypeError, s)
  end = code f ctx (front ++ l) kw s.
Proof.
  intros E. destruct front as [|a front]; cbn [app].
  - cbn. unfold bind_, lift. rewrite E. reflexivity.
  - unfold apply. rewrite rev_app_distr. cbn [rev app]. unfold bind_, lift. rewrite E, rev_involutive. reflexivity.
Qed.

(** ** logic *)
Variable truthy : val D -> bool.
Variables tt_ ff : D.
Hypothesis Ht : truthy (Obj tt_) = true.
Hypothesis Hf : truthy (Obj ff) = false.
Lemma notf_eq f ctx args kw s :
  code (notf truthy tt_ ff f) ctx args kw s =
  match code f ctx args kw s with
  | (Ok v, s') => (Ok (if truthy v then Obj ff else Obj tt_), s')
  | (Raise e, s') => (Raise e, s')
  end.
Proof.
  cbn. unfold bind_, ret_, pybool. destruct (code f ctx args kw s) as [[v|e] s']; [|reflexivity].
  destruct (truthy v); reflexivity.
Qed.
Lemma conj_eq fs ctx args kw b s : truthy b = true ->
  conj_loop truthy tt_ ff ctx args kw b fs s =
  match call_until (fun v => negb (truthy v)) ctx args kw fs s with
  | (Ok vs, s') => (Ok (if forallb truthy vs then last vs b else Obj ff), s')
  | (Raise e, s') => (Raise e, s')
  end.
Proof.
  revert b s. induction fs as [|f fs IH]; intros b s Hb; [reflexivity|].
  cbn [conj_loop call_until]. unfold bind_. rewrite Hb.
  destruct (code f ctx args kw s) as [[v|e] s']; [|reflexivity].
  destruct (truthy v) eqn:Ev; cbn [negb].
  - rewrite IH by exact Ev. destruct (call_until _ _ _ _ fs s') as [[vs|e] s'']; [|reflexivity].
    cbn [forallb]. rewrite Ev. cbn [andb].
    assert (LQ : last (v :: vs) b = last vs v).
    { clear. revert v b. induction vs as [|w vs IH]; intros v b; [reflexivity|].
      change (last (v :: w :: vs) b) with (last (w :: vs) b). rewrite !IH. reflexivity. }
    rewrite LQ. reflexivity.
  - cbn [forallb]. rewrite Ev. reflexivity.
Qed.
Lemma andf_eq fs ctx args kw s :
  code (andf truthy tt_ ff fs) ctx args kw s =
  match call_until (fun v => negb (truthy v)) ctx args kw fs s with
  | (Ok vs, s') => (Ok (if forallb truthy vs then last vs (Obj tt_) else Obj ff), s')
  | (Raise e, s') => (Raise e, s')
  end.
Proof. apply conj_eq. exact Ht. Qed.
Lemma disj_eq fs ctx args kw b s : truthy b = false ->
  disj_loop truthy tt_ ff ctx args kw b fs s =
  match call_until truthy ctx args kw fs s with
  | (Ok vs, s') => (Ok (if existsb truthy vs then last vs b else Obj ff), s')
  | (Raise e, s') => (Raise e, s')
  end.
Proof.
  revert b s. induction fs as [|f fs IH]; intros b s Hb; [reflexivity|].
  cbn [disj_loop call_until]. unfold bind_. rewrite Hb.
  destruct (code f ctx args kw s) as [[v|e] s']; [|reflexivity].
  destruct (truthy v) eqn:Ev.
  - cbn [existsb]. rewrite Ev. reflexivity.
  - rewrite IH by exact Ev. destruct (call_until _ _ _ _ fs s') as [[vs|e] s'']; [|reflexivity].
    cbn [existsb]. rewrite Ev. cbn [orb]. destruct (existsb truthy vs) eqn:Ex; [|reflexivity].
    destruct vs as [|w vs]; [discriminate|].
    change (last (v :: w :: vs) b) with (last (w :: vs) b).
    assert (LQ : forall (l : list (val D)) y d d', last (y :: l) d = last (y :: l) d').
    { clear. induction l as [|z l IH]; intros y d d'; [reflexivity|].
      change (last (y :: z :: l) d) with (last (z :: l) d).
      change (last (y :: z :: l) d') with (last (z :: l) d'). apply IH. }
    rewrite (LQ vs w v b). reflexivity.
Qed.
Lemma orf_eq fs ctx args kw s :
  code (orf truthy tt_ ff fs) ctx args kw s =
  match call_until truthy ctx args kw fs s with
  | (Ok vs, s') => (Ok (if existsb truthy vs then last vs (Obj ff) else Obj ff), s')
  | (Raise e, s') => (Raise e, s')
  end.
Proof. apply disj_eq. exact Hf. Qed.

End Args.

(** ** Values *)
Section Kget.
Context {D : Type}.
Lemma kget_in (k : kwvals D) n x : NoDup (map fst k) -> In (n, x) k -> kget k n = Some x.
Proof.
  unfold kget. induction k as [|[m y] k IH]; cbn; intros N E; [destruct E|destruct E as [E|E]].
  - injection E as -> ->. rewrite String.eqb_refl. reflexivity.
  - inversion N; subst. destruct (String.eqb_spec m n) as [->|Q].
    + exfalso. apply H1. apply in_map_iff. exists (n, x). auto.
    + auto.
Qed.
Lemma kget_some_in (k : kwvals D) n x : kget k n = Some x -> In (n, x) k.
Proof.
  unfold kget. induction k as [|[m y] k IH]; cbn; [discriminate|].
  destruct (String.eqb_spec m n) as [->|Q]; [intros [= ->]; auto|auto].
Qed.
Lemma kget_none (k : kwvals D) n : kget k n = None <-> ~ In n (map fst k).
Proof.
  unfold kget. induction k as [|[m y] k IH]; cbn; [tauto|].
  destruct (String.eqb_spec m n) as [->|Q]; split; intros H; try discriminate.
  - exfalso. apply H. auto.
  - apply IH in H. intros [E|E]; auto.
  - apply IH. intros E. apply H. auto.
Qed.
End Kget.
Section ValEq.
Context {D : Type}.
Variable deq : D -> D -> bool.
Lemma vals_eq_iff r k r' k' : NoDup (map fst k) -> NoDup (map fst k') ->
  (val_eqb deq (Vals r k) (Vals r' k') = true <->
   Forall2 (fun x y => val_eqb deq x y = true) r r' /\
   same_named (fun x y => val_eqb deq x y = true) k k').
Proof.
  intros N N'. cbn [val_eqb]. rewrite !andb_true_iff, Nat.eqb_eq.
  set (gr := fix go (l l' : list (val D)) : bool := match l, l' with
         | [], [] => true
         | x :: l0, y :: l0' => val_eqb deq x y && go l0 l0'
         | _, _ => false end).
  set (gk := fix go (l : list (pname * val D)) : bool := match l with
          | [] => true
          | (n, x) :: l0 => match kget k' n with Some y => val_eqb deq x y | None => false end && go l0 end).
  assert (A : forall l l', gr l l' = true <-> Forall2 (fun x y => val_eqb deq x y = true) l l').
  { induction l as [|x l IH]; intros [|y l']; cbn; split; intros H; try discriminate; try constructor;
      try (inversion H; fail).
    - apply andb_true_iff in H. tauto.
    - apply andb_true_iff in H. apply IH. tauto.
    - inversion H; subst. apply andb_true_iff. split; [assumption|]. apply IH. assumption. }
  assert (B : forall l, gk l = true <-> forall n x, In (n, x) l -> exists y, kget k' n = Some y /\ val_eqb deq x y = true).
  { induction l as [|[m y] l IH]; cbn; split; intros H; auto.
    - intros ? ? [].
    - apply andb_true_iff in H as [H1 H2]. intros n x [E|E].
      + injection E as -> ->. destruct (kget k' n) as [z|]; [eauto|discriminate].
      + apply (proj1 IH H2). exact E.
    - apply andb_true_iff. split.
      + destruct (H m y (or_introl eq_refl)) as (z & -> & E). exact E.
      + apply IH. intros n x E. apply H. auto. }
  rewrite A, B. split; (intros [H1 H2]; split; [exact H1|]).
  - destruct H2 as [L H2]. intros n. destruct (kget k n) as [x|] eqn:E1.
    + destruct (H2 n x (kget_some_in _ _ _ E1)) as (y & -> & E). exact E.
    + destruct (kget k' n) as [y|] eqn:E2; [|exact I].
      apply kget_none in E1. apply E1. apply kget_some_in in E2.
      assert (I2 : incl (map fst k') (map fst k)).
      { apply NoDup_length_incl; [exact N| |].
        - rewrite !map_length. lia.
        - intros m M. apply in_map_iff in M as ([m' x] & <- & M). destruct (H2 _ _ M) as (z & Z1 & _).
          apply kget_some_in in Z1. apply in_map_iff. exists (m', z). auto. }
      apply I2. apply in_map_iff. exists (n, y). auto.
  - split.
    + rewrite <- (map_length fst k), <- (map_length fst k').
      apply Nat.le_antisymm; apply NoDup_incl_length; try assumption; intros m M.
      * destruct (in_dec string_dec m (map fst k')) as [Q|Q]; [exact Q|].
        apply kget_none in Q. specialize (H2 m). rewrite Q in H2.
        destruct (kget k m) eqn:E; [destruct H2|]. apply kget_none in E. contradiction.
      * destruct (in_dec string_dec m (map fst k)) as [Q|Q]; [exact Q|].
        apply kget_none in Q. specialize (H2 m). rewrite Q in H2.
        destruct (kget k' m) eqn:E; [destruct H2|]. apply kget_none in E. contradiction.
    + intros n x E. apply (kget_in k n x N) in E. specialize (H2 n). rewrite E in H2.
      destruct (kget k' n) as [y|]; [eauto|destruct H2].
Qed.
End ValEq.

Section More.
Context {D S : Type}.
Lemma subscript_ok (r : list (val D)) k :
  NoDup (map fst k) ->
  (forall i x, (0 <= i)%Z -> znth r i = Some x ->
     vals_getitem r k (SInt i) = Ok [x] /\ vals_getitem r k (SInt (i - zlen r)) = Ok [x]) /\
  (forall i, (i < - zlen r \/ zlen r <= i)%Z -> vals_getitem r k (SInt i) = Raise IndexError) /\
  (forall n x, In (n, x) k -> vals_getitem r k (SStr n) = Ok [x] /\ vals_contains k n = true) /\
  (forall n, ~ In n (map fst k) -> vals_getitem r k (SStr n) = Raise KeyError /\ vals_contains k n = false) /\
  vals_getitem r k SOther = Raise TypeError.
Proof.
  intros N. split; [|split; [|split; [|split; [|reflexivity]]]].
  - intros i x Hi E. pose proof (znth_Some_inv _ _ _ E) as B. cbn. unfold py_index.
    destruct (Z.ltb_spec i 0); [lia|]. rewrite E. split; [reflexivity|].
    destruct (Z.ltb_spec (i - zlen r) 0); [|lia]. replace (i - zlen r + zlen r) with i by lia.
    rewrite E. reflexivity.
  - intros i H. cbn. unfold py_index. pose proof (zlen_nonneg r).
    destruct (Z.ltb_spec i 0); rewrite znth_None by lia; reflexivity.
  - intros n x H. cbn. unfold vals_contains, khas. rewrite (kget_in k n x N H). split; reflexivity.
  - intros n H. apply kget_none in H. cbn. unfold vals_contains, khas. rewrite H. split; reflexivity.
Qed.
Lemma valuify_ok (items : D -> option (list (val D))) (f : func D S) ctx args kw s :
  match code f ctx args kw s with
  | (Ok (Obj d), s') =>
      match items d with
      | Some l => code (valuify items f) ctx args kw s = (Ok (Vals l []), s')
      | None => code (valuify items f) ctx args kw s = (Ok (Obj d), s')
      end
  | r => code (valuify items f) ctx args kw s = r
  end.
Proof.
  cbn. unfold bind_, ret_. destruct (code f ctx args kw s) as [[[d|r k]|e] s']; try reflexivity.
  destruct (items d); reflexivity.
Qed.
Lemma rotate_ok k (f : func D S) ctx args kw s :
  (- zlen args < k < zlen args)%Z ->
  exists l, shifted k args l /\ code (rotate k f) ctx args kw s = code f ctx l kw s.
Proof.
  intros H. destruct (rotate_shifted k args H) as (l & E & Sh). exists l. split; [exact Sh|].
  cbn. unfold bind_, lift. rewrite E. reflexivity.
Qed.
Lemma rotate_twice j k (f : func D S) ctx args kw s :
  (- zlen args < k < zlen args)%Z -> (- zlen args < j < zlen args)%Z ->
  exists l, shifted (k + j) args l /\ code (rotate k (rotate j f)) ctx args kw s = code f ctx l kw s /\
  ((- zlen args < k + j < zlen args)%Z ->
   code (rotate k (rotate j f)) ctx args kw s = code (rotate (k + j) f) ctx args kw s).
Proof.
  intros Hk Hj. destruct (rotate_ok k (rotate j f) ctx args kw s Hk) as (l & Sl & E).
  assert (L : zlen l = zlen args) by (destruct Sl as [L _]; unfold zlen; lia).
  destruct (rotate_ok j f ctx l kw s) as (m & Sm & E2); [lia|].
  pose proof (shifted_trans _ _ _ _ _ Sl Sm) as T.
  exists m. split; [exact T|]. split; [congruence|]. intros H.
  destruct (rotate_ok (k + j) f ctx args kw s H) as (m' & Sm' & E3).
  rewrite E3, E, E2. rewrite (shifted_inj _ _ _ _ T Sm'). reflexivity.
Qed.
Lemma rotate_range k (f : func D S) ctx args kw s :
  (args = [] -> code (rotate k f) ctx args kw s = (Raise TypeError, s)) /\
  (args <> [] -> (k <= - zlen args \/ zlen args <= k)%Z ->
   code (rotate k f) ctx args kw s = (Raise IndexError, s)).
Proof.
  split.
  - intros ->. reflexivity.
  - intros N H. cbn. unfold bind_, lift. rewrite rotate_out by assumption. reflexivity.
Qed.
End More.

Lemma vals_get_ok : forall (D : Type) (k : kwvals D) n d, NoDup (map fst k) ->
  (forall x, In (n, x) k -> vals_get k n d = x) /\ (~ In n (map fst k) -> vals_get k n d = d).
Proof.
  intros D k n d ND. pose proof (subscript_ok ([] : list (val D)) k ND) as (_ & _ & H1 & H2 & _). unfold vals_get. cbn in H1, H2. split.
  - intros x Hx. destruct (H1 n x Hx) as [E _]. destruct (kget k n); congruence.
  - intros Hn. destruct (H2 n Hn) as [E _]. destruct (kget k n); congruence.
Qed.
Lemma identity_ok : forall (D S : Type) none (f : func D S) ctx args kw s,
  (args = [] -> kw <> []) -> (forall x, args = [x] -> kw = [] -> exists d, x = Obj d) ->
  call_unpacked f ctx (identity none args kw) s = code f ctx args kw s.
Proof.
  intros D S none f ctx args kw s H1 H2. destruct args as [|x [|y args]]; destruct kw as [|k kw]; cbn; try reflexivity.
  - exfalso. now apply H1.
  - destruct (H2 x eq_refl eq_refl) as [d ->]. reflexivity.
Qed.

Lemma results_compose (D S : Type) (f : func D S) k items none args kw truthy tt_ ff fs :
  (forall g, In g [flip f; rotate k f; valuify items f] -> curried g = curried f /\ composel [g] = Ok g) /\
  (forall g, In g [tokth k f; const none args kw; notf truthy tt_ ff f; andf truthy tt_ ff fs; orf truthy tt_ ff fs] ->
     curried g = false /\ composel [g] = Ok g).
Proof. split; intros g I; simpl in I; repeat destruct I as [<-|I]; try (split; reflexivity); destruct I. Qed.
