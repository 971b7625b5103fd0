From Coq Require Import List Bool ZArith Arith Lia Permutation.
From Verif Require Import Base BaseProofs ItrModel FoldModel FoldProofs LLModel LLSpec.
Import ListNotations.
Open Scope nat_scope.

Section P.
Context {A : Type}.
Implicit Types (v w : val A) (l : list (val A)).

Lemma fold_left_singles' {B X} (f : B -> X -> X) (p : list B -> X -> X) (l : list B) :
  (forall x a, p [x] a = f x a) -> forall acc,
  fold_right p acc (map (fun x => [x]) l) = fold_right f acc l.
Proof. intros H acc. induction l as [|x l IH]; [reflexivity|]. simpl. now rewrite H, IH. Qed.
Lemma foldr_cons l t : foldr (@consproc A) t None [l] = chain l t.
Proof.
  rewrite foldr_eq. cbn [rows]. rewrite zip_single, (fold_left_singles' Cons) by reflexivity.
  induction l as [|x l IH]; [reflexivity|]. simpl. now rewrite IH.
Qed.
Lemma chain_app l l' t : chain (l ++ l') t = chain l (chain l' t).
Proof. induction l as [|x l IH]; [reflexivity|]. simpl. now rewrite IH. Qed.
Lemma lreverse_eq l : lreverse l = lst (rev l).
Proof.
  unfold lreverse. rewrite foldl_eq. cbn [rows]. rewrite zip_single, (fold_left_singles Cons) by reflexivity.
  unfold lst. rewrite <- fold_left_rev_right. generalize (rev l) as k. intro k. induction k as [|x k IH]; [reflexivity|]. simpl. now rewrite IH.
Qed.
Lemma llist_eq l : llist l = lst l.
Proof. unfold llist, rev_. now rewrite lreverse_eq, rev_involutive. Qed.

Lemma ll_walk_chain l t : is_cons t = false -> ll_walk (chain l t) = (l, is_nil t).
Proof. intro H. induction l as [|x l IH]; [destruct t; simpl in *; congruence|]. simpl. now rewrite IH. Qed.
Lemma chain_split v : exists l t, v = chain l t /\ is_cons t = false.
Proof.
  induction v as [a| |a _ d (l & t & E & H)]; [exists [], (Atom a); auto|exists [], Nil; auto|].
  exists (a :: l), t. simpl. now rewrite E.
Qed.
Lemma iter_lst l : iter (lst l) = Ok (l, true).
Proof.
  destruct l as [|x l]; [reflexivity|]. unfold lst. simpl. rewrite ll_walk_chain by reflexivity. destruct l; reflexivity.
Qed.
Lemma items_lst l : items (lst l) = Ok l.
Proof. unfold items. now rewrite iter_lst. Qed.
Lemma items_llist l : items (llist l) = Ok l.
Proof. now rewrite llist_eq, items_lst. Qed.
Lemma lreverse_lst l : lreverse_v (lst l) = Ok (lst (rev l)).
Proof. unfold lreverse_v. rewrite items_lst. simpl. now rewrite lreverse_eq. Qed.
Lemma llist_lst l : llist_v (lst l) = Ok (lst l).
Proof. unfold llist_v. rewrite items_lst. simpl. now rewrite llist_eq. Qed.
Lemma lappend_two_lst l v : lappend_two (lst l) v = Ok (chain l v).
Proof. unfold lappend_two. rewrite items_lst. simpl. now rewrite foldr_cons. Qed.
Lemma lappend_lst (ls : list (list (val A))) : lappend (map lst ls) = Ok (lst (concat ls)).
Proof.
  unfold lappend. rewrite foldr_eq. cbn [rows]. rewrite zip_single.
  rewrite (fold_left_singles' (fun (u : val A) (acc : outcome (val A)) => obind acc (fun z => lappend_two u z))) by reflexivity.
  induction ls as [|l ls IH]; [reflexivity|]. cbn [map fold_right concat]. rewrite IH. cbn [obind].
  rewrite lappend_two_lst. unfold lst. now rewrite chain_app.
Qed.
Lemma mapM_items (ls : list (list (val A))) : mapM items (map lst ls) = Ok ls.
Proof. induction ls as [|l ls IH]; [reflexivity|]. cbn [map mapM]. rewrite items_lst. cbn [obind]. now rewrite IH. Qed.
Lemma lzip_lst (ls : list (list (val A))) : ls <> [] -> lzip (map lst ls) = Ok (lst (map lst (zip ls))).
Proof.
  intro H. unfold lzip. rewrite mapM_items. destruct ls as [|l ls]; [congruence|]. cbn [map obind]. f_equal. rewrite llist_eq. f_equal.
  unfold map_. apply map_ext. apply llist_eq.
Qed.
Lemma items_improper v : items v =
  match v with Atom _ => Raise TypeError | Nil => Ok [] | Cons a (Atom b) => Ok [a; Atom b] | Cons a _ => if snd (ll_walk v) then Ok (fst (ll_walk v)) else Raise TypeError end.
Proof. destruct v as [a| |a [b| |b c]]; try reflexivity. unfold items, iter, list_or_cell_iterator. cbn. destruct (ll_walk c). reflexivity. Qed.
Lemma lappend_bad v w : items v = Raise TypeError -> lappend [v; w] = Raise TypeError.
Proof.
  intros E. unfold lappend. rewrite foldr_eq. cbn [rows]. rewrite zip_single.
  rewrite (fold_left_singles' (fun (u : val A) (acc : outcome (val A)) => obind acc (fun z => lappend_two u z))) by reflexivity.
  cbn [fold_right obind]. unfold lappend_two. assert (T : items w = Raise TypeError \/ exists l', items w = Ok l').
  { rewrite items_improper. destruct w as [b| |b [c| |c d]]; try destruct (snd _); eauto. }
  destruct T as [->|(l' & ->)]; [reflexivity|]. cbn [obind]. rewrite E. reflexivity.
Qed.
Lemma improper x y l a : let v := chain (x :: y :: l) (Atom a) in
  items v = Raise TypeError /\ llist_v v = Raise TypeError /\ lreverse_v v = Raise TypeError /\ (forall w, lappend [v; w] = Raise TypeError) /\ (forall ls, lzip (v :: ls) = Raise TypeError).
Proof.
  intros v. assert (E : items v = Raise TypeError). { rewrite items_improper. cbn. rewrite ll_walk_chain by reflexivity. reflexivity. }
  split; [exact E|]. unfold llist_v, lreverse_v, lzip. cbn [mapM]. rewrite E. split; [reflexivity|]. split; [reflexivity|]. split; [|reflexivity]. intros w. now apply lappend_bad.
Qed.
Lemma atoms a (w : val A) : items (Atom a) = Raise TypeError /\ llist_v (Atom a) = Raise TypeError /\ lreverse_v (Atom a) = Raise TypeError /\ lappend [Atom a; w] = Raise TypeError /\ lzip [] = (Raise TypeError : outcome (val A)).
Proof. repeat (split; [reflexivity|]). split; [now apply lappend_bad|reflexivity]. Qed.
Lemma lst_inj l l' : lst l = lst l' -> l = l'.
Proof. intro H. assert (E : items (lst l) = items (lst l')) by now rewrite H. rewrite !items_lst in E. congruence. Qed.

Lemma reversed_lst l : exists r, reversed (lst l) = Ok r /\ rv_remaining r = rev l /\ llist_reviter r = lst (rev l).
Proof.
  unfold reversed. rewrite lreverse_lst. cbn [obind]. eexists. split; [reflexivity|]. split; [|reflexivity].
  unfold rv_remaining. simpl. unfold lst. now rewrite ll_walk_chain.
Qed.
Lemma reversed_consumed l k : exists r, reversed (lst l) = Ok r /\
  rv_remaining (Nat.iter k rv_next r) = skipn k (rev l) /\ llist_reviter (Nat.iter k rv_next r) = lst (rev l).
Proof.
  unfold reversed. rewrite lreverse_lst. cbn [obind]. eexists. split; [reflexivity|].
  assert (E : Nat.iter k rv_next (mkreviter (lst (rev l)) 0) = mkreviter (lst (rev l)) k).
  { induction k as [|k IH]; [reflexivity|]. change (rv_next (Nat.iter k rv_next (mkreviter (lst (rev l)) 0)) = mkreviter (lst (rev l)) (S k)). now rewrite IH. }
  rewrite E. unfold rv_remaining, llist_reviter. cbn [rv_data rv_pos]. split; [|reflexivity].
  unfold lst. rewrite ll_walk_chain by reflexivity. reflexivity.
Qed.

(** Iterators on arbitrary cells. *)
Lemma tail_walk_chain l t : is_cons t = false ->
  tail_walk (chain l t) = (map (fun i => chain (skipn i l) t) (seq 0 (length l)), is_nil t).
Proof.
  intro H. induction l as [|x l IH]; [destruct t; simpl in *; congruence|]. cbn [chain tail_walk]. rewrite IH.
  cbn [length seq map skipn chain]. rewrite <- seq_shift, map_map. reflexivity.
Qed.
Lemma iterators_chain x l t : is_cons t = false ->
  let v := chain (x :: l) t in
  linked_list_iterator v = Ok (x :: l, is_nil t) /\
  tail_iterator v = Ok (map (fun i => chain (skipn i (x :: l)) t) (seq 0 (length (x :: l))), is_nil t) /\
  list_or_cell_iterator v =
    Ok (match l, t with [], Atom _ => ([x; t], true) | _, _ => (x :: l, is_nil t) end).
Proof.
  intro H. split; [|split].
  - unfold linked_list_iterator. cbn [chain is_cons]. f_equal. apply (ll_walk_chain (x :: l) t H).
  - unfold tail_iterator. cbn [chain is_cons]. f_equal. apply (tail_walk_chain (x :: l) t H).
  - cbn [chain list_or_cell_iterator]. destruct l as [|y l].
    + simpl. destruct t; simpl in *; try reflexivity; discriminate.
    + cbn [chain]. change (Cons y (chain l t)) with (chain (y :: l) t). rewrite ll_walk_chain by assumption. destruct t; reflexivity.
Qed.
Lemma iterators_noncons v : is_cons v = false ->
  linked_list_iterator v = Raise TypeError /\ tail_iterator v = Raise TypeError /\
  binary_tree_iterator v = Raise TypeError /\ jack_iterator v = Raise TypeError.
Proof. destruct v; simpl; try discriminate; auto. Qed.

(** Trees. *)
Fixpoint visit (keepnil : bool) (v : val A) : list (val A) :=
  match v with
  | Cons a d =>
      (if is_cons a then [] else [a]) ++
      (if is_cons d then [] else if negb keepnil && is_nil d then [] else [d]) ++
      (if is_cons a then visit keepnil a else []) ++ (if is_cons d then visit keepnil d else [])
  | _ => []
  end.
Lemma tree_loop_visit kn : forall fuel stack, (forall c, In c stack -> is_cons c = true) ->
  fold_right (fun c n => cells c + n) 0 stack <= fuel ->
  tree_loop kn fuel stack = Some (concat (map (visit kn) stack)).
Proof.
  induction fuel as [|f IH]; intros [|c stack] Hc Hf; try reflexivity.
  - exfalso. specialize (Hc c (or_introl eq_refl)). destruct c; try discriminate. simpl in Hf. lia.
  - pose proof (Hc c (or_introl eq_refl)) as C. destruct c as [| |a d]; try discriminate. cbn [tree_loop].
    set (st1 := if is_cons d then d :: stack else stack). set (st2 := if is_cons a then a :: st1 else st1).
    assert (S1 : (forall c, In c st1 -> is_cons c = true) /\ fold_right (fun c n => cells c + n) 0 st1 = cells d + fold_right (fun c n => cells c + n) 0 stack
      /\ concat (map (visit kn) st1) = (if is_cons d then visit kn d else []) ++ concat (map (visit kn) stack)).
    { subst st1. destruct (is_cons d) eqn:D; split; try split; auto.
      - intros c [<-|I]; [assumption|]. apply Hc. now right.
      - intros c I. apply Hc. now right.
      - destruct d; simpl in *; try reflexivity; discriminate. }
    assert (S2 : (forall c, In c st2 -> is_cons c = true) /\ fold_right (fun c n => cells c + n) 0 st2 = cells a + fold_right (fun c n => cells c + n) 0 st1
      /\ concat (map (visit kn) st2) = (if is_cons a then visit kn a else []) ++ concat (map (visit kn) st1)).
    { destruct S1 as (S1 & _). subst st2. destruct (is_cons a) eqn:D; split; try split; auto.
      - intros c [<-|I]; [assumption|]. now apply S1.
      - destruct a; simpl in *; try reflexivity; discriminate. }
    destruct S1 as (S1a & S1b & S1c), S2 as (S2a & S2b & S2c). clearbody st1 st2.
    rewrite IH; [|assumption|cbn [fold_right cells] in Hf; lia].
    cbn [option_map map concat visit]. f_equal. rewrite S2c, S1c, <- !app_assoc. reflexivity.
Qed.
Lemma binary_tree_visit v : is_cons v = true -> binary_tree_iterator v = Ok (Some (visit true v)) /\ jack_iterator v = Ok (Some (visit false v)).
Proof.
  intro H. unfold binary_tree_iterator, jack_iterator. rewrite H.
  rewrite !tree_loop_visit; try (intros c [<-|[]]; assumption); try (simpl; lia).
  simpl. now rewrite !app_nil_r.
Qed.
Lemma visit_leaves v : is_cons v = true -> Permutation (visit true v) (leaves v).
Proof.
  induction v as [| |a IHa d IHd]; try discriminate. intros _. cbn [visit leaves].
  destruct (is_cons a) eqn:Ca, (is_cons d) eqn:Cd; cbn [app negb andb].
  - apply Permutation_app; auto.
  - rewrite app_nil_r. destruct d; try discriminate; cbn [leaves]; (eapply Permutation_trans; [|apply Permutation_app_comm]); apply perm_skip; auto.
  - destruct a; try discriminate; cbn [leaves app]; apply perm_skip; auto.
  - destruct a, d; try discriminate; apply Permutation_refl.
Qed.
Lemma visit_leaves_jack v : is_cons v = true -> Permutation (visit false v) (leaves_but_nil_cdr v).
Proof.
  induction v as [| |a IHa d IHd]; try discriminate. intros _. cbn [visit leaves_but_nil_cdr].
  destruct (is_cons a) eqn:Ca, (is_cons d) eqn:Cd; cbn [app negb andb].
  - destruct d; try discriminate. apply Permutation_app; auto.
  - rewrite app_nil_r. destruct d; try discriminate; cbn [is_nil app leaves_but_nil_cdr]; [|rewrite app_nil_r; auto].
    eapply Permutation_trans; [|apply Permutation_app_comm]. apply perm_skip; auto.
  - destruct d; try discriminate. destruct a; try discriminate; cbn [leaves_but_nil_cdr app]; apply perm_skip; auto.
  - destruct a, d; try discriminate; apply Permutation_refl.
Qed.
Lemma visit_order v : is_cons v = true -> right_deep v -> visit true v = leaves v.
Proof.
  induction v as [| |a IHa d IHd]; try discriminate. intros _ (Ra & Rd & R). cbn [visit leaves].
  destruct (is_cons a) eqn:Ca.
  - rewrite (R eq_refl). cbn [app]. rewrite IHa, IHd; auto.
  - destruct (is_cons d) eqn:Cd; cbn [app negb andb].
    + rewrite IHd by auto. destruct a; try discriminate; reflexivity.
    + destruct a, d; try discriminate; reflexivity.
Qed.
Lemma binary_tree_perm v : is_cons v = true ->
  (exists out, binary_tree_iterator v = Ok (Some out) /\ Permutation out (leaves v)) /\
  (exists out, jack_iterator v = Ok (Some out) /\ Permutation out (leaves_but_nil_cdr v)).
Proof.
  intro H. destruct (binary_tree_visit v H) as [-> ->]. split; eexists; (split; [reflexivity|]).
  - now apply visit_leaves.
  - now apply visit_leaves_jack.
Qed.
Lemma binary_tree_order v : is_cons v = true -> right_deep v -> binary_tree_iterator v = Ok (Some (leaves v)).
Proof. intros H R. rewrite (proj1 (binary_tree_visit v H)). now rewrite visit_order. Qed.

(** Accessors. *)
Lemma fold_right_raise spec (e : exn) : fold_right (fun c (r : outcome (val A)) => obind r (fun v => if c : bool then car v else cdr v)) (Raise e) spec = Raise e.
Proof. induction spec as [|c spec IH]; [reflexivity|]. cbn [fold_right]. now rewrite IH. Qed.
Lemma accessor_follow spec : forall v, accessor spec v = match follow (rev spec) v with Some w => Ok w | None => Raise TypeError end.
Proof.
  unfold accessor. induction spec as [|c spec IH] using rev_ind; intro v; [reflexivity|].
  rewrite fold_right_app, rev_app_distr. cbn [fold_right rev app follow].
  destruct v as [x| |a d]; try (destruct c; apply fold_right_raise).
  destruct c; cbn [obind car cdr]; apply IH.
Qed.

(** Equality. *)
Variable aeqb : A -> A -> bool.
Notation veq := (veq aeqb).
Notation same := (same aeqb).

Lemma nodes_pos v : 1 <= nodes v. Proof. destruct v; simpl; lia. Qed.
Lemma nodes_items v x : In x (fst (ll_walk v)) -> nodes x < nodes v.
Proof.
  induction v as [| |a _ d IH]; simpl; [intros []|intros []|]. destruct (ll_walk d) as [l ok]. simpl in *.
  intros [<-|I]; [pose proof (nodes_pos d); lia|]. apply IH in I. pose proof (nodes_pos a). lia.
Qed.

Section Loop.
Variables (f : nat) (fb : option bool) (oka okb : bool).
Definition eqloop := (fix loop (la lb : list (val A)) : option bool :=
  match la, lb with
  | x :: la', y :: lb' => match veq f x y with Some true => loop la' lb' | r => r end
  | [], [] => if oka then if okb then Some true else fb else fb
  | [], _ :: _ => if oka then Some false else fb
  | _ :: _, [] => if okb then Some false else fb
  end).
End Loop.

Lemma same_chain l : forall l' t t', is_cons t = false -> is_cons t' = false ->
  (same (chain l t) (chain l' t') <-> Forall2 same l l' /\ same t t').
Proof.
  induction l as [|x l IH]; intros [|y l'] t t' Ht Ht'; simpl.
  - split; [intro H; split; [constructor|assumption]|tauto].
  - split; [intro H; inversion H; subst; discriminate|intros [H _]; inversion H].
  - split; [intro H; inversion H; subst; discriminate|intros [H _]; inversion H].
  - split.
    + intro H; inversion H; subst. apply IH in H5 as [? ?]; auto.
    + intros [H1 H2]. inversion H1; subst. constructor; [assumption|]. apply IH; auto.
Qed.

Definition decides (f : nat) v w : Prop := exists b, veq f v w = Some b /\ (b = true <-> same v w).

Lemma veq_decides : forall f v w, nodes v <= f -> decides f v w.
Proof.
  induction f as [|f IH]; intros v w Hf; [pose proof (nodes_pos v); lia|].
  destruct v as [x| |a1 d1].
  - destruct w as [y| |a2 d2]; unfold decides; cbn [LLModel.veq]; eexists; (split; [reflexivity|]); split; intro H; try discriminate; try (inversion H; fail).
    + constructor; assumption. + inversion H; assumption.
  - destruct w as [y| |a2 d2]; unfold decides; cbn [LLModel.veq]; eexists; (split; [reflexivity|]); split; intro H; try discriminate; try (inversion H; fail); try constructor; reflexivity.
  - destruct w as [y| |a2 d2]; [unfold decides; cbn [LLModel.veq]; eexists; (split; [reflexivity|]); split; intro H; [discriminate|inversion H]..|].
    set (v := Cons a1 d1) in *. set (w := Cons a2 d2) in *.
    set (fb := match veq f a1 a2 with Some true => veq f d1 d2 | r => r end).
    assert (FB : exists b, fb = Some b /\ (b = true <-> same v w)).
    { subst fb v w. cbn [nodes] in Hf. pose proof (nodes_pos a1). pose proof (nodes_pos d1).
      destruct (IH a1 a2 ltac:(lia)) as (b & E & B). rewrite E. destruct b.
      - destruct (IH d1 d2 ltac:(lia)) as (b' & E' & B'). exists b'. split; [assumption|]. rewrite B'. split; intro H'.
        + constructor; [apply B; reflexivity|assumption]. + inversion H'; assumption.
      - exists false. split; [reflexivity|]. split; [discriminate|]. intro H'. inversion H'; subst. apply B. assumption. }
    assert (U : veq (S f) v w = eqloop f fb (snd (ll_walk v)) (snd (ll_walk w)) (fst (ll_walk v)) (fst (ll_walk w))).
    { subst v w fb. cbn [LLModel.veq]. destruct (ll_walk (Cons a1 d1)), (ll_walk (Cons a2 d2)). reflexivity. }
    unfold decides. rewrite U. clear U.
    assert (Hn : forall x, In x (fst (ll_walk v)) -> nodes x <= f) by (intros x I; apply nodes_items in I; lia).
    destruct (chain_split v) as (l & t & Ev & Ht), (chain_split w) as (l' & t' & Ew & Ht').
    assert (SC : same v w <-> Forall2 same l l' /\ same t t') by (rewrite Ev, Ew; now apply same_chain).
    assert (Wv : ll_walk v = (l, is_nil t)) by (rewrite Ev; now apply ll_walk_chain).
    assert (Ww : ll_walk w = (l', is_nil t')) by (rewrite Ew; now apply ll_walk_chain).
    rewrite Wv, Ww in *. cbn [fst snd] in *.
    destruct FB as (b0 & Eb & FB). rewrite SC in FB. rewrite Eb. clear Eb.
    (* the loop, for suffixes l and l' of the items *)
    assert (G : forall l1 l2, (forall x, In x l1 -> nodes x <= f) ->
      (Forall2 same l1 l2 -> Forall2 same l l') -> (Forall2 same l l' -> Forall2 same l1 l2) ->
      exists b, eqloop f (Some b0) (is_nil t) (is_nil t') l1 l2 = Some b /\ (b = true <-> Forall2 same l l' /\ same t t')).
    2:{ destruct (G l l') as (b & E & B); auto. exists b. split; [assumption|]. now rewrite SC. }
    induction l1 as [|x l1 IHl]; intros l2 Hl I1 I2; destruct l2 as [|y l2]; cbn [eqloop].
    + destruct t as [|  |]; try discriminate; cbn [is_nil].
      * exists b0. auto.
      * destruct t'; try discriminate; cbn [is_nil]; [exists b0; auto|]. exists true. split; [reflexivity|]. split; [|reflexivity].
        intros _. split; [apply I1; constructor|constructor].
    + destruct t as [|  |]; try discriminate; cbn [is_nil]; [exists b0; auto|]. exists false. split; [reflexivity|]. split; [discriminate|].
      intros [Q _]. apply I2 in Q. inversion Q.
    + destruct t' as [|  |]; try discriminate; cbn [is_nil]; [exists b0; auto|]. exists false. split; [reflexivity|]. split; [discriminate|].
      intros [Q _]. apply I2 in Q. inversion Q.
    + destruct (IH x y) as (b & E & B); [apply Hl; now left|]. rewrite E. destruct b.
      * apply (IHl l2).
        -- intros; apply Hl; now right.
        -- intro Q. apply I1. constructor; [now apply B|assumption].
        -- intro Q. apply I2 in Q. inversion Q; assumption.
      * exists false. split; [reflexivity|]. split; [discriminate|]. intros [Q _]. apply I2 in Q. inversion Q; subst. now apply B.
Qed.

(** member *)
Lemma member_spec x l t : is_cons t = false -> l <> [] -> forall f, (forall y, In y l -> nodes y <= f) ->
  (exists i a, nth_error l i = Some a /\ same a x /\ (forall j b, j < i -> nth_error l j = Some b -> ~ same b x) /\
     member aeqb f x (chain l t) = Some (Ok (Some (chain (skipn i l) t)))) \/
  ((forall a, In a l -> ~ same a x) /\ member aeqb f x (chain l t) = Some (if is_nil t then Ok None else Raise TypeError)).
Proof.
  intros Ht Hl f Hf. unfold member, tail_iterator. destruct l as [|x0 l0] eqn:El; [congruence|]. rewrite <- El in *. clear Hl.
  assert (Cc : is_cons (chain l t) = true) by (subst l; reflexivity). rewrite Cc, tail_walk_chain by assumption. clear Cc El x0 l0.
  assert (G : forall k, k <= length l -> (forall j b, j < k -> nth_error l j = Some b -> ~ same b x) ->
    (exists i a, nth_error l i = Some a /\ same a x /\ (forall j b, j < i -> nth_error l j = Some b -> ~ same b x) /\
      member_loop aeqb f x (map (fun i => chain (skipn i l) t) (seq k (length l - k))) (is_nil t) = Some (Ok (Some (chain (skipn i l) t)))) \/
    ((forall a, In a l -> ~ same a x) /\
      member_loop aeqb f x (map (fun i => chain (skipn i l) t) (seq k (length l - k))) (is_nil t) = Some (if is_nil t then Ok None else Raise TypeError))).
  2:{ specialize (G 0 ltac:(lia)). rewrite Nat.sub_0_r in G. apply G. lia. }
  intros k. remember (length l - k) as n eqn:En. revert k En. induction n as [|n IH]; intros k En Hk Hno.
  - right. split; [|reflexivity]. intros a I. apply In_nth_error in I as (j & J). apply (Hno j); [|assumption].
    assert (j < length l) by (apply nth_error_Some; congruence). lia.
  - destruct (nth_error l k) as [a|] eqn:Ea; [|apply nth_error_None in Ea; lia].
    assert (Sk : skipn k l = a :: skipn (S k) l) by (symmetry; now apply skipn_nth).
    cbn [seq map member_loop]. rewrite Sk. cbn [chain].
    destruct (veq_decides f a x) as (b & E & B); [apply Hf; eapply nth_error_In, Ea|]. rewrite E. destruct b.
    + left. exists k, a. split; [assumption|]. split; [now apply B|]. split; [assumption|]. rewrite Sk. reflexivity.
    + apply IH; [lia|lia|]. intros j c Hj Hc. destruct (Nat.eq_dec j k) as [->|]; [|apply (Hno j); [lia|assumption]].
      rewrite Ea in Hc. inversion Hc; subst. intro Q. apply B in Q. discriminate.
Qed.

(** hash *)
Variables (ha : A -> Z) (hn : Z) (ht : list Z -> Z).
Notation vhash := (vhash ha hn ht).
Lemma same_walk v w : same v w -> Forall2 same (fst (ll_walk v)) (fst (ll_walk w)) /\ snd (ll_walk v) = snd (ll_walk w).
Proof.
  intro H. induction H as [x y H| |a a' d d' Ha _ Hd [I1 I2]]; [split; [constructor|reflexivity]..|].
  cbn [ll_walk]. destruct (ll_walk d), (ll_walk d'). simpl in *. split; [constructor; assumption|assumption].
Qed.
Lemma vhash_same : (forall x y, aeqb x y = true -> ha x = ha y) -> forall f v w, same v w -> vhash f v = vhash f w.
Proof.
  intros Hha. induction f as [|f IH]; intros v w H; [reflexivity|].
  destruct (same_walk v w H) as [W1 W2]. inversion H as [x y Hx| |a a' d d' Ha Hd]; subst; cbn [LLModel.vhash]; [f_equal; auto|reflexivity|].
  destruct (ll_walk (Cons a d)) as [l ok], (ll_walk (Cons a' d')) as [l' ok']. simpl in W1, W2. subst ok'. do 2 f_equal.
  assert (M : forall k k', Forall2 same k k' -> map (vhash f) k = map (vhash f) k').
  { intros k k' F. induction F; [reflexivity|]. simpl. f_equal; auto. }
  destruct ok; apply M; [assumption|]. repeat constructor; assumption.
Qed.
Lemma sequence_some {B} (l : list (option B)) : (forall x, In x l -> x <> None) -> exists r, sequence l = Some r.
Proof.
  induction l as [|[x|] l IH]; intro H; [exists []; reflexivity| |exfalso; apply (H None); [now left|reflexivity]].
  destruct IH as (r & E); [intros; apply H; now right|]. simpl. rewrite E. eauto.
Qed.
Lemma vhash_total : forall f v, nodes v <= f -> exists h, vhash f v = Some h.
Proof.
  induction f as [|f IH]; intros v Hf; [pose proof (nodes_pos v); lia|]. destruct v as [x| |a d]; [eexists; reflexivity..|].
  cbn [LLModel.vhash]. pose proof (nodes_items (Cons a d)) as N. destruct (ll_walk (Cons a d)) as [l ok]. simpl fst in N.
  destruct (sequence_some (map (vhash f) (if ok then l else [a; d]))) as (r & ->); [|eexists; reflexivity].
  intros x I. apply in_map_iff in I as (y & <- & I). destruct (IH y) as (h & ->); [|discriminate]. destruct ok.
  - apply N in I. lia.
  - cbn [nodes] in Hf. pose proof (nodes_pos a). pose proof (nodes_pos d). destruct I as [<-|[<-|[]]]; lia.
Qed.
End P.
Lemma reversed_consumed_wrong A (l : list (val A)) k : 0 < k <= length l ->
  exists r, reversed (lst l) = Ok r /\ let r' := Nat.iter k rv_next r in
    rv_remaining r' = skipn k (rev l) /\ llist_reviter r' = lst (rev l) /\ llist_reviter r' <> lst (rv_remaining r').
Proof.
  intro H. destruct (reversed_consumed l k) as (r & E & R & D). exists r. cbv zeta. repeat (split; [assumption|]).
  rewrite D, R. intro Q. apply lst_inj in Q. apply (f_equal (@length _)) in Q. rewrite skipn_length, rev_length in Q. lia.
Qed.
Lemma vhash_equal A (aeqb : A -> A -> bool) (ha : A -> Z) hn ht :
  (forall x y, aeqb x y = true -> ha x = ha y) -> forall fuel v w, same aeqb v w ->
  nodes v <= fuel -> exists h, vhash ha hn ht fuel v = Some h /\ vhash ha hn ht fuel w = Some h.
Proof.
  intros H f v w S' N. destruct (vhash_total ha hn ht f v N) as (h & E). exists h. split; [assumption|].
  now rewrite <- (vhash_same aeqb ha hn ht H f v w S').
Qed.
Lemma tree_order_wrong : exists v : val nat,
  leaves v = [Atom 1; Atom 2; Atom 3] /\ binary_tree_iterator v = Ok (Some [Atom 3; Atom 1; Atom 2]).
Proof. exists (Cons (Cons (Atom 1) (Atom 2)) (Atom 3)). split; reflexivity. Qed.
