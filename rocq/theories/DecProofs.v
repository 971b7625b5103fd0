(** Proofs about the order of decorators. *)
From Coq Require Import String Ascii List Bool Arith ZArith Lia Permutation Sorting.Sorted NArith.
From Verif Require Import DecModel DecSpec.
Import ListNotations.
Open Scope string_scope.
Open Scope list_scope.

(** ** The order of strings *)
Lemma ascii_cmp a b : Ascii.compare a b = N.compare (N_of_ascii a) (N_of_ascii b).
Proof. reflexivity. Qed.
Lemma N_of_ascii_inj a b : N_of_ascii a = N_of_ascii b -> a = b.
Proof. intros H. rewrite <- (ascii_N_embedding a), <- (ascii_N_embedding b). now rewrite H. Qed.
Lemma alpha_refl a : alpha a a.
Proof.
  unfold alpha. assert (String.compare a a = Eq) as ->; [|discriminate].
  induction a as [|x a IH]; [reflexivity|]. cbn. now rewrite ascii_cmp, N.compare_refl.
Qed.
Lemma alpha_trans a : forall b c, alpha a b -> alpha b c -> alpha a c.
Proof.
  unfold alpha. induction a as [|x a IH]; intros [|y b] [|z c] H1 H2; cbn in *;
    try discriminate; try congruence.
  destruct (Ascii.compare x y) eqn:E1; [| |congruence];
    destruct (Ascii.compare y z) eqn:E2; try congruence;
    rewrite ascii_cmp in *.
  - apply N.compare_eq in E1, E2. rewrite E1, E2, N.compare_refl. eauto.
  - apply N.compare_eq in E1. now rewrite E1, E2.
  - apply N.compare_eq in E2. now rewrite <- E2, E1.
  - rewrite N.compare_lt_iff in E1, E2. assert (H : (N_of_ascii x < N_of_ascii z)%N) by lia.
    apply N.compare_lt_iff in H. now rewrite H.
Qed.
Lemma alpha_total a b : alpha a b \/ alpha b a.
Proof.
  unfold alpha. rewrite (String.compare_antisym b a). destruct (String.compare a b); cbn;
    [left|left|right]; discriminate.
Qed.
Lemma alpha_antisym a b : alpha a b -> alpha b a -> a = b.
Proof.
  unfold alpha. rewrite (String.compare_antisym b a). destruct (String.compare a b) eqn:E; cbn;
    intros; try congruence. now apply String.compare_eq_iff in E.
Qed.
Lemma le_entry_iff a b : le_entry a b = true <-> no_later a b.
Proof.
  unfold le_entry, no_later, alpha. destruct (Z.compare_spec (fst a) (fst b)) as [H|H|H].
  - destruct (String.compare (snd a) (snd b)); split; intros; try reflexivity; try discriminate;
      try (right; split; [exact H|discriminate]).
    destruct H0 as [H0|[_ H0]]; [lia|congruence].
  - split; auto.
  - split; [discriminate|]. intros [H0|[H0 _]]; lia.
Qed.
Lemma no_later_refl a : no_later a a.
Proof. right. split; [reflexivity|apply alpha_refl]. Qed.
Lemma no_later_trans a b c : no_later a b -> no_later b c -> no_later a c.
Proof.
  intros [H|[H K]] [H'|[H' K']]; unfold no_later; [left; lia|left; lia|left; lia|right].
  split; [lia|]. eapply alpha_trans; eauto.
Qed.
Lemma no_later_total a b : no_later a b \/ no_later b a.
Proof.
  unfold no_later. destruct (Z.lt_trichotomy (fst a) (fst b)) as [H|[H|H]].
  - auto.
  - destruct (alpha_total (snd a) (snd b)); [left|right]; auto.
  - auto.
Qed.
Lemma no_later_antisym a b : no_later a b -> no_later b a -> a = b.
Proof.
  destruct a as [p x], b as [q y]. unfold no_later. cbn. intros [H|[H K]] [H'|[H' K']]; try lia.
  subst. f_equal. now apply alpha_antisym.
Qed.

(** ** Sorting *)
Section SortFacts.
  Context {A : Type}.
  Variable le : A -> A -> bool.
  Lemma insert_perm x l : Permutation (x :: l) (insert le x l).
  Proof.
    induction l as [|y l IH]; cbn; [reflexivity|]. destruct (le x y); [reflexivity|].
    transitivity (y :: x :: l); [apply perm_swap|]. now constructor.
  Qed.
  Lemma sort_perm l : Permutation l (sort le l).
  Proof.
    induction l as [|x l IH]; cbn; [reflexivity|].
    transitivity (x :: sort le l); [now constructor|]. apply insert_perm.
  Qed.
  Variable P : A -> Prop.
  Variable R : A -> A -> Prop.
  Hypothesis HR : forall a b, P a -> P b -> (le a b = true <-> R a b).
  Hypothesis Htr : forall a b c, R a b -> R b c -> R a c.
  Hypothesis Htot : forall a b, P a -> P b -> R a b \/ R b a.
  Lemma insert_sorted x l : P x -> Forall P l -> StronglySorted R l ->
    StronglySorted R (insert le x l).
  Proof.
    intros Hx Hl Hs. induction Hs as [|y l Hs IH Hy]; cbn.
    - repeat constructor.
    - inversion Hl as [|? ? Py Pl]; subst. destruct (le x y) eqn:E.
      + apply (HR x y Hx Py) in E. constructor; [now constructor|].
        constructor; [exact E|]. rewrite Forall_forall in *. intros z Hz. eapply Htr; eauto.
      + assert (R y x) as Hyx.
        { destruct (Htot x y Hx Py) as [H|H]; [|exact H]. apply (HR x y Hx Py) in H. congruence. }
        constructor; [now apply IH|]. rewrite Forall_forall in *. intros z Hz.
        apply (Permutation_in _ (Permutation_sym (insert_perm x l))) in Hz.
        destruct Hz as [<-|Hz]; auto.
  Qed.
  Lemma sort_sorted l : Forall P l -> StronglySorted R (sort le l).
  Proof.
    induction 1 as [|x l Hx Hl IH]; cbn; [constructor|]. apply insert_sorted; auto.
    rewrite Forall_forall in *. intros y Hy. apply Hl.
    now apply (Permutation_in _ (Permutation_sym (sort_perm l))) in Hy.
  Qed.
End SortFacts.
Section Stable.
  Context {A : Type}.
  Variable le : A -> A -> bool.
  Variable p : A -> bool.
  Hypothesis Hle : forall a b, p a = true -> p b = true -> le a b = true.
  Lemma insert_stable x l : filter p (insert le x l) = filter p (x :: l).
  Proof.
    induction l as [|y l IH]; cbn [insert]; [reflexivity|]. destruct (le x y) eqn:E; [reflexivity|].
    cbn [filter] in *. rewrite IH. destruct (p x) eqn:Ex, (p y) eqn:Ey; try reflexivity.
    rewrite Hle in E; congruence.
  Qed.
  Lemma sort_stable l : filter p (sort le l) = filter p l.
  Proof.
    induction l as [|x l IH]; [reflexivity|]. cbn [sort fold_right].
    change (fold_right (insert le) [] l) with (sort le l). rewrite insert_stable. cbn.
    now rewrite IH.
  Qed.
End Stable.
Lemma insert_id {A} (le : A -> A -> bool) x l : (forall y, In y l -> le x y = true) ->
  insert le x l = x :: l.
Proof. destruct l as [|y l]; [reflexivity|]. cbn. intros H. now rewrite (H y (or_introl eq_refl)). Qed.
Lemma sort_id {A} (le : A -> A -> bool) (R : A -> A -> Prop) l :
  (forall a b, In a l -> In b l -> R a b -> le a b = true) ->
  StronglySorted R l -> sort le l = l.
Proof.
  intros H Hs. induction Hs as [|x l Hs IH Hx]; [reflexivity|]. cbn [sort fold_right].
  change (fold_right (insert le) [] l) with (sort le l). rewrite IH.
  - apply insert_id. rewrite Forall_forall in Hx. intros y Hy.
    apply H; [now left|now right|auto].
  - intros a b Ha Hb. apply H; now right.
Qed.
Lemma sorted_unique {A} (R : A -> A -> Prop) :
  (forall a b, R a b -> R b a -> a = b) ->
  forall l l', StronglySorted R l -> StronglySorted R l' -> Permutation l l' -> l = l'.
Proof.
  intros Hanti l l' Hl. revert l'. induction Hl as [|x l Hl IH Hx]; intros l' Hl' Hp.
  - now apply Permutation_nil in Hp.
  - destruct l' as [|y l']; [now apply Permutation_sym, Permutation_nil in Hp|].
    inversion Hl' as [|? ? Hs' Hy]; subst. rewrite Forall_forall in Hx, Hy.
    assert (x = y) as ->.
    { assert (Ix : In x (y :: l')) by (apply (Permutation_in _ Hp); now left).
      assert (Iy : In y (x :: l)) by (apply (Permutation_in _ (Permutation_sym Hp)); now left).
      destruct Ix as [E|Ix]; [now symmetry|]. destruct Iy as [E|Iy]; [exact E|].
      apply Hanti; auto. }
    f_equal. apply IH; [exact Hs'|]. eapply Permutation_cons_inv; eauto.
Qed.

(** ** The registry *)
Definition entry_of (x : reg) : entry := (pri x, nam x).
Lemma sort_entries l : StronglySorted no_later (sort le_entry l).
Proof.
  apply (sort_sorted le_entry (fun _ => True) no_later).
  - intros a b _ _. apply le_entry_iff.
  - apply no_later_trans.
  - intros. apply no_later_total.
  - apply Forall_forall. auto.
Qed.
Lemma registry_ok rs :
  Permutation (map entry_of rs) (entries (after rs)) /\
  StronglySorted no_later (entries (after rs)) /\
  (forall x, In x (all_decorators (after rs)) <-> registered rs x) /\
  (forall x, In x (tco_decorators (after rs)) <-> exists p, In (p, true, x) rs).
Proof.
  induction rs as [|[[p t] x] rs IH] using rev_ind.
  - cbn. split; [reflexivity|]. split; [constructor|]. split; intros x; split; intros H;
      destruct H; firstorder.
  - unfold after in *. rewrite fold_left_app. cbn. destruct IH as (IH1 & IH2 & IH3 & IH4).
    split; [|split; [|split]].
    + rewrite map_app. cbn. etransitivity; [|apply sort_perm]. apply Permutation_app_tail, IH1.
    + apply sort_entries.
    + intros y. rewrite IH3. unfold registered. split.
      * intros [<-|(q & u & H)]; [exists p, t|exists q, u]; apply in_app_iff;
          [right; now left|now left].
      * intros (q & u & H). apply in_app_iff in H as [H|[[= <- <- <-]|[]]]; eauto.
    + intros y. split.
      * intros H. destruct t; cbn in H.
        -- destruct H as [<-|H]; [exists p; apply in_app_iff; right; now left|].
           apply IH4 in H as [q H]. exists q. apply in_app_iff. now left.
        -- apply IH4 in H as [q H]. exists q. apply in_app_iff. now left.
      * intros [q H]. apply in_app_iff in H as [H|[[= <- -> <-]|[]]].
        -- assert (In y (tco_decorators (fold_left
             (fun r x => register r (pri x) (tco x) (nam x)) rs empty))) as H1 by (apply IH4; eauto).
           destruct t; [now right|exact H1].
        -- now left.
Qed.
Lemma registry_order_irrelevant rs rs' : Permutation rs rs' ->
  entries (after rs) = entries (after rs').
Proof.
  intros H. destruct (registry_ok rs) as (P1 & S1 & _), (registry_ok rs') as (P2 & S2 & _).
  apply (sorted_unique no_later); [apply no_later_antisym|exact S1|exact S2|].
  etransitivity; [apply Permutation_sym, P1|]. etransitivity; [|apply P2].
  now apply Permutation_map.
Qed.
Lemma entries_in rs p x : In (p, x) (entries (after rs)) <-> exists t, In (p, t, x) rs.
Proof.
  destruct (registry_ok rs) as (P1 & _). split.
  - intros H. apply (Permutation_in _ (Permutation_sym P1)) in H. apply in_map_iff in H.
    destruct H as ([[q t] y] & [= <- <-] & H). now exists t.
  - intros [t H]. apply (Permutation_in _ P1). apply in_map_iff. exists (p, t, x). auto.
Qed.

(** ** Names *)
Lemma getname_plain d : getname d = plain_name d.
Proof. now destruct d. Qed.
Lemma is_decorator_iff d x : is_decorator d x = true <-> deco_name d = Some x.
Proof.
  unfold is_decorator, isx, deco_name. destruct d as [y|e y|y|ps b|f l|l]; cbn;
    rewrite ?orb_false_r; try (rewrite String.eqb_eq; split; congruence); try easy.
  destruct f as [y|e y|y|ps b|g l'|l']; cbn; try (rewrite String.eqb_eq; split; congruence); easy.
Qed.
Definition Known (r : registry) (d : ex) : bool :=
  existsb (fun x => is_decorator d x) (all_decorators r).
Lemma Known_iff rs d : Known (after rs) d = true <-> known rs d.
Proof.
  unfold Known, known. rewrite existsb_exists. destruct (registry_ok rs) as (_ & _ & H & _). split.
  - intros (x & Hx & E). apply is_decorator_iff in E. exists x. split; [exact E|now apply H].
  - intros (x & E & Hx). exists x. split; [now apply H|now apply is_decorator_iff].
Qed.

(** ** Chains *)
Lemma detect_chain D ds ps b : ds <> [] ->
  (forall d, In d ds -> existsb (is_lambda_decorator (Call d [Name ""])) D = true) ->
  detect D (decorate ds (Lam ps b)) = true.
Proof.
  induction ds as [|d ds IH]; [congruence|]. intros _ H. cbn [decorate fold_right].
  change (fold_right (fun d t => Call d [t]) (Lam ps b) ds) with (decorate ds (Lam ps b)).
  cbn [detect].
  replace (existsb (is_lambda_decorator (Call d [decorate ds (Lam ps b)])) D) with true.
  - destruct ds as [|d' ds]; [reflexivity|]. apply IH; [discriminate|]. intros; apply H; now right.
  - symmetry. rewrite <- (H d (or_introl eq_refl)). reflexivity.
Qed.
Lemma detect_inv D t : detect D t = true ->
  exists ds ps b, ds <> [] /\ t = decorate ds (Lam ps b) /\
    forall d, In d ds -> existsb (is_lambda_decorator (Call d [Name ""])) D = true.
Proof.
  revert t. fix IH 1. intros [x|e x|x|ps b|f l|l]; try discriminate.
  destruct l as [|a [|a' l]]; try discriminate. cbn [detect].
  destruct (existsb (is_lambda_decorator (Call f [a])) D) eqn:E; [|discriminate].
  specialize (IH a). intros H.
  assert (E' : existsb (is_lambda_decorator (Call f [Name ""])) D = true) by (rewrite <- E; reflexivity).
  destruct a as [x|e x|x|ps b|g l|l]; try discriminate.
  - exists [f], ps, b. split; [discriminate|]. split; [reflexivity|]. now intros d [<-|[]].
  - destruct (IH H) as (ds & ps & b & _ & -> & Hd). exists (f :: ds), ps, b.
    split; [discriminate|]. split; [reflexivity|]. intros d [<-|Hi]; auto.
Qed.
Lemma known_D r d : existsb (is_lambda_decorator (Call d [Name ""])) (map Some (all_decorators r)) =
  Known r d.
Proof.
  unfold Known. induction (all_decorators r) as [|x l IH]; [reflexivity|]. cbn [map existsb].
  now rewrite IH.
Qed.
Lemma is_known_iff rs t : is_decorated_lambda (after rs) true t = true <-> known_lambda rs t.
Proof.
  unfold is_decorated_lambda, known_lambda. split.
  - intros H. apply detect_inv in H as (ds & ps & b & Hn & -> & Hd). exists ds, ps, b.
    split; [exact Hn|]. split; [|reflexivity]. intros d Hi. apply Known_iff. rewrite <- known_D. auto.
  - intros (ds & ps & b & Hn & Hd & ->). apply detect_chain; [exact Hn|]. intros d Hi.
    rewrite known_D. apply Known_iff. auto.
Qed.
Fixpoint nodes (ds : list ex) (t : ex) : list ex :=
  match ds with
  | [] => []
  | d :: ds' => decorate ds t :: nodes ds' t
  end.
Lemma destructure_chain ds ps b :
  destructure (decorate ds (Lam ps b)) = Some (nodes ds (Lam ps b), Lam ps b).
Proof.
  induction ds as [|d ds IH]; [reflexivity|]. cbn [decorate fold_right destructure nodes].
  change (fold_right (fun d t => Call d [t]) (Lam ps b) ds) with (decorate ds (Lam ps b)).
  now rewrite IH.
Qed.

(** Sorting the nodes sorts the functions. *)
Lemma le_prio_func r c1 c2 d1 a1 d2 a2 : c1 = Call d1 [a1] -> c2 = Call d2 [a2] ->
  le_prio r c1 c2 = le_prio r (Call d1 [Name ""]) (Call d2 [Name ""]).
Proof. now intros -> ->. Qed.
Definition le_deco (r : registry) (d1 d2 : ex) : bool :=
  le_prio r (Call d1 [Name ""]) (Call d2 [Name ""]).
Definition unary (c : ex) : Prop := exists d a, c = Call d [a].
Lemma insert_map r c l : unary c -> Forall unary l ->
  map func (insert (le_prio r) c l) = insert (le_deco r) (func c) (map func l).
Proof.
  intros (d & a & ->) Hl. induction Hl as [|c' l (d' & a' & ->) Hl IH]; [reflexivity|].
  cbn [insert map func] in *. unfold le_deco at 1.
  rewrite (le_prio_func r (Call d [a]) (Call d' [a']) d a d' a') by reflexivity.
  destruct (le_prio r (Call d [Name ""]) (Call d' [Name ""])); [reflexivity|]. cbn. now rewrite IH.
Qed.
Lemma insert_unary r c l : unary c -> Forall unary l -> Forall unary (insert (le_prio r) c l).
Proof.
  intros Hc Hl. rewrite Forall_forall in *. intros x Hx.
  apply (Permutation_in _ (Permutation_sym (insert_perm _ c l))) in Hx.
  destruct Hx as [<-|Hx]; auto.
Qed.
Lemma sort_map r l : Forall unary l ->
  Forall unary (sort (le_prio r) l) /\
  map func (sort (le_prio r) l) = sort (le_deco r) (map func l).
Proof.
  induction 1 as [|c l Hc Hl [IH1 IH2]]; [split; [constructor|reflexivity]|]. cbn [sort fold_right map].
  change (fold_right (insert (le_prio r)) [] l) with (sort (le_prio r) l). split.
  - now apply insert_unary.
  - rewrite insert_map by assumption. rewrite IH2. reflexivity.
Qed.
Lemma nodes_unary ds t : Forall unary (nodes ds t).
Proof. induction ds as [|d ds IH]; constructor; [|exact IH]. now exists d, (decorate ds t). Qed.
Lemma nodes_func ds t : map func (nodes ds t) = ds.
Proof. induction ds as [|d ds IH]; [reflexivity|]. cbn. now rewrite IH. Qed.
Lemma ordered_funcs_chain r ds ps b :
  ordered_funcs r (decorate ds (Lam ps b)) = sort (le_deco r) ds.
Proof.
  unfold ordered_funcs. rewrite destructure_chain.
  destruct (sort_map r (nodes ds (Lam ps b)) (nodes_unary _ _)) as [_ ->]. now rewrite nodes_func.
Qed.
Lemma fixit_pend r ds : forall fs ps b, length fs = length ds ->
  fixit r (Some fs) (decorate ds (Lam ps b)) = decorate fs (Lam ps (fixit r None b)).
Proof.
  induction ds as [|d ds IH]; intros [|f fs] ps b H; try discriminate; [reflexivity|].
  cbn [decorate fold_right fixit]. injection H as H. f_equal. f_equal. now apply IH.
Qed.
Lemma fixit_chain rs ds ps b : ds <> [] -> (forall d, In d ds -> known rs d) ->
  fixit (after rs) None (decorate ds (Lam ps b)) =
  decorate (sort (le_deco (after rs)) ds) (Lam ps (fixit (after rs) None b)).
Proof.
  intros Hn Hd.
  assert (K : is_decorated_lambda (after rs) true (decorate ds (Lam ps b)) = true).
  { apply is_known_iff. exists ds, ps, b. auto. }
  assert (L : length (sort (le_deco (after rs)) ds) = length ds).
  { apply Permutation_length, Permutation_sym, sort_perm. }
  pose proof (ordered_funcs_chain (after rs) ds ps b) as O.
  destruct ds as [|d ds]; [congruence|]. cbn [decorate fold_right] in *. cbn [fixit].
  rewrite K, O. destruct (sort (le_deco (after rs)) (d :: ds)) as [|f fs]; [discriminate|].
  cbn [decorate fold_right]. f_equal. f_equal. apply fixit_pend. cbn in L. lia.
Qed.

(** ** The order of two decorators *)
Lemma find_index_spec p l : forall k,
  match find_index p k l with
  | Some i => exists j e, i = k + j /\ nth_error l j = Some e /\ p e = true /\
                (forall m e', m < j -> nth_error l m = Some e' -> p e' = false)
  | None => forall e, In e l -> p e = false
  end.
Proof.
  induction l as [|e l IH]; intros k; cbn; [easy|]. destruct (p e) eqn:E.
  - exists 0, e. repeat split; [lia|exact E|]. lia.
  - specialize (IH (S k)). destruct (find_index p (S k) l) as [i|].
    + destruct IH as (j & e' & -> & H1 & H2 & H3). exists (S j), e'. repeat split; [lia|exact H1|exact H2|].
      intros [|m] e'' Hm; cbn; [congruence|]. apply H3. lia.
    + intros e' [<-|H]; auto.
Qed.
Lemma ss_nth {A} (R : A -> A -> Prop) l : StronglySorted R l -> forall i j a b, i < j ->
  nth_error l i = Some a -> nth_error l j = Some b -> R a b.
Proof.
  induction 1 as [|x l Hs IH Hx]; intros i j a b Hij Hi Hj; [destruct i; discriminate|].
  destruct j as [|j]; [lia|]. destruct i as [|i]; cbn in *.
  - injection Hi as <-. rewrite Forall_forall in Hx. apply Hx. eapply nth_error_In; eauto.
  - eapply IH; [|exact Hi|exact Hj]. lia.
Qed.
(** The position of a known decorator. *)
Lemma prioritize_known rs d x : deco_name d = Some x -> registered rs x ->
  exists i p, prioritize (after rs) (Call d [Name ""]) = Some i /\
    nth_error (entries (after rs)) i = Some (p, x) /\ lowest rs x p.
Proof.
  intros Hd (p0 & t0 & Hin). unfold prioritize.
  pose proof (find_index_spec (fun e => is_lambda_decorator (Call d [Name ""]) (Some (snd e)))
    (entries (after rs)) 0) as H.
  destruct (find_index _ 0 (entries (after rs))) as [i|].
  - destruct H as (j & [p y] & -> & H1 & H2 & H3). cbn in H2. apply is_decorator_iff in H2.
    rewrite Hd in H2. injection H2 as <-. exists j, p. split; [reflexivity|]. split; [exact H1|].
    destruct (registry_ok rs) as (_ & HS & _). split.
    + apply entries_in. eapply nth_error_In; eauto.
    + intros q t Hq. assert (Hq' : In (q, x) (entries (after rs))) by (apply entries_in; eauto).
      apply In_nth_error in Hq' as [m Hm]. destruct (Nat.lt_trichotomy m j) as [Hlt|[->|Hlt]].
      * specialize (H3 m (q, x) Hlt Hm). cbn in H3.
        assert (is_decorator d x = true) by (now apply is_decorator_iff). congruence.
      * pose proof (eq_trans (eq_sym H1) Hm) as K. injection K as K. lia.
      * pose proof (ss_nth _ _ HS j m _ _ Hlt H1 Hm) as [H|[H _]]; cbn in H; lia.
  - assert (In (p0, x) (entries (after rs))) as Hi by (apply entries_in; eauto).
    specialize (H _ Hi). cbn in H. assert (is_decorator d x = true) by (now apply is_decorator_iff).
    congruence.
Qed.
Lemma lowest_unique rs x p q : lowest rs x p -> lowest rs x q -> p = q.
Proof. intros ((t & H1) & H2) ((u & H3) & H4). specialize (H2 _ _ H3). specialize (H4 _ _ H1). lia. Qed.
Lemma highest_unique rs x p q : highest rs x p -> highest rs x q -> p = q.
Proof. intros ((t & H1) & H2) ((u & H3) & H4). specialize (H2 _ _ H3). specialize (H4 _ _ H1). lia. Qed.
Lemma le_deco_iff rs a b : known rs a -> known rs b ->
  (le_deco (after rs) a b = true <-> outer rs a b).
Proof.
  intros (x & Hx & Rx) (y & Hy & Ry).
  destruct (prioritize_known rs a x Hx Rx) as (i & p & Hi & Ni & Lp).
  destruct (prioritize_known rs b y Hy Ry) as (j & q & Hj & Nj & Lq).
  unfold le_deco, le_prio. rewrite Hi, Hj. rewrite Nat.leb_le.
  destruct (registry_ok rs) as (_ & HS & _). split.
  - intros Hij. exists x, y, p, q. repeat (split; [assumption|]).
    destruct (Nat.eq_dec i j) as [->|Hne].
    + rewrite Ni in Nj. injection Nj as -> ->. apply no_later_refl.
    + eapply (ss_nth _ _ HS i j); eauto. lia.
  - intros (x' & y' & p' & q' & Ex & Ey & Lp' & Lq' & H).
    assert (x' = x) by congruence. assert (y' = y) by congruence. subst x' y'.
    pose proof (lowest_unique _ _ _ _ Lp Lp'). pose proof (lowest_unique _ _ _ _ Lq Lq'). subst p' q'.
    destruct (Nat.le_gt_cases i j) as [Hle|Hgt]; [exact Hle|].
    pose proof (ss_nth _ _ HS j i _ _ Hgt Nj Ni) as H'.
    pose proof (no_later_antisym _ _ H H') as E. injection E as -> ->.
    exfalso. (* the first entry of a name *)
    unfold prioritize in Hi.
    pose proof (find_index_spec (fun e => is_lambda_decorator (Call a [Name ""]) (Some (snd e)))
      (entries (after rs)) 0) as F. rewrite Hi in F. destruct F as (j' & e & -> & F1 & F2 & F3).
    specialize (F3 j _ Hgt Nj). cbn in F3.
    assert (is_decorator a y = true) by (apply is_decorator_iff; exact Hx). congruence.
Qed.
Lemma outer_trans rs a b c : outer rs a b -> outer rs b c -> outer rs a c.
Proof.
  intros (x & y & p & q & A1 & A2 & A3 & A4 & A5) (y' & z & q' & r & B1 & B2 & B3 & B4 & B5).
  assert (y' = y) by congruence. subst y'.
  pose proof (lowest_unique _ _ _ _ A4 B3). subst q'.
  exists x, z, p, r. repeat (split; [assumption|]). eapply no_later_trans; eauto.
Qed.
Lemma known_lowest rs x : registered rs x -> exists p, lowest rs x p.
Proof.
  intros R. destruct (prioritize_known rs (Name x) x eq_refl R) as (i & p & _ & _ & L). eauto.
Qed.
Lemma outer_total rs a b : known rs a -> known rs b -> outer rs a b \/ outer rs b a.
Proof.
  intros (x & Hx & Rx) (y & Hy & Ry). destruct (known_lowest rs x Rx) as [p Lp].
  destruct (known_lowest rs y Ry) as [q Lq].
  destruct (no_later_total (p, x) (q, y)); [left; exists x, y, p, q|right; exists y, x, q, p]; auto.
Qed.
Lemma sort_in_order rs ds : (forall d, In d ds -> known rs d) ->
  in_order rs ds (sort (le_deco (after rs)) ds).
Proof.
  intros Hd. split; [apply sort_perm|]. split.
  - apply (sort_sorted (le_deco (after rs)) (known rs) (outer rs)).
    + intros a b. apply le_deco_iff.
    + apply outer_trans.
    + apply outer_total.
    + now apply Forall_forall.
  - intros x.
    enough (H : forall l, Forall (known rs) l ->
      filter (same_name x) (sort (le_deco (after rs)) l) = filter (same_name x) l)
      by (apply H; now apply Forall_forall).
    assert (Ins : forall a l, known rs a -> Forall (known rs) l ->
      filter (same_name x) (insert (le_deco (after rs)) a l) = filter (same_name x) (a :: l)).
    { intros a l Ha Hl. induction Hl as [|b l Hb Hl IH]; [reflexivity|]. cbn [insert].
      destruct (le_deco (after rs) a b) eqn:E; [reflexivity|]. cbn [filter] in *. rewrite IH.
      destruct (same_name x a) eqn:Ea, (same_name x b) eqn:Eb; try reflexivity. exfalso.
      assert (le_deco (after rs) a b = true) as H; [|congruence]. apply le_deco_iff; [exact Ha|exact Hb|].
      destruct Ha as (y & Hy & Ry). destruct Hb as (z & Hz & Rz). unfold same_name in Ea, Eb.
      rewrite Hy in Ea. rewrite Hz in Eb. apply String.eqb_eq in Ea, Eb. subst y z.
      destruct (known_lowest rs x Ry) as [p Lp]. exists x, x, p, p. repeat (split; [assumption|]).
      apply no_later_refl. }
    induction 1 as [|a l Ha Hl IH]; [reflexivity|]. cbn [sort fold_right].
    change (fold_right (insert (le_deco (after rs))) [] l) with (sort (le_deco (after rs)) l).
    rewrite Ins; [cbn; now rewrite IH|exact Ha|].
    rewrite Forall_forall in *. intros y Hy.
    apply (Permutation_in _ (Permutation_sym (sort_perm _ l))) in Hy. auto.
Qed.

(** ** The whole tree *)
Fixpoint size (t : ex) : nat :=
  match t with
  | Name _ | Cap _ => 1
  | Attr e _ => S (size e)
  | Lam _ b => S (size b)
  | Call f l => S (size f + list_sum (map size l))
  | Op l => S (list_sum (map size l))
  end.
Lemma size_decorate ds ps b : size b < size (decorate ds (Lam ps b)).
Proof.
  induction ds as [|d ds IH]; [cbn; lia|]. cbn [decorate fold_right size map].
  unfold list_sum. cbn [fold_right]. unfold decorate in IH. lia.
Qed.
Lemma fixit_sorts rs : forall n t, size t <= n -> sorted_into rs t (fixit (after rs) None t).
Proof.
  induction n as [|n IH]; intros t Hn; [destruct t; cbn in Hn; lia|].
  assert (M : forall l, list_sum (map size l) <= n ->
    Forall2 (sorted_into rs) l (map (fixit (after rs) None) l)).
  { induction l as [|a l IHl]; unfold list_sum; cbn [map fold_right]; intros H; [constructor|].
    constructor; [apply IH; lia|apply IHl; unfold list_sum; lia]. }
  destruct t as [x|e x|x|ps b|f l|l]; cbn [size] in Hn.
  - constructor.
  - cbn. constructor. apply IH. lia.
  - constructor.
  - cbn. constructor. apply IH. lia.
  - destruct (is_decorated_lambda (after rs) true (Call f l)) eqn:E.
    + apply is_known_iff in E. destruct E as (ds & ps & b & Hne & Hd & Et). rewrite Et.
      rewrite fixit_chain by assumption. apply so_lambda; try assumption.
      * now apply sort_in_order.
      * apply IH. pose proof (size_decorate ds ps b). rewrite <- Et in H. cbn [size] in H. lia.
    + cbn [fixit]. rewrite E. apply so_call.
      * intros K. apply is_known_iff in K. congruence.
      * apply IH. lia.
      * apply M. lia.
  - cbn. constructor. apply M. lia.
Qed.
Lemma sorts rs t : sorted_into rs t (sort_lambda_decorators (after rs) t).
Proof. apply (fixit_sorts rs (size t)). lia. Qed.

(** ** has_deco *)
Lemma has_deco_chain r names ds ps b : ds <> [] ->
  exists v, has_deco r names (decorate ds (Lam ps b)) = Some v /\
    (v = true <-> exists d x, In d ds /\ deco_name d = Some x /\ In x names).
Proof.
  intros Hn. unfold has_deco, is_decorated_lambda. rewrite detect_chain; [|exact Hn|reflexivity].
  rewrite destructure_chain. eexists. split; [reflexivity|].
  assert (E : forall x, existsb (fun d => is_lambda_decorator d (Some x)) (nodes ds (Lam ps b)) =
    existsb (fun d => is_decorator d x) ds).
  { clear Hn. intros x. induction ds as [|d ds IH]; [reflexivity|]. cbn [nodes existsb]. now rewrite IH. }
  rewrite existsb_exists. split.
  - intros (x & Hx & H). rewrite E, existsb_exists in H. destruct H as (d & Hd & H).
    apply is_decorator_iff in H. eauto.
  - intros (d & x & Hd & H & Hx). exists x. split; [exact Hx|]. rewrite E, existsb_exists.
    exists d. split; [exact Hd|]. now apply is_decorator_iff.
Qed.
Lemma has_deco_none r names t : (forall ds ps b, ds <> [] -> t <> decorate ds (Lam ps b)) ->
  has_deco r names t = None.
Proof.
  intros H. unfold has_deco, is_decorated_lambda. destruct (detect [None] t) eqn:E; [|reflexivity].
  apply detect_inv in E as (ds & ps & b & Hn & -> & _). now destruct (H ds ps b Hn).
Qed.
Lemma has_deco_def_ok names l :
  has_deco_def names l = true <-> exists d x, In d l /\ deco_name d = Some x /\ In x names.
Proof.
  unfold has_deco_def. rewrite existsb_exists. split.
  - intros (x & Hx & H). rewrite existsb_exists in H. destruct H as (d & Hd & H).
    apply is_decorator_iff in H. eauto.
  - intros (d & x & Hd & H & Hx). exists x. split; [exact Hx|]. rewrite existsb_exists.
    exists d. split; [exact Hd|]. now apply is_decorator_iff.
Qed.

(** ** Where to insert *)
Lemma find_rev_spec rs x :
  match pri_by_name (after rs) x with
  | Some p => highest rs x p
  | None => ~ registered rs x
  end.
Proof.
  unfold pri_by_name. destruct (registry_ok rs) as (_ & HS & _).
  destruct (find (fun e => String.eqb (snd e) x) (rev (entries (after rs)))) as [[p y]|] eqn:E; cbn.
  - assert (Hy : y = x).
    { apply find_some in E as [_ E]. now apply String.eqb_eq in E. }
    subst y. split.
    + apply entries_in. apply find_some in E as [E _]. now apply in_rev in E.
    + intros q t Hq. assert (Hq' : In (q, x) (entries (after rs))) by (apply entries_in; eauto).
      clear Hq. revert E Hq' HS. generalize (entries (after rs)). clear. intros l.
      induction l as [|e l IH]; [easy|]. cbn [rev]. intros E Hq HS.
      inversion HS as [|? ? HS' He]; subst.
      assert (F : forall (f : entry -> bool) a b, find f (a ++ b) = match find f a with Some z => Some z | None => find f b end).
      { clear. intros f a b. induction a as [|z a IH]; [reflexivity|]. cbn. now destruct (f z). }
      rewrite F in E. destruct (find (fun e0 => String.eqb (snd e0) x) (rev l)) as [[p' y]|] eqn:E'.
      * injection E as -> ->. destruct Hq as [->|Hq]; [|now apply IH].
        apply find_some in E' as [E' _]. apply in_rev in E'. rewrite Forall_forall in He.
        destruct (He _ E') as [H|[H _]]; cbn in H; lia.
      * destruct Hq as [->|Hq].
        -- cbn in E. destruct (String.eqb x x); [|discriminate]. injection E as ->. lia.
        -- assert (K : String.eqb (snd (q, x)) x = false) by (apply (find_none _ _ E' (q, x)); now apply -> in_rev).
           cbn in K. rewrite String.eqb_refl in K. discriminate.
  - intros (p & t & Hp). assert (Hp' : In (p, x) (entries (after rs))) by (apply entries_in; eauto).
    assert (K : String.eqb (snd (p, x)) x = false) by (apply (find_none _ _ E (p, x)); now apply -> in_rev).
    cbn in K. rewrite String.eqb_refl in K. discriminate.
Qed.
Lemma cummax_ascending l : forall m, ascending (cummax (Some m) l) = true /\
  (forall x, In x (cummax (Some m) l) -> (m <= x)%Z).
Proof.
  induction l as [|x l IH]; intros m; [split; easy|]. cbn [cummax].
  destruct (IH (Z.max x m)) as [I1 I2]. split.
  - cbn [ascending]. destruct (cummax (Some (Z.max x m)) l) as [|y l'] eqn:E; [reflexivity|].
    rewrite I1, andb_true_r. apply Z.leb_le. apply I2. now left.
  - intros y [<-|Hy]; [lia|]. specialize (I2 y Hy). lia.
Qed.
(** The check that the decorators are in order always succeeds. *)
Lemma always_ascending l : isascending l = true.
Proof.
  unfold isascending. destruct l as [|x l]; [reflexivity|]. cbn [cummax].
  destruct (cummax_ascending l x) as [I1 I2]. cbn [ascending].
  destruct (cummax (Some x) l) as [|y l'] eqn:E; [reflexivity|].
  rewrite I1, andb_true_r. apply Z.leb_le. apply I2. now left.
Qed.
(** The known decorators with their positions *)
Lemma known_of_cons r d l : known_of r (map getname (d :: l)) =
  match plain_name d with
  | Some x => match pri_by_name r x with Some p => [(p, x)] | None => [] end
  | None => []
  end ++ known_of r (map getname l).
Proof. unfold known_of. cbn [map flat_map]. now rewrite getname_plain. Qed.
Lemma known_of_in rs l p x : In (p, x) (known_of (after rs) (map getname l)) <->
  exists d, In d l /\ plain_name d = Some x /\ highest rs x p.
Proof.
  induction l as [|d l IH].
  - cbn. split; [easy|]. now intros (d & [] & _).
  - rewrite known_of_cons, in_app_iff, IH. split.
    + intros [H|(d' & H1 & H2)]; [|exists d'; split; [now right|exact H2]].
      exists d. split; [now left|]. destruct (plain_name d) as [y|]; [|easy].
      pose proof (find_rev_spec rs y) as F. destruct (pri_by_name (after rs) y) as [q|]; [|easy].
      destruct H as [[= -> ->]|[]]. auto.
    + intros (d' & [<-|H1] & H2 & H3); [left|right; eauto]. rewrite H2.
      pose proof (find_rev_spec rs x) as F. destruct (pri_by_name (after rs) x) as [q|].
      * left. f_equal. eapply highest_unique; eauto.
      * exfalso. apply F. destruct H3 as ((t & H3) & _). now exists p, t.
Qed.
Lemma index_of_spec x l : In (Some x) l ->
  index_of x l < length l /\ nth_error l (index_of x l) = Some (Some x) /\
  forall i, i < index_of x l -> nth_error l i <> Some (Some x).
Proof.
  induction l as [|[y|] l IH]; [easy| |]; cbn.
  - destruct (String.eqb_spec y x) as [->|Hne].
    + intros _. split; [lia|]. split; [reflexivity|]. lia.
    + intros [[= ->]|H]; [congruence|]. destruct (IH H) as (I1 & I2 & I3). split; [lia|].
      split; [exact I2|]. intros [|i] Hi; cbn; [congruence|]. apply I3. lia.
  - intros [[=]|H]. destruct (IH H) as (I1 & I2 & I3). split; [lia|].
    split; [exact I2|]. intros [|i] Hi; cbn; [congruence|]. apply I3. lia.
Qed.
Lemma known_sorted rs l : ordered rs l ->
  StronglySorted (fun a b => (fst a <= fst b)%Z) (known_of (after rs) (map getname l)).
Proof.
  induction l as [|d l IH]; intros Ho; [constructor|]. rewrite known_of_cons.
  assert (Ho' : ordered rs l).
  { intros i j e e' x x' p p' Hij Hi Hj. apply (Ho (S i) (S j)); [lia|exact Hi|exact Hj]. }
  specialize (IH Ho'). destruct (plain_name d) as [x|] eqn:Ex; [|exact IH].
  pose proof (find_rev_spec rs x) as F. destruct (pri_by_name (after rs) x) as [p|]; [|exact IH].
  cbn. constructor; [exact IH|]. apply Forall_forall. intros [q y] Hq. cbn.
  apply known_of_in in Hq as (e & He & Hy & Hq). apply In_nth_error in He as [j Hj].
  eapply (Ho 0 (S j) d e); eauto. lia.
Qed.
Lemma last_max (l : list (Z * string)) d : StronglySorted (fun a b => (fst a <= fst b)%Z) l ->
  forall p x, In (p, x) l -> (p <= last (map fst l) d)%Z.
Proof.
  induction 1 as [|[q y] l Hs IH Hy]; [easy|]. intros p x [[= -> ->]|H].
  - destruct l as [|[r z] l]; [cbn; lia|].
    change (p <= last (map fst ((r, z) :: l)) d)%Z.
    specialize (IH r z (or_introl eq_refl)). inversion Hy as [|? ? H1 H2]; subst. cbn [fst] in H1. lia.
  - destruct l as [|[r z] l]; [easy|]. exact (IH p x H).
Qed.
Lemma last_in (l : list (Z * string)) d : l <> [] -> exists x, In (last (map fst l) d, x) l.
Proof.
  induction l as [|[p x] l IH]; [congruence|]. intros _. destruct l as [|[q y] l].
  - exists x. now left.
  - destruct IH as [z Hz]; [discriminate|]. exists z. right. exact Hz.
Qed.
Lemma find_position rs l t q y :
  find (fun e => (t <=? fst e)%Z) (known_of (after rs) (map getname l)) = Some (q, y) ->
  exists i d, nth_error l i = Some d /\ plain_name d = Some y /\ highest rs y q /\ (t <= q)%Z /\
    forall i' d' x p, i' < i -> nth_error l i' = Some d' -> plain_name d' = Some x ->
      highest rs x p -> (p < t)%Z.
Proof.
  induction l as [|d l IH]; [discriminate|]. rewrite known_of_cons.
  assert (Next : find (fun e => (t <=? fst e)%Z) (known_of (after rs) (map getname l)) = Some (q, y) ->
    (forall x p, plain_name d = Some x -> highest rs x p -> (p < t)%Z) ->
    exists i d', nth_error (d :: l) i = Some d' /\ plain_name d' = Some y /\ highest rs y q /\
      (t <= q)%Z /\ forall i' d' x p, i' < i -> nth_error (d :: l) i' = Some d' ->
        plain_name d' = Some x -> highest rs x p -> (p < t)%Z).
  { intros H Hd. destruct (IH H) as (i & d' & I1 & I2 & I3 & I4 & I5). exists (S i), d'.
    repeat (split; [assumption|]). intros [|i'] e x p Hi; cbn.
    - intros [= ->]. apply Hd.
    - apply I5. lia. }
  destruct (plain_name d) as [x|] eqn:Ex; [|intros H; apply Next; [exact H|discriminate]].
  pose proof (find_rev_spec rs x) as F. destruct (pri_by_name (after rs) x) as [p|].
  - cbn [app find fst]. destruct (Z.leb_spec t p) as [Hle|Hgt].
    + intros [= <- <-]. exists 0, d. repeat (split; [assumption || reflexivity|]). lia.
    + intros H. apply Next; [exact H|]. intros x' p' [= <-] Hp'.
      rewrite (highest_unique _ _ _ _ Hp' F). exact Hgt.
  - intros H. apply Next; [exact H|]. intros x' p' [= <-] ((u & Hu) & _). exfalso. apply F.
    now exists p', u.
Qed.
Lemma suggest_known rs x l : registered rs x ->
  (exists d y, In d l /\ plain_name d = Some y /\ registered rs y) ->
  exists k, suggest_decorator_index (after rs) x l = Some k.
Proof.
  intros Rx (d & y & Hd & Hy & Ry). unfold suggest_decorator_index.
  replace (existsb (String.eqb x) (all_decorators (after rs))) with true.
  2:{ symmetry. rewrite existsb_exists. exists x. split; [|apply String.eqb_refl].
      destruct (registry_ok rs) as (_ & _ & H & _). now apply H. }
  pose proof (find_rev_spec rs y) as Fy. destruct (pri_by_name (after rs) y) as [q|]; [|easy].
  assert (Hin : In (q, y) (known_of (after rs) (map getname l))) by (apply known_of_in; eauto).
  destruct (known_of (after rs) (map getname l)) as [|[first n0] kn] eqn:E; [easy|].
  rewrite always_ascending. pose proof (find_rev_spec rs x) as Fx.
  destruct (pri_by_name (after rs) x) as [t|]; [|easy].
  destruct (t <? first)%Z; [eauto|].
  destruct (Z.ltb_spec (last (map fst ((first, n0) :: kn)) first) t) as [Hl|Hl]; [eauto|].
  destruct (find (fun e => (t <=? fst e)%Z) ((first, n0) :: kn)) as [[r z]|] eqn:Ef; [eauto|].
  exfalso. destruct (last_in ((first, n0) :: kn) first) as [z Hz]; [discriminate|].
  pose proof (find_none _ _ Ef _ Hz) as F. cbn [fst] in F. apply Z.leb_gt in F. lia.
Qed.
Lemma suggest_none rs x l :
  suggest_decorator_index (after rs) x l = None ->
  ~ registered rs x \/ (forall d y, In d l -> plain_name d = Some y -> ~ registered rs y).
Proof.
  intros H. destruct (existsb (String.eqb x) (all_decorators (after rs))) eqn:E.
  - right. intros d y Hd Hy Ry. destruct (suggest_known rs x l) as [k Hk]; [|eauto|congruence].
    apply existsb_exists in E as (z & Hz & E). apply String.eqb_eq in E. subst z.
    destruct (registry_ok rs) as (_ & _ & G & _). now apply G.
  - left. intros Rx. destruct (registry_ok rs) as (_ & _ & G & _). apply G in Rx.
    assert (existsb (String.eqb x) (all_decorators (after rs)) = true) as K; [|congruence].
    rewrite existsb_exists. exists x. split; [exact Rx|apply String.eqb_refl].
Qed.
Lemma suggest_fits rs x l k p : ordered rs l -> highest rs x p ->
  suggest_decorator_index (after rs) x l = Some k -> fits rs p k l.
Proof.
  intros Ho Hp. unfold suggest_decorator_index.
  destruct (existsb (String.eqb x) (all_decorators (after rs))); [|discriminate].
  pose proof (known_sorted rs l Ho) as HS.
  destruct (known_of (after rs) (map getname l)) as [|[first n0] kn] eqn:E; [discriminate|].
  rewrite always_ascending. pose proof (find_rev_spec rs x) as Fx.
  destruct (pri_by_name (after rs) x) as [t|]; [|discriminate].
  pose proof (highest_unique _ _ _ _ Hp Fx). subst t.
  assert (K : forall i d y q, nth_error l i = Some d -> plain_name d = Some y -> highest rs y q ->
    In (q, y) ((first, n0) :: kn)).
  { intros i d y q Hi Hy Hq. rewrite <- E. apply known_of_in. exists d. split; [|auto].
    eapply nth_error_In; eauto. }
  destruct (Z.ltb_spec p first) as [Hlt|Hge].
  - intros [= <-]. split; [lia|]. intros i d y q Hi Hy Hq. split; [lia|]. intros _.
    specialize (K _ _ _ _ Hi Hy Hq). inversion HS as [|? ? _ Hf]; subst.
    destruct K as [[= <- _]|K]; [lia|]. rewrite Forall_forall in Hf. specialize (Hf _ K). cbn in Hf. lia.
  - destruct (Z.ltb_spec (last (map fst ((first, n0) :: kn)) first) p) as [Hl|Hl].
    + intros [= <-]. split; [lia|]. intros i d y q Hi Hy Hq.
      specialize (K _ _ _ _ Hi Hy Hq). pose proof (last_max _ first HS _ _ K). split; [lia|].
      intros Hlen. assert (nth_error l i = None) by (now apply nth_error_None). congruence.
    + destruct (find (fun e => (p <=? fst e)%Z) ((first, n0) :: kn)) as [[r z]|] eqn:Ef; [|discriminate].
      intros [= <-]. rewrite <- E in Ef.
      destruct (find_position rs l p r z Ef) as (i0 & d0 & N0 & P0 & H0 & L0 & B0).
      assert (Iz : In (Some z) (map getname l)).
      { apply in_map_iff. exists d0. split; [now rewrite getname_plain|eapply nth_error_In; eauto]. }
      destruct (index_of_spec z _ Iz) as (J1 & J2 & J3). rewrite map_length in J1.
      set (k' := index_of z (map getname l)) in *.
      assert (k' = i0) as Ek.
      { destruct (Nat.lt_trichotomy k' i0) as [Hlt|[He|Hgt]]; [|exact He|].
        - exfalso. rewrite nth_error_map in J2. destruct (nth_error l k') as [d'|] eqn:Nd; [|discriminate].
          cbn in J2. rewrite getname_plain in J2. injection J2 as J2.
          specialize (B0 k' d' z r Hlt Nd J2 H0). lia.
        - exfalso. apply (J3 i0 Hgt). rewrite nth_error_map, N0. cbn. now rewrite getname_plain, P0. }
      rewrite Ek in *. split; [lia|]. intros i d y q Hi Hy Hq. split.
      * intros Hik. eapply B0; eauto.
      * intros Hki. destruct (Nat.eq_dec i0 i) as [->|Hne].
        -- assert (d = d0) by congruence. subst d0. assert (y = z) by congruence. subst y.
           pose proof (highest_unique _ _ _ _ Hq H0). lia.
        -- assert (r <= q)%Z by (eapply (Ho i0 i); eauto; lia). lia.
Qed.

(** ** Cases *)
Definition known_builtin (x : string) : bool := existsb (fun e => String.eqb (nam e) x) builtin.
Lemma builtin_registered x : known_builtin x = true -> registered builtin x.
Proof.
  unfold known_builtin. rewrite existsb_exists. intros ([[p t] y] & H & E).
  apply String.eqb_eq in E. cbn in E. subst y. now exists p, t.
Qed.
Lemma builtin_highest x p : existsb (fun e => String.eqb (nam e) x && Z.eqb (pri e) p) builtin = true ->
  forallb (fun e => negb (String.eqb (nam e) x) || Z.leb (pri e) p) builtin = true ->
  highest builtin x p.
Proof.
  rewrite existsb_exists, forallb_forall. intros ([[q t] y] & H & E) F. split.
  - apply andb_true_iff in E as [E1 E2]. apply String.eqb_eq in E1. apply Z.eqb_eq in E2. cbn in *.
    subst. eauto.
  - intros q' t' H'. specialize (F _ H'). cbn in F. rewrite String.eqb_refl in F. cbn in F.
    now apply Z.leb_le.
Qed.
Lemma unordered_case : exists l x k p,
  l = [Name "trampolined"; Name "memoize"] /\ x = "valuify" /\ highest builtin x p /\
  suggest_decorator_index (after builtin) x l = Some k /\ ~ fits builtin p k l.
Proof.
  eexists. exists "valuify", 0, 30%Z. split; [reflexivity|]. split; [reflexivity|].
  split; [now apply builtin_highest|]. split; [vm_compute; reflexivity|].
  intros [_ H]. specialize (H 1 (Name "memoize") "memoize" 10%Z eq_refl eq_refl).
  destruct H as [_ H]; [now apply builtin_highest|]. specialize (H ltac:(lia)). lia.
Qed.
Lemma parametric_case : exists l,
  l = [Name "curry"; Call (Name "looped_over") [Name "xs"]] /\
  suggest_decorator_index (after builtin) "valuify" l = Some 2 /\
  highest builtin "valuify" 30%Z /\ highest builtin "looped_over" 50%Z.
Proof.
  eexists. split; [reflexivity|]. split; [vm_compute; reflexivity|].
  split; now apply builtin_highest.
Qed.
Lemma unknown_case : exists t,
  t = Call (Name "trampolined") [Call (Name "memoize") [Call (Cap "curryf") [Lam ["x"] (Name "x")]]] /\
  sort_lambda_decorators (after builtin) t = t.
Proof. eexists. split; [reflexivity|vm_compute; reflexivity]. Qed.

(** The decorators of the library that apply TCO *)
Lemma builtin_tco x : In x (tco_decorators (after builtin)) <->
  In x ["trampolined"; "fixtco"; "looped"; "breakably_looped"; "looped_over"; "breakably_looped_over"].
Proof. cbn. tauto. Qed.
