(** Lemmas about folds. *)
From Verif Require Import Base BaseProofs ItrModel ItrProofs FoldModel FoldSpec.
From Coq Require Import List Bool ZArith Arith Lia.
Import ListNotations.
Open Scope nat_scope.

Lemma scan_loop_nth {A X} (proc : list A -> X -> X) : forall xss acc i,
  nth_error (scan_loop proc acc xss) i =
  if i <=? length xss then Some (fold_left (fun a xs => proc xs a) (firstn i xss) acc) else None.
Proof.
  induction xss as [|xs xss IH]; intros acc i; cbn [scan_loop].
  - destruct i as [|i]; [reflexivity|]. simpl. destruct i; reflexivity.
  - destruct i as [|i]; [reflexivity|]. cbn [nth_error]. rewrite IH. reflexivity.
Qed.
Lemma scan_loop_length {A X} (proc : list A -> X -> X) xss : forall acc, length (scan_loop proc acc xss) = S (length xss).
Proof. induction xss; intro acc; simpl; auto. Qed.
Lemma last_nth {A} (l : list A) d : last l d = nth (length l - 1) l d.
Proof.
  induction l as [|x l IH]; [reflexivity|]. destruct l as [|y l]; [reflexivity|].
  change (last (x :: y :: l) d) with (last (y :: l) d). rewrite IH.
  cbn [length]. replace (S (S (length l)) - 1) with (S (S (length l) - 1)) by lia. reflexivity.
Qed.
Lemma scan_loop_last {A X} (proc : list A -> X -> X) xss acc d :
  last (scan_loop proc acc xss) d = fold_left (fun a xs => proc xs a) xss acc.
Proof.
  rewrite last_nth, scan_loop_length. cbn [Nat.sub]. rewrite Nat.sub_0_r.
  apply nth_error_nth. rewrite scan_loop_nth, Nat.leb_refl, firstn_all. reflexivity.
Qed.

Lemma scanl_nth {A X} (proc : list A -> X -> X) init fill cols i :
  nth_error (scanl proc init fill cols) i =
  if i <=? length (rows fill cols) then Some (fold_left (fun a xs => proc xs a) (firstn i (rows fill cols)) init) else None.
Proof. apply scan_loop_nth. Qed.
Lemma foldl_eq {A X} (proc : list A -> X -> X) init fill cols :
  foldl proc init fill cols = fold_left (fun a xs => proc xs a) (rows fill cols) init.
Proof. unfold foldl. rewrite last_spec. apply scan_loop_last. Qed.
Lemma foldr_eq {A X} (proc : list A -> X -> X) init fill cols :
  foldr proc init fill cols = fold_right proc init (rows fill cols).
Proof.
  unfold foldr, scanr. rewrite last_spec, scan_loop_last. unfold rev_. symmetry.
  rewrite <- (rev_involutive (rows fill cols)) at 1. rewrite fold_left_rev_right. reflexivity.
Qed.
Lemma scanr_nth {A X} (proc : list A -> X -> X) init fill cols i : i <= length (rows fill cols) ->
  nth_error (scanr proc init fill cols) i =
  Some (fold_right proc init (skipn (length (rows fill cols) - i) (rows fill cols))).
Proof.
  intro H. unfold scanr. rewrite scan_loop_nth. unfold rev_. rewrite rev_length.
  destruct (Nat.leb_spec i (length (rows fill cols))); [|lia]. f_equal.
  rewrite firstn_rev, <- fold_left_rev_right, rev_involutive. reflexivity.
Qed.
Lemma scan_lengths {A X} (proc : list A -> X -> X) init fill cols :
  length (scanl proc init fill cols) = S (length (rows fill cols)) /\
  length (scanr proc init fill cols) = S (length (rows fill cols)).
Proof. unfold scanl, scanr, rev_. now rewrite !scan_loop_length, rev_length. Qed.
Lemma scan_last_fold {A X} (proc : list A -> X -> X) init fill cols d :
  last (scanl proc init fill cols) d = foldl proc init fill cols /\
  last (scanr proc init fill cols) d = foldr proc init fill cols.
Proof.
  unfold foldl, foldr. rewrite !last_spec. unfold scanl, scanr. now rewrite !scan_loop_last.
Qed.

Lemma rows_equal {A} (cols : list (list A)) : 
  (forall c d, In c cols -> In d cols -> length c = length d) ->
  rev (zip cols) = zip (map rev_ cols).
Proof. intro H. symmetry. exact (rzip_zipr_equal cols H). Qed.
Lemma foldr_rfoldl {A X} (proc : list A -> X -> X) init cols :
  (forall c d, In c cols -> In d cols -> length c = length d) ->
  foldr proc init None cols = rfoldl proc init None cols /\
  scanr proc init None cols = rscanl proc init None cols.
Proof.
  intro H. assert (E : scanr proc init None cols = rscanl proc init None cols).
  { unfold scanr, rscanl, scanl, rev_. cbn [rows]. now rewrite rows_equal. }
  split; [|exact E]. unfold foldr, rfoldl, foldl. unfold rscanl in E. now rewrite E.
Qed.
Lemma rfoldl_eq {A X} (proc : list A -> X -> X) init fill cols :
  rfoldl proc init fill cols = fold_left (fun a xs => proc xs a) (rows fill (map rev_ cols)) init.
Proof. apply foldl_eq. Qed.

Lemma zip_single {A} (l : list A) : zip [l] = map (fun x => [x]) l.
Proof.
  unfold zip. cbn [min_len fold_left]. apply nth_error_ext. intro i. rewrite !nth_error_map.
  destruct (le_lt_dec (length l) i) as [H|H].
  - rewrite (proj2 (nth_error_None (seq 0 (length l)) i)) by (rewrite seq_length; assumption).
    rewrite (proj2 (nth_error_None l i)) by assumption. reflexivity.
  - rewrite (nth_error_nth' (seq 0 (length l)) 0) by (rewrite seq_length; assumption).
    rewrite seq_nth by assumption. simpl. destruct (nth_error l i) eqn:E; [reflexivity|].
    apply nth_error_None in E. lia.
Qed.
Lemma fold_left_singles {A X} (f : A -> X -> X) (proc : list A -> X -> X) (l : list A) :
  (forall x a, proc [x] a = f x a) ->
  forall acc, fold_left (fun a xs => proc xs a) (map (fun x => [x]) l) acc = fold_left (fun a x => f x a) l acc.
Proof. intro H. induction l as [|x l IH]; intro acc; [reflexivity|]. simpl. rewrite H. apply IH. Qed.
Lemma last_map_Some {A} (l : list A) d : last (map Some l) None = match l with [] => None | _ => Some (last l d) end.
Proof.
  induction l as [|x l IH]; [reflexivity|]. destruct l as [|y l]; [reflexivity|].
  change (last (map Some (x :: y :: l)) None) with (last (map Some (y :: l)) None). rewrite IH. reflexivity.
Qed.
Lemma scan_loop_singles {A} (proc : A -> A -> A) l acc :
  last (scan_loop (proc1 proc) acc (map (fun x => [x]) l)) acc = fold_left (fun a x => proc x a) l acc.
Proof. rewrite scan_loop_last. now apply fold_left_singles. Qed.
Lemma scan_loop_nonempty {A X} (proc : list A -> X -> X) acc xss : scan_loop proc acc xss <> [].
Proof. destruct xss; discriminate. Qed.

Lemma reducel_eq {A} (proc : A -> A -> A) l init :
  reducel proc l init =
  match init, l with
  | Some a, _ => Some (fold_left (fun acc x => proc x acc) l a)
  | None, [] => None
  | None, a :: l' => Some (fold_left (fun acc x => proc x acc) l' a)
  end.
Proof.
  assert (G : forall a r, last_ (map Some (scanl (proc1 proc) a None [r])) None =
                          Some (fold_left (fun acc x => proc x acc) r a)).
  { intros a r. rewrite last_spec, (last_map_Some _ a). unfold scanl. cbn [rows]. rewrite zip_single.
    destruct (scan_loop (proc1 proc) a (map (fun x => [x]) r)) eqn:E.
    - now apply scan_loop_nonempty in E.
    - rewrite <- E. f_equal. apply scan_loop_singles. }
  unfold reducel, scanl1. destruct init as [a|]; [apply G|]. destruct l as [|a l]; [reflexivity|]. apply G.
Qed.
Lemma reducer_eq {A} (proc : A -> A -> A) l init :
  reducer proc l init =
  match init, rev l with
  | Some a, _ => Some (fold_right proc a l)
  | None, [] => None
  | None, a :: r => Some (fold_right proc a (rev r))
  end.
Proof.
  assert (G : forall a r, last_ (map Some (scan_loop (proc1 proc) a (map (fun x => [x]) r))) None =
                          Some (fold_left (fun acc x => proc x acc) r a)).
  { intros a r. rewrite last_spec, (last_map_Some _ a).
    destruct (scan_loop (proc1 proc) a (map (fun x => [x]) r)) eqn:E.
    - now apply scan_loop_nonempty in E.
    - rewrite <- E. f_equal. apply scan_loop_singles. }
  unfold reducer, scanr1, scanr, rev_. cbn [rows]. rewrite zip_single, <- map_rev.
  destruct init as [a|].
  - rewrite G. f_equal. rewrite <- fold_left_rev_right. rewrite rev_involutive. reflexivity.
  - destruct (rev l) as [|a r]; [reflexivity|]. cbn [map]. rewrite G. f_equal.
    rewrite <- fold_left_rev_right. reflexivity.
Qed.

(** unfold *)
Lemma unfold_state_shift {V S} (proc : S -> option (V * S)) : forall i s v t,
  proc s = Some (v, t) -> unfold_state proc s (Datatypes.S i) = unfold_state proc t i.
Proof.
  induction i as [|i IH]; intros s v t H.
  - cbn [unfold_state]. rewrite H. reflexivity.
  - change (unfold_state proc s (Datatypes.S (Datatypes.S i)))
      with (match unfold_state proc s (Datatypes.S i) with None => None
            | Some t => match proc t with None => None | Some (_, t') => Some t' end end).
    rewrite (IH s v t H). reflexivity.
Qed.
Lemma unfold_state_end {V S} (proc : S -> option (V * S)) s : proc s = None -> forall i, 0 < i -> unfold_state proc s i = None.
Proof.
  intros H i Hi. induction i as [|i IH]; [lia|]. cbn [unfold_state]. destruct i as [|i].
  - simpl. now rewrite H. - now rewrite IH by lia.
Qed.
Lemma unfold1_nth {V S} (proc : S -> option (V * S)) : forall n s i, i < n ->
  nth_error (fst (unfold1 proc s n)) i =
  match unfold_state proc s i with
  | None => None
  | Some t => match proc t with None => None | Some (v, _) => Some v end
  end.
Proof.
  induction n as [|n IH]; intros s i H; [lia|]. cbn [unfold1].
  destruct (proc s) as [[v t]|] eqn:E.
  - destruct (unfold1 proc t n) as [vs e] eqn:U. cbn [fst]. destruct i as [|i].
    + cbn [nth_error unfold_state]. now rewrite E.
    + cbn [nth_error]. specialize (IH t i ltac:(lia)). rewrite U in IH. cbn [fst] in IH. rewrite IH.
      now rewrite (unfold_state_shift proc i s v t E).
  - cbn [fst]. destruct i as [|i].
    + cbn [nth_error unfold_state]. now rewrite E.
    + rewrite unfold_state_end by (assumption || lia). reflexivity.
Qed.
Lemma unfold1_ended {V S} (proc : S -> option (V * S)) : forall n s,
  snd (unfold1 proc s n) = true <-> exists i t, i < n /\ unfold_state proc s i = Some t /\ proc t = None.
Proof.
  induction n as [|n IH]; intro s; cbn [unfold1].
  - split; [discriminate|]. intros (i & t & H & _). lia.
  - destruct (proc s) as [[v t]|] eqn:E.
    + specialize (IH t). destruct (unfold1 proc t n) as [vs e] eqn:U. cbn [snd] in *. rewrite IH. split.
      * intros (i & u & Hi & Hu & Hn). exists (Datatypes.S i), u. split; [lia|].
        rewrite (unfold_state_shift proc i s v t E). auto.
      * intros (i & u & Hi & Hu & Hn). destruct i as [|i].
        -- simpl in Hu. injection Hu as <-. congruence.
        -- exists i, u. rewrite (unfold_state_shift proc i s v t E) in Hu. split; [lia|auto].
    + split; [|reflexivity]. intros _. exists 0, s. split; [lia|]. split; [reflexivity|exact E].
Qed.

(** prod, minmax *)
Lemma prod_eq l start : prod l start = Some (start * fold_right Z.mul 1 l)%Z.
Proof.
  unfold prod. rewrite reducel_eq. f_equal. revert start.
  induction l as [|x l IH]; intro start; simpl; [ring|]. rewrite IH. ring.
Qed.

Section MM.
Context {A : Type}.
Variable ltb : A -> A -> bool.
Hypothesis ltb_asym : forall a b, ltb a b = true -> ltb b a = false.
Hypothesis le_trans : forall a b c, ltb b a = false -> ltb c b = false -> ltb c a = false.

Lemma mm_step l m x : extrema ltb l m -> extrema ltb (l ++ [x]) (mm ltb [x] m).
Proof.
  destruct m as [a b]. intros (Ha & Hb & H). cbn [mm]. unfold extrema in *. cbn [fst snd] in *.
  assert (I1 : forall y, ltb y y = false).
  { intro y. destruct (ltb y y) eqn:E; [|reflexivity]. pose proof (ltb_asym _ _ E). congruence. }
  repeat split.
  - apply in_or_app. destruct (ltb x a); [right; now left|left; assumption].
  - apply in_or_app. destruct (ltb b x); [right; now left|left; assumption].
  - destruct (ltb x a) eqn:E; apply in_app_or in H0 as [H0|[<-|[]]]; auto.
    + apply le_trans with a; [now apply ltb_asym|apply H, H0].
    + apply H, H0.
  - destruct (ltb b x) eqn:E; apply in_app_or in H0 as [H0|[<-|[]]]; auto.
    + apply le_trans with b; [apply H, H0|now apply ltb_asym].
    + apply H, H0.
Qed.
Lemma mm_fold : forall r l m, extrema ltb l m ->
  extrema ltb (l ++ r) (fold_left (fun a xs => mm ltb xs a) (map (fun x => [x]) r) m).
Proof.
  induction r as [|x r IH]; intros l m H; simpl; [now rewrite app_nil_r|].
  replace (l ++ x :: r) with ((l ++ [x]) ++ r) by (rewrite <- app_assoc; reflexivity).
  apply IH. now apply mm_step.
Qed.
Lemma running_minmax_spec l : length (running_minmax ltb l) = length l /\
  forall i m, nth_error (running_minmax ltb l) i = Some m -> extrema ltb (firstn (S i) l) m.
Proof.
  destruct l as [|x l]; [split; [reflexivity|intros [|i] m; discriminate]|].
  unfold running_minmax, scanl. cbn [rows]. rewrite zip_single. split.
  - rewrite scan_loop_length, map_length. reflexivity.
  - intros i m. rewrite scan_loop_nth, map_length.
    destruct (Nat.leb_spec i (length l)); [|discriminate]. intro E. injection E as <-.
    cbn [firstn]. rewrite firstn_map. apply (mm_fold (firstn i l) [x] (x, x)).
    repeat split; cbn; auto; intros;
      (destruct H0 as [<-|[]]; destruct (ltb x x) eqn:E; [pose proof (ltb_asym _ _ E); congruence|reflexivity]).
Qed.
Lemma minmax_spec l :
  match minmax ltb l with None => l = [] | Some m => extrema ltb l m end.
Proof.
  unfold minmax. rewrite last_spec. destruct l as [|x l]; [reflexivity|].
  destruct (running_minmax_spec (x :: l)) as [L H].
  rewrite (last_map_Some _ (x, x)). destruct (running_minmax ltb (x :: l)) as [|m ms] eqn:E; [simpl in L; lia|].
  rewrite <- E in *. rewrite last_nth.
  specialize (H (length (running_minmax ltb (x :: l)) - 1) (nth (length (running_minmax ltb (x :: l)) - 1) (running_minmax ltb (x :: l)) (x, x))).
  rewrite L in *. cbn [length] in *. rewrite Nat.sub_succ, Nat.sub_0_r in *.
  rewrite firstn_all2 in H by (simpl; lia). apply H. apply nth_error_nth'. lia.
Qed.
End MM.

Lemma somes_map_all {A} (row : list A) : somes (map Some row) = row.
Proof. induction row as [|x row IH]; [reflexivity|]. unfold somes in *. simpl. now rewrite IH. Qed.
Lemma max_len_iff {A} (cols : list (list A)) i : (i < max_len cols <-> exists c, In c cols /\ i < length c).
Proof.
  split.
  - intro H. destruct (existsb (fun c => i <? length c) cols) eqn:E.
    + apply existsb_exists in E as (c & I & L). apply Nat.ltb_lt in L. eauto.
    + exfalso. assert (M : max_len cols <= i); [|lia]. unfold max_len. apply max_len_lub_fold; [lia|]. intros c I.
      destruct (le_lt_dec (length c) i) as [|L]; [assumption|]. assert (existsb (fun c => i <? length c) cols = true); [|congruence].
      apply existsb_exists. exists c. split; [assumption|]. now apply Nat.ltb_lt.
  - intros (c & I & L). unfold max_len. destruct (max_len_ge_fold cols 0) as [_ G]. specialize (G c I). lia.
Qed.
Lemma rows_spec {A} (cols : list (list A)) fill i row :
  (nth_error (rows None cols) i = Some row <-> cols <> [] /\ map Some row = map (fun c => nth_error c i) cols) /\
  (nth_error (rows (Some fill) cols) i = Some row <->
     (exists c, In c cols /\ i < length c) /\ row = map (fun c => nth i c fill) cols).
Proof.
  cbn [rows]. split.
  - destruct (le_lt_dec (min_len cols) i) as [L|L].
    + rewrite (proj2 (nth_error_None (zip cols) i)) by (now rewrite zip_length). split; [discriminate|]. intros [N E]. exfalso.
      assert (M : S i <= min_len cols); [|lia]. apply min_len_glb; [assumption|]. intros c I.
      apply nth_error_Some. intro Q. assert (J : In (nth_error c i) (map Some row)) by (rewrite E; now apply (in_map (fun c => nth_error c i))).
      rewrite Q in J. apply in_map_iff in J as (? & ? & _). discriminate.
    + destruct (zip_nth cols i L) as (row' & E & M). rewrite E. split.
      * intro Q. inversion Q; subst. split; [|assumption]. intros ->. simpl in L. lia.
      * intros [_ M']. f_equal. rewrite <- (somes_map_all row), <- (somes_map_all row'). now rewrite M, M'.
  - rewrite zipl_nth. destruct (Nat.ltb_spec i (max_len cols)) as [L|L].
    + rewrite max_len_iff in L. split; [intro Q; inversion Q; auto|intros [_ ->]; reflexivity].
    + split; [discriminate|]. intros [Q _]. apply max_len_iff in Q. lia.
Qed.
