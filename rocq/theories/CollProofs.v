From Coq Require Import List Bool ZArith Arith Lia Permutation.
From Verif Require Import Base BaseProofs CollModel CollSpec.
Import ListNotations.
Open Scope nat_scope.

Section Dict.
Context {K V : Type}.
Variable keqb : K -> K -> bool.
Hypothesis keqb_ok : forall a b, keqb a b = true <-> a = b.
Notation dict := (dict K V).
Implicit Types d : dict.

Lemma keqb_refl a : keqb a a = true. Proof. now apply keqb_ok. Qed.
Lemma keqb_ne a b : a <> b -> keqb a b = false.
Proof. intro H. destruct (keqb a b) eqn:E; auto. apply keqb_ok in E. contradiction. Qed.
Lemma keqb_sym a b : keqb a b = keqb b a.
Proof.
  destruct (keqb a b) eqn:E; symmetry.
  - apply keqb_ok in E. subst. apply keqb_refl.
  - apply keqb_ne. intro H; subst. now rewrite keqb_refl in E.
Qed.

Lemma get_set d k v k' :
  dict_get keqb (dict_set keqb d k v) k' = if keqb k k' then Some v else dict_get keqb d k'.
Proof.
  induction d as [|[k0 v0] d IH]; simpl; auto.
  destruct (keqb k0 k) eqn:E; simpl.
  - apply keqb_ok in E; subst. destruct (keqb k k'); auto.
  - rewrite IH. destruct (keqb k0 k') eqn:E0; auto.
    apply keqb_ok in E0; subst. now rewrite keqb_sym, E.
Qed.

Lemma last_for_snoc k (l : list (K * V)) k' v :
  last_for keqb k (l ++ [(k', v)]) = if keqb k' k then Some v else last_for keqb k l.
Proof.
  unfold last_for. rewrite rev_app_distr. simpl. destruct (keqb k' k); auto.
Qed.

Lemma update_get m : forall d k,
  dict_get keqb (dict_update keqb d m) k =
  match last_for keqb k m with Some v => Some v | None => dict_get keqb d k end.
Proof.
  induction m as [|[k' v] m IH] using rev_ind; intros d k; simpl; auto.
  unfold dict_update in *. rewrite fold_left_app. simpl.
  rewrite get_set, IH, last_for_snoc. destruct (keqb k' k); auto.
Qed.

Lemma update_app d m1 m2 : dict_update keqb d (m1 ++ m2) = dict_update keqb (dict_update keqb d m1) m2.
Proof. unfold dict_update. apply fold_left_app. Qed.

Lemma updates_concat (ms : list dict) : forall d : dict, fold_left (dict_update keqb) ms d = dict_update keqb d (concat ms).
Proof. induction ms as [|m ms IH]; intro d; simpl; auto. now rewrite update_app, IH. Qed.

Lemma frozen_data_eq (ms : list dict) (b : dict) : frozen_data keqb ms b = dict_update keqb [] (concat ms ++ b).
Proof. unfold frozen_data. now rewrite updates_concat, update_app. Qed.

(** keys *)
Lemma set_keys d k v :
  map fst (dict_set keqb d k v) = map fst d ++ (if existsb (fun k' => keqb k' k) (map fst d) then [] else [k]).
Proof.
  induction d as [|[k0 v0] d IH]; simpl; auto.
  destruct (keqb k0 k) eqn:E; simpl.
  - now rewrite app_nil_r.
  - now rewrite IH.
Qed.

Lemma firsts_in ks x : In x (firsts keqb ks) <-> In x ks.
Proof.
  induction ks as [|k ks IH]; simpl; [tauto|]. rewrite filter_In, IH.
  destruct (keqb k x) eqn:E; simpl.
  - apply keqb_ok in E. subst. tauto.
  - split; [tauto|]. intros [->|H]; [rewrite keqb_refl in E; discriminate | tauto].
Qed.

Lemma firsts_snoc ks k :
  firsts keqb (ks ++ [k]) = firsts keqb ks ++ (if existsb (fun k' => keqb k' k) ks then [] else [k]).
Proof.
  induction ks as [|k0 ks IH]; simpl; auto.
  rewrite IH, filter_app. destruct (keqb k0 k) eqn:E; simpl.
  - f_equal. destruct (existsb (fun k' => keqb k' k) ks); simpl; [|rewrite E; simpl]; now rewrite !app_nil_r.
  - f_equal. f_equal. destruct (existsb (fun k' => keqb k' k) ks); simpl; auto. now rewrite E.
Qed.

Lemma existsb_firsts ks k : existsb (fun k' => keqb k' k) (firsts keqb ks) = existsb (fun k' => keqb k' k) ks.
Proof.
  apply eq_true_iff_eq. rewrite !existsb_exists.
  split; intros (x & H & E); exists x; rewrite firsts_in in *; auto.
Qed.

Lemma update_keys (m : dict) : map fst (dict_update keqb [] m) = firsts keqb (map fst m).
Proof.
  induction m as [|[k v] m IH] using rev_ind; auto.
  unfold dict_update in *. rewrite fold_left_app, map_app. simpl.
  rewrite set_keys, IH, firsts_snoc, existsb_firsts. reflexivity.
Qed.

Lemma firsts_nodup ks : NoDup (firsts keqb ks).
Proof.
  induction ks as [|k ks IH]; simpl; constructor.
  - rewrite filter_In. rewrite keqb_refl. simpl. intros [_ H]. discriminate.
  - now apply NoDup_filter.
Qed.

Definition okdict (d : dict) : Prop := NoDup (map fst d).
Lemma update_ok (m : dict) : okdict (dict_update keqb [] m).
Proof. unfold okdict. rewrite update_keys. apply firsts_nodup. Qed.
Lemma set_ok d k v : okdict d -> okdict (dict_set keqb d k v).
Proof.
  unfold okdict. rewrite set_keys. intro H.
  destruct (existsb _ _) eqn:E.
  - now rewrite app_nil_r.
  - apply NoDup_Add with (a := k) (l := map fst d).
    + rewrite <- (app_nil_r (map fst d)) at 1. apply Add_app.
    + split; auto. intro Hin. assert (existsb (fun k' => keqb k' k) (map fst d) = true).
      { apply existsb_exists. exists k. split; auto. apply keqb_refl. }
      congruence.
Qed.
Lemma del_ok d k : okdict d -> okdict (dict_del keqb d k).
Proof.
  unfold okdict. induction d as [|[k' v] d IH]; simpl; auto. intro H. inversion H; subst.
  destruct (keqb k' k); simpl; auto. constructor; auto.
  intro Hin. apply H2. clear -Hin. induction d as [|[k0 v0] d IH]; simpl in *; auto.
  destruct (keqb k0 k); simpl in *; tauto.
Qed.

(** ** worlds *)
Notation world := (world K V).
Definition inv (w : world) : Prop :=
  NoDup (users w ++ frozen w) /\ Forall (fun r => r < length (cells w)) (users w ++ frozen w)
  /\ (forall i, empty w = Some i -> read_frozen w i = Some []).

Lemma inv0 : inv world0.
Proof. split; [|split]; simpl; try constructor; discriminate. Qed.

Lemma nth_error_upd_eq {X} (l : list X) i x : i < length l -> nth_error (upd l i x) i = Some x.
Proof. revert i; induction l; intros [|i] H; simpl in *; try lia; auto. apply IHl. lia. Qed.
Lemma nth_error_upd_ne {X} (l : list X) i j x : i <> j -> nth_error (upd l i x) j = nth_error l j.
Proof. revert i j; induction l; intros [|i] [|j] H; simpl in *; try congruence; auto. Qed.
Lemma upd_len {X} (l : list X) i x : length (upd l i x) = length l.
Proof. revert i; induction l; intros [|i]; simpl; auto. Qed.

Lemma upd_in {X} (l : list X) i x y : In y (upd l i x) -> y = x \/ In y l.
Proof.
  revert i; induction l; intros [|i] H; simpl in *; auto.
  - destruct H; auto.
  - destruct H; auto. apply IHl in H. tauto.
Qed.
Lemma upd_nodup {X} (l : list X) i x : NoDup l -> ~ In x l -> NoDup (upd l i x).
Proof.
  revert i; induction l; intros [|i] H Hx; simpl in *; auto; inversion H; subst; constructor; auto.
  intro Hc. apply upd_in in Hc. intuition.
Qed.

Lemma on_user_cases w u f :
  on_user w u f = w \/ exists r d, nth_error (users w) u = Some r /\ on_user w u f = set_cell w r (f d).
Proof.
  unfold on_user. destruct (nth_error (users w) u) eqn:E; auto. destruct (cell w n); eauto.
Qed.

Lemma set_cell_inv w r d : inv w -> In r (users w) -> inv (set_cell w r d)
  /\ (forall i, read_frozen (set_cell w r d) i = read_frozen w i).
Proof.
  intros (Hn & Hf & He) Hr.
  assert (Hrd : forall i, read_frozen (set_cell w r d) i = read_frozen w i).
  { intro i. unfold read_frozen, set_cell, cell; simpl. destruct (nth_error (frozen w) i) eqn:E; auto.
    apply nth_error_upd_ne. intros <-. apply nth_error_In in E.
    clear -Hn Hr E. induction (users w); simpl in *; [tauto|]. inversion Hn; subst.
    destruct Hr; subst; auto. apply H1. apply in_or_app. auto. }
  split; auto. split; [|split]; simpl; auto.
  - rewrite upd_len. auto.
  - intros i E. rewrite Hrd. auto.
Qed.

Lemma snoc_nodup (l : list nat) n : NoDup l -> Forall (fun r => r < n) l -> NoDup (l ++ [n]).
Proof.
  intros H1 H2. apply NoDup_Add with (a := n) (l := l).
  - rewrite <- (app_nil_r l) at 1. apply Add_app.
  - split; auto. intro H. rewrite Forall_forall in H2. apply H2 in H. lia.
Qed.

(** the effect of a construction *)
Lemma new_frozen_spec w ms b w' i :
  inv w -> new_frozen keqb w ms b = (w', Some i) ->
  exists ds, read_sources w ms = Some ds /\ read_frozen w' i = Some (frozen_data keqb ds b)
  /\ inv w' /\ users w' = users w
  /\ (forall j d, read_frozen w j = Some d -> read_frozen w' j = Some d)
  /\ (forall u d, read_user w u = Some d -> read_user w' u = Some d)
  /\ length (frozen w) <= length (frozen w') /\ i < length (frozen w')
  /\ (forall j, empty w = Some j -> empty w' = Some j)
  /\ (ms = [] -> b = [] -> empty w' = Some i)
  /\ (~ (ms = [] /\ b = []) -> i = length (frozen w)).
Proof.
  intros Hinv E. pose proof Hinv as (Hn & Hf & He).
  unfold new_frozen in E. destruct (read_sources w ms) as [ds|] eqn:Es; [|discriminate].
  exists ds. split; auto.
  assert (Hf' : Forall (fun r => r < length (cells w ++ [frozen_data keqb ds b])) (users w ++ frozen w)).
  { eapply Forall_impl; [|exact Hf]. intros r Hr. rewrite app_length; simpl in *; lia. }
  assert (Hcell : forall r d, nth_error (cells w) r = Some d -> nth_error (cells w ++ [frozen_data keqb ds b]) r = Some d).
  { intros r d Hd. rewrite nth_error_app1; auto. apply nth_error_Some. congruence. }
  assert (Hnew : nth_error (cells w ++ [frozen_data keqb ds b]) (length (cells w)) = Some (frozen_data keqb ds b)).
  { rewrite nth_error_app2, Nat.sub_diag; auto. }
  assert (Hgen : forall e, (empty w = None \/ empty w = e) ->
     (forall j, e = Some j -> j = length (frozen w) /\ frozen_data keqb ds b = [] \/ empty w = Some j) ->
     let w' := mkworld (cells w ++ [frozen_data keqb ds b]) (users w) (frozen w ++ [length (cells w)]) e in
     read_frozen w' (length (frozen w)) = Some (frozen_data keqb ds b)
     /\ inv w' /\ users w' = users w
     /\ (forall j d, read_frozen w j = Some d -> read_frozen w' j = Some d)
     /\ (forall u d, read_user w u = Some d -> read_user w' u = Some d)
     /\ length (frozen w) <= length (frozen w') /\ length (frozen w) < length (frozen w')
     /\ (forall j, empty w = Some j -> empty w' = Some j)).
  { intros e He0 He1 w0.
    assert (R1 : read_frozen w0 (length (frozen w)) = Some (frozen_data keqb ds b)).
    { unfold read_frozen, cell; simpl. rewrite nth_error_app2, Nat.sub_diag by auto. simpl. auto. }
    assert (R2 : forall j d, read_frozen w j = Some d -> read_frozen w0 j = Some d).
    { intros j d. unfold read_frozen, cell; simpl. destruct (nth_error (frozen w) j) eqn:Ej; [|discriminate].
      rewrite nth_error_app1 by (apply nth_error_Some; congruence). rewrite Ej. apply Hcell. }
    split; [exact R1|]. split; [split; [|split]|].
    - simpl. rewrite app_assoc. apply snoc_nodup; auto.
    - simpl. rewrite app_assoc, Forall_app. split; auto. constructor; auto. rewrite app_length; simpl; lia.
    - intros j Ej. simpl in Ej. destruct (He1 j Ej) as [[-> Hd]|Hd]; [now rewrite R1, Hd|]. apply R2. auto.
    - split; auto. split; auto. split.
      { intros u d. unfold read_user, cell; simpl. destruct (nth_error (users w) u); [|discriminate]. apply Hcell. }
      simpl. rewrite app_length; simpl. repeat split; try lia.
      intros j Ej. destruct He0; congruence. }
  destruct ms as [|m ms], b as [|kv b]; try destruct (empty w) as [k|] eqn:Ee; injection E as <- <-;
    try (match goal with |- context [mkworld _ _ _ ?e] => destruct (Hgen e) as (G1 & G2 & G3 & G4 & G5 & G6 & G7 & G8) end;
      [now auto | now (intros j Hj; try discriminate; auto) |
       repeat (split; [now auto|]); split; [intros; discriminate|]; now auto]).
  - (* the singleton again *)
    assert (Hk := He _ eq_refl).
    assert (Hkl : k < length (frozen w)).
    { apply nth_error_Some. unfold read_frozen in Hk. destruct (nth_error (frozen w) k); congruence. }
    assert (Hds : ds = []) by (simpl in Es; congruence). subst ds.
    assert (R1 : read_frozen (mkworld (cells w ++ [frozen_data keqb [] []]) (users w) (upd (frozen w) k (length (cells w))) (Some k)) k
       = Some (frozen_data keqb [] [])).
    { unfold read_frozen, cell; simpl. rewrite nth_error_upd_eq by auto. auto. }
    split; [exact R1|]. split; [split; [|split]|].
    + simpl. apply NoDup_app_inv_local || idtac.
      assert (~ In (length (cells w)) (users w ++ frozen w)).
      { intro H. rewrite Forall_forall in Hf. apply Hf in H. lia. }
      rewrite in_app_iff in H. clear -Hn H.
      induction (users w); simpl in *.
      * apply upd_nodup; tauto.
      * inversion Hn; subst. constructor; [|apply IHl; intuition].
        rewrite in_app_iff in *. intros [Hc|Hc]; [tauto|]. apply upd_in in Hc.
        destruct Hc as [->|Hc]; tauto.
    + simpl. rewrite Forall_app in *. destruct Hf' as [F1 F2]. split; auto.
      rewrite Forall_forall in *. intros x Hx. apply upd_in in Hx. destruct Hx as [->|Hx]; auto.
      rewrite app_length; simpl; lia.
    + simpl. intros j Ej. injection Ej as <-. exact R1.
    + split; auto. split; [|split; [|simpl; rewrite upd_len; repeat split; auto; tauto]].
      * intros j d Hd. destruct (Nat.eq_dec k j) as [<-|Hne].
        { rewrite R1. rewrite Hk in Hd. exact Hd. }
        unfold read_frozen, cell in *; simpl. rewrite nth_error_upd_ne by auto.
        destruct (nth_error (frozen w) j); [|discriminate]. auto.
      * intros u d. unfold read_user, cell; simpl. destruct (nth_error (users w) u); [|discriminate]. apply Hcell.
  - (* the singleton for the first time *)
    assert (Hds : ds = []) by (simpl in Es; congruence). subst ds.
    destruct (Hgen (Some (length (frozen w)))) as (G1 & G2 & G3 & G4 & G5 & G6 & G7 & G8); auto.
    { intros j Ej. injection Ej as <-. auto. }
    repeat (split; [now auto|]). tauto.
  - destruct (Hgen (Some k)) as (G1 & G2 & G3 & G4 & G5 & G6 & G7 & G8); auto.
    repeat (split; [first [now auto | discriminate]|]); auto.
  - destruct (Hgen None) as (G1 & G2 & G3 & G4 & G5 & G6 & G7 & G8); auto.
    repeat (split; [first [now auto | discriminate]|]); auto.
  - destruct (Hgen (Some k)) as (G1 & G2 & G3 & G4 & G5 & G6 & G7 & G8); auto.
    repeat (split; [first [now auto | discriminate]|]); auto.
  - destruct (Hgen None) as (G1 & G2 & G3 & G4 & G5 & G6 & G7 & G8); auto.
    repeat (split; [first [now auto | discriminate]|]); auto.
  - destruct (Hgen (Some k)) as (G1 & G2 & G3 & G4 & G5 & G6 & G7 & G8); auto.
    repeat (split; [first [now auto | discriminate]|]); auto.
  - destruct (Hgen None) as (G1 & G2 & G3 & G4 & G5 & G6 & G7 & G8); auto.
    repeat (split; [first [now auto | discriminate]|]); auto.
Qed.

Definition keeps (w w' : world) : Prop :=
  (forall j d, read_frozen w j = Some d -> read_frozen w' j = Some d)
  /\ (forall j, empty w = Some j -> empty w' = Some j)
  /\ length (frozen w) <= length (frozen w').
Lemma keeps_refl w : keeps w w. Proof. split; [|split]; auto. Qed.

Lemma step_inv w o : inv w -> inv (step keqb w o) /\ keeps w (step keqb w o).
Proof.
  intro Hinv. pose proof Hinv as (Hn & Hf & He).
  assert (HU : forall u f, inv (on_user w u f) /\ keeps w (on_user w u f)).
  { intros u f. destruct (on_user_cases w u f) as [->|(r & d & E & ->)].
    - split; auto using keeps_refl.
    - destruct (set_cell_inv w r (f d) Hinv) as [H1 H2]; [eapply nth_error_In; eauto|].
      split; auto. split; [|split]; auto. intros j d'. now rewrite H2. }
  destruct o as [its|u k v|u k|u|ms b]; simpl; auto.
  - set (c := dict_update keqb [] its).
    assert (R : forall j d, read_frozen w j = Some d ->
        read_frozen (mkworld (cells w ++ [c]) (users w ++ [length (cells w)]) (frozen w) (empty w)) j = Some d).
    { intros j d. unfold read_frozen, cell; simpl. destruct (nth_error (frozen w) j); [|discriminate].
      intro E. rewrite nth_error_app1; auto. apply nth_error_Some. congruence. }
    split; [split; [|split]|split; [|split]]; simpl; auto.
    + rewrite <- app_assoc. simpl. apply NoDup_Add with (a := length (cells w)) (l := users w ++ frozen w).
      * apply Add_app.
      * split; auto. intro H. rewrite Forall_forall in Hf. apply Hf in H. lia.
    + rewrite !Forall_app in *. destruct Hf as [F1 F2].
      rewrite app_length; simpl. repeat split; try (eapply Forall_impl; [|eassumption]; simpl; intros; lia).
      repeat constructor. lia.
  - destruct (new_frozen keqb w ms b) as [w' [i|]] eqn:E; simpl.
    + destruct (new_frozen_spec _ _ _ _ _ Hinv E) as (ds & _ & _ & H & _ & H1 & _ & H2 & _ & H3 & _).
      split; auto. split; auto.
    + unfold new_frozen in E. destruct (read_sources w ms).
      * destruct ms, b; try destruct (empty w); discriminate.
      * injection E as <-. split; auto using keeps_refl.
Qed.

Lemma run_inv ops : forall w, inv w -> inv (run keqb w ops) /\ keeps w (run keqb w ops).
Proof.
  induction ops as [|o ops IH]; intros w H; simpl.
  - auto using keeps_refl.
  - destruct (step_inv w o H) as [H1 (A1 & A2 & A3)]. destruct (IH _ H1) as [H2 (B1 & B2 & B3)].
    split; auto. split; [|split]; auto; try lia.
Qed.

Lemma frozen_contents (ops : list (op K V)) ms b w' i ds :
  new_frozen keqb (run keqb world0 ops) ms b = (w', Some i) -> read_sources (run keqb world0 ops) ms = Some ds ->
  exists d, (forall ops', read_frozen (run keqb w' ops') i = Some d)
  /\ (forall k, dict_get keqb d k = last_for keqb k (concat ds ++ b))
  /\ map fst d = firsts keqb (map fst (concat ds ++ b)).
Proof.
  intros E Es. destruct (run_inv ops world0 inv0) as [Hi _].
  destruct (new_frozen_spec _ _ _ _ _ Hi E) as (ds' & Es' & Hr & Hi' & _).
  assert (ds' = ds) by congruence. subst ds'.
  exists (frozen_data keqb ds b). split.
  - intro ops'. destruct (run_inv ops' w' Hi') as [_ (H & _)]. auto.
  - rewrite frozen_data_eq. split.
    + intro k. rewrite update_get. simpl. now destruct (last_for keqb k (concat ds ++ b)).
    + apply update_keys.
Qed.

Lemma frozen_exists (ops : list (op K V)) ms b : read_sources (run keqb world0 ops) ms <> None ->
  exists w' i, new_frozen keqb (run keqb world0 ops) ms b = (w', Some i).
Proof.
  intro H. unfold new_frozen. destruct (read_sources _ ms); [|congruence].
  destruct ms, b; try destruct (empty _); eauto.
Qed.

Lemma empty_same (ops ops' : list (op K V)) w1 i1 w2 i2 :
  new_frozen keqb (run keqb world0 ops) [] [] = (w1, Some i1) ->
  new_frozen keqb (run keqb w1 ops') [] [] = (w2, Some i2) -> i1 = i2.
Proof.
  intros E1 E2. destruct (run_inv ops world0 inv0) as [Hi _].
  destruct (new_frozen_spec _ _ _ _ _ Hi E1) as (ds & _ & _ & H1 & _ & _ & _ & _ & _ & _ & He & _).
  specialize (He eq_refl eq_refl).
  destruct (run_inv ops' w1 H1) as [H2 (_ & B & _)].
  destruct (new_frozen_spec _ _ _ _ _ H2 E2) as (ds2 & _ & _ & _ & _ & _ & _ & _ & _ & C & D & _).
  specialize (D eq_refl eq_refl). specialize (C _ (B _ He)). congruence.
Qed.

Lemma nonempty_new (ops : list (op K V)) ms b w' i :
  new_frozen keqb (run keqb world0 ops) ms b = (w', Some i) -> ~ (ms = [] /\ b = []) ->
  read_frozen (run keqb world0 ops) i = None.
Proof.
  intros E H. destruct (run_inv ops world0 inv0) as [Hi _].
  destruct (new_frozen_spec _ _ _ _ _ Hi E) as (ds & _ & _ & _ & _ & _ & _ & _ & _ & _ & _ & D).
  rewrite (D H). unfold read_frozen.
  now rewrite (proj2 (nth_error_None _ _)).
Qed.

Lemma get_in d k v : okdict d -> (dict_get keqb d k = Some v <-> In (k, v) d).
Proof.
  unfold okdict. induction d as [|[k0 v0] d IH]; simpl; intro H.
  - split; [discriminate|tauto].
  - inversion H; subst. destruct (keqb k0 k) eqn:E.
    + apply keqb_ok in E. subst. split.
      * intro E. injection E as ->. auto.
      * intros [E|E]; [congruence|]. exfalso. apply H2. now apply (in_map fst) in E.
    + rewrite IH by auto. split; auto. intros [E'|E']; auto. injection E' as -> ->. now rewrite keqb_refl in E.
Qed.

Lemma get_none d k : dict_get keqb d k = None <-> ~ In k (map fst d).
Proof.
  induction d as [|[k0 v0] d IH]; simpl; [tauto|].
  destruct (keqb k0 k) eqn:E.
  - apply keqb_ok in E. subst. split; [discriminate|]. intuition.
  - rewrite IH. split; intuition. subst. now rewrite keqb_refl in E.
Qed.

(** ** equality and hash *)
Variable veqb : V -> V -> bool.
Definition same_lookup (a b : dict) : Prop :=
  forall k, match dict_get keqb a k, dict_get keqb b k with
            | Some x, Some y => veqb x y = true
            | None, None => True
            | _, _ => False
            end.

Lemma dict_eq_get a b : okdict a -> okdict b -> (dict_eq keqb veqb a b = true <-> same_lookup a b).
Proof.
  intros Ha Hb. unfold dict_eq. rewrite andb_true_iff, Nat.eqb_eq, forallb_forall. split.
  - intros [Hl H] k. destruct (dict_get keqb a k) as [x|] eqn:Ea.
    + apply get_in in Ea; auto. apply H in Ea. simpl in Ea. now destruct (dict_get keqb b k).
    + destruct (dict_get keqb b k) as [y|] eqn:Eb; auto.
      apply get_none in Ea. apply get_in in Eb; auto. apply Ea.
      assert (Hincl : incl (map fst a) (map fst b)).
      { intros k' Hk'. apply in_map_iff in Hk'. destruct Hk' as ([k1 v1] & <- & Hin).
        specialize (H _ Hin). simpl in *. destruct (dict_get keqb b k1) eqn:E1; [|discriminate].
        apply get_in in E1; auto. now apply (in_map fst) in E1. }
      apply (NoDup_length_incl Ha) in Hincl; [|now rewrite !map_length, Hl].
      apply Hincl. now apply (in_map fst) in Eb.
  - intro H. split.
    + rewrite <- (map_length fst a), <- (map_length fst b).
      apply Nat.le_antisymm; apply NoDup_incl_length; auto; intros k Hk; specialize (H k).
      * destruct (dict_get keqb b k) eqn:Eb; [apply get_in in Eb; auto; now apply (in_map fst) in Eb|].
        destruct (dict_get keqb a k) eqn:Ea; [tauto|]. apply get_none in Ea. contradiction.
      * destruct (dict_get keqb a k) eqn:Ea; [apply get_in in Ea; auto; now apply (in_map fst) in Ea|].
        destruct (dict_get keqb b k) eqn:Eb; [tauto|]. apply get_none in Eb. contradiction.
    + intros [k v] Hin. apply get_in in Hin; auto. specialize (H k). rewrite Hin in H. simpl.
      destruct (dict_get keqb b k); tauto.
Qed.

Variable hi : K * V -> Z.
Hypothesis hi_ok : forall k x y, veqb x y = true -> hi (k, x) = hi (k, y).

Lemma same_lookup_perm a : forall b, okdict a -> okdict b -> same_lookup a b -> Permutation (map hi a) (map hi b).
Proof.
  induction a as [|[k v] a IH]; intros b Ha Hb H.
  - destruct b as [|[k v] b]; simpl; auto. specialize (H k). simpl in H. rewrite keqb_refl in H. contradiction.
  - pose proof (H k) as Hk. simpl in Hk. rewrite keqb_refl in Hk.
    destruct (dict_get keqb b k) as [v'|] eqn:E; [|contradiction].
    apply get_in in E; auto. apply in_split in E. destruct E as (b1 & b2 & ->).
    rewrite map_app. simpl. rewrite (hi_ok _ _ _ Hk). apply Permutation_cons_app.
    rewrite <- map_app. unfold okdict in *. simpl in Ha. inversion Ha; subst.
    rewrite map_app in Hb. simpl in Hb. apply NoDup_remove in Hb. destruct Hb as [Hb1 Hb2].
    rewrite <- map_app in Hb1, Hb2.
    apply IH; auto. intro k'. specialize (H k'). simpl in H.
    assert (Hget : dict_get keqb (b1 ++ b2) k' = if keqb k k' then None else dict_get keqb (b1 ++ (k, v') :: b2) k').
    { destruct (keqb k k') eqn:Ek.
      - apply keqb_ok in Ek. subst. now apply get_none.
      - clear -Ek. induction b1 as [|[k1 v1] b1 IHb]; simpl; [now rewrite Ek|]. destruct (keqb k1 k'); auto. }
    rewrite Hget. destruct (keqb k k') eqn:Ek; auto.
    apply keqb_ok in Ek. subst k'. destruct (dict_get keqb a k) eqn:Ea; auto.
    apply get_in in Ea; auto. apply (in_map fst) in Ea. contradiction.
Qed.

Lemma eq_hash (hs : list Z -> Z) a b :
  (forall l l', Permutation l l' -> hs l = hs l') ->
  okdict a -> okdict b -> dict_eq keqb veqb a b = true -> frozen_hash hi hs a = frozen_hash hi hs b.
Proof.
  intros Hs Ha Hb H. unfold frozen_hash. apply Hs. apply same_lookup_perm; auto. now apply dict_eq_get.
Qed.
End Dict.

(** ** boxes *)
Section Box.
Context {V : Type}.
Lemma tl_run (x0 : V) h t :
  tl_get (fold_right (fun e b => tl_step b e) (tl_new x0) h) t = seen h x0 t
  /\ tl_default (fold_right (fun e b => tl_step b e) (tl_new x0) h) = default h x0.
Proof.
  assert (G : forall t, tl_storage (fold_right (fun e b => tl_step b e) (tl_new x0) h) t = own h t
     /\ tl_default (fold_right (fun e b => tl_step b e) (tl_new x0) h) = default h x0).
  { induction h as [|[t' o] h IH]; intro t0; simpl; auto.
    destruct o; simpl; destruct (IH t0) as [I1 I2]; split; auto;
      rewrite Nat.eqb_sym; destruct (t' =? t0); auto. }
  destruct (G t) as [G1 G2]. split; auto. unfold tl_get, seen. now rewrite G1, G2.
Qed.
Lemma tl_history (x0 : V) h t :
  tl_get (fold_left tl_step h (tl_new x0)) t = seen (rev h) x0 t.
Proof. rewrite <- fold_left_rev_right. apply tl_run. Qed.
Lemma tl_isolated (x0 : V) (h h' : list (nat * tlop V)) t :
  (forall e, In e h' -> fst e <> t /\ forall x, snd e <> TSetDefault x) ->
  tl_get (fold_left tl_step (h ++ h') (tl_new x0)) t = tl_get (fold_left tl_step h (tl_new x0)) t.
Proof.
  intro H. rewrite fold_left_app. generalize (fold_left tl_step h (tl_new x0)) as b.
  induction h' as [|[t' o] h' IH]; intro b; simpl; auto.
  rewrite IH by (intros e He; apply H; now right).
  destruct (H (t', o)) as [H1 H2]; [now left|]. simpl in *.
  unfold tl_get, tl_step. destruct o; simpl; [| |now destruct (H2 x)];
    (destruct (t =? t') eqn:E; [apply Nat.eqb_eq in E; congruence|auto]).
Qed.
Lemma box_last (x0 : V) writes :
  box_get (fold_left (fun b x => fst (box_set b x)) writes x0) = last writes x0 /\
  forall x, snd (box_set (fold_left (fun b x => fst (box_set b x)) writes x0) x) = x.
Proof.
  split; [|reflexivity]. unfold box_get. revert x0. induction writes as [|x l IH]; intro x0; simpl; auto.
  rewrite IH. destruct l as [|y l]; auto. clear IH. revert y. induction l as [|z l IH]; intro y; auto.
  change (last (z :: l) x = last (z :: l) x0). apply IH.
Qed.
End Box.

(** ** Shim *)
Section Shim.
Context {N V : Type}.
Variable neqb : N -> N -> bool.
Hypothesis neqb_ok : forall a b, neqb a b = true <-> a = b.
Lemma shim_set_get (m : smem N V) b f k v o x :
  nth_error (boxes m) b = Some o -> nth_error (objects m) o = Some x ->
  shim_getattr neqb (shim_setattr neqb m b k v) b f k = Ok v.
Proof.
  intros Hb Ho. unfold shim_setattr. rewrite Hb, Ho. unfold shim_getattr, unbox. simpl. rewrite Hb.
  assert (Hl : o < length (objects m)) by (apply nth_error_Some; congruence).
  rewrite nth_error_upd_eq by auto. simpl. rewrite get_set by auto. rewrite (keqb_refl neqb) by auto. now rewrite orb_true_r.
Qed.

Lemma shim_write (m : smem N V) b f k v o x :
  nth_error (boxes m) b = Some o -> nth_error (objects m) o = Some x ->
  shim_getattr neqb (shim_setattr neqb m b k v) b f k = Ok v
  /\ boxes (shim_setattr neqb m b k v) = boxes m
  /\ (forall o', o' <> o -> nth_error (objects (shim_setattr neqb m b k v)) o' = nth_error (objects m) o')
  /\ (forall k', k' <> k -> getattr neqb (unbox (shim_setattr neqb m b k v) b) k' = getattr neqb (unbox m b) k').
Proof.
  intros Hb Ho. split; [eapply shim_set_get; eauto|].
  assert (Hl : o < length (objects m)) by (apply nth_error_Some; congruence).
  unfold shim_setattr. rewrite Hb, Ho. simpl. split; auto. split.
  - intros o' Hne. apply nth_error_upd_ne. auto.
  - intros k' Hne. unfold getattr, unbox. simpl. rewrite Hb, Ho, nth_error_upd_eq by auto. simpl.
    rewrite get_set by auto. now rewrite (keqb_ne neqb) by auto.
Qed.
Lemma shim_read (m : smem N V) b f k x :
  unbox m b = Some x -> falsy m f = false \/ f = NoFallback ->
  shim_getattr neqb m b f k =
  match dict_get neqb (attrs x) k, f with
  | Some v, _ => Ok v
  | None, NoFallback => Raise AttributeError
  | None, FBox b' => getattr neqb (unbox m b') k
  | None, FObj o => getattr neqb (nth_error (objects m) o) k
  end.
Proof.
  intros Hx Hf. unfold shim_getattr. rewrite Hx. simpl.
  destruct (dict_get neqb (attrs x) k).
  - now rewrite orb_true_r.
  - rewrite orb_false_r. destruct Hf as [E| ->]; [|reflexivity].
    rewrite E. destruct f; auto. discriminate E.
Qed.
End Shim.
Lemma shim_false_fallback : exists (m : smem nat nat) x v,
  unbox m 0 = Some x /\ dict_get Nat.eqb (attrs x) 7 = None
  /\ getattr Nat.eqb (nth_error (objects m) 1) 7 = Ok v
  /\ shim_getattr Nat.eqb m 0 (FObj 1) 7 = Raise AttributeError.
Proof.
  exists (mksmem [mkobject [] true; mkobject [(7, 70)] false] [0]), (mkobject [] true), 70. repeat split.
Qed.
