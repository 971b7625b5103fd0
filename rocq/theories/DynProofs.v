From Coq Require Import List Bool Arith Lia.
From Verif Require Import Base CollModel CollProofs DynModel DynSpec.
Import ListNotations.
Open Scope nat_scope.

Section DynP.
Context {N V : Type}.
Variable neqb : N -> N -> bool.
Hypothesis neqb_ok : forall a b, neqb a b = true <-> a = b.
Notation scope := (dict N V).
Notation get := (dict_get neqb).

(** ** Simulation *)
Definition vals (st : nat -> V) (es : env (N:=N)) : scope := map (fun p => (fst p, st (snd p))) es.
Definition locs (e : env (N:=N)) : list nat := map snd e.

Lemma get_vals st es n : get (vals st es) n = option_map st (dict_get neqb es n).
Proof. induction es as [|[m l] es IH]; simpl; auto. destruct (neqb m n); auto. Qed.
Lemma in_scope_vals st es n : in_scope neqb (vals st es) n = match dict_get neqb es n with Some _ => true | None => false end.
Proof. unfold in_scope. rewrite get_vals. destruct (dict_get neqb es n); auto. Qed.
Lemma get_app {W} (a b : dict N W) n : dict_get neqb (a ++ b) n = match dict_get neqb a n with Some l => Some l | None => dict_get neqb b n end.
Proof. induction a as [|[m l] a IH]; simpl; auto. destruct (neqb m n); auto. Qed.
Lemma get_In {W} (a : dict N W) n w : dict_get neqb a n = Some w -> In w (map snd a).
Proof. induction a as [|[m l] a IH]; simpl; [discriminate|]. destruct (neqb m n); intro H; [left; congruence | right; auto]. Qed.

Lemma find_rel st ess n :
  match dict_get neqb (concat ess) n with
  | Some l => exists i, find_scope neqb (map (vals st) ess) n = Some i /\ i < length ess /\ dict_get neqb (nth i ess []) n = Some l
  | None => find_scope neqb (map (vals st) ess) n = None
  end.
Proof.
  induction ess as [|es ess IH]; simpl; auto.
  rewrite get_app, in_scope_vals.
  destruct (dict_get neqb es n) as [l|] eqn:E.
  - exists 0. repeat split; auto. lia.
  - destruct (dict_get neqb (concat ess) n) as [l|].
    + destruct IH as (i & H1 & H2 & H3). rewrite H1. exists (S i). repeat split; auto. lia.
    + now rewrite IH.
Qed.

Definition upd_store (st : nat -> V) l v := fun l' => if l' =? l then v else st l'.
Lemma vals_other st es l v : ~ In l (locs es) -> vals (upd_store st l v) es = vals st es.
Proof.
  intro H. apply map_ext_in. intros [m l'] Hin. simpl. f_equal. unfold upd_store.
  destruct (Nat.eqb_spec l' l); auto. subst. exfalso. apply H. now apply (in_map snd) in Hin.
Qed.
Lemma set_vals st es n l v : NoDup (locs es) -> dict_get neqb es n = Some l ->
  dict_set neqb (vals st es) n v = vals (upd_store st l v) es.
Proof.
  induction es as [|[m k] es IH]; simpl; [discriminate|].
  intros Hnd. inversion Hnd as [|? ? Hk Hnd']; subst. destruct (neqb m n) eqn:E.
  - intros [= <-]. unfold upd_store at 1. rewrite Nat.eqb_refl. f_equal.
    symmetry. now apply vals_other.
  - intro Hg. f_equal; [|now apply IH]. f_equal. unfold upd_store.
    destruct (Nat.eqb_spec k l); auto. subst. exfalso. apply Hk. now apply get_In in Hg.
Qed.
Lemma locs_app a b : locs (a ++ b) = locs a ++ locs b. Proof. apply map_app. Qed.
Lemma nodup_app_inv {X} (a b : list X) : NoDup (a ++ b) -> NoDup a /\ NoDup b /\ forall x, In x a -> ~ In x b.
Proof.
  induction a as [|x a IH]; simpl; intro H. { repeat split; auto. constructor. }
  inversion H as [|? ? Hx H']; subst. destruct (IH H') as (Ha & Hb & Hd).
  rewrite in_app_iff in Hx. repeat split; auto. { constructor; auto. }
  intros y [<-|Hy]; auto.
Qed.
Lemma set_rel st ess i n l v : NoDup (locs (concat ess)) -> i < length ess ->
  dict_get neqb (nth i ess []) n = Some l ->
  upd (map (vals st) ess) i (dict_set neqb (nth i (map (vals st) ess) []) n v) = map (vals (upd_store st l v)) ess.
Proof.
  revert i. induction ess as [|es ess IH]; intros i Hnd Hi Hg; simpl in *; [lia|].
  rewrite locs_app in Hnd. apply nodup_app_inv in Hnd. destruct Hnd as (H1 & H2 & H3).
  destruct i as [|i]; simpl in *.
  - f_equal; [now apply set_vals|]. apply map_ext_in. intros es' Hin. symmetry. apply vals_other.
    intro Hl. apply (H3 l). { now apply get_In in Hg. }
    unfold locs in *. rewrite in_map_iff in Hl |- *. destruct Hl as (p & Hp & Hp').
    exists p. split; auto. apply in_concat. eauto.
  - f_equal.
    + symmetry. apply vals_other. intro Hl. apply (H3 l Hl).
      apply get_In in Hg. unfold locs. rewrite in_map_iff in Hg |- *. destruct Hg as (p & Hp & Hp').
      exists p. split; auto. apply in_concat. exists (nth i ess []). split; auto. apply nth_In. lia.
    + apply IH; auto. lia.
Qed.

Record R (ess : list (env (N:=N))) (d : dst N V) (s : sst (N:=N) (V:=V)) : Prop := {
  R_stack : stack d = map (vals (store s)) ess;
  R_nodup : NoDup (locs (concat ess));
  R_next : forall l, In l (locs (concat ess)) -> l < next s;
  R_glob : globals d = sglobals s }.

Lemma get_sim ess d s n : R ess d s ->
  dyn_get neqb d n = match sget neqb (concat ess) s n with Some v => Ok v | None => Raise AttributeError end.
Proof.
  intros [H1 H2 H3 H4]. unfold dyn_get, resolve, sget. rewrite H1.
  pose proof (find_rel (store s) ess n) as Hf. destruct (dict_get neqb (concat ess) n) as [l|] eqn:E.
  - destruct Hf as (i & Hf & Hi & Hg). rewrite Hf. simpl. rewrite H1.
    rewrite nth_indep with (d' := vals (store s) []) by (rewrite map_length; auto).
    rewrite map_nth. pose proof (eq_trans (get_vals (store s) (nth i ess []) n) (f_equal (option_map (store s)) Hg)) as Q. simpl in Q.
    match goal with |- context [match ?x with _ => _ end] => replace x with (Some (store s l)) by (symmetry; exact Q) end. auto.
  - rewrite Hf. unfold in_scope. rewrite H4. destruct (dict_get neqb (sglobals s) n) eqn:E2; simpl; auto.
    rewrite H4, E2. auto.
Qed.
Lemma resolve_sim ess d s n : R ess d s ->
  (exists w, resolve neqb d n = Ok w) /\ sget neqb (concat ess) s n <> None
  \/ resolve neqb d n = Raise AttributeError /\ sget neqb (concat ess) s n = None.
Proof.
  intros [H1 H2 H3 H4]. unfold resolve, sget. rewrite H1.
  pose proof (find_rel (store s) ess n) as Hf. destruct (dict_get neqb (concat ess) n) as [l|] eqn:E.
  - destruct Hf as (i & Hf & Hi & Hg). rewrite Hf. left. split; [eauto|discriminate].
  - rewrite Hf. unfold in_scope. rewrite H4. destruct (dict_get neqb (sglobals s) n) eqn:E2; [left|right].
    + split; [eauto|discriminate].
    + auto.
Qed.
(** writing to the resolved scope simulates, also when the state has changed since *)
Lemma write_sim ess d0 s0 d s n v w : R ess d0 s0 -> R ess d s -> resolve neqb d0 n = Ok w ->
  R ess (set_at neqb d w n v) (sset neqb (concat ess) s n v).
Proof.
  intros [A1 A2 A3 A4] [H1 H2 H3 H4] Hr. unfold resolve in Hr. rewrite A1 in Hr.
  pose proof (find_rel (store s0) ess n) as Hf. unfold sset.
  destruct (dict_get neqb (concat ess) n) as [l|] eqn:E.
  - destruct Hf as (i & Hf & Hi & Hg). rewrite Hf in Hr. injection Hr as <-.
    constructor; simpl; auto. rewrite H1. apply set_rel; auto.
  - rewrite Hf in Hr. destruct (in_scope neqb (globals d0) n); [|discriminate].
    injection Hr as <-. constructor; simpl; auto. now rewrite H4.
Qed.
Lemma set_sim ess d s n v : R ess d s ->
  match sget neqb (concat ess) s n with
  | Some _ => exists d1, dyn_set neqb d n v = Ok d1 /\ R ess d1 (sset neqb (concat ess) s n v)
  | None => dyn_set neqb d n v = Raise AttributeError
  end.
Proof.
  intro H. unfold dyn_set. destruct (resolve_sim ess d s n H) as [[[w Hw] Hs]|[Hw Hs]]; rewrite Hw.
  - destruct (sget neqb (concat ess) s n); [|congruence]. simpl. eexists. split; auto.
    eapply write_sim; eauto.
  - rewrite Hs. auto.
Qed.
Lemma resolve_all_sim ess d s (b : scope) : R ess d s ->
  if forallb (fun nv => match sget neqb (concat ess) s (fst nv) with Some _ => true | None => false end) b
  then exists ws, resolve_all neqb d b = Ok ws /\ Forall2 (fun w nv => resolve neqb d (fst nv) = Ok w) ws b
  else resolve_all neqb d b = Raise AttributeError.
Proof.
  intro H. induction b as [|[n v] b IH]; simpl. { exists []. auto. }
  destruct (resolve_sim ess d s n H) as [[[w Hw] Hs]|[Hw Hs]]; rewrite Hw; simpl.
  - destruct (sget neqb (concat ess) s n); [|congruence]. simpl.
    destruct (forallb _ b).
    + destruct IH as (ws & IH & HF). rewrite IH. simpl. eexists. split; eauto.
    + rewrite IH. auto.
  - now rewrite Hs.
Qed.
Lemma set_all_sim ess d0 s0 (b : scope) : R ess d0 s0 -> forall ws d s, R ess d s ->
  Forall2 (fun w nv => resolve neqb d0 (fst nv) = Ok w) ws b ->
  R ess (set_all neqb d ws b) (fold_left (fun s nv => sset neqb (concat ess) s (fst nv) (snd nv)) b s).
Proof.
  intro H0. induction b as [|[n v] b IH]; intros ws d s H HF; inversion HF; subst; simpl in *; auto.
  apply IH; auto. apply (write_sim ess d0 s0); auto.
Qed.
Lemma update_sim ess d s b : R ess d s ->
  if forallb (fun nv => match sget neqb (concat ess) s (fst nv) with Some _ => true | None => false end) b
  then exists d1, dyn_update neqb d b = Ok d1 /\ R ess d1 (fold_left (fun s nv => sset neqb (concat ess) s (fst nv) (snd nv)) b s)
  else dyn_update neqb d b = Raise AttributeError.
Proof.
  intro H. pose proof (resolve_all_sim ess d s b H) as Hr. unfold dyn_update. destruct (forallb _ b).
  - destruct Hr as (ws & Hr & HF). rewrite Hr. simpl. eexists. split; eauto. eapply set_all_sim; eauto.
  - rewrite Hr. auto.
Qed.

Lemma alloc_spec b : forall s e1 s1, alloc b s = (e1, s1) ->
  next s1 = next s + length b /\ sglobals s1 = sglobals s /\
  (forall l, l < next s -> store s1 l = store s l) /\
  locs e1 = seq (next s) (length b) /\ vals (store s1) e1 = b.
Proof.
  induction b as [|[n v] b IH]; intros s e1 s1 H; simpl in H.
  { injection H as <- <-. simpl. repeat split; auto. }
  destruct (alloc b _) as [e2 s2] eqn:E. injection H as <- <-.
  apply IH in E. destruct E as (E1 & E2 & E3 & E4 & E5). simpl in *.
  repeat split; auto; try lia.
  - intros l Hl. rewrite E3 by lia. destruct (Nat.eqb_spec l (next s)); auto. lia.
  - f_equal; auto.
  - f_equal; auto. rewrite E3 by lia. now rewrite Nat.eqb_refl.
Qed.
Lemma R_enter ess d s (b : scope) e1 s1 : R ess d s -> alloc b s = (e1, s1) ->
  R (e1 :: ess) (mkdst (b :: stack d) (globals d)) s1.
Proof.
  intros [H1 H2 H3 H4] Ha. destruct (alloc_spec _ _ _ _ Ha) as (A1 & A2 & A3 & A4 & A5).
  constructor; simpl; try congruence.
  - rewrite A5. f_equal. rewrite H1. apply map_ext_in. intros es Hes. apply map_ext_in.
    intros [m l] Hl. simpl. f_equal. symmetry. apply A3. apply H3. unfold locs.
    apply (in_map snd (concat ess) (m, l)). apply in_concat. eauto.
  - rewrite locs_app, A4. clear - H2 H3. revert H3. generalize (next s). intros n H3.
    assert (Hb : forall k l, In l (seq n k) -> n <= l) by (intros k l Hl; apply in_seq in Hl; lia).
    generalize (length b). intro k. specialize (Hb k). revert Hb. pose proof (seq_NoDup k n) as Hn. revert Hn.
    generalize (seq n k). clear k. intros q Hn Hb. induction q as [|x q IH]; simpl; auto.
    inversion Hn; subst. constructor. { rewrite in_app_iff. intros [?|Hx]; auto. apply H3 in Hx. specialize (Hb x (or_introl eq_refl)). lia. }
    apply IH; auto. intros; apply Hb; simpl; auto.
  - intros l. rewrite locs_app, in_app_iff, A4, in_seq. intros [Hl|Hl]; [lia|]. apply H3 in Hl. lia.
Qed.

Lemma exec_sim c : forall ess d s, R ess d s ->
  match exec neqb c d, meaning neqb c (concat ess) s with
  | (r, d', t), (r', s', t') => r = r' /\ t = t' /\ R ess d' s' /\ next s <= next s'
  end.
Proof.
  induction c as [|c1 IH1 c2 IH2|n k IH|n v|b|b|x|c IHc h IHh|b body IH]; intros ess d s H; simpl.
  - auto.
  - specialize (IH1 ess d s H). destruct (exec neqb c1 d) as [[r1 d1] t1], (meaning neqb c1 (concat ess) s) as [[r1' s1] t1'].
    destruct IH1 as (<- & <- & HR & Hn). destruct r1; [|auto].
    specialize (IH2 ess d1 s1 HR). destruct (exec neqb c2 d1) as [[r2 d2] t2], (meaning neqb c2 (concat ess) s1) as [[r2' s2] t2'].
    destruct IH2 as (<- & <- & HR2 & Hn2). repeat split; auto; try apply HR2; lia.
  - rewrite (get_sim ess d s n H). destruct (sget neqb (concat ess) s n) as [v|]; [|auto].
    specialize (IH v ess d s H). destruct (exec neqb (k v) d) as [[r1 d1] t1], (meaning neqb (k v) (concat ess) s) as [[r1' s1] t1'].
    destruct IH as (<- & <- & HR & Hn). auto.
  - pose proof (set_sim ess d s n v H) as Hs. destruct (sget neqb (concat ess) s n).
    + destruct Hs as (d1 & -> & HR). repeat split; auto; try apply HR. unfold sset. destruct (dict_get neqb (concat ess) n); simpl; lia.
    + rewrite Hs. auto.
  - pose proof (update_sim ess d s b H) as Hs. destruct (forallb _ b).
    + destruct Hs as (d1 & -> & HR). repeat split; auto; try apply HR.
      clear. revert s. induction b as [|nv b IH]; intro s; simpl; auto. eapply Nat.le_trans; [|apply IH].
      unfold sset. destruct (dict_get neqb (concat ess) (fst nv)); simpl; lia.
    + rewrite Hs. auto.
  - destruct H as [H1 H2 H3 H4]. repeat split; simpl; auto. now rewrite H4.
  - auto.
  - specialize (IHc ess d s H). destruct (exec neqb c d) as [[r1 d1] t1], (meaning neqb c (concat ess) s) as [[r1' s1] t1'].
    destruct IHc as (<- & <- & HR & Hn). destruct r1 as [u|x]; [auto|].
    specialize (IHh x ess d1 s1 HR). destruct (exec neqb (h x) d1) as [[r2 d2] t2], (meaning neqb (h x) (concat ess) s1) as [[r2' s2] t2'].
    destruct IHh as (<- & <- & HR2 & Hn2). repeat split; auto; try apply HR2; lia.
  - destruct (alloc b s) as [e1 s1] eqn:Ea. destruct b as [|bv b].
    + simpl in Ea. injection Ea as <- <-. simpl. specialize (IH ess d s H).
      destruct (exec neqb body d) as [[r1 d1] t1], (meaning neqb body (concat ess) s) as [[r1' s2] t1']. auto.
    + pose proof (R_enter ess d s _ e1 s1 H Ea) as HR. simpl.
      specialize (IH (e1 :: ess) _ _ HR). simpl in IH.
      destruct (exec neqb body _) as [[r1 d1] t1], (meaning neqb body (e1 ++ concat ess) s1) as [[r1' s2] t1'].
      destruct IH as (<- & <- & [K1 K2 K3 K4] & Hn). destruct (alloc_spec _ _ _ _ Ea) as (A1 & _).
      repeat split; simpl; auto; try lia.
      * rewrite K1. auto.
      * simpl in K2. rewrite locs_app in K2. apply nodup_app_inv in K2. apply K2.
      * intros l Hl. apply K3. simpl. rewrite locs_app, in_app_iff. auto.
Qed.

Lemma exec_meaning (c : cmd N V) (g : scope) (v0 : V) :
  fst (fst (exec neqb c (mkdst [] g))) = fst (fst (meaning neqb c [] (sst0 g v0))) /\
  snd (exec neqb c (mkdst [] g)) = snd (meaning neqb c [] (sst0 g v0)) /\
  stack (snd (fst (exec neqb c (mkdst [] g)))) = [] /\
  globals (snd (fst (exec neqb c (mkdst [] g)))) = sglobals (snd (fst (meaning neqb c [] (sst0 g v0)))).
Proof.
  assert (H : R [] (mkdst [] g) (sst0 g v0)).
  { constructor; simpl; auto. constructor. intros l []. }
  pose proof (exec_sim c [] _ _ H) as Hs. simpl in Hs.
  destruct (exec neqb c _) as [[r d] t], (meaning neqb c [] _) as [[r' s'] t'].
  destruct Hs as (-> & -> & [K1 K2 K3 K4] & _). simpl. auto.
Qed.

(** ** Restoration *)
Lemma set_same_keys (s : scope) n v : in_scope neqb s n = true -> map fst (dict_set neqb s n v) = map fst s.
Proof.
  unfold in_scope. induction s as [|[m u] s IH]; simpl; [discriminate|].
  destruct (neqb m n) eqn:E; simpl; auto. intro H. f_equal; auto.
Qed.
Definition shape (ss : list scope) : list (list N) := map (map fst) ss.
Lemma find_scope_at (ss : list scope) n i : find_scope neqb ss n = Some i -> in_scope neqb (nth i ss []) n = true /\ i < length ss.
Proof.
  revert i. induction ss as [|s ss IH]; simpl; [discriminate|]. intros i.
  destruct (in_scope neqb s n) eqn:E. { intros [= <-]. split; auto. lia. }
  destruct (find_scope neqb ss n) as [j|]; [|discriminate]. intros [= <-]. simpl.
  destruct (IH j eq_refl). split; auto. lia.
Qed.
Lemma shape_upd (ss : list scope) i (s : scope) : map fst s = map fst (nth i ss []) -> i < length ss -> shape (upd ss i s) = shape ss.
Proof.
  revert i. induction ss as [|s0 ss IH]; simpl; auto. intros [|i] Hs Hi; simpl in *.
  - now rewrite Hs.
  - f_equal. apply IH; auto. lia.
Qed.
Lemma in_scope_keys (s s' : scope) n : map fst s = map fst s' -> in_scope neqb s n = in_scope neqb s' n.
Proof.
  unfold in_scope. revert s'. induction s as [|[m u] s IH]; intros [|[m' u'] s'] H; simpl in *; try discriminate; auto.
  injection H as <- H. destruct (neqb m n); auto.
Qed.
Lemma shape_nth ss ss' i : shape ss = shape ss' -> map fst (nth i ss []) = map fst (nth i ss' []).
Proof.
  revert ss' i. induction ss as [|s ss IH]; intros [|s' ss'] i H; simpl in *; try discriminate; auto.
  injection H as H1 H2. destruct i; auto.
Qed.
Lemma set_at_shape (d : dst N V) n v i : i < length (stack d) -> in_scope neqb (nth i (stack d) []) n = true ->
  shape (stack (set_at neqb d (Some i) n v)) = shape (stack d).
Proof. intros Hi Hin. simpl. apply shape_upd; auto. now apply set_same_keys. Qed.
Lemma set_all_shape d0 (b : scope) : forall ws d, shape (stack d) = shape (stack d0) ->
  Forall2 (fun w nv => resolve neqb d0 (fst nv) = Ok w) ws b ->
  shape (stack (set_all neqb d ws b)) = shape (stack d0).
Proof.
  induction b as [|[n v] b IH]; intros ws d H HF; inversion HF; subst; simpl in *; auto.
  apply IH; auto. unfold resolve in *. destruct (find_scope neqb (stack d0) n) as [i|] eqn:E.
  - match goal with Hx : Ok (Some i) = Ok x |- _ => injection Hx as <- end.
    destruct (find_scope_at _ _ _ E) as [E1 E2].
    rewrite set_at_shape; auto.
    + assert (HL : length (shape (stack d)) = length (shape (stack d0))) by congruence.
      unfold shape in HL. rewrite !map_length in HL. exact (eq_ind_r (fun k => i < k) E2 HL).
    + rewrite <- E1. apply in_scope_keys. now apply shape_nth.
  - destruct (in_scope neqb (globals d0) n); [|discriminate].
    match goal with Hx : Ok None = Ok x |- _ => injection Hx as <- end. simpl. auto.
Qed.
Lemma resolve_all_F2 (d : dst N V) (b : scope) : forall ws, resolve_all neqb d b = Ok ws -> Forall2 (fun w (nv : N * V) => resolve neqb d (fst nv) = Ok w) ws b.
Proof.
  induction b as [|[n v] b IH]; intros ws; simpl. { intros [= <-]. constructor. }
  destruct (resolve neqb d n) as [w|] eqn:E; simpl; [|discriminate].
  destruct (resolve_all neqb d b) as [ws'|]; simpl; [|discriminate]. intros [= <-]. constructor; auto.
Qed.
Lemma exec_shape c : forall d, shape (stack (snd (fst (exec neqb c d)))) = shape (stack d).
Proof.
  induction c as [|c1 IH1 c2 IH2|n k IH|n v|b|b|x|c IHc h IHh|b body IH]; intros d; simpl; auto.
  - specialize (IH1 d). destruct (exec neqb c1 d) as [[r1 d1] t1]. destruct r1; simpl in *; [|auto].
    specialize (IH2 d1). destruct (exec neqb c2 d1) as [[r2 d2] t2]. simpl in *. congruence.
  - destruct (dyn_get neqb d n) as [v|]; simpl; auto. specialize (IH v d). destruct (exec neqb (k v) d) as [[r1 d1] t1]. auto.
  - unfold dyn_set, resolve. destruct (find_scope neqb (stack d) n) as [i|] eqn:E.
    + destruct (find_scope_at _ _ _ E). cbn [obind fst snd]. now apply set_at_shape.
    + destruct (in_scope neqb (globals d) n); auto.
  - unfold dyn_update. destruct (resolve_all neqb d b) as [ws|] eqn:E; simpl; auto.
    apply set_all_shape; auto. now apply resolve_all_F2.
  - specialize (IHc d). destruct (exec neqb c d) as [[r1 d1] t1]. destruct r1 as [u|x]; simpl in *; [auto|].
    specialize (IHh x d1). destruct (exec neqb (h x) d1) as [[r2 d2] t2]. simpl in *. congruence.
  - specialize (IH (block_enter d b)). destruct (exec neqb body (block_enter d b)) as [[r1 d1] t1]. simpl in *.
    destruct b; simpl in *; auto. destruct (stack d1); simpl in *; congruence.
Qed.

Lemma exec_pure (c : cmd N V) : no_assignment c -> forall d, snd (fst (exec neqb c d)) = d.
Proof.
  induction c as [|c1 IH1 c2 IH2|n k IH|n v|b|b|x|c IHc h IHh|b body IH]; simpl; intros H d; try tauto; auto.
  - specialize (IH1 (proj1 H) d). destruct (exec neqb c1 d) as [[r1 d1] t1]. simpl in IH1. subst d1. destruct r1; auto.
    specialize (IH2 (proj2 H) d). destruct (exec neqb c2 d) as [[r2 d2] t2]. auto.
  - destruct (dyn_get neqb d n) as [v|]; auto. specialize (IH v (H v) d). destruct (exec neqb (k v) d) as [[r2 d2] t2]. auto.
  - specialize (IHc (proj1 H) d). destruct (exec neqb c d) as [[r1 d1] t1]. simpl in IHc. subst d1. destruct r1 as [u|x]; auto.
    specialize (IHh x (proj2 H x) d). destruct (exec neqb (h x) d) as [[r2 d2] t2]. auto.
  - specialize (IH H (block_enter d b)). destruct (exec neqb body (block_enter d b)) as [[r1 d1] t1]. simpl in *. subst d1.
    destruct b; auto. destruct d; auto.
Qed.

(** ** Threads *)
Notation tst := (tst N V).
Implicit Types (w : DynModel.tst N V) (b : dict N V) (o : dop N V) (es : list (nat * dop N V)) (e : nat * dop N V).
Definition wft (w : tst) : Prop :=
  (forall r, In r (mainstack w) -> r < length (heap w)) /\
  (forall t s, stacks w t = Some s -> forall r, In r s -> r < length (heap w)).
Definition viewok (w : tst) : Prop := forall t m, In m (views w t) -> m = tstack w t /\ (t <> 0 -> stacks w t <> None).

Lemma tstack_set w t s u : tstack (set_stack w t s) u =
  if u =? t then s
  else if u =? 0 then mainstack w
  else match stacks w u with Some x => x | None => if t =? 0 then s else mainstack w end.
Proof.
  unfold tstack, set_stack. destruct (Nat.eqb_spec t 0); simpl; destruct (Nat.eqb_spec u 0); destruct (Nat.eqb_spec u t); subst; auto; try lia.
Qed.
Lemma getstack_same w t u : tstack (fst (getstack w t)) u = tstack w u.
Proof.
  unfold getstack. simpl. rewrite tstack_set. unfold tstack.
  destruct (Nat.eqb_spec u t); subst; auto. destruct (Nat.eqb_spec u 0); auto.
  destruct (stacks w u); auto. destruct (t =? 0); auto.
Qed.
Lemma getstack_heap w t : heap (fst (getstack w t)) = heap w /\ tglobals (fst (getstack w t)) = tglobals w
  /\ views (fst (getstack w t)) = views w /\ mainstack (fst (getstack w t)) = mainstack w.
Proof. unfold getstack, set_stack. simpl. unfold tstack. destruct (t =? 0); simpl; auto. Qed.
Lemma getstack_stacks w t u : stacks (fst (getstack w t)) u = if (u =? t) && negb (t =? 0) then Some (tstack w t) else stacks w u.
Proof. unfold getstack, set_stack. simpl. destruct (t =? 0); simpl; rewrite ?andb_false_r, ?andb_true_r; auto. Qed.

Lemma find_ref_ext (w w' : tst) rs n : (forall r, In r rs -> cell w r = cell w' r) -> find_ref neqb w rs n = find_ref neqb w' rs n.
Proof.
  intro H. induction rs as [|r rs IH]; simpl; auto. rewrite (H r) by (simpl; auto).
  rewrite IH by (intros; apply H; simpl; auto). auto.
Qed.
Lemma find_ref_in (w : tst) rs n r : find_ref neqb w rs n = Some r -> In r rs /\ in_scope neqb (cell w r) n = true.
Proof.
  induction rs as [|q rs IH]; simpl; [discriminate|]. destruct (in_scope neqb (cell w q) n) eqn:E.
  - intros [= <-]. auto.
  - intro H. destruct (IH H). auto.
Qed.
Lemma tget_eq (w w' : tst) t t' n : tstack w t = tstack w' t' -> (forall r, In r (tstack w t) -> cell w r = cell w' r) ->
  tglobals w = tglobals w' -> tget neqb w t n = tget neqb w' t' n.
Proof.
  intros H1 H2 H3. unfold tget, tresolve. rewrite <- H1, <- H3, (find_ref_ext w w') by auto.
  destruct (find_ref neqb w' (tstack w t) n) as [r|] eqn:E; simpl.
  - apply find_ref_in in E. rewrite (H2 r) by tauto. auto.
  - destruct (in_scope neqb (tglobals w) n); auto.
Qed.

Lemma twrite_stacks w s n v : mainstack (twrite neqb w s n v) = mainstack w /\ stacks (twrite neqb w s n v) = stacks w
  /\ views (twrite neqb w s n v) = views w /\ length (heap (twrite neqb w s n v)) = length (heap w).
Proof. destruct s; simpl; auto. now rewrite upd_len. Qed.
Lemma twrite_all_stacks b : forall w ss, mainstack (twrite_all neqb w ss b) = mainstack w /\ stacks (twrite_all neqb w ss b) = stacks w
  /\ views (twrite_all neqb w ss b) = views w /\ length (heap (twrite_all neqb w ss b)) = length (heap w).
Proof.
  induction b as [|[n v] b IH]; intros w [|s ss]; simpl; auto.
  destruct (IH (twrite neqb w s n v) ss) as (A & B & C & D), (twrite_stacks w s n v) as (A' & B' & C' & D').
  rewrite A, B, C, D. auto.
Qed.
Lemma twrite_cell w s n v r : s <> Some r -> cell (twrite neqb w s n v) r = cell w r.
Proof.
  destruct s as [q|]; simpl; auto. intro H. unfold cell. simpl.
  assert (E : nth_error (upd (heap w) q (dict_set neqb (nth q (heap w) []) n v)) r = nth_error (heap w) r) by (apply nth_error_upd_ne; congruence).
  destruct (nth_error (heap w) r) eqn:E2.
  - rewrite (nth_error_nth _ _ _ E), (nth_error_nth _ _ _ E2). auto.
  - apply nth_error_None in E, E2. now rewrite !nth_overflow by auto.
Qed.
Lemma twrite_all_cell b r : forall w ss, ~ In (Some r) ss -> cell (twrite_all neqb w ss b) r = cell w r.
Proof.
  induction b as [|[n v] b IH]; intros w [|s ss] H; simpl in *; auto.
  rewrite IH by tauto. apply twrite_cell. tauto.
Qed.
Lemma tresolve_in (w : tst) t n r : tresolve neqb w t n = Ok (Some r) -> In r (tstack w t).
Proof.
  unfold tresolve. destruct (find_ref neqb w (tstack w t) n) as [q|] eqn:E.
  - intros [= <-]. apply find_ref_in in E. tauto.
  - destruct (in_scope neqb (tglobals w) n); discriminate.
Qed.
Lemma tresolve_all_in (w : tst) t b r : forall ss, tresolve_all neqb w t b = Ok ss -> In (Some r) ss -> In r (tstack w t).
Proof.
  induction b as [|[n v] b IH]; intros ss; simpl. { intros [= <-] []. }
  destruct (tresolve neqb w t n) as [s|] eqn:E; simpl; [|discriminate].
  destruct (tresolve_all neqb w t b) as [ss'|]; simpl; [|discriminate]. intros [= <-] [->|H].
  - eapply tresolve_in; eauto.
  - eauto.
Qed.

(** Scope [r] belongs to thread [t] alone, which is not the main thread. *)
Definition private (w : tst) (t r : nat) : Prop :=
  r < length (heap w) /\ ~ In r (mainstack w) /\ forall u s, u <> t -> stacks w u = Some s -> ~ In r s.
Lemma private_tstack w t r u : t <> 0 -> private w t r -> u <> t -> ~ In r (tstack w u).
Proof.
  intros Ht (H1 & H2 & H3) Hu. unfold tstack. destruct (u =? 0); auto.
  destruct (stacks w u) eqn:E; eauto.
Qed.
Ltac eqbs := repeat match goal with
  | H : context [?a =? ?b] |- _ => destruct (Nat.eqb_spec a b); subst; simpl in H
  | |- context [?a =? ?b] => destruct (Nat.eqb_spec a b); subst; simpl
  end.
Lemma cell_app (w : tst) b r m s g vw : r < length (heap w) -> cell (mktst (heap w ++ [b]) m s g vw) r = cell w r.
Proof. intro H. unfold cell. simpl. now apply app_nth1. Qed.

Lemma step_private w u o t r : t <> 0 -> u <> t -> private w t r -> stacks w t <> None ->
  private (tstep neqb w (u, o)) t r /\ cell (tstep neqb w (u, o)) r = cell w r /\ stacks (tstep neqb w (u, o)) t = stacks w t.
Proof.
  intros Ht Hu Hp Hs. pose proof (private_tstack w t r u Ht Hp Hu) as Hru.
  destruct (getstack_heap w u) as (G1 & G2 & G3 & G4).
  assert (Hg : private (fst (getstack w u)) t r).
  { destruct Hp as (H1 & H2 & H3). unfold private. rewrite G1, G4. repeat split; auto.
    intros v s Hv. rewrite getstack_stacks. destruct ((v =? u) && negb (u =? 0)) eqn:E; [|eauto].
    intros [= <-]. auto. }
  assert (Hgs : stacks (fst (getstack w u)) t = stacks w t).
  { rewrite getstack_stacks. destruct (Nat.eqb_spec t u); [congruence|]. auto. }
  assert (Hgc : cell (fst (getstack w u)) r = cell w r) by (unfold cell; now rewrite G1).
  assert (Hgt : tstack (fst (getstack w u)) u = tstack w u) by apply getstack_same.
  destruct o as [[|bv b]|[|]|n|n v|[|bv b]|b|]; cbn [tstep]; auto.
  - set (w1 := fst (getstack w u)) in *. destruct Hg as (H1 & H2 & H3).
    rewrite Hgt. unfold refresh, set_stack, private. destruct (Nat.eqb_spec u 0); simpl.
    + rewrite app_length. repeat split; auto; try (simpl; lia).
      * intros [E|E]; [lia|]. auto.
      * unfold cell. simpl. rewrite app_nth1 by auto. auto.
    + rewrite app_length. repeat split; auto; try (simpl; lia).
      * intros v s Hv. eqbs; [intros [= <-] [E|E]; [lia|auto]|eauto].
      * unfold cell. simpl. rewrite app_nth1 by auto. auto.
      * eqbs; [congruence|auto].
  - set (w1 := fst (getstack w u)) in *. destruct Hg as (H1 & H2 & H3).
    assert (Ht' : ~ In r (tl (tstack w u))) by (destruct (tstack w u); simpl in *; auto).
    rewrite Hgt. unfold refresh, set_stack, private. destruct (Nat.eqb_spec u 0); simpl.
    + repeat split; auto.
    + repeat split; auto.
      * intros v s Hv. eqbs; [intros [= <-]; auto|eauto].
      * eqbs; [congruence|auto].
  - set (w1 := fst (getstack w u)) in *. destruct (tresolve neqb w1 u n) as [s|] eqn:E; auto.
    destruct (twrite_stacks w1 s n v) as (A & B & C & D). unfold private. rewrite A, B, D.
    split; [exact Hg|]. split; [|congruence]. rewrite twrite_cell; auto.
    intros ->. apply tresolve_in in E. rewrite Hgt in E. auto.
  - set (w1 := fst (getstack w u)) in *. destruct (tresolve_all neqb w1 u (bv :: b)) as [ss|] eqn:E; auto.
    destruct (twrite_all_stacks (bv :: b) w1 ss) as (A & B & C & D). unfold private. rewrite A, B, D.
    split; [exact Hg|]. split; [|congruence]. rewrite twrite_all_cell; auto.
    intro Hin. apply (tresolve_all_in _ _ _ r _ E) in Hin. rewrite Hgt in Hin. auto.
Qed.
Lemma run_private es : forall w t r, t <> 0 -> Forall (fun e => fst e <> t) es -> private w t r -> stacks w t <> None ->
  cell (trun neqb w es) r = cell w r /\ stacks (trun neqb w es) t = stacks w t.
Proof.
  induction es as [|[u o] es IH]; intros w t r Ht HF Hp Hs; simpl; auto.
  inversion HF; subst. simpl in *.
  destruct (step_private w u o t r) as (A & B & C); auto.
  destruct (IH (tstep neqb w (u, o)) t r) as (D & E); auto. { now rewrite C. }
  split; [exact (eq_trans D B) | exact (eq_trans E C)].
Qed.

(** *** invariants of reachable states *)
Lemma getstack_wft w t : wft w -> wft (fst (getstack w t)).
Proof.
  intros [H1 H2]. destruct (getstack_heap w t) as (G1 & G2 & G3 & G4). split; rewrite G1.
  - rewrite G4. auto.
  - intros u s. rewrite getstack_stacks. destruct ((u =? t) && negb (t =? 0)); [|eauto].
    intros [= <-] r Hr. unfold tstack in Hr. destruct (t =? 0); auto. destruct (stacks w t) eqn:E; eauto.
Qed.
Lemma tstack_lt w t r : wft w -> In r (tstack w t) -> r < length (heap w).
Proof. intros [H1 H2] Hr. unfold tstack in Hr. destruct (t =? 0); auto. destruct (stacks w t) eqn:E; eauto. Qed.
Lemma refresh_wft w t : wft w -> wft (refresh w t). Proof. auto. Qed.
Lemma set_stack_wft w t s : wft w -> (forall r, In r s -> r < length (heap w)) -> wft (set_stack w t s).
Proof.
  intros [H1 H2] Hs. unfold set_stack. destruct (t =? 0); split; simpl; eauto.
  intros u q. destruct (u =? t); [intros [= <-]; auto|eauto].
Qed.
Lemma step_wft w e : wft w -> wft (tstep neqb w e).
Proof.
  intro H. destruct e as [t o]. pose proof (getstack_wft w t H) as Hg.
  destruct o as [[|bv b]|[|]|n|n v|[|bv b]|b|]; cbn [tstep]; auto; set (w1 := fst (getstack w t)) in *.
  - apply refresh_wft, set_stack_wft.
    + destruct Hg as [A B]. split; simpl; intros; rewrite app_length; simpl.
      * apply A in H0. lia.
      * specialize (B _ _ H0 _ H1). lia.
    + simpl. rewrite app_length. simpl. intros r [<-|Hr]; [lia|]. apply tstack_lt in Hr; auto. lia.
  - apply refresh_wft, set_stack_wft; auto. intros r Hr. apply (tstack_lt w1 t); auto. destruct (tstack w1 t); simpl in *; auto.
  - destruct (tresolve neqb w1 t n); auto. unfold wft. destruct (twrite_stacks w1 a n v) as (-> & -> & _ & ->). exact Hg.
  - destruct (tresolve_all neqb w1 t (bv :: b)); auto. unfold wft. destruct (twrite_all_stacks (bv :: b) w1 a) as (-> & -> & _ & ->). exact Hg.
Qed.
Lemma run_wft es : forall w, wft w -> wft (trun neqb w es).
Proof. induction es; simpl; auto. intros. apply IHes, step_wft; auto. Qed.
Lemma wft0 : wft tst0. Proof. split; simpl; intros; [tauto|discriminate]. Qed.

(** a block entered by a thread other than the main thread *)
Lemma own_scope es t b n v es' : t <> 0 -> get b n = Some v -> Forall (fun e => fst e <> t) es' ->
  tget neqb (trun neqb tst0 (es ++ (t, DEnter b) :: es')) t n = Ok v.
Proof.
  intros Ht Hb HF. unfold trun. rewrite fold_left_app. cbn [fold_left]. fold (trun (N:=N) (V:=V) neqb tst0 es).
  set (w := trun neqb tst0 es). assert (Hw : wft w) by (apply run_wft, wft0).
  destruct b as [|bv b]; [discriminate|]. remember (bv :: b) as bb.
  set (w1 := tstep neqb w (t, DEnter bb)).
  destruct (getstack_heap w t) as (G1 & G2 & G3 & G4).
  assert (E1 : heap w1 = heap w ++ [bb]).
  { unfold w1. rewrite Heqbb. cbn [tstep]. rewrite <- G1. generalize (fst (getstack w t)). intro x.
    unfold refresh, set_stack. destruct (Nat.eqb_spec t 0); [congruence|]. reflexivity. }
  assert (E2 : stacks w1 t = Some (length (heap w) :: tstack w t)).
  { unfold w1. rewrite Heqbb. cbn [tstep]. rewrite G1, getstack_same. unfold refresh, set_stack.
    destruct (Nat.eqb_spec t 0); [congruence|]. simpl. now rewrite Nat.eqb_refl. }
  assert (E3 : mainstack w1 = mainstack w).
  { unfold w1. rewrite Heqbb. cbn [tstep]. unfold refresh, set_stack. destruct (Nat.eqb_spec t 0); [congruence|]. exact G4. }
  assert (E4 : forall u, u <> t -> stacks w1 u = stacks w u).
  { intros u Hu. unfold w1. rewrite Heqbb. cbn [tstep].
    assert (G5 : stacks (fst (getstack w t)) u = stacks w u) by (rewrite getstack_stacks; destruct (Nat.eqb_spec u t); [congruence|auto]).
    rewrite <- G5. generalize (fst (getstack w t)). intro x. unfold refresh, set_stack. destruct (Nat.eqb_spec t 0); [congruence|].
    simpl. destruct (Nat.eqb_spec u t); [congruence|]. auto. }
  assert (Hp : private w1 t (length (heap w))).
  { destruct Hw as [W1 W2]. unfold private. rewrite E1, E3, app_length. repeat split.
    - simpl. lia.
    - intro Hr. apply W1 in Hr. lia.
    - intros u s Hu Hs Hr. rewrite E4 in Hs by auto. specialize (W2 _ _ Hs _ Hr). lia. }
  destruct (run_private es' w1 t (length (heap w)) Ht HF Hp) as (R1 & R2). { now rewrite E2. }
  unfold trun in *. set (w2 := fold_left (tstep neqb) es' w1) in *.
  assert (Hc : cell w2 (length (heap w)) = bb).
  { rewrite R1. unfold cell. rewrite E1, app_nth2 by lia. now rewrite Nat.sub_diag. }
  unfold tget, tresolve, tstack. destruct (Nat.eqb_spec t 0); [congruence|]. rewrite R2, E2. simpl.
  rewrite Hc. unfold in_scope. rewrite Hb. simpl. rewrite Hc, Hb. auto.
Qed.

(** what another thread does is not visible unless it writes to a shared scope *)
Lemma enter_exit_other w u o t : u <> t -> (t = 0 \/ u <> 0 \/ stacks w t <> None) -> wft w ->
  (exists b, o = DEnter b) \/ (exists f, o = DExit f) ->
  forall n, tget neqb (tstep neqb w (u, o)) t n = tget neqb w t n.
Proof.
  intros Hu Hi Hw Ho n. destruct (getstack_heap w u) as (G1 & G2 & G3 & G4).
  assert (K : forall w1 s f, tglobals w1 = tglobals w -> mainstack w1 = mainstack w ->
     stacks w1 t = stacks w t -> heap w1 = heap w ++ f -> tget neqb (refresh (set_stack w1 u s) u) t n = tget neqb w t n).
  { intros w1 s f A B C D. symmetry. apply tget_eq.
    - change (tstack (refresh (set_stack w1 u s) u) t) with (tstack (set_stack w1 u s) t).
      rewrite tstack_set. destruct (Nat.eqb_spec t u); [congruence|]. rewrite B, C. unfold tstack.
      destruct (Nat.eqb_spec t 0); auto. destruct (stacks w t) eqn:E; auto.
      destruct (Nat.eqb_spec u 0); auto. exfalso. destruct Hi as [?|[?|?]]; auto.
    - intros r Hr. apply tstack_lt in Hr; auto. unfold cell, refresh, set_stack. simpl.
      destruct (u =? 0); simpl; rewrite D, app_nth1 by auto; auto.
    - unfold refresh, set_stack. simpl. destruct (u =? 0); simpl; auto. }
  assert (Ks : stacks (fst (getstack w u)) t = stacks w t).
  { rewrite getstack_stacks. destruct (Nat.eqb_spec t u); [congruence|auto]. }
  destruct Ho as [[b ->]|[f ->]].
  - destruct b as [|bv b]; auto. cbn [tstep]. apply K with (f := [bv :: b]); auto. cbn [heap]. now rewrite G1.
  - destruct f; auto. cbn [tstep]. apply K with (f := []); auto. now rewrite G1, app_nil_r.
Qed.

(** first access *)
Lemma inherit w t n : t <> 0 -> stacks w t = None -> tget neqb w t n = tget neqb w 0 n.
Proof.
  intros Ht Hs. apply tget_eq; auto. unfold tstack. destruct (Nat.eqb_spec t 0); [congruence|]. now rewrite Hs.
Qed.

(** *** live views *)
Lemma step_views w e : viewok w -> viewok (tstep neqb w e).
Proof.
  intro H. destruct e as [t o]. destruct (getstack_heap w t) as (G1 & G2 & G3 & G4).
  assert (Hg : viewok (fst (getstack w t))).
  { intros u m. rewrite G3. intro Hm. destruct (H u m Hm) as [A B]. rewrite getstack_same. split; auto.
    intro Hu. rewrite getstack_stacks. destruct ((u =? t) && negb (t =? 0)); [discriminate|auto]. }
  assert (Ht : t <> 0 -> stacks (fst (getstack w t)) t <> None).
  { intro. rewrite getstack_stacks, Nat.eqb_refl. destruct (Nat.eqb_spec t 0); [congruence|discriminate]. }
  assert (K : forall w1 s, viewok w1 -> viewok (refresh (set_stack w1 t s) t)).
  { intros w1 s Hv u m. simpl.
    change (tstack (refresh (set_stack w1 t s) t) u) with (tstack (set_stack w1 t s) u).
    change (stacks (refresh (set_stack w1 t s) t) u) with (stacks (set_stack w1 t s) u).
    assert (Hvw : views (set_stack w1 t s) = views w1) by (unfold set_stack; destruct (t =? 0); auto).
    rewrite Hvw. destruct (Nat.eqb_spec u t).
    - subst. rewrite in_map_iff. intros (m' & <- & Hm). split; auto.
      intro Hu. unfold set_stack. destruct (Nat.eqb_spec t 0); [congruence|]. simpl. rewrite Nat.eqb_refl. discriminate.
    - intro Hm. destruct (Hv u m Hm) as [-> B]. split.
      + rewrite tstack_set. destruct (Nat.eqb_spec u t); [congruence|]. unfold tstack.
        destruct (Nat.eqb_spec u 0); auto. destruct (stacks w1 u) eqn:E; auto. exfalso. now apply B.
      + intro Hu. unfold set_stack. destruct (Nat.eqb_spec t 0); simpl; auto. destruct (Nat.eqb_spec u t); [congruence|auto]. }
  assert (W : forall w1 w2, viewok w1 -> mainstack w2 = mainstack w1 -> stacks w2 = stacks w1 -> views w2 = views w1 -> viewok w2).
  { intros w1 w2 Hv A B C u m. rewrite C. intro Hm. destruct (Hv u m Hm). unfold tstack in *. rewrite A, B. auto. }
  destruct o as [[|bv b]|[|]|n|n v|[|bv b]|b|]; cbn [tstep]; auto; set (w1 := fst (getstack w t)) in *.
  - destruct (tresolve neqb w1 t n); auto. destruct (twrite_stacks w1 a n v) as (A & B & C & _). eapply W; eauto.
  - destruct (tresolve_all neqb w1 t (bv :: b)); auto. destruct (twrite_all_stacks (bv :: b) w1 a) as (A & B & C & _). eapply W; eauto.
  - intros u m. simpl. destruct (Nat.eqb_spec u t).
    + subst. intros [<-|Hm]; [|apply Hg; auto]. split; auto.
    + intro Hm. apply Hg; auto.
Qed.
Lemma run_views es : forall w, viewok w -> viewok (trun neqb w es).
Proof. induction es; simpl; auto. intros. apply IHes, step_views; auto. Qed.
Lemma views0 : viewok tst0. Proof. intros t m []. Qed.
Lemma view_live es t m n : In m (views (trun neqb tst0 es) t) ->
  view_get neqb (trun neqb tst0 es) m n = match tget neqb (trun neqb tst0 es) t n with Ok v => Some v | Raise _ => None end.
Proof.
  intro Hm. destruct (run_views es tst0 views0 t m Hm) as [-> _].
  unfold view_get, tget, tresolve. set (w := trun neqb tst0 es).
  destruct (find_ref neqb w (tstack w t) n) as [r|]; simpl.
  - destruct (get (cell w r) n); auto.
  - unfold in_scope. destruct (get (tglobals w) n) eqn:E; simpl; auto. now rewrite E.
Qed.
(** every view created stays registered *)
Definition is_view (t : nat) (e : nat * dop N V) : bool := (fst e =? t) && match snd e with DView => true | _ => false end.
Lemma view_count es : forall w t, length (views (trun neqb w es) t) = length (filter (is_view t) es) + length (views w t).
Proof.
  induction es as [|e es IH]; intros w t; auto.
  unfold trun. cbn [fold_left]. change (fold_left (tstep neqb) es (tstep neqb w e)) with (trun neqb (tstep neqb w e) es).
  rewrite IH. cbn [filter]. enough (length (views (tstep neqb w e) t) = (if is_view t e then 1 else 0) + length (views w t)) as ->.
  { destruct (is_view t e); simpl; lia. }
  destruct e as [u o]. unfold is_view. cbn [fst snd].
  destruct (getstack_heap w u) as (G1 & G2 & G3 & G4).
  assert (K : forall w1 s, length (views (refresh (set_stack w1 u s) u) t) = length (views w1 t)).
  { intros w1 s. simpl. assert (Hvw : views (set_stack w1 u s) = views w1) by (unfold set_stack; destruct (u =? 0); auto).
    rewrite Hvw. destruct (Nat.eqb_spec t u); subst; auto. now rewrite map_length. }
  destruct o as [[|bv b]|[|]|n|n v|[|bv b]|b|]; cbn [tstep]; rewrite ?andb_false_r; auto; set (w1 := fst (getstack w u)) in *.
  - rewrite K. simpl. now rewrite G3.
  - rewrite K. now rewrite G3.
  - now rewrite G3.
  - destruct (tresolve neqb w1 u n); [|now rewrite G3]. destruct (twrite_stacks w1 a n v) as (_ & _ & -> & _). now rewrite G3.
  - destruct (tresolve_all neqb w1 u (bv :: b)); [|now rewrite G3]. destruct (twrite_all_stacks (bv :: b) w1 a) as (_ & _ & -> & _). now rewrite G3.
  - rewrite andb_true_r. simpl. rewrite G3. destruct (Nat.eqb_spec t u), (Nat.eqb_spec u t); subst; simpl; auto; congruence.
Qed.
End DynP.
