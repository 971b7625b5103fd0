(** Proofs for C134. *)
From Coq Require Import List Arith Bool Lia.
From Verif Require Import Base MgxModel MgxSpec.
Import ListNotations.

Section P.
Context {A K : Type}.
Notation tree := (tree A K).
Notation xval := (xval A K).
Variable same : xval -> xval -> bool.
Variable func : A -> outcome A.
Variable g : A -> A.
Notation doit := (doit same func).
Notation replace := (replace same g).

Lemma tree_ind' (P : tree -> Prop) :
  (forall a, P (Leaf a)) -> (forall w l, Forall P l -> P (Node w l)) -> forall t, P t.
Proof.
  intros H1 H2. fix IH 1. intros [a|w l]; [apply H1|]. apply H2.
  induction l as [|t l IHl]; constructor; [apply IH|exact IHl].
Qed.

Lemma sub_child i (u : tree) w l t : In t l -> sub i u t -> exists j, sub j u (Node w l).
Proof. intros Hi Hs. destruct (in_split _ _ Hi) as (l1 & l2 & ->). eexists. constructor. exact Hs. Qed.

Lemma sub_inv i (u : tree) w l : sub i u (Node w l) ->
  (i = 0 /\ u = Node w l) \/
  exists l1 t l2 j, l = l1 ++ t :: l2 /\ sub j u t /\ i = length (flat_map leaves l1) + j.
Proof.
  intros H. inversion H; subst; [left; auto|right]. repeat eexists; eauto.
Qed.

Lemma sub_leaf i (u : tree) a : sub i u (Leaf a) -> i = 0 /\ u = Leaf a.
Proof. intros H. inversion H; subst; auto. Qed.

Lemma sub_bound i (u t : tree) : sub i u t -> i + length (leaves u) <= length (leaves t).
Proof.
  induction 1; cbn; [lia|]. rewrite flat_map_app, app_length. cbn. rewrite app_length. lia.
Qed.

Lemma sub_refs i (u t : tree) : sub i u t -> incl (refs u) (refs t).
Proof.
  induction 1; [apply incl_refl|]. intros r Hr. cbn. apply in_or_app. right.
  rewrite flat_map_app. apply in_or_app. right. cbn. apply in_or_app. left. auto.
Qed.

Lemma ident_refs (u : tree) r : ident u = Some r -> In r (refs u).
Proof. destruct u as [a|[k|r' m] l]; cbn; try discriminate. intros [= ->]. now left. Qed.

Lemma in_heap_frame h h' (t : tree) : in_heap h t -> (forall r, In r (refs t) -> h' r = h r) -> in_heap h' t.
Proof.
  intros H1 H2 i u Hs. specialize (H1 i u Hs). destruct u as [a|[k|r m] l]; cbn in *; auto.
  rewrite H2; [exact H1|]. apply (sub_refs _ _ _ Hs). now left.
Qed.

Lemma in_heap_node h w l : in_heap h (Node w l) <->
  holds h (Node w l) /\ forall t : tree, In t l -> in_heap h t.
Proof.
  split.
  - intros H. split; [apply (H 0); constructor|]. intros t Ht i u Hs.
    destruct (sub_child i u w l t Ht Hs) as (j & Hj). exact (H _ _ Hj).
  - intros [H1 H2] i u Hs. destruct (sub_inv _ _ _ _ Hs) as [[-> ->]|(l1 & t & l2 & j & -> & Hj & _)]; auto.
    apply (H2 t) with (i := j); auto. apply in_or_app. right. now left.
Qed.

Lemma wf_node w (l : list tree) : well_formed (Node w l) <->
  shape (Node w l) /\ forall t : tree, In t l -> well_formed t.
Proof.
  split.
  - intros H. split; [apply (H 0); constructor|]. intros t Ht i u Hs.
    destruct (sub_child i u w l t Ht Hs) as (j & Hj). exact (H _ _ Hj).
  - intros [H1 H2] i u Hs. destruct (sub_inv _ _ _ _ Hs) as [[-> ->]|(l1 & t & l2 & j & -> & Hj & _)]; auto.
    apply (H2 t) with (i := j); auto. apply in_or_app. right. now left.
Qed.

Lemma once_incl l : forall seen, incl (once same seen l) l.
Proof.
  induction l as [|t l IH]; intros seen x; cbn; [tauto|].
  destruct (existsb _ seen); [intros H; right; exact (IH _ _ H)|].
  intros [->|H]; [now left|right; exact (IH _ _ H)].
Qed.
Lemma remade_incl w l : incl (remade same w l) l.
Proof. destruct w as [[]|? []]; cbn; try apply incl_refl; apply once_incl. Qed.

Lemma refs_replace (t : tree) : incl (refs (replace t)) (refs t).
Proof.
  induction t as [a|w l IH] using tree_ind'; [apply incl_refl|].
  cbn. intros r Hr. apply in_or_app. apply in_app_or in Hr. destruct Hr as [Hr|Hr]; [now left|right].
  apply in_flat_map in Hr. destruct Hr as (x & Hx & Hr). apply remade_incl in Hx.
  apply in_map_iff in Hx. destruct Hx as (t & <- & Ht). rewrite Forall_forall in IH.
  apply in_flat_map. exists t. split; auto. apply (IH t Ht); auto.
Qed.

Lemma ref_sub (t : tree) r : In r (refs t) -> exists i u, sub i u t /\ ident u = Some r.
Proof.
  induction t as [a|w l IH] using tree_ind'; [intros []|]. cbn. intros Hr. apply in_app_or in Hr.
  destruct Hr as [Hr|Hr].
  - exists 0, (Node w l). split; [constructor|]. destruct w as [k|r' m]; [destruct Hr|]. destruct Hr as [->|[]]. reflexivity.
  - apply in_flat_map in Hr. destruct Hr as (t & Ht & Hr). rewrite Forall_forall in IH.
    destruct (IH t Ht Hr) as (i & u & Hs & Hi). destruct (sub_child i u w l t Ht Hs) as (j & Hj). eauto.
Qed.

Lemma in_heap_none h (t : tree) : refs t = [] -> in_heap h t.
Proof.
  intros E i u Hs. destruct u as [a|[k|r m] l]; cbn; auto. exfalso.
  assert (Hr : In r (refs t)) by (apply (sub_refs _ _ _ Hs); now left). rewrite E in Hr. exact Hr.
Qed.

Lemma in_heap_sub h i (u t : tree) : sub i u t -> well_formed t -> in_heap h (replace t) -> in_heap h (replace u).
Proof.
  induction 1 as [t|i u w l1 t l2 Hs IH]; intros Hw Hh; [exact Hh|].
  apply wf_node in Hw. destruct Hw as [Hw1 Hw2].
  assert (Ht : In t (l1 ++ t :: l2)) by (apply in_or_app; right; now left).
  apply IH; [auto|]. cbn in Hh. apply in_heap_node in Hh. destruct Hh as [_ Hh].
  assert (Hc : remade same w (map replace (l1 ++ t :: l2)) = map replace (l1 ++ t :: l2) \/ flat_map refs (l1 ++ t :: l2) = []).
  { destruct w as [[]|r []]; cbn in *; auto. }
  destruct Hc as [E|E].
  - apply Hh. rewrite E. now apply in_map.
  - apply in_heap_none. assert (Hi := refs_replace t). destruct (refs (replace t)) as [|r rs]; auto. exfalso.
    assert (Hr : In r (flat_map refs (l1 ++ t :: l2))) by (apply in_flat_map; exists t; split; auto; apply Hi; now left).
    rewrite E in Hr. exact Hr.
Qed.

Lemma dedup_once l : forall seen, dedup same (map value seen) (map value l) = map value (once same seen l).
Proof.
  induction l as [|t l IH]; intros seen; cbn; [reflexivity|].
  replace (existsb (same (value t)) (map value seen)) with (existsb (fun u => same (value t) (value u)) seen)
    by (induction seen; cbn; congruence).
  destruct (existsb _ seen); [apply IH|]. cbn. f_equal. rewrite <- IH, map_app. reflexivity.
Qed.

(** ** Every call succeeds *)
Definition good (t : tree) : Prop := forall a, In a (leaves t) -> func a = Ok (g a).

Definition ok_run (s s' : state A K) (ts : list tree) : Prop :=
  calls s' = calls s ++ flat_map leaves ts /\
  (forall t, In t ts -> in_heap (heap s') (replace t)) /\
  forall r, ~ In r (flat_map refs ts) -> heap s' r = heap s r.

Definition ok_at (t : tree) : Prop := forall fuel s,
  depth t <= fuel -> in_heap (heap s) t -> NoDup (refs t) -> well_formed t -> good t ->
  exists s', doit fuel s (value t) = Done s' (value (replace t)) /\ ok_run s s' [t].

Lemma NoDup_app_inv {X} (l1 l2 : list X) : NoDup (l1 ++ l2) ->
  NoDup l1 /\ NoDup l2 /\ forall x, In x l1 -> ~ In x l2.
Proof.
  induction l1 as [|a l1 IH]; cbn; intros H; [repeat split; auto; constructor|].
  inversion H as [|? ? Hn Hd]; subst. destruct (IH Hd) as (H1 & H2 & H3). repeat split; auto.
  - constructor; auto. intros Ha. apply Hn. apply in_or_app. now left.
  - intros x [->|Hx] Hx2; [apply Hn; apply in_or_app; now right|exact (H3 _ Hx Hx2)].
Qed.

Lemma all_ok fuel (l : list tree) : Forall ok_at l -> forall s,
  (forall t, In t l -> depth t <= fuel /\ in_heap (heap s) t /\ well_formed t /\ good t) ->
  NoDup (flat_map refs l) ->
  exists s', all (doit fuel) s (map value l) = Done s' (map value (map replace l)) /\ ok_run s s' l.
Proof.
  induction 1 as [|t l Ht Hl IH]; intros s Hs Hn; cbn.
  - exists s. split; [reflexivity|]. repeat split; cbn; [now rewrite app_nil_r|tauto].
  - cbn in Hn. destruct (NoDup_app_inv _ _ Hn) as (N1 & N2 & N3).
    destruct (Hs t (or_introl eq_refl)) as (D1 & D2 & D3 & D4).
    destruct (Ht fuel s D1 D2 N1 D3 D4) as (s1 & E1 & C1 & H1 & F1).
    destruct (IH s1) as (s2 & E2 & C2 & H2 & F2); auto.
    { intros u Hu. destruct (Hs u (or_intror Hu)) as (U1 & U2 & U3 & U4). repeat split; auto.
      apply (in_heap_frame (heap s)); auto. intros r Hr. apply F1. cbn. rewrite app_nil_r. intros Hr'.
      apply (N3 r Hr'). apply in_flat_map. eauto. }
    exists s2. rewrite E1. cbn. rewrite E2. cbn. split; [reflexivity|]. repeat split.
    + rewrite C2, C1. cbn. rewrite app_nil_r, <- app_assoc. reflexivity.
    + intros u [->|Hu]; [|now apply H2].
      apply (in_heap_frame (heap s1)); [apply H1; now left|]. intros r Hr. apply F2.
      apply N3. now apply refs_replace in Hr.
    + intros r Hr. rewrite F2, F1; auto; intros Hr'; apply Hr; cbn; apply in_or_app; cbn in Hr'.
      * rewrite app_nil_r in Hr'. now left.
      * now right.
Qed.

Lemma depth_child fuel (l : list tree) t : list_max (map depth l) <= fuel -> In t l -> depth t <= fuel.
Proof.
  intros H Ht. assert (L : Forall (fun k => k <= list_max (map depth l)) (map depth l)) by now apply list_max_le.
  rewrite Forall_forall in L. specialize (L (depth t) (in_map _ _ _ Ht)). lia.
Qed.

Lemma ok_imm s s' k l : ok_run s s' l -> ok_run s s' [Node (Imm k) l].
Proof.
  intros (H1 & H2 & H3). split; [cbn; now rewrite app_nil_r|]. split.
  - intros t [<-|[]]. cbn [MgxSpec.replace]. apply in_heap_node. split; [exact I|]. intros t Ht. apply remade_incl in Ht.
    apply in_map_iff in Ht. destruct Ht as (u & <- & Hu). auto.
  - intros r Hr. apply H3. cbn in Hr. now rewrite app_nil_r in Hr.
Qed.

Lemma put_other s r c r' : r' <> r -> heap (put (A := A) (K := K) s r c) r' = heap s r'.
Proof. intros H. cbn. apply Nat.eqb_neq in H. now rewrite H. Qed.
Lemma put_same s r c : heap (put (A := A) (K := K) s r c) r = Some c.
Proof. cbn. now rewrite Nat.eqb_refl. Qed.

Lemma ok_mut s s' r m l : ~ In r (flat_map refs l) -> ok_run s s' l ->
  ok_run s (put s' r (m, map value (remade same (Mut r m) (map replace l)))) [Node (Mut r m) l].
Proof.
  intros Hn (H1 & H2 & H3). split; [cbn; now rewrite app_nil_r|]. split.
  - intros t [<-|[]]. cbn [MgxSpec.replace]. apply in_heap_node. split; [apply put_same|]. intros t Ht.
    apply remade_incl in Ht. apply in_map_iff in Ht. destruct Ht as (u & <- & Hu).
    apply (in_heap_frame (heap s')); auto. intros r' Hr'. apply put_other. intros ->. apply Hn.
    apply in_flat_map. exists u. split; auto. now apply refs_replace.
  - intros r' Hr. cbn in Hr. rewrite app_nil_r in Hr. rewrite put_other by (intros ->; apply Hr; now left). apply H3. intros Hx. apply Hr. now right.
Qed.

Lemma all_one step s (x : xval) : all (A := A) (K := K) step s [x] = bind (step s x) (fun s y => Done s [y]).
Proof. cbn. destruct (step s x); reflexivity. Qed.
Lemma all_two step s (x y : xval) : all (A := A) (K := K) step s [x; y] =
  bind (step s x) (fun s x => bind (step s y) (fun s y => Done s [x; y])).
Proof. cbn. destruct (step s x) as [s1 x1| |]; cbn; auto. destruct (step s1 y); reflexivity. Qed.

(** The work on a container, in terms of the comprehension over its items. *)
Definition wrap (w : what K) (x : xval) (r : res A K (list xval)) : res A K xval :=
  match w with
  | Imm k =>
      let y := match k with KTuple => genexpr r | _ => r end in
      bind y (fun s y => Done s (XImm k (match k with KFrozenset => dedup same [] y | _ => y end)))
  | Mut ref m => bind r (fun s y => Done (put s ref (m, match m with MSet => dedup same [] y | _ => y end)) x)
  end.

Lemma doit_node f s w (l : list tree) : holds (heap s) (Node w l) -> shape (Node w l) ->
  doit (S f) s (value (Node w l)) = wrap w (value (Node w l)) (all (doit f) s (map value l)).
Proof.
  intros Hh Hs. destruct w as [k|r m]; cbn in Hh.
  - destruct k; cbn in Hs.
    + reflexivity.
    + reflexivity.
    + reflexivity.
    + subst l. reflexivity.
    + destruct l as [|x [|y [|z l]]]; try discriminate. cbn [map value wrap]. rewrite all_two.
      cbn. destruct (doit f s (value x)) as [s1 x1| |]; cbn; auto. destruct (doit f s1 (value y)); reflexivity.
    + destruct l as [|x [|y l]]; try discriminate. cbn [map value wrap]. rewrite all_one.
      cbn. destruct (doit f s (value x)) as [s1 x1| |]; reflexivity.
    + destruct Hs as (rets & ks & kwrets & ->). cbn [map value wrap]. rewrite all_two. cbn [MgxModel.doit].
      destruct (doit f s (XImm KTuple (map value rets))) as [s1 x1| |]; cbn [bind]; auto.
      destruct (doit f s1 (XImm (KFrozendict ks) (map value kwrets))); reflexivity.
  - cbn [value MgxModel.doit]. rewrite Hh. destruct m; cbn [wrap]; try reflexivity.
    cbn in Hs. destruct l as [|x [|y l]]; try discriminate. cbn [map]. rewrite all_one.
    cbn. destruct (doit f s (value x)) as [s1 x1| |]; reflexivity.
Qed.

Lemma ok_tree t : ok_at t.
Proof.
  induction t as [a|w l IH] using tree_ind'; intros fuel s Hd Hh Hn Hw Hg.
  - destruct fuel as [|f]; [cbn in Hd; lia|]. cbn. rewrite (Hg a) by (now left).
    eexists. split; [reflexivity|]. repeat split; cbn.
    intros t [<-|[]] i u Hs. apply sub_leaf in Hs. destruct Hs as [_ ->]. exact I.
  - destruct fuel as [|f]; [cbn in Hd; lia|]. cbn in Hd.
    apply in_heap_node in Hh. destruct Hh as [Hh1 Hh2]. apply wf_node in Hw. destruct Hw as [Hw1 Hw2].
    cbn in Hn. destruct (NoDup_app_inv _ _ Hn) as (_ & N2 & N3).
    destruct (all_ok f l IH s) as (s' & E & R); auto.
    { intros t Ht. repeat split; auto; [apply (depth_child f l); auto; lia|].
      intros a Ha. apply Hg. cbn. apply in_flat_map. eauto. }
    rewrite doit_node by auto. rewrite E. destruct w as [k|r m].
    + exists s'. split; [|now apply ok_imm].
      destruct k; cbn; try reflexivity. do 2 f_equal. apply (dedup_once (map replace l) []).
    + exists (put s' r (m, map value (remade same (Mut r m) (map replace l)))). split; [|apply ok_mut; auto].
      * cbn. destruct m; try reflexivity. cbn. do 3 f_equal. apply (dedup_once (map replace l) []).
      * apply N3. now left.
Qed.

(** ** A call raises *)
Lemma split_leaves (l : list tree) : forall pre a post, flat_map leaves l = pre ++ a :: post ->
  exists l1 t l2 pre' post', l = l1 ++ t :: l2 /\ leaves t = pre' ++ a :: post' /\ pre = flat_map leaves l1 ++ pre'.
Proof.
  induction l as [|t l IH]; intros pre a post H; cbn in H; [destruct pre; discriminate|].
  destruct (app_eq_app _ _ _ _ H) as (q & [[E1 E2]|[E1 E2]]).
  - destruct q as [|x q]; cbn in E2.
    + rewrite app_nil_r in E1. destruct (IH [] a post (eq_sym E2)) as (l1 & u & l2 & p & q' & -> & E3 & E4).
      exists (t :: l1), u, l2, p, q'. cbn. rewrite <- app_assoc, <- E4, app_nil_r. auto.
    + injection E2 as -> E2. exists [], t, l, pre, q. auto.
  - destruct (IH _ _ _ E2) as (l1 & u & l2 & p & q' & -> & E3 & ->).
    exists (t :: l1), u, l2, p, q'. cbn. rewrite <- app_assoc. auto.
Qed.

Lemma mid_cases {X} (l1 l2 m1 m2 : list X) t u : l1 ++ t :: l2 = m1 ++ u :: m2 ->
  (l1 = m1 /\ t = u /\ l2 = m2) \/ (exists q, l1 = m1 ++ u :: q) \/ (exists q, m1 = l1 ++ t :: q).
Proof.
  revert m1. induction l1 as [|x l1 IH]; intros [|y m1] H; cbn in H; inversion H; subst.
  - auto.
  - right. right. exists m1. reflexivity.
  - right. left. exists l1. reflexivity.
  - destruct (IH _ H2) as [(-> & -> & ->)|[(q & ->)|(q & ->)]]; cbn; eauto.
Qed.

Lemma sub_split i (u : tree) w l1 t l2 : sub i u (Node w (l1 ++ t :: l2)) ->
  (i = 0 /\ u = Node w (l1 ++ t :: l2)) \/
  (exists m1 t0 m2 j, l1 = m1 ++ t0 :: m2 /\ sub j u t0 /\ i = length (flat_map leaves m1) + j) \/
  (exists j, sub j u t /\ i = length (flat_map leaves l1) + j) \/
  length (flat_map leaves l1) + length (leaves t) <= i.
Proof.
  intros H. apply sub_inv in H. destruct H as [H|(m1 & t0 & m2 & j & E & Hs & ->)]; [now left|right].
  destruct (mid_cases _ _ _ _ _ _ E) as [(-> & -> & ->)|[(q & ->)|(q & ->)]].
  - right. left. eauto.
  - left. exists m1, t0, q, j. auto.
  - right. right. rewrite flat_map_app, app_length. cbn. rewrite app_length. lia.
Qed.

Definition fails_run (t : tree) (n : nat) (s s' : state A K) : Prop :=
  calls s' = calls s ++ firstn (S n) (leaves t) /\
  (forall i u, sub i u t -> finished i u n -> in_heap (heap s') (replace u)) /\
  (forall r, (forall i u, sub i u t -> finished i u n -> ident u <> Some r) -> heap s' r = heap s r).

Definition fail_at (t : tree) : Prop := forall fuel s pre a post e,
  depth t <= fuel -> in_heap (heap s) t -> NoDup (refs t) -> well_formed t ->
  leaves t = pre ++ a :: post -> (forall b, In b pre -> func b = Ok (g b)) -> func a = Raise e ->
  exists s' e', doit fuel s (value t) = Failed s' e' /\
    (e = StopIterationE -> e' = StopIterationE \/ e' = RuntimeError) /\ seen_as (length pre) t e e' /\
    fails_run t (length pre) s s'.

Lemma in_tuple_node n w l1 t (l2 : list tree) : n < length (leaves t) ->
  in_tuple (length (flat_map leaves l1) + n) (Node w (l1 ++ t :: l2)) <-> w = Imm KTuple \/ in_tuple n t.
Proof.
  intros Hn. split.
  - intros (i & l & Hs & Hi). destruct (sub_split _ _ _ _ _ _ Hs) as [[-> E]|[(m1 & t0 & m2 & j & -> & Hj & ->)|[(j & Hj & ->)|H]]].
    + injection E as E _. auto.
    + exfalso. apply sub_bound in Hj. cbn in Hj. rewrite flat_map_app, app_length in Hi. cbn in Hi.
      rewrite app_length in Hi. lia.
    + right. exists j, l. split; auto. lia.
    + lia.
  - intros [->|(i & l & Hs & Hi)].
    + exists 0, (l1 ++ t :: l2). split; [constructor|]. rewrite flat_map_app, app_length. cbn. rewrite app_length. lia.
    + exists (length (flat_map leaves l1) + i), l. split; [now constructor|lia].
Qed.

Lemma firstn_leaves (l1 : list tree) t l2 n : n < length (leaves t) ->
  firstn (S (length (flat_map leaves l1) + n)) (flat_map leaves (l1 ++ t :: l2)) =
  flat_map leaves l1 ++ firstn (S n) (leaves t).
Proof.
  intros H. rewrite flat_map_app, firstn_app, firstn_all2 by lia. f_equal. cbn [flat_map].
  rewrite firstn_app. replace (S (length (flat_map leaves l1) + n) - length (flat_map leaves l1)) with (S n) by lia.
  replace (S n - length (leaves t)) with 0 by lia. cbn [firstn]. now rewrite app_nil_r.
Qed.

Lemma all_app step s l1 (l2 : list xval) : all (A := A) (K := K) step s (l1 ++ l2) =
  bind (all step s l1) (fun s y1 => bind (all step s l2) (fun s y2 => Done s (y1 ++ y2))).
Proof.
  revert s. induction l1 as [|x l1 IH]; intros s; cbn.
  - destruct (all step s l2); reflexivity.
  - destruct (step s x) as [s1 y| |]; cbn; auto. rewrite IH. destruct (all step s1 l1) as [s2 ys| |]; cbn; auto.
    destruct (all step s2 l2); reflexivity.
Qed.

Lemma fail_tree t : fail_at t.
Proof.
  induction t as [a0|w l IH] using tree_ind'; intros fuel s pre a post e Hd Hh Hn Hw Hl Hp He.
  - destruct fuel as [|f]; [cbn in Hd; lia|]. cbn in Hl. destruct pre as [|x pre]; [|destruct pre; discriminate].
    injection Hl as -> _. cbn. rewrite He. do 2 eexists. split; [reflexivity|]. split; [auto|]. split; [|split; [|split]]; cbn.
    + split; [auto|split]; auto. intros _ (i & l & Hs & _). apply sub_leaf in Hs. destruct Hs; discriminate.
    + reflexivity.
    + intros i u Hs Hf. apply sub_leaf in Hs. destruct Hs as [-> ->]. unfold finished in Hf. cbn in Hf. lia.
    + auto.
  - destruct fuel as [|f]; [cbn in Hd; lia|]. cbn in Hd. cbn in Hl.
    destruct (split_leaves l pre a post Hl) as (l1 & t & l2 & pre' & post' & -> & El & ->).
    apply in_heap_node in Hh. destruct Hh as [Hh1 Hh2]. apply wf_node in Hw. destruct Hw as [Hw1 Hw2].
    cbn in Hn. destruct (NoDup_app_inv _ _ Hn) as (_ & N2 & N3).
    rewrite flat_map_app in N2. cbn [flat_map] in N2. destruct (NoDup_app_inv _ _ N2) as (M1 & M2 & M3).
    destruct (NoDup_app_inv _ _ M2) as (T1 & T2 & T3).
    assert (Dc : forall u, In u (l1 ++ t :: l2) -> depth u <= f) by (intros u Hu; apply (depth_child f (l1 ++ t :: l2)); auto; lia).
    destruct (all_ok f l1) with (s := s) as (s1 & E1 & C1 & H1 & F1); auto.
    { apply Forall_forall. intros u _. apply ok_tree. }
    { intros u Hu. assert (Hu' : In u (l1 ++ t :: l2)) by (apply in_or_app; now left).
      repeat split; auto. intros b Hb. apply Hp. apply in_or_app. left. apply in_flat_map. eauto. }
    assert (Ht : In t (l1 ++ t :: l2)) by (apply in_or_app; right; now left).
    rewrite Forall_forall in IH.
    destruct (IH t Ht f s1 pre' a post' e) as (s2 & e2 & E2 & So & (S1 & S2 & S3) & C2 & H2 & F2); auto.
    { apply (in_heap_frame (heap s)); auto. intros r Hr. apply F1. intros Hr'. apply (M3 r Hr'). apply in_or_app. now left. }
    { intros b Hb. apply Hp. apply in_or_app. now right. }
    assert (Hlt : length pre' < length (leaves t)) by (rewrite El, app_length; cbn; lia).
    rewrite doit_node by auto. rewrite map_app. cbn [map]. rewrite all_app, E1. cbn [bind all]. rewrite E2. cbn [bind].
    rewrite app_length.
    set (e3 := match w with Imm KTuple => match e2 with StopIterationE => RuntimeError | _ => e2 end | _ => e2 end).
    assert (Hso3 : e = StopIterationE -> e3 = StopIterationE \/ e3 = RuntimeError).
    { intros Hst. unfold e3. destruct (So Hst) as [->| ->]; destruct w as [[]|r m]; auto. }
    exists s2, e3. split; [|split; [|split]].
    + unfold e3. destruct w as [[]|r m]; cbn; try reflexivity. destruct e2; reflexivity.
    + exact Hso3.
    + split; [|split].
      * intros Hne. unfold e3. rewrite (S1 Hne). destruct w as [[]|r m]; auto. destruct e; auto. congruence.
      * intros Hst Hit. apply in_tuple_node in Hit; auto. destruct Hit as [->|Hit].
        -- unfold e3. destruct (So Hst) as [->| ->]; reflexivity.
        -- unfold e3. rewrite (S2 Hst Hit). destruct w as [[]|r m]; auto.
      * intros Hst Hnit. rewrite in_tuple_node in Hnit by auto. unfold e3. rewrite S3 by tauto.
        destruct w as [[]|r m]; auto. tauto.
    + split; [|split].
      * rewrite C2, C1. cbn [leaves]. rewrite firstn_leaves by auto. now rewrite app_assoc.
      * intros i u Hs Hf. destruct (sub_split _ _ _ _ _ _ Hs) as [[-> ->]|[(m1 & t0 & m2 & j & -> & Hj & ->)|[(j & Hj & ->)|H]]].
        -- exfalso. unfold finished in Hf. cbn in Hf. rewrite flat_map_app, app_length in Hf. cbn in Hf. rewrite app_length in Hf. lia.
        -- assert (Hu : in_heap (heap s1) (replace u)).
           { apply (in_heap_sub _ j u t0 Hj); [apply Hw2|apply H1]; repeat (apply in_or_app; try (right; now left); left). }
           apply (in_heap_frame (heap s1)); auto. intros r Hr. apply refs_replace in Hr.
           apply F2. intros i' u' Hs' _ Hid. apply ident_refs in Hid. apply (sub_refs _ _ _ Hs') in Hid.
           apply (sub_refs _ _ _ Hj) in Hr. apply (M3 r); [|apply in_or_app; now left].
           apply in_flat_map. exists t0. split; auto. apply in_or_app. right. now left.
        -- apply (H2 j); auto. unfold finished in *. lia.
        -- unfold finished in Hf. lia.
      * intros r Hr. rewrite F2, F1; auto.
        -- intros Hin. apply in_flat_map in Hin. destruct Hin as (t0 & Ht0 & Hin).
           destruct (ref_sub _ _ Hin) as (i & u & Hs & Hid). destruct (in_split _ _ Ht0) as (m1 & m2 & ->).
           apply (Hr (length (flat_map leaves m1) + i) u); auto.
           ++ rewrite <- app_assoc. cbn. now constructor.
           ++ unfold finished. apply sub_bound in Hs. rewrite flat_map_app, app_length. cbn. rewrite app_length. lia.
        -- intros i u Hs Hf. apply (Hr (length (flat_map leaves l1) + i)); [now constructor|]. unfold finished in *. lia.
Qed.
End P.

Section Q.
Context {A K : Type}.
Variable same : xval A K -> xval A K -> bool.
Variable func : A -> outcome A.
Variable g : A -> A.

Lemma mogrify_ok (t : tree A K) fuel s :
  depth t <= fuel -> in_heap (heap s) t -> NoDup (refs t) -> well_formed t ->
  (forall a, In a (leaves t) -> func a = Ok (g a)) ->
  exists s', doit same func fuel s (value t) = Done s' (value (replace same g t)) /\
    calls s' = calls s ++ leaves t /\ in_heap (heap s') (replace same g t) /\
    forall r, ~ In r (refs t) -> heap s' r = heap s r.
Proof.
  intros H1 H2 H3 H4 H5. destruct (ok_tree same func g t fuel s H1 H2 H3 H4 H5) as (s' & E & C & H & F).
  cbn in C, F. rewrite app_nil_r in C. exists s'. repeat split; auto; [apply H; now left|].
  intros r Hr. apply F. now rewrite app_nil_r.
Qed.

Lemma mogrify_fails (t : tree A K) fuel s pre a post e :
  depth t <= fuel -> in_heap (heap s) t -> NoDup (refs t) -> well_formed t ->
  leaves t = pre ++ a :: post -> (forall b, In b pre -> func b = Ok (g b)) -> func a = Raise e ->
  exists s' e', doit same func fuel s (value t) = Failed s' e' /\ seen_as (length pre) t e e' /\
    calls s' = calls s ++ pre ++ [a] /\
    (forall i u, sub i u t -> finished i u (length pre) -> in_heap (heap s') (replace same g u)) /\
    (forall r, (forall i u, sub i u t -> finished i u (length pre) -> ident u <> Some r) -> heap s' r = heap s r).
Proof.
  intros H1 H2 H3 H4 H5 H6 H7.
  destruct (fail_tree same func g t fuel s pre a post e H1 H2 H3 H4 H5 H6 H7) as (s' & e' & E & _ & HS & C & H & F).
  exists s', e'. split; [exact E|]. split; [exact HS|]. split; [|split; assumption].
  rewrite C, H5. f_equal. rewrite firstn_app, firstn_all2 by lia.
  replace (S (length pre) - length pre) with 1 by lia. reflexivity.
Qed.
End Q.

(** All parts of a tree, for the examples. *)
Fixpoint parts {A K} (t : tree A K) : list (tree A K) :=
  t :: match t with Leaf _ => [] | Node _ l => flat_map parts l end.
Lemma sub_parts {A K} i (u t : tree A K) : sub i u t -> In u (parts t).
Proof.
  induction 1 as [t|i u w l1 t l2 H IH]; [destruct t; now left|].
  cbn. right. apply in_flat_map. exists t. split; auto. apply in_or_app. right. now left.
Qed.
