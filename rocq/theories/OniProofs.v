From Coq Require Import String List Bool Arith ZArith Lia FinFun.
From Verif Require Import Base OniModel OniSpec.
Import ListNotations.
Open Scope list_scope.

Lemma hasattr_true h o n v : attr h o n = Some v -> hasattr h o n = true.
Proof. unfold hasattr. intros ->. reflexivity. Qed.
Lemma hasattr_false h o n : attr h o n = None -> hasattr h o n = false.
Proof. unfold hasattr. intros ->. reflexivity. Qed.
Lemma get_put d n v m : get (put d n v) m = if String.eqb m n then Some v else get d m.
Proof.
  induction d as [|[k w] d IH]; cbn; [destruct (String.eqb m n); reflexivity|].
  destruct (String.eqb n k) eqn:E; cbn.
  - apply String.eqb_eq in E. subst k. destruct (String.eqb m n); reflexivity.
  - rewrite IH. destruct (String.eqb m k) eqn:F; [|reflexivity].
    apply String.eqb_eq in F. subst m. rewrite String.eqb_sym, E. reflexivity.
Qed.
Lemma put_get d n v : get d n = Some v -> put d n v = d.
Proof.
  induction d as [|[k w] d IH]; cbn; [discriminate|]. destruct (String.eqb n k); intros H.
  - congruence.
  - rewrite IH by exact H. reflexivity.
Qed.
Lemma put_put d n v w : put (put d n v) n w = put d n w.
Proof.
  induction d as [|[k u] d IH]; cbn; [rewrite String.eqb_refl; reflexivity|].
  destruct (String.eqb n k) eqn:E; cbn; rewrite E; [reflexivity|rewrite IH; reflexivity].
Qed.
Lemma nth_upd {A} (l : list A) i j x : nth_error (upd l i x) j = if (i =? j) && (j <? length l) then Some x else nth_error l j.
Proof.
  revert i j. induction l as [|y l IH]; intros [|i] [|j]; cbn; auto.
  - rewrite andb_false_r. reflexivity.
  - rewrite IH. reflexivity.
Qed.
Lemma upd_same {A} (l : list A) i x : nth_error l i = Some x -> upd l i x = l.
Proof. revert i. induction l as [|y l IH]; intros [|i]; cbn; intros H; try congruence. rewrite IH; auto. Qed.
Lemma upd_upd {A} (l : list A) i x y : upd (upd l i x) i y = upd l i y.
Proof. revert i. induction l as [|z l IH]; intros [|i]; cbn; auto. rewrite IH. reflexivity. Qed.
Lemma upd_len {A} (l : list A) i x : length (upd l i x) = length l.
Proof. revert i. induction l as [|z l IH]; intros [|i]; cbn; auto. Qed.

(** ** reading *)
Lemma inner_holds h n o p v : innermost h n o p v -> attr h p n = Some v /\ attr h v n = None.
Proof. induction 1; auto. Qed.
Lemma getloop_inner h n o p v d : innermost h n o p v -> exists k, getloop k h o n d = Some (Ok v).
Proof.
  induction 1 as [o v H H0|o w p v H _ [k IH]].
  - exists 2. cbn. rewrite (hasattr_true _ _ _ _ H). unfold getattr. rewrite H, (hasattr_false _ _ _ H0). reflexivity.
  - exists (S k). cbn. rewrite (hasattr_true _ _ _ _ H). unfold getattr. rewrite H. exact IH.
Qed.
Lemma getattrrec_inner h n o p v d : innermost h n o p v -> exists k, getattrrec k h o n d = Some (Ok v).
Proof.
  intros H. unfold getattrrec, getattr. destruct H as [o v H H0|o w p v H H0]; rewrite H.
  - exists 1. cbn. rewrite (hasattr_false _ _ _ H0). reflexivity.
  - exact (getloop_inner _ _ _ _ _ d H0).
Qed.
Lemma getloop_back h n d k : forall o r, getloop k h o n d = Some r ->
  exists v, r = Ok v /\ ((attr h o n = None /\ v = o) \/ exists p, innermost h n o p v).
Proof.
  induction k as [|k IH]; cbn; intros o r H; [discriminate|].
  unfold hasattr, getattr in H. destruct (attr h o n) as [w|] eqn:E.
  - destruct (IH _ _ H) as [v [-> [[F ->]|[p F]]]]; exists v || exists w; split; auto; right.
    + exists o. constructor; assumption.
    + exists p. econstructor 2; eassumption.
  - injection H as <-. exists o. auto.
Qed.
Lemma get_iff h n o v : (exists k, getattrrec k h o n None = Some (Ok v)) <-> exists p, innermost h n o p v.
Proof.
  split.
  - intros [k H]. unfold getattrrec, getattr in H. destruct (attr h o n) as [w|] eqn:E; [|discriminate].
    destruct (getloop_back _ _ _ _ _ _ H) as [u [Hu [[F ->]|[p F]]]]; injection Hu as ->.
    + exists o. constructor; assumption.
    + exists p. econstructor 2; eassumption.
  - intros [p H]. exact (getattrrec_inner _ _ _ _ _ None H).
Qed.
Lemma inner_det h n o p v : innermost h n o p v -> forall q w, innermost h n o q w -> p = q /\ v = w.
Proof.
  induction 1 as [o v H H0|o w p v H H0 IH]; intros q u F; inversion F; subst.
  - split; congruence.
  - exfalso. assert (w = v) by congruence. subst w. destruct H2; congruence.
  - exfalso. assert (w = u) by congruence. subst w. destruct H0; congruence.
  - assert (w0 = w) by congruence. subst w0. apply IH. assumption.
Qed.

(** ** endless onions *)
Lemma layer_up h n o w k : attr h o n = Some w -> layer h n o (S k) = layer h n w k.
Proof. intros H. induction k as [|k IH]; [exact H|]. cbn in *. rewrite IH. reflexivity. Qed.
Lemma getloop_none h n d k : forall o, getloop k h o n d = None <-> exists w, layer h n o k = Some w.
Proof.
  induction k as [|k IH]; intros o; [cbn; split; eauto|].
  cbn [getloop]. unfold hasattr, getattr. destruct (attr h o n) as [w|] eqn:E.
  - rewrite (layer_up _ _ _ _ k E). apply IH.
  - split; [discriminate|]. intros [w H]. exfalso.
    assert (N : forall j, layer h n o (S j) = None) by (induction j as [|j IHj]; [exact E|cbn in *; rewrite IHj; reflexivity]).
    rewrite N in H. discriminate.
Qed.
Lemma endless_iff h n o d : attr h o n <> None -> ((forall k, getattrrec k h o n d = None) <-> endless h n o).
Proof.
  intros H. unfold getattrrec, getattr. destruct (attr h o n) as [w|] eqn:E; [|congruence]. clear H. split.
  - intros H [|k]; [cbn; eauto|]. rewrite (layer_up _ _ _ _ k E). apply (getloop_none h n d), H.
  - intros H k. apply getloop_none. rewrite <- (layer_up _ _ _ _ k E). apply H.
Qed.
Lemma layer_add h n o a b : layer h n o (a + b) = match layer h n o a with Some w => layer h n w b | None => None end.
Proof.
  induction b as [|b IH]; cbn.
  - rewrite Nat.add_0_r. destruct (layer h n o a); reflexivity.
  - rewrite Nat.add_succ_r. cbn. rewrite IH. destruct (layer h n o a); reflexivity.
Qed.
Lemma layer_le h n o a b w : a <= b -> layer h n o b = Some w -> exists u, layer h n o a = Some u.
Proof.
  intros H E. replace b with (a + (b - a)) in E by lia. rewrite layer_add in E.
  destruct (layer h n o a); [eauto|discriminate].
Qed.
(** an object that comes again, comes for ever *)
Lemma layer_cycle h n o c : 0 < c -> layer h n o c = Some o -> endless h n o.
Proof.
  intros P H k. assert (M : forall m, layer h n o (m * c) = Some o).
  { induction m as [|m IH]; [reflexivity|]. cbn [Nat.mul]. rewrite layer_add, H. exact IH. }
  apply (layer_le h n o k (k * c) o); [|apply M]. destruct c; [lia|]. rewrite <- Nat.mul_1_r at 1. apply Nat.mul_le_mono_l. lia.
Qed.
Definition nat_of (v : option value) : nat := match v with Some (Obj i) => i | _ => 0 end.
Lemma layer_obj h n o k w : layer h n o (S k) = Some w -> exists i, layer h n o k = Some (Obj i) /\ i < length h.
Proof.
  cbn. destruct (layer h n o k) as [u|] eqn:E; [|discriminate]. destruct u as [z|i]; cbn; [discriminate|].
  destruct (nth_error h i) eqn:F; [|discriminate]. intros _. exists i. split; [reflexivity|].
  apply nth_error_Some. congruence.
Qed.
Lemma deep_endless h n o w : layer h n o (S (length h)) = Some w -> endless h n o.
Proof.
  intros H.
  assert (Ob : forall k, k <= length h -> exists i, layer h n o k = Some (Obj i) /\ i < length h).
  { intros k Hk. destruct (layer_le h n o (S k) (S (length h)) w ltac:(lia) H) as [u Hu]. exact (layer_obj _ _ _ _ _ Hu). }
  set (l := map (fun k => nat_of (layer h n o k)) (seq 0 (S (length h)))).
  destruct (ListDec.NoDup_dec Nat.eq_dec l) as [N|N].
  - exfalso. assert (L : incl l (seq 0 (length h))).
    { intros x Hx. apply in_map_iff in Hx as [k [<- Hk]]. apply in_seq in Hk.
      destruct (Ob k ltac:(lia)) as [i [Hi Li]]. rewrite Hi. cbn. apply in_seq. lia. }
    pose proof (NoDup_incl_length N L) as Q. unfold l in Q. rewrite map_length, !seq_length in Q. lia.
  - (* two equal layers *)
    assert (E : exists a b, a < b <= length h /\ layer h n o a = layer h n o b).
    { clear w H. assert (D : forall m, m <= S (length h) -> ~ NoDup (map (fun k => nat_of (layer h n o k)) (seq 0 m)) ->
        exists a b, a < b < m /\ nat_of (layer h n o a) = nat_of (layer h n o b)).
      { induction m as [|m IH]; intros Lm Nd; [exfalso; apply Nd; constructor|].
        rewrite seq_S, map_app in Nd. cbn in Nd.
        destruct (ListDec.NoDup_dec Nat.eq_dec (map (fun k => nat_of (layer h n o k)) (seq 0 m))) as [Y|Y].
        - destruct (in_dec Nat.eq_dec (nat_of (layer h n o m)) (map (fun k => nat_of (layer h n o k)) (seq 0 m))) as [I|I].
          + apply in_map_iff in I as [a [Ha Ia]]. apply in_seq in Ia. exists a, m. split; [lia|exact Ha].
          + exfalso. apply Nd.
            apply (NoDup_Add (a := nat_of (layer h n o m)) (l := map (fun k => nat_of (layer h n o k)) (seq 0 m))).
            * pose proof (Add_app (nat_of (layer h n o m)) (map (fun k => nat_of (layer h n o k)) (seq 0 m)) []) as Ad. rewrite app_nil_r in Ad. exact Ad.
            * split; assumption.
        - destruct (IH ltac:(lia) Y) as [a [b [? ?]]]. exists a, b. split; [lia|assumption]. }
      destruct (D _ (le_n _) N) as [a [b [L Q]]]. exists a, b. split; [lia|].
      destruct (Ob a ltac:(lia)) as [i [Hi _]], (Ob b ltac:(lia)) as [j [Hj _]]. rewrite Hi, Hj in Q |- *. cbn in Q. congruence. }
    destruct E as [a [b [L E]]]. destruct (Ob a ltac:(lia)) as [i [Hi _]]. rewrite Hi in E.
    replace b with (a + (b - a)) in E by lia. rewrite layer_add, Hi in E.
    pose proof (layer_cycle h n (Obj i) (b - a) ltac:(lia) (eq_sym E)) as C.
    intros k. destruct (le_lt_dec k a) as [Q|Q]; [exact (layer_le _ _ _ _ _ _ Q Hi)|].
    replace k with (a + (k - a)) by lia. rewrite layer_add, Hi. apply C.
Qed.
Lemma bounded h n o d : getattrrec (S (length h)) h o n d = None -> forall k, getattrrec k h o n d = None.
Proof.
  unfold getattrrec. destruct (getattr h o n d) as [w|e]; [|discriminate]. intros H k.
  apply getloop_none in H as [u H]. apply getloop_none. exact (deep_endless _ _ _ _ H k).
Qed.

(** ** writing *)
Definition same (o q : value) : bool := match o, q with Obj i, Obj j => i =? j | _, _ => false end.
Lemma set_attr h o n v h' : setattr h o n v = Ok h' ->
  length h' = length h /\ forall q m, attr h' q m = if same o q && String.eqb m n then Some v else attr h q m.
Proof.
  destruct o as [z|i]; cbn; [discriminate|]. destruct (nth_error h i) as [d|] eqn:E; [|discriminate].
  intros H. injection H as <-. split; [apply upd_len|]. intros [z|j] m; cbn [attr same]; [reflexivity|].
  rewrite nth_upd. destruct (Nat.eqb_spec i j) as [<-|N]; cbn [andb]; [|reflexivity].
  assert (L : i < length h) by (apply nth_error_Some; congruence). apply Nat.ltb_lt in L. rewrite L, E, get_put. reflexivity.
Qed.
Lemma attr_setattr h o n w v : attr h o n = Some w -> exists h', setattr h o n v = Ok h'.
Proof. destruct o as [z|i]; cbn; [discriminate|]. destruct (nth_error h i); [eauto|discriminate]. Qed.
Lemma obj_eqb o q : same o q = true -> o = q.
Proof. destruct o, q; try discriminate. intros H. apply Nat.eqb_eq in H. congruence. Qed.
Lemma obj_eqb_refl h o n w : attr h o n = Some w -> same o o = true.
Proof. destruct o; [discriminate|]. intros _. apply Nat.eqb_refl. Qed.
Lemma setrec_inner h n o p v x : innermost h n o p v -> exists k, setattrrec k h o n x = Some (setattr h p n x).
Proof.
  induction 1 as [o v H H0|o w p v H H0 [k IH]].
  - exists 1. cbn. unfold getattr. rewrite H, (hasattr_false _ _ _ H0). reflexivity.
  - exists (S k). cbn. unfold getattr. rewrite H.
    assert (E : exists u, attr h w n = Some u) by (destruct H0; eauto). destruct E as [u E].
    rewrite (hasattr_true _ _ _ _ E). exact IH.
Qed.
Lemma setrec_fuel h n x k : forall o r j, setattrrec k h o n x = Some r -> k <= j -> setattrrec j h o n x = Some r.
Proof.
  induction k as [|k IH]; intros o r [|j] H L; try (cbn in H; discriminate); [lia|]. cbn in *.
  destruct (getattr h o n None) as [w|e]; [|exact H]. destruct (hasattr h w n); [apply IH; [exact H|lia]|exact H].
Qed.
Lemma setrec_det h n x o k j r s : setattrrec k h o n x = Some r -> setattrrec j h o n x = Some s -> r = s.
Proof.
  intros H H0. destruct (le_lt_dec k j) as [L|L].
  - apply (setrec_fuel _ _ _ _ _ _ j) in H; [congruence|exact L].
  - apply (setrec_fuel _ _ _ _ _ _ k) in H0; [congruence|lia].
Qed.
Lemma set_spec h n o p v x : innermost h n o p v ->
  exists k h', setattrrec k h o n x = Some (Ok h') /\ attr h' p n = Some x /\ length h' = length h /\
    forall q m, (q, m) <> (p, n) -> attr h' q m = attr h q m.
Proof.
  intros H. destruct (inner_holds _ _ _ _ _ H) as [P _]. destruct (attr_setattr _ _ _ _ x P) as [h' S'].
  destruct (setrec_inner _ _ _ _ _ x H) as [k K]. exists k, h'. rewrite K, S'.
  destruct (set_attr _ _ _ _ _ S') as [L A]. split; [reflexivity|]. split; [|split; [exact L|]].
  - rewrite A, (obj_eqb_refl _ _ _ _ P), String.eqb_refl. reflexivity.
  - intros q m D. rewrite A. destruct (_ && _) eqn:E; [|reflexivity]. exfalso. apply D.
    apply andb_prop in E as [E F]. apply obj_eqb in E. apply String.eqb_eq in F. congruence.
Qed.
Lemma inner_after h n o p v x h' : innermost h n o p v -> setattr h p n x = Ok h' -> attr h x n = None ->
  innermost h' n o p x.
Proof.
  intros H S' X. destruct (set_attr _ _ _ _ _ S') as [L A].
  assert (P0 : attr h p n = Some v) by (apply (inner_holds _ _ _ _ _ H)).
  assert (P : attr h' p n = Some x) by (rewrite A, (obj_eqb_refl _ _ _ _ P0), String.eqb_refl; reflexivity).
  assert (X' : attr h' x n = None).
  { rewrite A. destruct (_ && _) eqn:E; [|exact X]. apply andb_prop in E as [E _]. apply obj_eqb in E. congruence. }
  clear X. revert P0. induction H as [o v H H0|o w p v H H0 IH]; intros P0.
  - constructor; assumption.
  - destruct (same p o) eqn:E.
    + apply obj_eqb in E. subst o. constructor; assumption.
    + econstructor 2; [|apply IH; assumption]. rewrite A, E. exact H.
Qed.
Lemma setrec_after h n o p v x k h' : innermost h n o p v -> setattrrec k h o n x = Some (Ok h') -> setattr h p n x = Ok h'.
Proof.
  intros H K. destruct (setrec_inner _ _ _ _ _ x H) as [j J]. pose proof (setrec_det _ _ _ _ _ _ _ _ K J). congruence.
Qed.
Lemma put_then_get h n o p v x k h' : innermost h n o p v -> attr h x n = None -> setattrrec k h o n x = Some (Ok h') ->
  exists j, getattrrec j h' o n None = Some (Ok x).
Proof.
  intros H X K. apply get_iff. exists p. eapply inner_after; [exact H| |exact X]. eapply setrec_after; eassumption.
Qed.
Lemma get_then_put h n o k v : getattrrec k h o n None = Some (Ok v) -> exists j, setattrrec j h o n v = Some (Ok h).
Proof.
  intros H. assert (E : exists k, getattrrec k h o n None = Some (Ok v)) by eauto. apply get_iff in E as [p E].
  destruct (setrec_inner _ _ _ _ _ v E) as [j J]. exists j. rewrite J. f_equal.
  destruct (inner_holds _ _ _ _ _ E) as [P _]. destruct p as [z|i]; cbn in P |- *; [discriminate|].
  destruct (nth_error h i) as [d|] eqn:F; [|discriminate]. rewrite (put_get _ _ _ P), (upd_same _ _ _ F). reflexivity.
Qed.
Lemma put_then_put h n o p v x y k h' : innermost h n o p v -> attr h x n = None -> setattrrec k h o n x = Some (Ok h') ->
  exists i j r, setattrrec i h' o n y = Some r /\ setattrrec j h o n y = Some r.
Proof.
  intros H X K. pose proof (setrec_after _ _ _ _ _ _ _ _ H K) as A. pose proof (inner_after _ _ _ _ _ _ _ H A X) as B.
  destruct (setrec_inner _ _ _ _ _ y B) as [i I]. destruct (setrec_inner _ _ _ _ _ y H) as [j J].
  exists i, j, (setattr h' p n y). split; [exact I|]. rewrite J. f_equal.
  destruct p as [z|c]; cbn in A |- *; [discriminate|]. destruct (nth_error h c) as [d|] eqn:F; [|discriminate]. injection A as <-.
  rewrite nth_upd, Nat.eqb_refl. assert (L : c < length h) by (apply nth_error_Some; congruence). apply Nat.ltb_lt in L. rewrite L. cbn.
  rewrite put_put, upd_upd. reflexivity.
Qed.
Lemma set_missing h n i d x : nth_error h i = Some d -> get d n = None ->
  exists h', (forall k, setattrrec (S k) h (Obj i) n x = Some (Ok h')) /\ attr h' (Obj i) n = Some x /\
    forall q m, (q, m) <> (Obj i, n) -> attr h' q m = attr h q m.
Proof.
  intros H H0. assert (S' : setattr h (Obj i) n x = Ok (upd h i (put d n x))) by (cbn; rewrite H; reflexivity).
  exists (upd h i (put d n x)). split; [intros k; cbn; unfold getattr; cbn; rewrite H, H0; reflexivity|].
  destruct (set_attr _ _ _ _ _ S') as [_ A]. split; [rewrite A; cbn [same]; rewrite Nat.eqb_refl, String.eqb_refl; reflexivity|].
  intros q m D. rewrite A. destruct (_ && _) eqn:E; [|reflexivity]. exfalso. apply D.
  apply andb_prop in E as [E F]. apply (obj_eqb (Obj i)) in E. apply String.eqb_eq in F. congruence.
Qed.
