From Coq Require Import String List Bool Arith Lia.
From Verif Require Import Base CollModel DynModel DmpModel DmpSpec.
Import ListNotations.
Open Scope nat_scope.

Section P.
Context {V : Type}.
Notation dst := (@dst string V).
Notation scope := (list (string * V)).
Notation seqb := String.eqb.

Lemma get_in (s : scope) n v : NoDup (map fst s) -> (dict_get seqb s n = Some v <-> In (n, v) s).
Proof.
  induction s as [|[k w] s IH]; intros ND; [split; [discriminate|intros []]|]. cbn [dict_get map fst] in *. inversion ND as [|? ? N1 N2]; subst.
  destruct (String.eqb_spec k n) as [->|NE].
  - split; [intros [= ->]; now left|]. intros [[= ->]|H]; auto. exfalso. apply N1. now apply (in_map fst) in H.
  - rewrite (IH N2). cbn. split; [auto|]. intros [[= ? ?]|H]; [congruence|auto].
Qed.
Lemma get_none (s : scope) n : dict_get seqb s n = None <-> ~ In n (map fst s).
Proof.
  induction s as [|[k w] s IH]; [split; auto|]. cbn [dict_get map fst]. destruct (String.eqb_spec k n) as [->|NE].
  - split; [discriminate|]. intros H. exfalso. apply H. now left.
  - rewrite IH. cbn. intuition.
Qed.
(** innermost binding in a list of scopes *)
Definition lbinds (ms : list scope) (n : string) (v : V) : Prop :=
  exists inner s outer, ms = inner ++ s :: outer /\ In (n, v) s /\ forall s', In s' inner -> ~ In n (map fst s').
Lemma lbinds_nil n v : ~ lbinds [] n v. Proof. intros ([|] & s & o & H & _); discriminate. Qed.
Lemma lbinds_cons m ms n v : NoDup (map fst m) ->
  (lbinds (m :: ms) n v <-> match dict_get seqb m n with Some w => w = v | None => lbinds ms n v end).
Proof.
  intros ND. destruct (dict_get seqb m n) as [w|] eqn:E.
  - split.
    + intros ([|i inner] & s & o & H & I1 & I2); injection H as -> ->.
      * apply (get_in _ _ _ ND) in I1. congruence.
      * exfalso. apply get_in in E; auto. apply (in_map fst) in E. exact (I2 i (or_introl eq_refl) E).
    + intros <-. exists [], m, ms. split; auto. split; [now apply get_in|]. intros ? [].
  - apply get_none in E. split.
    + intros ([|i inner] & s & o & H & I1 & I2); injection H as -> ->.
      * apply (in_map fst) in I1. contradiction.
      * exists inner, s, o. split; auto. split; auto. intros. apply I2. now right.
    + intros (inner & s & o & -> & I1 & I2). exists (m :: inner), s, o. split; auto. split; auto. intros s' [<-|H]; auto.
Qed.
Lemma chain_getitem_ok ms n v : Forall (fun s => NoDup (map fst s)) ms -> (chain_getitem ms n = Ok v <-> lbinds ms n v).
Proof.
  induction 1 as [|m ms ND F IH]; [split; [discriminate|intros H; destruct (lbinds_nil _ _ H)]|].
  rewrite lbinds_cons by auto. cbn [chain_getitem]. destruct (dict_get seqb m n); auto. split; congruence.
Qed.
Lemma chain_getitem_err (ms : list scope) n : (forall s, In s ms -> ~ In n (map fst s)) -> chain_getitem ms n = Raise KeyError.
Proof.
  induction ms as [|m ms IH]; intros H; auto. cbn. assert (dict_get seqb m n = None) as -> by (apply get_none, H; now left). apply IH. intros; apply H; now right.
Qed.
Lemma dyn_get_chain (d : dst) n : dyn_get seqb d n = match chain_getitem (maps d) n with Ok v => Ok v | Raise _ => Raise AttributeError end.
Proof.
  unfold dyn_get, resolve, maps. destruct d as [ss g]. cbn [stack globals].
  assert (Q : forall ss0, (forall i, nth i ss [] = nth i ss0 [] \/ True) ->
    (do w <- match find_scope seqb ss0 n with Some i => Ok (Some i) | None => if in_scope seqb g n then Ok None else Raise AttributeError end;
     match dict_get seqb (match w with Some i => nth i ss0 [] | None => g end) n with Some v => Ok v | None => Raise KeyError end) =
    match chain_getitem (ss0 ++ [g]) n with Ok v => Ok v | Raise _ => Raise AttributeError end).
  { intros ss0 _. induction ss0 as [|s ss0 IH]; cbn [find_scope app chain_getitem].
    - unfold in_scope. destruct (dict_get seqb g n) eqn:E; cbn [obind]; [rewrite E|]; reflexivity.
    - unfold in_scope at 1. destruct (dict_get seqb s n) eqn:E; cbn [obind nth]; [rewrite E; reflexivity|].
      destruct (find_scope seqb ss0 n); cbn [obind nth] in *; [exact IH|]. destruct (in_scope seqb g n); exact IH. }
  apply (Q ss). auto.
Qed.
Lemma maps_scopes (d : dst) : maps d = scopes d. Proof. reflexivity. Qed.
Lemma dyn_get_ok (d : dst) n v : proper d -> (dyn_get seqb d n = Ok v <-> binds d n v).
Proof.
  intros P. rewrite dyn_get_chain. pose proof (chain_getitem_ok (maps d) n v P) as C. unfold binds. change (exists inner s outer, _) with (lbinds (maps d) n v).
  rewrite <- C. destruct (chain_getitem (maps d) n); [reflexivity|]. split; discriminate.
Qed.
Lemma bound_binds (d : dst) n : proper d -> (bound d n <-> exists v, binds d n v).
Proof.
  intros P. unfold bound, binds, proper in *. change (bound d n) with (bound d n). induction (scopes d) as [|m ms IH].
  - split; [intros (s & [] & _)|]. intros (v & H). destruct (lbinds_nil _ _ H).
  - inversion P as [|? ? ND F]; subst. specialize (IH F). split.
    + intros (s & [<-|H] & H2).
      * destruct (dict_get seqb m n) as [v|] eqn:E; [|apply get_none in E; contradiction]. exists v. apply (lbinds_cons m ms n v ND). rewrite E. reflexivity.
      * destruct (dict_get seqb m n) as [v|] eqn:E; [exists v; apply (lbinds_cons m ms n v ND); now rewrite E|].
        destruct (proj1 IH) as (v & B); [eauto|]. exists v. apply (lbinds_cons m ms n v ND). now rewrite E.
    + intros (v & inner & s & o & H & I1 & _). rewrite H. exists s. split; [apply in_or_app; right; now left|]. now apply (in_map fst) in I1.
Qed.
Lemma dyn_get_unbound (d : dst) n : ~ bound d n -> dyn_get seqb d n = Raise AttributeError.
Proof.
  intros N. rewrite dyn_get_chain, chain_getitem_err; auto. intros s H1 H2. apply N. exists s. auto.
Qed.
Lemma getitem_ok (d : dst) n v : proper d -> is_class_attribute n = false -> (dyn_getitem d n = Ok (Var v) <-> binds d n v).
Proof.
  intros P A. unfold dyn_getitem, dyn_getattr. rewrite A, <- (dyn_get_ok d n v P). destruct (dyn_get seqb d n); cbn; split; congruence.
Qed.
Lemma getitem_unbound (d : dst) n : is_class_attribute n = false -> ~ bound d n -> dyn_getitem d n = Raise AttributeError.
Proof. intros A N. unfold dyn_getitem, dyn_getattr. now rewrite A, dyn_get_unbound. Qed.
Lemma contains_ok (d : dst) n : proper d -> is_class_attribute n = false -> exists b, dyn_contains d n = Ok b /\ (b = true <-> bound d n).
Proof.
  intros P A. unfold dyn_contains. destruct (dyn_getattr d n) as [a|x] eqn:E.
  - exists true. split; auto. split; auto. intros _. unfold dyn_getattr in E. rewrite A in E.
    destruct (dyn_get seqb d n) as [v|] eqn:G; [|discriminate]. apply (bound_binds d n P). exists v. now apply dyn_get_ok.
  - assert (NB : ~ bound d n).
    { intros B. apply (bound_binds d n P) in B as [v B]. apply dyn_get_ok in B; auto. unfold dyn_getattr in E. rewrite A, B in E. discriminate. }
    pose proof (getitem_unbound d n A NB) as U. unfold dyn_getitem in U. rewrite U in E. injection E as <-. exists false. split; auto. split; [discriminate|contradiction].
Qed.
Lemma get_default_ok (d : dst) n : proper d -> is_class_attribute n = false ->
  (forall v, binds d n v -> dyn_get_default d n = Ok (Some (Var v))) /\ (~ bound d n -> dyn_get_default d n = Ok None).
Proof.
  intros P A. destruct (contains_ok d n P A) as (b & C & B). unfold dyn_get_default. rewrite C. cbn [obind]. split.
  - intros v H. assert (b = true) as -> by (apply B, (bound_binds d n P); eauto). apply (getitem_ok d n v P A) in H. now rewrite H.
  - intros H. destruct b; auto. exfalso. apply H. now apply B.
Qed.

(** * iteration *)
Lemma existsb_in k ks : existsb (seqb k) ks = true <-> In k ks.
Proof.
  rewrite existsb_exists. split.
  - intros (x & H & E). apply String.eqb_eq in E. now subst.
  - intros H. exists k. split; auto. apply String.eqb_refl.
Qed.
Definition other (a b : string) : bool := if string_dec a b then false else true.
Definition fresh (ks : list string) (b : string) : bool := negb (existsb (seqb b) ks).
Lemma filter_filter {A} (f g : A -> bool) l : filter f (filter g l) = filter (fun x => g x && f x) l.
Proof. induction l as [|a l IH]; auto. cbn. destruct (g a); cbn; [destruct (f a); now rewrite IH|auto]. Qed.
Lemma add_keys l : forall ks, fold_left add_key l ks = ks ++ filter (fresh ks) (firsts l).
Proof.
  induction l as [|a l IH]; intros ks; cbn [fold_left firsts filter]; [now rewrite app_nil_r|]. rewrite IH. unfold add_key, fresh at 2.
  destruct (existsb (seqb a) ks) eqn:E; cbn [negb].
  - f_equal. rewrite filter_filter. apply filter_ext. intros b. unfold fresh. destruct (string_dec a b) as [<-|]; [now rewrite E|reflexivity].
  - rewrite <- app_assoc. cbn [app]. do 2 f_equal. rewrite filter_filter. apply filter_ext. intros b. unfold fresh. rewrite existsb_app. cbn [existsb].
    rewrite orb_false_r, negb_orb. destruct (string_dec a b) as [<-|N]; [now rewrite String.eqb_refl, andb_false_r|].
    destruct (String.eqb_spec b a) as [->|]; [congruence|]. now rewrite andb_true_r.
Qed.
Lemma iter_fold (ms : list scope) : forall ks, fold_left (fun ks m => fold_left add_key (map fst m) ks) ms ks = fold_left add_key (concat (map (map fst) ms)) ks.
Proof. induction ms as [|m ms IH]; intros ks; auto. cbn [fold_left map concat]. now rewrite IH, fold_left_app. Qed.
Lemma filter_true {A} (l : list A) : filter (fun _ => true) l = l. Proof. induction l; cbn; congruence. Qed.
Lemma iter_firsts (d : dst) : dyn_iter d = firsts (concat (map (map fst) (rev (scopes d)))).
Proof.
  unfold dyn_iter, chain_iter. rewrite iter_fold, add_keys. cbn [app]. rewrite (filter_ext _ (fun _ => true)) by reflexivity. now rewrite filter_true.
Qed.
Lemma firsts_in l a : In a (firsts l) <-> In a l.
Proof.
  induction l as [|b l IH]; [reflexivity|]. cbn [firsts In]. rewrite filter_In, IH. split; [intuition|]. intros [->|H]; auto.
  destruct (string_dec b a); auto.
Qed.
Lemma firsts_nodup l : NoDup (firsts l).
Proof.
  induction l as [|b l IH]; cbn; constructor.
  - rewrite filter_In. intros [_ H]. destruct (string_dec b b); congruence.
  - now apply NoDup_filter.
Qed.
Lemma in_concat_keys (ms : list scope) n : In n (concat (map (map fst) ms)) <-> exists s, In s ms /\ In n (map fst s).
Proof.
  rewrite in_concat. split.
  - intros (ks & H & I1). apply in_map_iff in H as (s & <- & H). eauto.
  - intros (s & H & I1). exists (map fst s). split; auto. now apply in_map.
Qed.
Lemma iter_in (d : dst) n : In n (dyn_iter d) <-> bound d n.
Proof.
  rewrite iter_firsts, firsts_in, in_concat_keys. unfold bound. split; intros (s & H & I1); exists s; (split; [|auto]); [now apply in_rev|now apply in_rev in H].
Qed.
Lemma iter_nodup (d : dst) : NoDup (dyn_iter d). Proof. rewrite iter_firsts. apply firsts_nodup. Qed.
Lemma len_iter (d : dst) : dyn_len d = length (dyn_iter d).
Proof.
  unfold dyn_len, chain_len. apply Nat.le_antisymm; apply NoDup_incl_length; try apply NoDup_nodup; try apply iter_nodup.
  - intros n H. apply nodup_In, in_concat_keys in H. apply iter_in. exact H.
  - intros n H. apply nodup_In, in_concat_keys. apply iter_in in H. exact H.
Qed.
Lemma mapM_ok {A B} (f : A -> outcome B) (g : A -> B) l : (forall a, In a l -> f a = Ok (g a)) -> mapM f l = Ok (map g l).
Proof.
  induction l as [|a l IH]; intros H; auto. cbn. rewrite H by now left. cbn [obind]. rewrite IH by (intros; apply H; now right). reflexivity.
Qed.
Lemma items_ok (d : dst) : proper d -> exists l, dyn_items d = Ok l /\ map fst l = dyn_iter d /\ forall n v, In (n, v) l <-> binds d n v.
Proof.
  intros P. unfold dyn_items, chain_items. fold (dyn_iter d).
  assert (G : forall n, In n (dyn_iter d) -> exists v, chain_getitem (maps d) n = Ok v).
  { intros n H. apply iter_in, (bound_binds d n P) in H as [v H]. exists v. now apply chain_getitem_ok. }
  assert (M : forall l, incl l (dyn_iter d) -> exists r, mapM (fun k => do v <- chain_getitem (maps d) k; Ok (k, v)) l = Ok r /\ map fst r = l /\
    forall n v, In (n, v) r <-> In n l /\ chain_getitem (maps d) n = Ok v).
  { induction l as [|k l IH]; intros I1.
    - exists []. repeat split; auto; intros; cbn in *; tauto.
    - destruct (G k) as [v E]; [apply I1; now left|]. destruct IH as (r & E2 & F & B); [intros x Hx; apply I1; now right|].
      exists ((k, v) :: r). cbn [mapM]. rewrite E. cbn [obind]. rewrite E2. cbn [obind map fst]. rewrite F. split; auto. split; auto.
      intros n w. cbn [In]. rewrite B. split; [intros [[= <- <-]|[H1 H2]]; auto|]. intros [[<-|H1] H2]; auto. left. congruence. }
  destruct (M (dyn_iter d) (incl_refl _)) as (r & E & F & B). exists r. split; auto. split; auto. intros n v. rewrite B.
  unfold binds. change (exists inner s outer, _) with (lbinds (maps d) n v). rewrite (chain_getitem_ok (maps d) n v P).
  split; [intros [_ H]; auto|]. intros H. split; auto. apply iter_in, (bound_binds d n P). exists v. exact H.
Qed.
Lemma eq_ok (veqb : V -> V -> bool) (VE : forall a b, veqb a b = true <-> a = b) (d : dst) (m : scope) : proper d -> NoDup (map fst m) ->
  exists b, dyn_eq veqb d m = Ok b /\ (b = true <-> forall n v, In (n, v) m <-> binds d n v).
Proof.
  intros P NM. destruct (items_ok d P) as (l & E & F & B). unfold dyn_eq, chain_eq. unfold dyn_items in E. rewrite E. cbn [obind]. eexists. split; [reflexivity|].
  assert (NL : NoDup (map fst l)) by (rewrite F; apply iter_nodup).
  assert (ND : forall l : scope, NoDup (map fst l) -> NoDup l) by (intros ?; apply NoDup_map_inv).
  unfold dict_eq. rewrite andb_true_iff, Nat.eqb_eq, forallb_forall. split.
  - intros [LE H]. assert (INC : incl l m).
    { intros [n v] I1. specialize (H _ I1). cbn [fst snd] in H. destruct (dict_get seqb m n) as [w|] eqn:G; [|discriminate]. apply VE in H. subst w. now apply get_in in G. }
    intros n v. rewrite <- B. split; [|apply INC]. apply (NoDup_length_incl (ND _ NL)); [lia|auto].
  - intros H. assert (SAME : forall x, In x m <-> In x l) by (intros [n v]; rewrite H, B; reflexivity). split.
    + apply Nat.le_antisymm; apply NoDup_incl_length; auto; intros x; apply SAME.
    + intros [n v] I1. apply SAME in I1. cbn [fst snd]. apply get_in in I1; auto. rewrite I1. now apply VE.
Qed.
(** * the class's names *)
Lemma class_names (d : dst) n : is_class_attribute n = true -> dyn_getitem d n = Ok (Attr n) /\ dyn_contains d n = Ok true /\ dyn_get_default d n = Ok (Some (Attr n)).
Proof. intros A. unfold dyn_get_default, dyn_contains, dyn_getitem, dyn_getattr. rewrite A. auto. Qed.
(** * assignment through a view *)
Lemma set_same (s : scope) n v : dict_get seqb (dict_set seqb s n v) n = Some v.
Proof. induction s as [|[k w] s IH]; cbn; [now rewrite String.eqb_refl|]. destruct (String.eqb_spec k n) as [->|N]; cbn; [now rewrite String.eqb_refl|]. destruct (String.eqb_spec k n); [congruence|auto]. Qed.
Lemma view_set_get (d : dst) n v : dyn_get seqb (view_setitem d n v) n = Ok v.
Proof.
  rewrite dyn_get_chain. unfold view_setitem, maps. destruct d as [[|s ss] g]; cbn [stack globals app chain_getitem]; now rewrite set_same.
Qed.
Lemma view_set_exit (s : scope) ss g n v b : b <> [] -> block_exit (view_setitem (mkdst (s :: ss) g) n v) b = mkdst ss g.
Proof. intros H. destruct b; [congruence|reflexivity]. Qed.
Lemma dyn_set_exit (s : scope) ss g n v w b : b <> [] -> dict_get seqb s n = None -> dyn_get seqb (mkdst ss g) n = Ok w ->
  exists d', dyn_set seqb (mkdst (s :: ss) g) n v = Ok d' /\ dyn_get seqb (block_exit d' b) n = Ok v.
Proof.
  intros NB E G. unfold dyn_set, resolve. cbn [stack globals find_scope]. unfold in_scope at 1. rewrite E.
  unfold dyn_get, resolve in G. cbn [stack globals] in G.
  destruct (find_scope seqb ss n) as [i|] eqn:F; cbn [obind] in *.
  - eexists. split; [reflexivity|]. cbn [set_at nth upd stack globals]. destruct b as [|p b]; [congruence|]. cbn [block_exit tl stack globals].
    rewrite dyn_get_chain. unfold maps. cbn [stack globals]. clear - F. revert i F. induction ss as [|m ss IH]; intros i F; [discriminate|].
    cbn [find_scope] in F. unfold in_scope in F. destruct (dict_get seqb m n) eqn:D.
    + injection F as <-. cbn [nth upd app chain_getitem]. now rewrite set_same.
    + destruct (find_scope seqb ss n) as [j|] eqn:F2; [|discriminate]. injection F as <-. cbn [nth upd app chain_getitem]. rewrite D. apply (IH j eq_refl).
  - destruct (in_scope seqb g n) eqn:IG; cbn [obind] in *; [|discriminate]. eexists. split; [reflexivity|]. cbn [set_at stack globals]. destruct b as [|p b]; [congruence|]. cbn [block_exit tl stack globals].
    rewrite dyn_get_chain. unfold maps. cbn [stack globals]. clear - F. induction ss as [|m ss IH]; [cbn; now rewrite set_same|].
    cbn [find_scope] in F. unfold in_scope in F. destruct (dict_get seqb m n) eqn:D; [discriminate|]. destruct (find_scope seqb ss n); [discriminate|].
    cbn [app chain_getitem]. rewrite D. apply IH. reflexivity.
Qed.
End P.
