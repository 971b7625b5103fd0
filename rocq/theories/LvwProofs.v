(** Proofs about the forms of let and do. *)
From Coq Require Import String List Bool Arith Lia.
From Verif Require Import Base BaseProofs LvwModel LvwSpec.
Import ListNotations.
Open Scope string_scope.
Open Scope list_scope.
Open Scope nat_scope.

Lemma isname_spec t : isname t = true <-> a_name t.
Proof.
  split.
  - induction t; cbn; intros H; try discriminate; constructor; auto.
  - induction 1; auto.
Qed.
Lemma target_spec t ls : isbindingtarget t ls = true <-> bindable ls t.
Proof.
  unfold isbindingtarget. split.
  - intros H. apply orb_true_iff in H as [H|H]; [constructor; now apply isname_spec|].
    apply andb_prop in H as [-> H]. destruct t; try discriminate; constructor; now apply isname_spec.
  - inversion 1; subst; [apply isname_spec in H0; now rewrite H0| |]; apply isname_spec in H0; rewrite H0; cbn; try reflexivity.
Qed.
Lemma keys_forallb ls bs : keys_bindable ls bs <-> forallb (fun b => isbindingtarget (fst b) ls) bs = true.
Proof.
  unfold keys_bindable. rewrite Forall_forall, forallb_forall. split; intros H b I; [apply target_spec|apply target_spec]; auto.
Qed.

(** ** Reading bindings *)
Lemma assign_all ls bs es : keys_bindable ls bs -> Forall2 (fun b e => e = TWal (fst b) (snd b) \/ e = TShl (fst b) (snd b)) bs es ->
  forallb (isass ls) es = true /\ map ass_pair es = map tup bs.
Proof.
  intros K F. induction F as [|b e bs es H F IH]; [split; reflexivity|]. inversion K as [|? ? K1 K2]; subst.
  destruct (IH K2) as [IH1 IH2]. apply target_spec in K1. destruct H as [-> | ->]; cbn [forallb map ass_pair]; rewrite IH1, IH2; unfold isass, isenvassign; rewrite K1; split; reflexivity.
Qed.
Lemma not_pair_assign ls bs es : Forall2 (fun b e => e = TWal (fst b) (snd b) \/ e = TShl (fst b) (snd b)) bs es -> iskvpair ls es = false.
Proof.
  intros F. inversion F as [|b e bs' es' H F']; subst; [reflexivity|].
  destruct es' as [|e2 [|? ?]]; try reflexivity. cbn. destruct H as [-> | ->]; unfold isbindingtarget; cbn; now rewrite andb_false_r.
Qed.
Definition is_pair (ls : bool) (b : tree) : bool := match b with TTup l => iskvpair ls l | _ => false end.
Definition is_lpair (ls : bool) (b : tree) : bool := match b with TLst l => iskvpair ls l | _ => false end.
Lemma canonize_written ls bs es : keys_bindable ls bs -> written bs es -> canonize ls es = Ok (map tup bs).
Proof.
  intros K H. unfold canonize. inversion H; subst.
  - destruct (assign_all ls bs es K H0) as [A1 A2].
    destruct es as [|e [|e2 es]].
    + inversion H0; subst. reflexivity.
    + cbn in A1. rewrite andb_true_r in A1. rewrite A1. now rewrite A2.
    + rewrite (not_pair_assign ls _ _ H0). inversion H0 as [|? ? ? ? N N' E1 E2]; subst.
      rewrite A1. destruct N as [-> | ->]; cbn [forallb]; now rewrite A2.
  - assert (A : forallb (is_pair ls) (map tup bs) = true).
    { apply forallb_forall. intros x I. apply in_map_iff in I as (b & <- & I). cbn. apply target_spec.
      unfold keys_bindable in K. rewrite Forall_forall in K. now apply K. }
    fold (is_pair ls). change (fun b => match b with TTup l => iskvpair ls l | _ => false end) with (is_pair ls). rewrite A.
    destruct bs as [|b1 [|b2 [|? ?]]]; cbn; try reflexivity.
    now rewrite andb_false_r.
  - assert (A : forallb (is_lpair ls) (map (fun b => TLst [fst b; snd b]) bs) = true).
    { apply forallb_forall. intros x I. apply in_map_iff in I as (b & <- & I). cbn. apply target_spec.
      unfold keys_bindable in K. rewrite Forall_forall in K. now apply K. }
    change (fun b => match b with TLst l => iskvpair ls l | _ => false end) with (is_lpair ls). rewrite A.
    destruct bs as [|b1 [|b2 bs]]; [reflexivity| |].
    + cbn. reflexivity.
    + cbn [map]. destruct bs; cbn; rewrite ?andb_false_r; rewrite ?map_map; reflexivity.
  - inversion K as [|? ? K1 _]; subst. apply target_spec in K1. cbn in K1. cbn. now rewrite K1.
Qed.
Lemma canonize_sound ls es r : canonize ls es = Ok r ->
  exists bs, written bs es /\ keys_bindable ls bs /\ r = map tup bs.
Proof.
  unfold canonize. intros H.
  assert (AA : forallb (isass ls) es = true -> exists bs, written bs es /\ keys_bindable ls bs /\ map ass_pair es = map tup bs).
  { intros F. rewrite forallb_forall in F.
    exists (map (fun e => match e with TShl a b | TWal a b => (a, b) | _ => (e, e) end) es).
    assert (G : forall l, (forall x, In x l -> isass ls x = true) ->
       Forall2 (fun b e => e = TWal (fst b) (snd b) \/ e = TShl (fst b) (snd b)) (map (fun e => match e with TShl a b | TWal a b => (a, b) | _ => (e, e) end) l) l /\
       keys_bindable ls (map (fun e => match e with TShl a b | TWal a b => (a, b) | _ => (e, e) end) l) /\
       map ass_pair l = map tup (map (fun e => match e with TShl a b | TWal a b => (a, b) | _ => (e, e) end) l)).
    { induction l as [|e l IH]; intros Q; [split; [constructor|split; [constructor|reflexivity]]|]. destruct IH as (I1 & I2 & I3); [intros; apply Q; now right|].
      specialize (Q e (or_introl eq_refl)). unfold isass, isenvassign in Q. destruct e; try discriminate Q; cbn [map].
      - destruct (isbindingtarget e1 ls) eqn:T; [|discriminate Q]. apply target_spec in T. split; [constructor; auto|split; [constructor; auto|cbn [map ass_pair]; now rewrite I3]].
      - destruct (isbindingtarget e1 ls) eqn:T; [|discriminate Q]. apply target_spec in T. split; [constructor; auto|split; [constructor; auto|cbn [map ass_pair]; now rewrite I3]]. }
    destruct (G es F) as (G1 & G2 & G3). split; [now constructor|]. auto. }
  destruct (match es with [b] => isass ls b | _ => false end) eqn:E1.
  { injection H as <-. apply AA. destruct es as [|b [|? ?]]; try discriminate E1. cbn. now rewrite E1. }
  destruct (iskvpair ls es) eqn:E2.
  { injection H as <-. destruct es as [|k [|v [|? ?]]]; try discriminate E2. exists [(k, v)]. split; [apply w_bare|]. split; [|reflexivity].
    constructor; [|constructor]. now apply target_spec. }
  change (fun b => match b with TTup l => iskvpair ls l | _ => false end) with (is_pair ls) in H.
  change (fun b => match b with TLst l => iskvpair ls l | _ => false end) with (is_lpair ls) in H.
  destruct (forallb (is_pair ls) es) eqn:E3.
  { injection H as <-. exists (map (fun e => match e with TTup [k; v] => (k, v) | _ => (e, e) end) es).
    assert (G : es = map tup (map (fun e => match e with TTup [k; v] => (k, v) | _ => (e, e) end) es) /\
                keys_bindable ls (map (fun e => match e with TTup [k; v] => (k, v) | _ => (e, e) end) es)).
    { clear - E3. induction es as [|e es IH]; [repeat constructor|]. cbn in E3. apply andb_prop in E3 as [Q E3]. destruct (IH E3) as [I1 I2].
      destruct e; try discriminate Q. destruct l as [|k [|v [|? ?]]]; try discriminate Q. cbn in Q. split.
      - cbn. now rewrite <- I1.
      - constructor; [now apply target_spec|assumption]. }
    destruct G as [G1 G2]. split; [|split; [assumption|exact G1]]. rewrite G1 at 2. apply w_tuples. }
  destruct (forallb (is_lpair ls) es) eqn:E4.
  { injection H as <-. exists (map (fun e => match e with TLst [k; v] => (k, v) | _ => (e, e) end) es).
    assert (G : es = map (fun b => TLst [fst b; snd b]) (map (fun e => match e with TLst [k; v] => (k, v) | _ => (e, e) end) es) /\
                map (fun b => match b with TLst l => TTup l | _ => b end) es = map tup (map (fun e => match e with TLst [k; v] => (k, v) | _ => (e, e) end) es) /\
                keys_bindable ls (map (fun e => match e with TLst [k; v] => (k, v) | _ => (e, e) end) es)).
    { clear - E4. induction es as [|e es IH]; [repeat constructor|]. cbn in E4. apply andb_prop in E4 as [Q E4]. destruct (IH E4) as (I1 & I2 & I3).
      destruct e; try discriminate Q. destruct l as [|k [|v [|? ?]]]; try discriminate Q. cbn in Q. split; [|split].
      - cbn. now rewrite <- I1.
      - cbn. now rewrite I2.
      - constructor; [now apply target_spec|assumption]. }
    destruct G as (G1 & G2 & G3). split; [|split; [assumption|exact G2]]. rewrite G1 at 2. apply w_lists. }
  destruct (forallb (isass ls) es) eqn:E5; [|discriminate H]. injection H as <-. now apply AA.
Qed.
Lemma written_one bs es : written bs es -> forall e, es = [e] -> exists b, bs = [b] /\
  (e = TWal (fst b) (snd b) \/ e = TShl (fst b) (snd b) \/ e = tup b \/ e = TLst [fst b; snd b]).
Proof.
  intros [bs' es' F|bs'|bs'|k v] e E.
  - subst. inversion F as [|b ? ? ? H F']; subst. inversion F'; subst. exists b. tauto.
  - destruct bs' as [|b [|? ?]]; try discriminate E. injection E as <-. exists b. tauto.
  - destruct bs' as [|b [|? ?]]; try discriminate E. injection E as <-. exists b. tauto.
  - discriminate E.
Qed.
Lemma written_nil bs es : written bs es -> es = [] -> bs = [].
Proof.
  intros [bs' es' F|bs'|bs'|k v] E.
  - subst. now inversion F.
  - now destruct bs'.
  - now destruct bs'.
  - discriminate E.
Qed.
Lemma kv_one ls b : keys_bindable ls [b] -> canonize ls [fst b; snd b] = Ok [tup b].
Proof. intros K. apply (canonize_written ls [b] [fst b; snd b] K). destruct b. apply w_bare. Qed.
Lemma macroargs_bracketed ls own bs es s : keys_bindable ls bs -> written bs es -> bracketed own es s -> canonize ls (macroargs s) = Ok (map tup bs).
Proof.
  intros K Wr B. inversion B; subst; cbn [macroargs]; try (now apply canonize_written).
  destruct s; cbn [macroargs]; try (now apply canonize_written);
    (destruct (written_one _ _ Wr _ eq_refl) as (b & -> & [E|[E|[E|E]]]); try discriminate E; injection E as ->; now apply kv_one).
Qed.
Lemma bindings_invoked own bs x m : keys_bindable false bs -> invoked own bs x m -> bindings_of m = Ok (map tup bs).
Proof.
  intros K I. inversion I; subst; unfold bindings_of; cbn.
  - eapply macroargs_bracketed; eauto.
  - now apply canonize_written.
Qed.
Lemma keys_more bs : keys_bindable false bs -> keys_bindable true bs.
Proof. unfold keys_bindable. apply Forall_impl. inversion 1; subst. now constructor. Qed.
Lemma content_kind ls bs body k c : keys_bindable ls bs -> content bs body k c -> ishaskelly c = Some k.
Proof.
  intros K C. assert (K' : keys_bindable true bs) by (destruct ls; auto using keys_more).
  inversion C; subst; cbn.
  - now rewrite (canonize_written true bs es).
  - now rewrite (canonize_written true bs es).
  - inversion H; subst; reflexivity.
Qed.
Lemma content_get bs body k c v : keys_bindable false bs -> content bs body k c -> vkind v = k -> theexpr v = Ok c ->
  get_bindings v = Ok (map tup bs) /\ get_body v = Ok body.
Proof.
  intros K C V T. unfold get_bindings, get_body. rewrite V. destruct C; rewrite T; cbn.
  - split; [now apply canonize_written|reflexivity].
  - split; [now apply canonize_written|reflexivity].
  - split; [eapply bindings_invoked; eauto|reflexivity].
Qed.
Lemma content_not_let k c bs body : content bs body k c -> islet c = None.
Proof. destruct 1; reflexivity. Qed.

(** the whole let *)
Lemma expr_not_deco x : among x exprnames = true -> among x deconames = false.
Proof.
  unfold among, exprnames. cbn. rewrite !orb_true_iff. intros [H|[H|[H|[H|[H|H]]]]]; try discriminate H;
    apply String.eqb_eq in H; subst x; reflexivity.
Qed.
Lemma form_islet ls own bs body x k t : among x exprnames = true -> keys_bindable ls bs -> let_form own bs body x k t -> islet t = Some (k, x).
Proof.
  intros X K F. inversion F; subst.
  - inversion H; subst; cbn -[among]; now rewrite X.
  - cbn -[among ishaskelly]. rewrite (expr_not_deco x X), X. now rewrite (content_kind ls bs body k c).
Qed.
Lemma form_read own bs body x k t : among x exprnames = true -> keys_bindable false bs -> let_form own bs body x k t ->
  view t = Ok (mkU t k (Some x) true) /\ get_bindings (mkU t k (Some x) true) = Ok (map tup bs) /\ get_body (mkU t k (Some x) true) = Ok body.
Proof.
  intros X K F. unfold view. rewrite (form_islet _ _ _ _ _ _ _ X K F). split; [reflexivity|]. inversion F; subst.
  - cbn. split; [eapply bindings_invoked; eauto|reflexivity].
  - eapply content_get; eauto.
Qed.
Lemma content_read bs body k c : keys_bindable false bs -> content bs body k c ->
  view c = Ok (mkU c k None false) /\ get_bindings (mkU c k None false) = Ok (map tup bs) /\ get_body (mkU c k None false) = Ok body.
Proof.
  intros K C. unfold view. rewrite (content_not_let k c bs body C), (content_kind false bs body k c K C). split; [reflexivity|].
  eapply content_get; eauto.
Qed.
Lemma deco_read own bs x t : among x deconames = true -> keys_bindable false bs -> invoked own bs x t ->
  view t = Ok (mkU t KDecorator (Some x) true) /\ get_bindings (mkU t KDecorator (Some x) true) = Ok (map tup bs) /\
  get_body (mkU t KDecorator (Some x) true) = Raise TypeError.
Proof.
  intros X K I. unfold view.
  assert (L : islet t = Some (KDecorator, x)) by (inversion I; subst; cbn -[among ishaskelly]; now rewrite X).
  rewrite L. split; [reflexivity|]. split; [|reflexivity]. cbn. eapply bindings_invoked; eauto.
Qed.
(** the macro *)
Lemma expander_bracketed ls bs es s : keys_bindable ls bs -> bs <> [] -> written bs es -> bracketed false es s ->
  expander_args s <> [] /\ canonize ls (expander_args s) = Ok (map tup bs).
Proof.
  intros K N Wr B. inversion B; subst.
  - cbn. split; [|now apply canonize_written]. intros ->. now apply N, (written_nil _ _ Wr).
  - destruct s; cbn [expander_args]; try (split; [discriminate|now apply canonize_written]).
    destruct (written_one _ _ Wr _ eq_refl) as (b & -> & [E|[E|[E|E]]]); try discriminate E; injection E as ->. split; [discriminate|now apply kv_one].
Qed.
Lemma apply_form ls bs body x k t : keys_bindable (ls && match k with KLispy => true | _ => false end) bs -> bs <> [] ->
  let_form false bs body x k t -> apply_let ls t = Ok (map tup bs, body).
Proof.
  intros K N F. inversion F; subst.
  - rewrite andb_true_r in K. inversion H; subst; cbn.
    + destruct (expander_bracketed ls bs es s K N H0 H1) as [A1 A2]. destruct (expander_args s) as [|a l]; [congruence|]. rewrite A2. reflexivity.
    + destruct es as [|e es].
      * exfalso. now apply N, (written_nil _ _ H0).
      * now rewrite (canonize_written ls bs).
  - assert (K' : keys_bindable false bs) by (destruct ls, H; assumption).
    cbn [apply_let]. destruct (content_read bs body k c K' H) as (V & G & B). rewrite V. cbn [obind]. rewrite G. cbn [obind]. now rewrite B.
Qed.

(** ** Nothing else is a let *)
Lemma invoked_sound x m r : bindings_of m = Ok r -> (exists s, m = TSub (TName x) s) \/ (exists args kws, m = TCall (TName x) args kws) ->
  exists bs, invoked true bs x m /\ keys_bindable false bs /\ r = map tup bs.
Proof.
  intros G [(s & ->)|(args & kws & ->)]; unfold bindings_of in G; cbn in G; apply canonize_sound in G as (bs & Wr & K & ->); exists bs.
  - split; [|auto]. apply (inv_brackets true bs x (macroargs s)); [assumption|]. destruct s; cbn; constructor.
  - split; [|auto]. now constructor.
Qed.
Lemma content_sound c k v r b : ishaskelly c = Some k -> (forall a ops l, c = TCmp a ops l -> length ops = length l) ->
  vkind v = k -> theexpr v = Ok c -> get_bindings v = Ok r -> get_body v = Ok b ->
  exists bs, content bs b k c /\ keys_bindable false bs /\ r = map tup bs.
Proof.
  intros H Cm V T G B. unfold get_bindings in G. unfold get_body in B. rewrite V in *.
  destruct c as [| | | | | |l| | | |a ops rs| | | | |]; try discriminate H.
  - assert (W : exists b0 w, l = [b0; w] /\ k = KWhere /\ ((exists s, w = TSub (TName "where") s) \/ (exists args kws, w = TCall (TName "where") args kws))).
    { destruct l as [|b0 [|w [|? ?]]]; try discriminate H; cbn in H.
      - destruct w as [| | | |w s|f args kws| | | | | | | | | |]; try discriminate H.
        + destruct w; try discriminate H. destruct (String.eqb x "where") eqn:E; [|discriminate H]. apply String.eqb_eq in E. subst x.
          injection H as <-. exists b0, (TSub (TName "where") s). eauto.
        + destruct f; try discriminate H. destruct (String.eqb x "where") eqn:E; [|discriminate H]. apply String.eqb_eq in E. subst x.
          injection H as <-. exists b0, (TCall (TName "where") args kws). eauto 6.
      - destruct w as [| | | |w s|f args kws| | | | | | | | | |]; try discriminate H; [destruct w; discriminate H|destruct f; discriminate H]. }
    destruct W as (b0 & w & -> & -> & W). rewrite T in G, B. cbn in B, G. injection B as <-.
    destruct (invoked_sound "where" w r G W) as (bs & I & K & E). exists bs. split; [now constructor|auto].
  - assert (W : exists es, (a = TLst es \/ a = TTup es) /\ ops = [OpIn] /\ k = KIn).
    { cbn in H. destruct a; try discriminate H; (destruct ops as [|[|] [|? ?]]; try discriminate H); exists l;
        (destruct (canonize true l); [|discriminate H]); injection H as <-; auto. }
    destruct W as (es & A & -> & ->). specialize (Cm a [OpIn] rs eq_refl). destruct rs as [|b0 [|? ?]]; try discriminate Cm.
    rewrite T in G, B. cbn in B, G. injection B as <-.
    destruct A as [-> | ->]; cbn in G; apply canonize_sound in G as (bs & Wr & K & ->); exists bs; (split; [now constructor|auto]).
Qed.
Lemma among_in x l : among x l = true <-> In x l.
Proof.
  unfold among. rewrite existsb_exists. split.
  - intros (y & I & E). apply String.eqb_eq in E. now subst.
  - intros I. exists x. split; [assumption|apply String.eqb_refl].
Qed.
Lemma islet_cases t k x : islet t = Some (k, x) ->
  (k = KDecorator /\ among x deconames = true /\ ((exists s, t = TSub (TName x) s) \/ exists args kws, t = TCall (TName x) args kws)) \/
  (among x exprnames = true /\ exists c, t = TSub (TName x) c /\ ishaskelly c = Some k) \/
  (k = KLispy /\ among x exprnames = true /\ exists m b, t = TSub m b /\ ((exists s, m = TSub (TName x) s) \/ exists args kws, m = TCall (TName x) args kws)).
Proof.
  unfold islet. intros H. destruct t as [| | | |v s|f args kws| | | | | | | | | |]; try discriminate H.
  - destruct v as [y| | | |v2 s2|f2 args2 kws2| | | | | | | | | |]; try discriminate H.
    + destruct (among y deconames) eqn:E1.
      * injection H as <- <-. left. eauto 6.
      * destruct (among y exprnames) eqn:E2; [|discriminate H]. destruct (ishaskelly s) eqn:E3; [|discriminate H]. injection H as <- <-. right. left. eauto.
    + destruct v2; try discriminate H. destruct (among x0 exprnames) eqn:E; [|discriminate H]. injection H as <- <-. right. right. split; [reflexivity|]. split; [assumption|].
      exists (TSub (TName x0) s2), s. split; [reflexivity|]. eauto.
    + destruct f2; try discriminate H. destruct (among x0 exprnames) eqn:E; [|discriminate H]. injection H as <- <-. right. right. split; [reflexivity|]. split; [assumption|].
      exists (TCall (TName x0) args2 kws2), s. split; [reflexivity|]. eauto.
  - destruct f; try discriminate H. destruct (among x0 deconames) eqn:E; [|discriminate H]. injection H as <- <-. left. eauto 7.
Qed.
Lemma content_body c k v : ishaskelly c = Some k -> (forall a ops l, c = TCmp a ops l -> length ops = length l) ->
  vkind v = k -> theexpr v = Ok c -> exists b, get_body v = Ok b.
Proof.
  intros H Cm V T. unfold get_body. rewrite V.
  destruct c as [| | | | | |l| | | |a ops rs| | | | |]; try discriminate H.
  - destruct l as [|b0 [|w l]]; try discriminate H.
    assert (k = KWhere) as ->.
    { cbn in H. destruct w as [| | | |[] ?|[] ? ?| | | | | | | | | |]; try discriminate H; destruct l; try discriminate H;
        (destruct (String.eqb x "where"); [now injection H|discriminate H]). }
    rewrite T. cbn. eauto.
  - specialize (Cm a ops rs eq_refl).
    assert (k = KIn /\ ops = [OpIn]) as [-> ->].
    { cbn in H. destruct a; try discriminate H; (destruct ops as [|[|] [|? ?]]; try discriminate H);
        (destruct (canonize true l); [|discriminate H]); injection H as <-; auto. }
    destruct rs as [|b [|? ?]]; try discriminate Cm. rewrite T. cbn. eauto.
Qed.
Lemma view_sound t v r : comparison_ok t -> view t = Ok v -> get_bindings v = Ok r -> exists bs, r = map tup bs /\ keys_bindable false bs /\
  match get_body v with
  | Ok b => (exists x, In x exprnames /\ vmode v = Some x /\ let_form true bs b x (vkind v) t) \/ (vmode v = None /\ content bs b (vkind v) t)
  | Raise _ => exists x, In x deconames /\ vmode v = Some x /\ vkind v = KDecorator /\ invoked true bs x t
  end.
Proof.
  intros Cm V G. unfold view in V. destruct (islet t) as [[k x]|] eqn:L.
  - injection V as <-. destruct (islet_cases t k x L) as [(-> & X & S)|[(X & c & -> & H)|(-> & X & m & b & -> & S)]].
    + unfold get_bindings in G. cbn [vkind vtree] in G. destruct (invoked_sound x t r G S) as (bs & I & K & E). exists bs. split; [assumption|]. split; [assumption|].
      cbn [get_body vkind vmode]. exists x. split; [now apply among_in|]. auto.
    + assert (Cm' : forall a ops l, c = TCmp a ops l -> length ops = length l) by (intros a ops l ->; apply (Cm a); right; eauto).
      destruct (content_body c k (mkU (TSub (TName x) c) k (Some x) true) H Cm' eq_refl eq_refl) as [b B]. rewrite B.
      destruct (content_sound c k (mkU (TSub (TName x) c) k (Some x) true) r b H Cm' eq_refl eq_refl G B) as (bs & C & K & E).
      exists bs. split; [assumption|]. split; [assumption|]. left. exists x. split; [now apply among_in|]. split; [reflexivity|]. cbn [vkind]. now constructor.
    + unfold get_bindings in G. cbn [vkind vtree] in G. destruct (invoked_sound x m r G S) as (bs & I & K & E). exists bs. split; [assumption|]. split; [assumption|].
      cbn [get_body vkind get_slice vtree vmode]. left. exists x. split; [now apply among_in|]. split; [reflexivity|]. now constructor.
  - destruct (ishaskelly t) as [k|] eqn:H; [|discriminate V]. injection V as <-.
    assert (Cm' : forall a ops l, t = TCmp a ops l -> length ops = length l) by (intros a ops l ->; apply (Cm a); auto).
    destruct (content_body t k (mkU t k None false) H Cm' eq_refl eq_refl) as [b B]. rewrite B.
    destruct (content_sound t k (mkU t k None false) r b H Cm' eq_refl eq_refl G B) as (bs & C & K & E).
    exists bs. split; [assumption|]. split; [assumption|]. right. auto.
Qed.

(** ** Writing *)
Lemma set_args_invoked py39 own bs x m bs' : invoked own bs x m ->
  exists m', set_args py39 m (map tup bs') = Ok m' /\ invoked false bs' x m'.
Proof.
  intros I. inversion I; subst; cbn.
  - eexists. split; [reflexivity|]. rewrite andb_false_r. eapply inv_brackets; [apply w_tuples|constructor].
  - eexists. split; [reflexivity|]. apply inv_parens, w_tuples.
Qed.
Lemma invoked_own bs x m : invoked false bs x m -> invoked true bs x m.
Proof.
  inversion 1; subst; [|now constructor]. eapply inv_brackets; [eassumption|]. inversion H1; subst; constructor.
Qed.
Lemma set_bindings_form py39 own bs body x k t bs' : let_form own bs body x k t ->
  exists t', set_bindings py39 (mkU t k (Some x) true) (map tup bs') = Ok t' /\ let_form false bs' body x k t'.
Proof.
  intros F. destruct F as [m I|k c C].
  - destruct (set_args_invoked py39 own bs x m bs' I) as (m' & E & I'). exists (TSub m' body). unfold set_bindings. cbn [vkind vtree]. rewrite E.
    split; [reflexivity|]. now constructor.
  - destruct C as [es Wr|es Wr|w I]; unfold set_bindings; cbn.
    + eexists. split; [reflexivity|]. constructor. constructor. apply w_tuples.
    + eexists. split; [reflexivity|]. constructor. constructor. apply w_tuples.
    + destruct (set_args_invoked py39 true bs "where" w bs' I) as (m' & E & I'). rewrite E. cbn. eexists. split; [reflexivity|].
      constructor. constructor. now apply invoked_own.
Qed.
Lemma set_bindings_content py39 bs body k c bs' : content bs body k c ->
  exists c', set_bindings py39 (mkU c k None false) (map tup bs') = Ok c' /\ content bs' body k c'.
Proof.
  intros C. destruct C as [es Wr|es Wr|w I]; unfold set_bindings; cbn.
  + eexists. split; [reflexivity|]. constructor. apply w_tuples.
  + eexists. split; [reflexivity|]. constructor. apply w_tuples.
  + destruct (set_args_invoked py39 true bs "where" w bs' I) as (m' & E & I'). rewrite E. cbn. eexists. split; [reflexivity|].
    constructor. now apply invoked_own.
Qed.
Lemma set_bindings_deco py39 own bs x t bs' : invoked own bs x t ->
  exists t', set_bindings py39 (mkU t KDecorator (Some x) true) (map tup bs') = Ok t' /\ invoked false bs' x t'.
Proof. intros I. apply (set_args_invoked py39 own bs x t bs' I). Qed.
Lemma set_body_form py39 own bs body x k t body' : let_form own bs body x k t ->
  k <> KLispy \/ py39 = false \/ has_value_field body' = false ->
  exists t', set_body py39 (mkU t k (Some x) true) body' = Ok t' /\ let_form own bs body' x k t'.
Proof.
  intros F A. destruct F as [m I|k c C].
  - assert (E : py39 && has_value_field body' = false) by (destruct A as [A|[A|A]]; [congruence|now rewrite A|rewrite A; apply andb_false_r]).
    unfold set_body. cbn. rewrite E. eexists. split; [reflexivity|]. now constructor.
  - destruct C as [es Wr|es Wr|w I]; unfold set_body; cbn; eexists; (split; [reflexivity|]); constructor; now constructor.
Qed.
Lemma set_body_content py39 bs body k c body' : content bs body k c ->
  exists c', set_body py39 (mkU c k None false) body' = Ok c' /\ content bs body' k c'.
Proof. intros C. destruct C as [es Wr|es Wr|w I]; unfold set_body; cbn; eexists; (split; [reflexivity|]); now constructor. Qed.

(** ** Assignments, and do *)
Lemma assign_view k v t : a_name k -> t = TWal k v \/ t = TShl k v ->
  assign_name t = Ok (name_of k) /\ assign_value t = Ok v /\
  (forall v', exists t', set_assign_value t v' = Ok t' /\ (t = TWal k v /\ t' = TWal k v' \/ t = TShl k v /\ t' = TShl k v')).
Proof.
  intros K T. apply isname_spec in K.
  assert (A : isass false t = true) by (destruct T as [-> | ->]; unfold isass, isenvassign, isbindingtarget; now rewrite K).
  unfold assign_name, assign_value, set_assign_value, assign_parts. rewrite A. destruct T as [-> | ->]; cbn; repeat split; intros v'; eexists; split; auto.
Qed.
Lemma assign_rename k v t x : (exists y, k = TName y \/ k = TDone (TName y)) -> t = TWal k v \/ t = TShl k v ->
  exists t' k', set_assign_name t x = Ok t' /\ (k' = TName x \/ k' = TDone (TName x)) /\
    (t = TWal k v /\ t' = TWal k' v \/ t = TShl k v /\ t' = TShl k' v) /\ assign_name t' = Ok (Some x) /\ assign_value t' = Ok v.
Proof.
  intros [y K] T.
  assert (A : isass false t = true) by (destruct T as [-> | ->], K as [-> | ->]; reflexivity).
  unfold set_assign_name, assign_parts. rewrite A. destruct T as [-> | ->], K as [-> | ->]; cbn; eexists; [exists (TName x)|exists (TDone (TName x))|exists (TName x)|exists (TDone (TName x))];
    (split; [reflexivity|]; split; [auto|]; split; [|split; reflexivity]); auto.
Qed.
Lemma assign_only t p : assign_parts t = Ok p -> a_name (fst p) /\ (t = TWal (fst p) (snd p) \/ t = TShl (fst p) (snd p)).
Proof.
  unfold assign_parts, isass, isenvassign. destruct t; try discriminate; unfold isbindingtarget; cbn; rewrite orb_false_r;
    (destruct (isname t1) eqn:E; [|discriminate]); intros H; injection H as <-; split; auto; now apply isname_spec.
Qed.
Lemma do_views py39 x l l' : x = "do" \/ x = "do0" ->
  do_get (TSub (TName x) (TTup l)) = Ok l /\ do_set py39 (TSub (TName x) (TTup l)) l' = Ok (TSub (TName x) (TTup l')) /\
  do_get (TLst l) = Ok l /\ do_set py39 (TLst l) l' = Ok (TLst l').
Proof.
  intros X. assert (A : among x ["do"; "do0"] = true) by (destruct X as [-> | ->]; reflexivity).
  unfold do_get, do_set, isdo. rewrite A. cbn. rewrite andb_false_r. auto.
Qed.
Lemma do_only t l : do_get t = Ok l -> t = TLst l \/ exists x, In x ["do"; "do0"] /\ t = TSub (TName x) (TTup l).
Proof.
  unfold do_get. destruct (isdo t) as [x|] eqn:D.
  - unfold isdo in D. destruct t; try discriminate D. destruct t1; try discriminate D. destruct t2; try discriminate D.
    destruct (among x0 ["do"; "do0"]) eqn:A; [|discriminate D]. intros H. injection H as <-. right. exists x0. split; [now apply among_in|reflexivity].
  - destruct t; try discriminate. intros H. injection H as <-. now left.
Qed.

(** The names are those of the specification. *)
Lemma form_read' own bs body x k t : In x let_names -> keys_bindable false bs -> let_form own bs body x k t ->
  view t = Ok (mkU t k (Some x) true) /\ get_bindings (mkU t k (Some x) true) = Ok (map tup bs) /\ get_body (mkU t k (Some x) true) = Ok body.
Proof. intros I. apply form_read. now apply among_in. Qed.
Lemma deco_read' own bs x t : In x decorator_names -> keys_bindable false bs -> invoked own bs x t ->
  view t = Ok (mkU t KDecorator (Some x) true) /\ get_bindings (mkU t KDecorator (Some x) true) = Ok (map tup bs) /\
  get_body (mkU t KDecorator (Some x) true) = Raise TypeError.
Proof. intros I. apply deco_read. now apply among_in. Qed.
Lemma view_sound' t v r : comparison_ok t -> view t = Ok v -> get_bindings v = Ok r -> exists bs, r = map tup bs /\ keys_bindable false bs /\
  match get_body v with
  | Ok b => (exists x, In x let_names /\ vmode v = Some x /\ let_form true bs b x (vkind v) t) \/ (vmode v = None /\ content bs b (vkind v) t)
  | Raise _ => exists x, In x decorator_names /\ vmode v = Some x /\ vkind v = KDecorator /\ invoked true bs x t
  end.
Proof. exact (view_sound t v r). Qed.
(** empty brackets before the part with `in` or `where` *)
Lemma apply_empty ls bs body x k c m : keys_bindable false bs -> content bs body k c ->
  m = TSub (TName x) (TTup []) \/ (exists kws, m = TCall (TName x) [] kws) -> apply_let ls (TSub m c) = Ok (map tup bs, body).
Proof.
  intros K H M. destruct (content_read bs body k c K H) as (V & G & B).
  destruct M as [->|[kws ->]]; cbn [apply_let expander_args]; rewrite V; cbn [obind]; rewrite G; cbn [obind]; now rewrite B.
Qed.

(** * What is rejected *)
Lemma rejects_bindings ls es : (forall bs, written bs es -> ~ keys_bindable ls bs) -> canonize ls es = Raise SyntaxError.
Proof.
  intros N. destruct (canonize ls es) as [r|e] eqn:E.
  - destruct (canonize_sound ls es r E) as (bs & W & K & _). destruct (N bs W K).
  - unfold canonize in E. repeat match type of E with (if ?b then _ else _) = _ => destruct b; try discriminate E end. now injection E as <-.
Qed.
Lemma rejects_view t e : view t = Raise e -> e = TypeError.
Proof. unfold view. destruct (islet t) as [[k s]|]; [discriminate|]. destruct (ishaskelly t); [discriminate|]. intros H. now injection H as <-. Qed.
Lemma rejects_assign t : (forall k v, a_name k -> t <> TWal k v /\ t <> TShl k v) ->
  assign_name t = Raise TypeError /\ assign_value t = Raise TypeError /\
  (forall x, set_assign_name t x = Raise TypeError) /\ (forall v, set_assign_value t v = Raise TypeError).
Proof.
  intros N. assert (P : assign_parts t = Raise TypeError).
  { destruct (assign_parts t) as [p|e] eqn:E.
    - destruct (assign_only t p E) as [A [X|X]]; destruct (N _ (snd p) A); contradiction.
    - unfold assign_parts in E. destruct (isass false t); [destruct t|]; try discriminate E; now injection E as <-. }
  unfold assign_name, assign_value, set_assign_name, set_assign_value. rewrite P. repeat split.
Qed.
Lemma rejects_do py39 t l' : (forall l, t <> TLst l) -> (forall x l, In x ["do"; "do0"] -> t <> TSub (TName x) (TTup l)) ->
  do_get t = Raise TypeError /\ do_set py39 t l' = Raise TypeError.
Proof.
  intros N1 N2. assert (H : isdo t = None).
  { destruct (isdo t) as [s|] eqn:E; [|reflexivity]. exfalso. destruct t as [| | | |v x| | | | | | | | | | |]; try discriminate E. destruct v as [s'| | | | | | | | | | | | | | |]; try discriminate E.
    destruct x; try discriminate E. cbn in E. apply (N2 s' l); [|reflexivity].
    destruct (String.eqb s' "do") eqn:E1; [apply String.eqb_eq in E1; subst; now left|].
    destruct (String.eqb s' "do0") eqn:E2; [apply String.eqb_eq in E2; subst; right; now left|]. discriminate E. }
  unfold do_get, do_set. rewrite H. destruct t; try (split; reflexivity). destruct (N1 l eq_refl).
Qed.
