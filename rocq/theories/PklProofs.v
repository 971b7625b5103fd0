From Coq Require Import String List Bool Arith ZArith Lia.
From Verif Require Import Base PklModel PklSpec.
Import ListNotations.
Open Scope string_scope.
Open Scope list_scope.
Open Scope nat_scope.

(** ** small things *)
Lemma veqb_eq v w : veqb v w = true <-> v = w.
Proof.
  destruct v, w; cbn; split; intros H; try discriminate; try congruence.
  - apply Z.eqb_eq in H. congruence.
  - injection H as ->. apply Z.eqb_refl.
  - apply String.eqb_eq in H. congruence.
  - injection H as ->. apply String.eqb_refl.
  - apply Nat.eqb_eq in H. congruence.
  - injection H as ->. apply Nat.eqb_refl.
Qed.
Lemma keqb_eq k l : keqb k l = true <-> k = l.
Proof.
  destruct k, l; cbn; split; intros H; try discriminate; try congruence.
  - apply veqb_eq in H. congruence.
  - injection H as ->. apply veqb_eq. reflexivity.
  - apply veqb_eq in H. congruence.
  - injection H as ->. apply veqb_eq. reflexivity.
  - apply String.eqb_eq in H. congruence.
  - injection H as ->. apply String.eqb_refl.
Qed.
Lemma reg_new p k a l : reg (mkproc (heap p) ((k, a) :: table p)) l = if keqb l k then Some a else reg p l.
Proof. reflexivity. Qed.
Lemma nth_upd {A} (l : list A) i j x : i < length l -> nth_error (upd l i x) j = if i =? j then Some x else nth_error l j.
Proof.
  revert i j. induction l as [|y l IH]; intros [|i] [|j]; cbn; intros H; auto; try lia.
  apply IH. lia.
Qed.
Lemma upd_len {A} (l : list A) i x : length (upd l i x) = length l.
Proof. revert i. induction l as [|z l IH]; intros [|i]; cbn; auto. Qed.
Lemma nth_lt {A} (l : list A) i x : nth_error l i = Some x -> i < length l.
Proof. intros H. apply nth_error_Some. congruence. Qed.
Lemma nth_snoc {A} (l : list A) i x y : nth_error l i = Some x -> nth_error (l ++ [y]) i = Some x.
Proof. intros H. rewrite nth_error_app1; [exact H|exact (nth_lt _ _ _ H)]. Qed.
Lemma nth_last {A} (l : list A) y : nth_error (l ++ [y]) (length l) = Some y.
Proof. rewrite nth_error_app2 by lia. rewrite Nat.sub_diag. reflexivity. Qed.
Lemma index_some a l i : index a l = Some i -> nth_error l i = Some a.
Proof.
  revert i. induction l as [|b l IH]; cbn; [discriminate|]. destruct (Nat.eqb_spec a b) as [<-|N]; intros i H.
  - injection H as <-. reflexivity.
  - destruct (index a l); [|discriminate]. injection H as <-. cbn. auto.
Qed.
Lemma index_none a l : index a l = None -> ~ In a l.
Proof.
  induction l as [|b l IH]; cbn; [auto|]. destruct (Nat.eqb_spec a b) as [<-|N]; [discriminate|].
  destruct (index a l); [discriminate|]. intros _ [H|H]; [congruence|exact (IH eq_refl H)].
Qed.
Lemma NoDup_snoc {A} (l : list A) x : NoDup l -> ~ In x l -> NoDup (l ++ [x]).
Proof.
  intros H N. pose proof (Add_app x l []) as Ad. rewrite app_nil_r in Ad. apply (NoDup_Add Ad). auto.
Qed.
Lemma get_in d n v : get d n = Some v -> In (n, v) d.
Proof.
  induction d as [|[m w] d IH]; cbn; [discriminate|]. destruct (String.eqb_spec n m) as [->|N]; intros H; [left; congruence|auto].
Qed.
Lemma in_get d n v : NoDup (map fst d) -> In (n, v) d -> get d n = Some v.
Proof.
  induction d as [|[m w] d IH]; cbn; intros N H; [contradiction|]. inversion N; subst.
  destruct H as [H|H]; [injection H as -> ->; rewrite String.eqb_refl; reflexivity|].
  destruct (String.eqb_spec n m) as [->|D]; [|auto]. exfalso. apply H2. apply (in_map fst) in H. exact H.
Qed.
Lemma get_put d n v m : get (put d n v) m = if String.eqb m n then Some v else get d m.
Proof.
  induction d as [|[k w] d IH]; cbn; [destruct (String.eqb m n); reflexivity|].
  destruct (String.eqb n k) eqn:E; cbn.
  - apply String.eqb_eq in E. subst k. destruct (String.eqb m n); reflexivity.
  - rewrite IH. destruct (String.eqb m k) eqn:F; [|reflexivity].
    apply String.eqb_eq in F. subst m. rewrite String.eqb_sym, E. reflexivity.
Qed.
Definition puts (d l : list (string * value)) := fold_left (fun d q => put d (fst q) (snd q)) l d.
Lemma get_puts l : forall d n, NoDup (map fst l) ->
  get (puts d l) n = match get l n with Some v => Some v | None => get d n end.
Proof.
  induction l as [|[m w] l IH]; intros d n N; [reflexivity|]. cbn [map fst] in N. inversion N; subst.
  change (puts d ((m, w) :: l)) with (puts (put d m w) l). rewrite IH by assumption. cbn [get].
  rewrite get_put. destruct (String.eqb_spec n m) as [->|D]; [|reflexivity].
  destruct (get l m) eqn:E; [|reflexivity]. exfalso. apply H1. apply get_in in E. apply (in_map fst) in E. exact E.
Qed.
Definition dputs (d l : list (value * value)) := fold_left (fun d q => dput d (fst q) (snd q)) l d.
Lemma dput_new d k v : ~ In k (map fst d) -> dput d k v = d ++ [(k, v)].
Proof.
  induction d as [|[l w] d IH]; cbn; intros N; [reflexivity|].
  destruct (veqb k l) eqn:E; [apply veqb_eq in E; subst; exfalso; auto|]. rewrite IH by auto. reflexivity.
Qed.
Lemma dputs_new l : forall d, NoDup (map fst (d ++ l)) -> dputs d l = d ++ l.
Proof.
  induction l as [|[k v] l IH]; cbn; intros d N; [rewrite app_nil_r; reflexivity|].
  rewrite dput_new.
  - change (dputs (d ++ [(k, v)]) l = d ++ (k, v) :: l). rewrite IH; rewrite <- app_assoc; [reflexivity|exact N].
  - rewrite map_app in N. apply NoDup_remove_2 in N. intros H. apply N. apply in_or_app. auto.
Qed.
Definition flat (l : list (value * value)) : list value := flat_map (fun q => [fst q; snd q]) l.
Lemma pairs_flat l : pairs (flat l) = l.
Proof. induction l as [|[k v] l IH]; cbn; [reflexivity|]. unfold flat in IH. rewrite IH. reflexivity. Qed.
Lemma Forall2_flat (R : value -> value -> Prop) l vs : Forall2 R (flat l) vs ->
  exists l', vs = flat l' /\ Forall2 (fun q q' => R (fst q) (fst q') /\ R (snd q) (snd q')) l l'.
Proof.
  revert vs. induction l as [|[k v] l IH]; cbn; intros vs H.
  - inversion H. exists []. split; constructor.
  - inversion H as [|? k' ? vs1 Hk H1]; subst. inversion H1 as [|? v' ? vs2 Hv H2]; subst.
    destruct (IH _ H2) as [l' [-> Hl]]. exists ((k', v') :: l'). split; [reflexivity|]. constructor; [split; assumption|assumption].
Qed.
Lemma Forall2_mono {A B} (R T : A -> B -> Prop) l l' : (forall x y, R x y -> T x y) -> Forall2 R l l' -> Forall2 T l l'.
Proof. intros H. induction 1; constructor; auto. Qed.
Lemma Forall2_len {A B} (R : A -> B -> Prop) l l' : Forall2 R l l' -> length l = length l'.
Proof. induction 1; cbn; auto. Qed.
Lemma vrel_mono m m1 v w : vrel m v w -> vrel (m ++ m1) v w.
Proof. destruct v, w; cbn; auto. intros H. apply in_or_app. auto. Qed.
Lemma orel_mono m m1 o o' : orel m o o' -> orel (m ++ m1) o o'.
Proof.
  destruct o, o'; cbn; auto.
  - intros [H H0]. split; [exact H|]. intros n v E. destruct (H0 n v E) as [w [F G]]. exists w. split; [exact F|]. apply vrel_mono, G.
  - apply Forall2_mono. intros. apply vrel_mono. assumption.
  - apply Forall2_mono. intros x y [H H0]. split; apply vrel_mono; assumption.
Qed.
Lemma vrel_inj m v v' w : NoDup (map snd m) -> vrel m v w -> vrel m v' w -> v = v'.
Proof.
  intros N. destruct v, v', w; cbn; intros H H0; try contradiction; try congruence. f_equal.
  clear - N H H0. induction m as [|[x y] m IH]; [contradiction|]. cbn in N. inversion N; subst.
  destruct H as [H|H], H0 as [H0|H0]; try congruence; auto.
  - injection H as -> ->. exfalso. apply H3. apply (in_map snd) in H0. exact H0.
  - injection H0 as -> ->. exfalso. apply H3. apply (in_map snd) in H. exact H.
Qed.
Lemma keys_nodup m (l l' : list (value * value)) : NoDup (map snd m) ->
  Forall2 (fun q q' => vrel m (fst q) (fst q') /\ vrel m (snd q) (snd q')) l l' -> NoDup (map fst l) -> NoDup (map fst l').
Proof.
  intros N. induction 1 as [|[k v] [k' v'] l l' [H H0] F IH]; cbn; intros D; [constructor|]. inversion D; subst.
  constructor; [|auto]. intros I. apply in_map_iff in I as [[k2 v2] [E I]]. cbn in E. subst k2. apply H3.
  clear - N H F I. cbn in H. induction F as [|[j u] [j' u'] l l' [G G0] F IH]; [contradiction|]. cbn in *.
  destruct I as [I|I]; [|auto]. injection I as -> ->. left. eapply vrel_inj; eassumption.
Qed.
Lemma vrel_pair m a b : In (a, b) m -> vrel m (Ref a) (Ref b).
Proof. auto. Qed.

(** ** identities *)
Section RoundTrip.
Variables p q : proc.           (* the one that pickles, the one that unpickles *)
Hypothesis Gp : good p.
Hypothesis Sq : sound q.

Lemma wf a o : nth_error (heap p) a = Some o -> well_made p o.
Proof. destruct Gp as [_ [_ H]]. apply H. Qed.
Definition anonymous (a : nat) : Prop := forall k, ~ has_identity p a k.
Lemma ident_fun a k l : has_identity p a k -> has_identity p a l -> k = l.
Proof.
  assert (E : forall a k, has_identity p a k -> exists d, nth_error (heap p) a = Some (Inst (class_of k) d)).
  { intros x [n|u|c|]; cbn; try (intros [d [H _]]; eauto; fail); [intros [d H]; eauto|]. destruct Gp as [_ [H _]]. apply H. }
  intros H H0. destruct (E _ _ H) as [d D], (E _ _ H0) as [d' D']. rewrite D in D'. injection D' as C _.
  destruct k, l; cbn in C; try discriminate; cbn in H, H0; try congruence.
  - destruct H as [x [X X']], H0 as [y [Y Y']]. congruence.
  - destruct H as [x [X X']], H0 as [y [Y Y']]. congruence.
Qed.
Lemma ident_dec a : a < length (heap p) -> (exists k, has_identity p a k) \/ anonymous a.
Proof.
  intros L. destruct (nth_error (heap p) a) as [o|] eqn:E; [|apply nth_error_None in E; lia].
  destruct (Nat.eq_dec (match reg p KEmpty with Some b => b | None => S a end) a) as [Q|Q].
  { left. exists KEmpty. cbn. destruct (reg p KEmpty); [congruence|lia]. }
  pose proof (wf _ _ E) as W.
  assert (A : match o with Inst (Sym | Gsym | Single _) _ => False | _ => True end -> anonymous a).
  { intros H [n|u|c|]; cbn.
    - intros [d [D _]]. rewrite E in D. injection D as ->. exact H.
    - intros [d [D _]]. rewrite E in D. injection D as ->. exact H.
    - intros [d D]. rewrite E in D. injection D as ->. exact H.
    - intros D. rewrite D in Q. congruence. }
  destruct o as [[c| | | | |c| |] d|l|l]; try (right; apply A; exact I); left; destruct W as [_ [_ W]].
  - destruct W as [n [W _]]. exists (KSym n). cbn. eauto.
  - destruct W as [u [l [W _]]]. exists (KGsym u). cbn. eauto.
  - exists (KSingle c). cbn. eauto.
Qed.
Lemma ident_one a b k : has_identity p a k -> has_identity p b k -> a = b.
Proof. destruct Gp as [H _]. intros A B. apply H in A. apply H in B. congruence. Qed.

(** ** the state of loading: the objects seen so far, with their copies *)
Record Inv (m : list (nat * nat)) (r : proc) : Prop := {
  i_fst : NoDup (map fst m);
  i_snd : NoDup (map snd m);
  i_sound : sound r;
  i_len : length (heap q) <= length (heap r);
  i_reg : forall k a, reg q k = Some a -> reg r k = Some a;
  i_in : forall a b, In (a, b) m -> a < length (heap p) /\ b < length (heap r);
  i_ident : forall a b k, In (a, b) m -> has_identity p a k -> reg r k = Some b;
  i_anon : forall a b, In (a, b) m -> anonymous a -> length (heap q) <= b /\ forall k, reg r k <> Some b;
  i_rest : forall b, b < length (heap q) -> ~ In b (map snd m) -> nth_error (heap r) b = nth_error (heap q) b
}.
Definition kept (r r' : proc) (except : list nat) : Prop :=
  forall b o, nth_error (heap r) b = Some o -> ~ In b except -> nth_error (heap r') b = Some o.
Definition copy_of (m : list (nat * nat)) (r : proc) (a b : nat) : Prop :=
  exists o o', nth_error (heap p) a = Some o /\ nth_error (heap r) b = Some o' /\ orel m o o' /\
    (anonymous a -> no_more o o').

Lemma kept_trans r r' r'' x y : kept r r' x -> kept r' r'' y -> kept r r'' (x ++ y).
Proof.
  intros H H0 b o E N. apply H0; [apply H|]; [exact E| |]; intros I; apply N, in_or_app; auto.
Qed.
Lemma copy_mono m m1 r r' x a b : copy_of m r a b -> kept r r' x -> ~ In b x -> copy_of (m ++ m1) r' a b.
Proof.
  intros [o [o' [A [B [C D]]]]] K N. exists o, o'. split; [exact A|]. split; [apply K; assumption|].
  split; [apply orel_mono, C|exact D].
Qed.

(** *** creation *)
Definition started (a : nat) (o o1 : object) : Prop :=
  match o, o1 with
  | Inst c d, Inst c' d' => c = c' /\
      match c with
      | Env => exists x, d' = [("_env", Ref x); ("_finalized", Num 0)]
      | _ => anonymous a -> d' = []
      end
  | Lst _, Lst [] => True
  | Dct _, Dct [] => True
  | _, _ => False
  end.
Lemma Inv_alloc m r a o1 : Inv m r -> a < length (heap p) -> ~ In a (map fst m) -> anonymous a ->
  Inv (m ++ [(a, length (heap r))]) (mkproc (heap r ++ [o1]) (table r)).
Proof.
  intros H L N A. destruct H as [H1 H2 [S1 S2] H4 H5 H6 H7 H8 H9].
  assert (Lb : forall k, reg r k <> Some (length (heap r))).
  { intros k E. destruct (S1 _ _ E) as [d D]. apply nth_lt in D. lia. }
  constructor.
  - rewrite map_app. apply NoDup_snoc; assumption.
  - rewrite map_app. apply NoDup_snoc; [assumption|]. intros I. apply in_map_iff in I as [[x y] [E I]]. cbn in E. subst y.
    destruct (H6 _ _ I). lia.
  - split; [|exact S2]. intros k b E. destruct (S1 k b E) as [d D]. exists d. apply nth_snoc, D.
  - cbn. rewrite app_length. cbn. lia.
  - exact H5.
  - intros x y I. cbn. rewrite app_length. cbn. apply in_app_or in I as [I|[I|[]]]; [destruct (H6 _ _ I); lia|]. injection I as <- <-. lia.
  - intros x y k I K. apply in_app_or in I as [I|[I|[]]]; [exact (H7 _ _ _ I K)|]. injection I as <- <-. exfalso. exact (A _ K).
  - intros x y I K. apply in_app_or in I as [I|[I|[]]]; [exact (H8 _ _ I K)|]. injection I as <- <-. split; [lia|exact Lb].
  - intros b Q I. cbn. rewrite nth_error_app1 by lia. apply H9; [exact Q|]. intros J. apply I. rewrite map_app. apply in_or_app. auto.
Qed.
(** an object that nothing refers to *)
Lemma Inv_extra m r o1 : Inv m r -> Inv m (mkproc (heap r ++ [o1]) (table r)).
Proof.
  intros [H1 H2 [S1 S2] H4 H5 H6 H7 H8 H9]. constructor; auto.
  - split; [|exact S2]. intros k b E. destruct (S1 k b E) as [d D]. exists d. apply nth_snoc, D.
  - cbn. rewrite app_length. cbn. lia.
  - intros x y I. cbn. rewrite app_length. destruct (H6 _ _ I). cbn. lia.
  - intros b Q I. cbn. rewrite nth_error_app1 by lia. auto.
Qed.
Lemma kept_alloc r o1 t x : kept r (mkproc (heap r ++ [o1]) t) x.
Proof. intros b o E _. apply nth_snoc, E. Qed.
Lemma Inv_intern m r a k : Inv m r -> a < length (heap p) -> ~ In a (map fst m) -> has_identity p a k ->
  exists r' b d, intern r k (class_of k) = (r', b) /\ Inv (m ++ [(a, b)]) r' /\ kept r r' [] /\
    nth_error (heap r') b = Some (Inst (class_of k) d).
Proof.
  intros H L N A. destruct H as [H1 H2 [S1 S2] H4 H5 H6 H7 H8 H9]. unfold intern. destruct (reg r k) as [b|] eqn:E.
  - destruct (S1 _ _ E) as [d D]. exists r, b, d. split; [reflexivity|]. split; [|split; [|exact D]].
    2: { intros x o X _. exact X. }
    assert (B : ~ In b (map snd m)).
    { intros I. apply in_map_iff in I as [[x y] [Q I]]. cbn in Q. subst y.
      destruct (ident_dec x) as [[l K]|K]; [apply (H6 _ _ I)| |].
      - assert (l = k) by (eapply S2; [exact (H7 _ _ _ I K)|exact E]). subst l.
        apply N. rewrite (ident_one _ _ _ A K). apply (in_map fst) in I. exact I.
      - destruct (H8 _ _ I K) as [_ H]. exact (H _ E). }
    constructor; auto.
    + rewrite map_app. apply NoDup_snoc; assumption.
    + rewrite map_app. apply NoDup_snoc; assumption.
    + split; assumption.
    + intros x y I. apply in_app_or in I as [I|[I|[]]]; [exact (H6 _ _ I)|]. injection I as <- <-. split; [exact L|exact (nth_lt _ _ _ D)].
    + intros x y l I K. apply in_app_or in I as [I|[I|[]]]; [exact (H7 _ _ _ I K)|]. injection I as <- <-.
      rewrite (ident_fun _ _ _ K A). exact E.
    + intros x y I K. apply in_app_or in I as [I|[I|[]]]; [exact (H8 _ _ I K)|]. injection I as <- <-. exfalso. exact (K _ A).
    + intros x Q I. apply H9; [exact Q|]. intros J. apply I. rewrite map_app. apply in_or_app. auto.
  - cbn. exists (mkproc (heap r ++ [Inst (class_of k) []]) ((k, length (heap r)) :: table r)), (length (heap r)), [].
    split; [reflexivity|]. split; [|split; [apply kept_alloc|apply nth_last]].
    assert (R : forall l, reg (mkproc (heap r ++ [Inst (class_of k) []]) ((k, length (heap r)) :: table r)) l =
                  if keqb l k then Some (length (heap r)) else reg r l) by reflexivity.
    assert (Lb : forall l, reg r l <> Some (length (heap r))).
    { intros l F. destruct (S1 _ _ F) as [d D]. apply nth_lt in D. lia. }
    constructor.
    + rewrite map_app. apply NoDup_snoc; assumption.
    + rewrite map_app. apply NoDup_snoc; [assumption|]. intros I. apply in_map_iff in I as [[x y] [F I]]. cbn in F. subst y.
      destruct (H6 _ _ I). lia.
    + split.
      * intros l b. rewrite R. destruct (keqb l k) eqn:F; intros G.
        -- apply keqb_eq in F. subst l. injection G as <-. exists []. apply nth_last.
        -- destruct (S1 _ _ G) as [d D]. exists d. apply nth_snoc, D.
      * intros l1 l2 b. rewrite !R. destruct (keqb l1 k) eqn:F, (keqb l2 k) eqn:G; intros X Y.
        -- apply keqb_eq in F. apply keqb_eq in G. congruence.
        -- exfalso. injection X as <-. exact (Lb _ Y).
        -- exfalso. injection Y as <-. exact (Lb _ X).
        -- exact (S2 _ _ _ X Y).
    + cbn. rewrite app_length. cbn. lia.
    + intros l b F. rewrite R. apply H5 in F. destruct (keqb l k) eqn:G; [|exact F]. apply keqb_eq in G. subst l. congruence.
    + intros x y I. cbn. rewrite app_length. cbn. apply in_app_or in I as [I|[I|[]]]; [destruct (H6 _ _ I); lia|]. injection I as <- <-. lia.
    + intros x y l I K. rewrite R. apply in_app_or in I as [I|[I|[]]].
      * pose proof (H7 _ _ _ I K) as F. destruct (keqb l k) eqn:G; [|exact F]. apply keqb_eq in G. subst l. congruence.
      * injection I as <- <-. rewrite (ident_fun _ _ _ K A). assert (F : keqb k k = true) by (apply keqb_eq; reflexivity). rewrite F. reflexivity.
    + intros x y I K. apply in_app_or in I as [I|[I|[]]].
      * destruct (H8 _ _ I K) as [F G]. split; [exact F|]. intros l. rewrite R. destruct (keqb l k); [|apply G].
        intros X. injection X as <-. destruct (H6 _ _ I). lia.
      * injection I as <- <-. exfalso. exact (K _ A).
    + intros b Q I. cbn. rewrite nth_error_app1 by lia. apply H9; [exact Q|]. intros J. apply I. rewrite map_app. apply in_or_app. auto.
Qed.
Lemma anon_plain a o : nth_error (heap p) a = Some o -> reg p KEmpty <> Some a ->
  match o with Inst (Sym | Gsym | Single _) _ => False | _ => True end -> anonymous a.
Proof.
  intros E Q H [n|u|c|]; cbn.
  - intros [d [D _]]. rewrite E in D. injection D as ->. exact H.
  - intros [d [D _]]. rewrite E in D. injection D as ->. exact H.
  - intros [d D]. rewrite E in D. injection D as ->. exact H.
  - exact Q.
Qed.
Lemma not_empty a o : nth_error (heap p) a = Some o -> match o with Inst Fdict _ => False | _ => True end -> reg p KEmpty <> Some a.
Proof. intros E H F. destruct Gp as [_ [G _]]. destruct (G _ F) as [d D]. rewrite E in D. injection D as ->. exact H. Qed.
Lemma create_ok m r a o : Inv m r -> nth_error (heap p) a = Some o -> supported o -> ~ In a (map fst m) ->
  exists h r' b o1, header p a o = Ok h /\ create r h = Ok (r', b) /\ Inv (m ++ [(a, b)]) r' /\ kept r r' [] /\
    nth_error (heap r') b = Some o1 /\ started a o o1 /\
    match o, h with Inst c d, HInst c' _ ns => c = c' /\ ns = map fst d | Lst _, HList | Dct _, HDict => True | _, _ => False end.
Proof.
  intros H E S' N. pose proof (wf _ _ E) as W. pose proof (nth_lt _ _ _ E) as L.
  assert (Al : forall o1, anonymous a -> let r' := mkproc (heap r ++ [o1]) (table r) in
    Inv (m ++ [(a, length (heap r))]) r' /\ kept r r' [] /\ nth_error (heap r') (length (heap r)) = Some o1).
  { intros o1 A. split; [apply Inv_alloc; assumption|]. split; [apply kept_alloc|apply nth_last]. }
  destruct o as [c d|l|l].
  - assert (Id : forall k, has_identity p a k -> class_of k = c -> c <> Env ->
      exists r' b o1, intern r k (class_of k) = (r', b) /\ Inv (m ++ [(a, b)]) r' /\ kept r r' [] /\
        nth_error (heap r') b = Some o1 /\ started a (Inst c d) o1).
    { intros k K C NE. destruct (Inv_intern m r a k H L N K) as [r' [b [d' [I1 [I2 [I3 I4]]]]]].
      exists r', b, (Inst (class_of k) d'). repeat (split; [assumption|]). cbn. split; [auto|].
      destruct c; try congruence; intros A; exfalso; exact (A _ K). }
    destruct c as [c| | | | |c| |]; cbn in S'; try contradiction.
    + assert (A : anonymous a) by (eapply anon_plain; [exact E|eapply not_empty; [exact E|exact I]|exact I]).
      destruct (Al (Inst (Plain c) []) A) as [A1 [A2 A3]].
      do 4 eexists. split; [reflexivity|]. split; [reflexivity|]. split; [exact A1|]. split; [exact A2|]. split; [exact A3|].
      split; [cbn; auto|auto].
    + cbn [header getnewargs]. destruct (reg p KEmpty) as [e|] eqn:F.
      * destruct (Nat.eqb_spec a e) as [->|D].
        -- destruct (Id KEmpty F eq_refl ltac:(discriminate)) as [r' [b [o1 [I1 [I2 [I3 [I4 I5]]]]]]].
           exists (HInst Fdict [] (map fst d)), r', b, o1. split; [reflexivity|]. cbn [create new]. cbn [class_of] in I1. rewrite I1. auto 7.
        -- assert (A : anonymous a) by (eapply anon_plain; [exact E|congruence|exact I]).
           destruct (Al (Inst Fdict []) A) as [A1 [A2 A3]].
           do 4 eexists. split; [reflexivity|]. split; [reflexivity|]. split; [exact A1|]. split; [exact A2|]. split; [exact A3|].
           split; [cbn; auto|auto].
      * assert (A : anonymous a) by (eapply anon_plain; [exact E|congruence|exact I]).
        destruct (Al (Inst Fdict []) A) as [A1 [A2 A3]].
        do 4 eexists. split; [reflexivity|]. split; [reflexivity|]. split; [exact A1|]. split; [exact A2|]. split; [exact A3|].
        split; [cbn; auto|auto].
    + assert (A : anonymous a) by (eapply anon_plain; [exact E|eapply not_empty; [exact E|exact I]|exact I]).
      set (r1 := mkproc (heap r ++ [Dct []]) (table r)).
      pose proof (Inv_alloc m r1 a (Inst Env [("_env", Ref (length (heap r))); ("_finalized", Num 0)]) (Inv_extra _ _ _ H) L N A) as A1.
      do 4 eexists. split; [reflexivity|]. split; [reflexivity|]. split; [exact A1|]. split.
      { intros x ox X _. cbn. apply nth_snoc, nth_snoc, X. }
      split; [apply nth_last|]. split; [cbn; eauto|auto].
    + destruct W as [_ [_ [n [W _]]]]. assert (K : has_identity p a (KSym n)) by (cbn; eauto).
      destruct (Id _ K eq_refl ltac:(discriminate)) as [r' [b [o1 [I1 [I2 [I3 [I4 I5]]]]]]].
      exists (HInst Sym [n] (map fst d)), r', b, o1. cbn [header getnewargs]. rewrite W. split; [reflexivity|]. cbn [create new].
      cbn [class_of] in I1. rewrite I1. auto 7.
    + destruct W as [_ [_ [u [l [W [W' _]]]]]]. assert (K : has_identity p a (KGsym u)) by (cbn; eauto).
      destruct (Id _ K eq_refl ltac:(discriminate)) as [r' [b [o1 [I1 [I2 [I3 [I4 I5]]]]]]].
      exists (HInst Gsym [u; l] (map fst d)), r', b, o1. cbn [header getnewargs]. rewrite W, W'. split; [reflexivity|]. cbn [create new].
      cbn [class_of] in I1. rewrite I1. auto 7.
    + assert (K : has_identity p a (KSingle c)) by (cbn; eauto).
      destruct (Id _ K eq_refl ltac:(discriminate)) as [r' [b [o1 [I1 [I2 [I3 [I4 I5]]]]]]].
      exists (HInst (Single c) [] (map fst d)), r', b, o1. split; [reflexivity|]. cbn [create new].
      cbn [class_of] in I1. rewrite I1. auto 7.
  - assert (A : anonymous a) by (eapply anon_plain; [exact E|eapply not_empty; [exact E|exact I]|exact I]).
    destruct (Al (Lst []) A) as [A1 [A2 A3]].
    do 4 eexists. split; [reflexivity|]. split; [reflexivity|]. split; [exact A1|]. split; [exact A2|]. split; [exact A3|].
    split; exact I.
  - assert (A : anonymous a) by (eapply anon_plain; [exact E|eapply not_empty; [exact E|exact I]|exact I]).
    destruct (Al (Dct []) A) as [A1 [A2 A3]].
    do 4 eexists. split; [reflexivity|]. split; [reflexivity|]. split; [exact A1|]. split; [exact A2|]. split; [exact A3|].
    split; exact I.
Qed.

(** *** filling *)
Lemma Forall2_combine m (d : list (string * value)) vs : Forall2 (vrel m) (map snd d) vs ->
  map fst (combine (map fst d) vs) = map fst d /\
  (forall n v, get d n = Some v -> exists w, get (combine (map fst d) vs) n = Some w /\ vrel m v w) /\
  (forall n, get d n = None -> get (combine (map fst d) vs) n = None).
Proof.
  revert vs. induction d as [|[n v] d IH]; cbn; intros vs H; inversion H; subst.
  - cbn. repeat split; intros; congruence.
  - destruct (IH _ H4) as [A [B C]]. cbn. split; [rewrite A; reflexivity|]. split.
    + intros x u. destruct (String.eqb x n); intros F; [injection F as <-; eauto|auto].
    + intros x. destruct (String.eqb x n); [discriminate|auto].
Qed.
Lemma hashable_copy m r k k' : Inv m r -> simple_key p k -> vrel m k k' -> hashable r k' = true.
Proof.
  intros H S' V. destruct k as [z|s|a], k' as [z'|s'|b]; cbn in V; try contradiction; try reflexivity.
  destruct S' as [c [d [E C]]].
  assert (K : exists k, has_identity p a k /\ class_of k = c).
  { pose proof (wf _ _ E) as [_ [_ W]]. destruct c; try contradiction.
    - destruct W as [n [W _]]. exists (KSym n). split; [cbn; eauto|reflexivity].
    - destruct W as [u [l [W _]]]. exists (KGsym u). split; [cbn; eauto|reflexivity].
    - exists (KSingle c). split; [cbn; eauto|reflexivity]. }
  destruct K as [k [K <-]]. pose proof (i_ident _ _ H _ _ _ V K) as R. destruct (i_sound _ _ H) as [S1 _].
  destruct (S1 _ _ R) as [d' D]. cbn. rewrite D. destruct (class_of k); try contradiction; reflexivity.
Qed.
Lemma Inv_write m r b o1 o2 : Inv m r -> In b (map snd m) -> nth_error (heap r) b = Some o1 ->
  match o1, o2 with Inst c _, Inst c' _ => c = c' | Lst _, Lst _ | Dct _, Dct _ => True | _, _ => False end ->
  Inv m (write r b o2).
Proof.
  intros [H1 H2 [S1 S2] H4 H5 H6 H7 H8 H9] I E C. pose proof (nth_lt _ _ _ E) as L.
  constructor; auto.
  - split; [|exact S2]. intros k a F. destruct (S1 _ _ F) as [d D]. cbn. rewrite nth_upd by exact L.
    destruct (Nat.eqb_spec b a) as [->|N]; [|eauto]. rewrite E in D. injection D as ->. destruct o2; try contradiction. subst. eauto.
  - cbn. rewrite upd_len. exact H4.
  - intros x y J. cbn. rewrite upd_len. exact (H6 _ _ J).
  - intros x Q J. cbn. rewrite nth_upd by exact L. destruct (Nat.eqb_spec b x) as [->|N]; [contradiction|]. apply H9; assumption.
Qed.
Lemma fill_ok m r a b o o1 h vs : Inv m r -> In (a, b) m -> nth_error (heap p) a = Some o -> supported o ->
  nth_error (heap r) b = Some o1 -> started a o o1 ->
  match o, h with Inst c d, HInst c' _ ns => c = c' /\ ns = map fst d | Lst _, HList | Dct _, HDict => True | _, _ => False end ->
  Forall2 (vrel m) (children o) vs ->
  exists r', fill r b h vs = Ok r' /\ Inv m r' /\ kept r r' [b] /\ copy_of m r' a b.
Proof.
  intros H I E Su E1 St Hh F. pose proof (wf _ _ E) as W. pose proof (nth_lt _ _ _ E1) as L.
  assert (Ib : In b (map snd m)) by (apply (in_map snd) in I; exact I).
  assert (K : forall o2, kept r (write r b o2) [b]).
  { intros o2 x y X N. cbn. rewrite nth_upd by exact L. destruct (Nat.eqb_spec b x) as [->|D]; [exfalso; apply N; cbn; auto|exact X]. }
  assert (Fin : forall o2, match o1, o2 with Inst c _, Inst c' _ => c = c' | Lst _, Lst _ | Dct _, Dct _ => True | _, _ => False end ->
    orel m o o2 -> (anonymous a -> no_more o o2) ->
    exists r', Ok (write r b o2) = Ok r' /\ Inv m r' /\ kept r r' [b] /\ copy_of m r' a b).
  { intros o2 C O Nm. exists (write r b o2). split; [reflexivity|]. split; [eapply Inv_write; eassumption|]. split; [apply K|].
    exists o, o2. split; [exact E|]. split; [cbn; rewrite nth_upd, Nat.eqb_refl by exact L; reflexivity|]. split; assumption. }
  destruct o as [c d|l|l], h as [c2 args ns| |]; try contradiction.
  - destruct Hh as [<- ->]. destruct o1 as [c1 d1| |]; try contradiction. destruct St as [<- St]. unfold fill. rewrite E1.
    destruct W as [_ [Nd W]]. destruct (Forall2_combine m d vs F) as [B1 [B2 B3]].
    assert (Pr : probe c d1 = Ok tt).
    { destruct c; try reflexivity; [|contradiction]. destruct St as [x ->]. reflexivity. }
    rewrite Pr. cbn [obind]. apply Fin; [reflexivity| |].
    + cbn. split; [reflexivity|]. intros n v G. destruct (B2 n v G) as [w [X Y]]. exists w. split; [|exact Y].
      fold (puts d1 (combine (map fst d) vs)). rewrite get_puts by (rewrite B1; exact Nd). rewrite X. reflexivity.
    + intros A. cbn. intros n G. fold (puts d1 (combine (map fst d) vs)). rewrite get_puts by (rewrite B1; exact Nd).
      rewrite (B3 _ G). destruct c; try (rewrite (St A); reflexivity).
      destruct St as [x ->]. cbn. destruct (String.eqb_spec n "_env") as [->|N1]; [exfalso; assert (Q : get d "_env" <> None) by (apply W; auto); contradiction|].
      destruct (String.eqb_spec n "_finalized") as [->|N2]; [exfalso; assert (Q : get d "_finalized" <> None) by (apply W; auto); contradiction|reflexivity].
  - destruct o1 as [|l1|]; try contradiction. destruct l1; try contradiction. unfold fill. rewrite E1. cbn [app].
    apply Fin; [exact Logic.I|exact F|intros _; exact Logic.I].
  - destruct o1 as [| |l1]; try contradiction. destruct l1; try contradiction. unfold fill. rewrite E1.
    destruct (Forall2_flat _ _ _ F) as [l' [-> G]]. rewrite pairs_flat. destruct W as [_ [Nd W]].
    assert (Hs : forallb (fun q0 => hashable r (fst q0)) l' = true).
    { apply forallb_forall. intros [k' v'] J. cbn. clear - H G W J Gp. induction G as [|[k v] y l l' [G1 G2] G IH]; [contradiction|].
      destruct J as [->|J]; [|apply IH; [intros k0 v0 X; apply (W k0 v0); right; exact X|exact J]].
      cbn in G1. eapply hashable_copy; [exact H| |exact G1]. apply (W k v). left. reflexivity. }
    rewrite Hs. fold (dputs [] l'). rewrite dputs_new by (cbn; eapply keys_nodup; [apply (i_snd _ _ H)|exact G|exact Nd]). cbn [app].
    apply Fin; [exact Logic.I|exact G|intros _; exact Logic.I].
Qed.

(** *** the simulation *)
Definition all_supported (v : value) : Prop := forall a o, reach p v a -> nth_error (heap p) a = Some o -> supported o.
Definition step_ok (m : list (nat * nat)) (r : proc) (M : list nat) (m1 : list (nat * nat)) (r' : proc) : Prop :=
  M = map fst (m ++ m1) /\ Inv (m ++ m1) r' /\ kept r r' (map snd m1) /\ forall a b, In (a, b) m1 -> copy_of (m ++ m1) r' a b.
Lemma nodup_app_not {A} (l l' : list A) x : NoDup (l ++ l') -> In x l -> ~ In x l'.
Proof.
  induction l as [|y l IH]; cbn; intros N H; [contradiction|]. inversion N; subst. destruct H as [->|H]; [|auto].
  intros J. apply H2. apply in_or_app. auto.
Qed.
Lemma in_map_snd {A B} (m : list (A * B)) a b : In (a, b) m -> In b (map snd m).
Proof. intros H. apply (in_map snd) in H. exact H. Qed.
Lemma load_saves n
  (IH : forall v m r M t, Inv m r -> all_supported v -> save n p (map fst m) v = Ok (M, t) ->
    exists m1 r' w, step_ok m r M m1 r' /\ load (r, map snd m) t = Ok ((r', map snd (m ++ m1)), w) /\ vrel (m ++ m1) v w) :
  forall vs m r M ts, Inv m r -> (forall v, In v vs -> all_supported v) -> mapm (save n p) (map fst m) vs = Ok (M, ts) ->
    exists m1 r' ws, step_ok m r M m1 r' /\ mapm load (r, map snd m) ts = Ok ((r', map snd (m ++ m1)), ws) /\
      Forall2 (vrel (m ++ m1)) vs ws.
Proof.
  induction vs as [|v vs IHv]; intros m r M ts H S' E; cbn in E.
  - injection E as <- <-. exists [], r, []. unfold step_ok. rewrite app_nil_r. split; [|split; [reflexivity|constructor]].
    split; [reflexivity|]. split; [exact H|]. split; [intros b o X _; exact X|intros a b []].
  - destruct (save n p (map fst m) v) as [[M1 t]|e] eqn:E1; [|discriminate]. cbn [obind fst snd] in E.
    destruct (mapm (save n p) M1 vs) as [[M2 ts2]|e] eqn:E2; [|discriminate]. cbn [obind fst snd] in E. injection E as <- <-.
    destruct (IH v m r M1 t H (S' v (or_introl eq_refl)) E1) as [m1 [r1 [w [[A1 [A2 [A3 A4]]] [A5 A6]]]]]. subst M1.
    destruct (IHv (m ++ m1) r1 M2 ts2 A2 (fun x X => S' x (or_intror X)) E2) as [m2 [r2 [ws [[B1 [B2 [B3 B4]]] [B5 B6]]]]].
    exists (m1 ++ m2), r2, (w :: ws). rewrite app_assoc. unfold step_ok. rewrite app_assoc. split; [|split].
    + split; [exact B1|]. split; [exact B2|]. rewrite map_app. split; [eapply kept_trans; eassumption|].
      intros a b J. apply in_app_or in J as [J|J]; [|exact (B4 _ _ J)].
      eapply copy_mono; [exact (A4 _ _ J)|exact B3|]. pose proof (i_snd _ _ B2) as N. rewrite map_app in N.
      eapply nodup_app_not; [exact N|]. rewrite map_app. apply in_or_app. right. exact (in_map_snd _ _ _ J).
    + cbn. rewrite A5. cbn [obind fst snd]. rewrite B5. reflexivity.
    + constructor; [|exact B6]. apply vrel_mono, A6.
Qed.
Lemma load_save n : forall v m r M t, Inv m r -> all_supported v -> save n p (map fst m) v = Ok (M, t) ->
  exists m1 r' w, step_ok m r M m1 r' /\ load (r, map snd m) t = Ok ((r', map snd (m ++ m1)), w) /\ vrel (m ++ m1) v w.
Proof.
  induction n as [|n IH]; intros v m r M t H S' E; [discriminate|]. cbn in E.
  assert (Triv : forall w t, load (r, map snd m) t = Ok ((r, map snd m), w) -> vrel m v w -> M = map fst m ->
    exists m1 r' w, step_ok m r M m1 r' /\ load (r, map snd m) t = Ok ((r', map snd (m ++ m1)), w) /\ vrel (m ++ m1) v w).
  { intros w t0 A B C. exists [], r, w. unfold step_ok. rewrite app_nil_r. split; [|split; assumption].
    split; [exact C|]. split; [exact H|]. split; [intros b o X _; exact X|intros a b []]. }
  destruct v as [z|s|a].
  - injection E as <- <-. eapply Triv; reflexivity.
  - injection E as <- <-. eapply Triv; reflexivity.
  - destruct (index a (map fst m)) as [i|] eqn:Ix.
    + injection E as <- <-. apply index_some in Ix. rewrite nth_error_map in Ix. destruct (nth_error m i) as [[x b]|] eqn:Nx; [|discriminate].
      injection Ix as ->. apply (Triv (Ref b)); [|exact (nth_error_In _ _ Nx)|reflexivity]. cbn. rewrite nth_error_map, Nx. reflexivity.
    + apply index_none in Ix. destruct (nth_error (heap p) a) as [o|] eqn:Eo; [|discriminate].
      assert (Su : supported o) by (eapply S'; [apply reach_here|exact Eo]).
      destruct (create_ok m r a o H Eo Su Ix) as [h [r1 [b [o1 [C1 [C2 [C3 [C4 [C5 [C6 C7]]]]]]]]]].
      rewrite C1 in E. cbn [obind] in E.
      destruct (mapm (save n p) (map fst m ++ [a]) (children o)) as [[M1 ts]|e] eqn:E2; [|discriminate]. cbn [obind fst snd] in E.
      injection E as <- <-.
      change (map fst m ++ [a]) with (map fst m ++ map fst [(a, b)]) in E2. rewrite <- map_app in E2.
      destruct (load_saves n IH (children o) (m ++ [(a, b)]) r1 M1 ts C3) as [m1 [r2 [ws [[A1 [A2 [A3 A4]]] [A5 A6]]]]]; [|exact E2|].
      { intros v J x ox R X. eapply S'; [|exact X]. eapply reach_in; eassumption. }
      set (m' := (m ++ [(a, b)]) ++ m1) in *.
      assert (Iab : In (a, b) m') by (apply in_or_app; left; apply in_or_app; right; left; reflexivity).
      assert (Nb : ~ In b (map snd m1)).
      { pose proof (i_snd _ _ A2) as N. unfold m' in N. rewrite map_app in N. eapply nodup_app_not; [exact N|].
        rewrite map_app. apply in_or_app. right. left. reflexivity. }
      assert (E3 : nth_error (heap r2) b = Some o1) by (apply A3; assumption).
      destruct (fill_ok m' r2 a b o o1 h ws A2 Iab Eo Su E3 C6 C7 A6) as [r3 [F1 [F2 [F3 F4]]]].
      exists ((a, b) :: m1), r3, (Ref b). assert (Q : m ++ (a, b) :: m1 = m') by (unfold m'; rewrite <- app_assoc; reflexivity).
      unfold step_ok. rewrite Q. split; [|split].
      * split; [exact A1|]. split; [exact F2|]. split.
        -- intros x ox X N. cbn in N. apply F3; [|cbn; tauto]. apply A3; [|tauto]. apply C4; [exact X|cbn; tauto].
        -- intros x y [J|J]; [injection J as <- <-; exact F4|]. rewrite <- (app_nil_r m'). eapply copy_mono; [exact (A4 _ _ J)|exact F3|].
           intros [<-|[]]. apply Nb. exact (in_map_snd _ _ _ J).
      * cbn [load fst snd]. rewrite C2. cbn [obind fst snd]. change (map snd m ++ [b]) with (map snd m ++ map snd [(a, b)]).
        rewrite <- map_app. rewrite A5. cbn [obind fst snd]. rewrite F1. reflexivity.
      * exact Iab.
Qed.

(** ** saving succeeds *)
Lemma children_ok a o v : nth_error (heap p) a = Some o -> In v (children o) -> match v with Ref b => b < length (heap p) | _ => True end.
Proof. intros E J. destruct v; auto. destruct (wf _ _ E) as [W _]. apply W, J. Qed.
Lemma header_ok a o : nth_error (heap p) a = Some o -> supported o -> exists h, header p a o = Ok h.
Proof.
  intros E S'. pose proof (wf _ _ E) as W. destruct o as [c d|l|l]; cbn; eauto.
  destruct c; cbn; eauto; cbn in S'; try contradiction.
  - destruct (reg p KEmpty); [destruct (_ =? _)|]; cbn; eauto.
  - destruct W as [_ [_ [n [W _]]]]. rewrite W. cbn. eauto.
  - destruct W as [_ [_ [u [l [W [W' _]]]]]]. rewrite W, W'. cbn. eauto.
Qed.
Lemma save_ok n : forall v M, NoDup M -> (forall a, In a M -> a < length (heap p)) -> all_supported v ->
  match v with Ref a => a < length (heap p) | _ => True end -> length (heap p) < n + length M ->
  exists M1 t, save n p M v = Ok (M ++ M1, t) /\ NoDup (M ++ M1) /\ (forall a, In a M1 -> a < length (heap p)).
Proof.
  assert (Pig : forall M, NoDup M -> (forall a, In a M -> a < length (heap p)) -> length M <= length (heap p)).
  { intros M N B. rewrite <- (seq_length (length (heap p)) 0). apply NoDup_incl_length; [exact N|]. intros x X. apply in_seq. cbn. split; [lia|auto]. }
  induction n as [|n IH]; intros v M N B S' Rv L.
  { exfalso. pose proof (Pig M N B). lia. }
  cbn [save]. assert (Triv : forall t : term, exists M1 t0, Ok (M, t) = Ok (M ++ M1, t0) /\ NoDup (M ++ M1) /\ (forall a, In a M1 -> a < length (heap p))).
  { intros t. exists [], t. rewrite app_nil_r. split; [reflexivity|]. split; [exact N|intros a []]. }
  destruct v as [z|s|a]; try apply Triv. destruct (index a M) as [i|] eqn:Ix; [apply Triv|]. apply index_none in Ix.
  destruct (nth_error (heap p) a) as [o|] eqn:Eo; [|apply nth_error_None in Eo; lia].
  assert (Su : supported o) by (eapply S'; [apply reach_here|exact Eo]).
  destruct (header_ok a o Eo Su) as [h Hh]. rewrite Hh. cbn [obind].
  assert (Ls : forall vs M0, (forall v, In v vs -> In v (children o)) -> NoDup M0 -> (forall x, In x M0 -> x < length (heap p)) ->
    S (length M) <= length M0 ->
    exists M1 ts, mapm (save n p) M0 vs = Ok (M0 ++ M1, ts) /\ NoDup (M0 ++ M1) /\ (forall x, In x M1 -> x < length (heap p))).
  { induction vs as [|v vs IHv]; intros M0 Hv N0 B0 L0; cbn.
    - exists [], []. rewrite app_nil_r. split; [reflexivity|]. split; [exact N0|intros x []].
    - destruct (IH v M0 N0 B0) as [M1 [t [T1 [T2 T3]]]].
      + intros x ox R X. eapply S'; [|exact X]. eapply reach_in; [exact Eo|apply Hv; left; reflexivity|exact R].
      + eapply children_ok; [exact Eo|apply Hv; left; reflexivity].
      + lia.
      + rewrite T1. cbn [obind fst snd].
        destruct (IHv (M0 ++ M1)) as [M2 [ts [U1 [U2 U3]]]]; auto.
        * intros x X. apply Hv. right. exact X.
        * intros x X. apply in_app_or in X as [X|X]; auto.
        * rewrite app_length. lia.
        * rewrite U1. cbn [obind fst snd]. exists (M1 ++ M2), (t :: ts). rewrite app_assoc. split; [reflexivity|]. split; [exact U2|].
          intros x X. apply in_app_or in X as [X|X]; auto. }
  destruct (Ls (children o) (M ++ [a])) as [M1 [ts [U1 [U2 U3]]]]; auto.
  - apply NoDup_snoc; assumption.
  - intros x X. apply in_app_or in X as [X|[<-|[]]]; auto.
  - rewrite app_length. cbn. lia.
  - rewrite U1. cbn [obind fst snd]. exists (a :: M1), (TNode h ts). rewrite <- app_assoc in *. cbn [app] in *.
    split; [reflexivity|]. split; [exact U2|]. intros x [<-|X]; auto.
Qed.

Lemma Inv_start : Inv [] q.
Proof.
  constructor; cbn; try (constructor; fail); auto; try contradiction.
Qed.
Theorem round_trip n v t : all_supported v -> dumps n p v = Ok t ->
  exists q' w m, loads q t = Ok (q', w) /\ copied p q q' v w m.
Proof.
  intros S' E. unfold dumps in E. destruct (save n p [] v) as [[M t0]|e] eqn:Es; [|discriminate]. cbn in E. injection E as ->.
  destruct (load_save n v [] q M t Inv_start S' Es) as [m [q' [w [[A1 [A2 [A3 A4]]] [A5 A6]]]]]. cbn [app map] in *.
  exists q', w, m. unfold loads. rewrite A5. cbn. split; [reflexivity|]. destruct A2 as [H1 H2 H3 H4 H5 H6 H7 H8 H9]. constructor.
  - exact A6.
  - intros a b a' b' I I'. split; intros ->.
    + clear - H1 I I'. induction m as [|[x y] m IH]; [contradiction|]. cbn in H1. inversion H1; subst.
      destruct I as [I|I], I' as [I'|I']; try congruence; auto.
      * injection I as -> ->. exfalso. apply H2. apply (in_map fst) in I'. exact I'.
      * injection I' as -> ->. exfalso. apply H2. apply (in_map fst) in I. exact I.
    + assert (Q : Ref a = Ref a') by (exact (vrel_inj m (Ref a) (Ref a') (Ref b') H2 I I')). congruence.
  - exact A4.
  - intros a b k I K. pose proof (H7 _ _ _ I K) as R. split; [exact R|]. intros c C. apply H5 in C. congruence.
  - intros a b I K. exact (proj1 (H8 _ _ I K)).
  - exact H9.
  - exact H5.
  - exact H3.
Qed.
End RoundTrip.

Theorem dumps_ok p n v : good p -> all_supported p v -> match v with Ref a => a < length (heap p) | _ => True end ->
  length (heap p) < n -> exists t, dumps n p v = Ok t.
Proof.
  intros G S' R L. destruct (save_ok p G n v [] ltac:(constructor) ltac:(cbn; tauto) S' R ltac:(cbn; lia)) as [M [t [E _]]].
  exists t. unfold dumps. rewrite E. reflexivity.
Qed.
Theorem all_copied p q q' v w m a : good p -> copied p q q' v w m -> reach p v a -> exists b, In (a, b) m.
Proof.
  intros G C R. pose proof (the_value _ _ _ _ _ _ C) as V. revert w C V. enough (Q : forall w, vrel m v w -> (forall a b, In (a, b) m ->
    exists o o', nth_error (heap p) a = Some o /\ nth_error (heap q') b = Some o' /\ orel m o o') -> exists b, In (a, b) m).
  { intros w C V. apply (Q w V). intros x y I. destruct (contents _ _ _ _ _ _ C x y I) as [o [o' [A [B [D _]]]]]. eauto. }
  induction R as [a|a o v b E I R IH]; intros w V C; destruct w as [z|s|y]; try contradiction; cbn in V; [eauto|].
  destruct (C _ _ V) as [o1 [o' [A [B D]]]]. rewrite E in A. injection A as <-.
  assert (X : exists u, vrel m v u).
  { destruct o as [c d|l|l], o' as [c' d'|l'|l']; try contradiction; cbn in D, I.
    - destruct D as [_ D]. apply in_map_iff in I as [[n x] [<- I]]. cbn.
      assert (Gt : get d n = Some x) by (apply in_get; [apply (wf p G _ _ E)|exact I]). destruct (D _ _ Gt) as [u [_ U]]. eauto.
    - clear - D I. induction D as [|x y l l' H D IH]; [contradiction|]. destruct I as [<-|I]; eauto.
    - clear - D I. induction D as [|x y l l' [H H0] D IH]; [contradiction|]. cbn in I. destruct I as [<-|[<-|I]]; eauto. }
  destruct X as [u X]. exact (IH u X C).
Qed.

(** ** interned objects *)
Lemma loaded_ident p q n a k c t : good p -> sound q -> all_supported p (Ref a) -> has_identity p a k -> reg q k = Some c ->
  dumps n p (Ref a) = Ok t -> exists q', loads q t = Ok (q', Ref c) /\ sound q' /\ forall l x, reg q l = Some x -> reg q' l = Some x.
Proof.
  intros G S' Su K R E. destruct (round_trip p q G S' n (Ref a) t Su E) as [q' [w [m [L C]]]].
  pose proof (the_value _ _ _ _ _ _ C) as V. destruct w as [z|s|b]; try contradiction. cbn in V.
  destruct (identity _ _ _ _ _ _ C a b k V K) as [_ D]. rewrite (D _ R) in L. exists q'. split; [exact L|].
  split; [exact (still_sound _ _ _ _ _ _ C)|exact (registered _ _ _ _ _ _ C)].
Qed.
Lemma loaded_twice p q n v t q1 w1 q2 w2 : good p -> sound q -> all_supported p v -> dumps n p v = Ok t ->
  loads q t = Ok (q1, w1) -> loads q1 t = Ok (q2, w2) ->
  match v with
  | Ref a => ((exists k, has_identity p a k) -> w1 = w2) /\ ((forall k, ~ has_identity p a k) -> w1 <> w2)
  | _ => w1 = v /\ w2 = v
  end.
Proof.
  intros G S' Su E L1 L2. destruct (round_trip p q G S' n v t Su E) as [q1' [w1' [m1 [A C1]]]]. rewrite L1 in A. injection A as <- <-.
  destruct (round_trip p q1 G (still_sound _ _ _ _ _ _ C1) n v t Su E) as [q2' [w2' [m2 [B C2]]]]. rewrite L2 in B. injection B as <- <-.
  pose proof (the_value _ _ _ _ _ _ C1) as V1. pose proof (the_value _ _ _ _ _ _ C2) as V2.
  destruct v as [z|s|a], w1 as [z1|s1|b1], w2 as [z2|s2|b2]; cbn in V1, V2; try contradiction; try (split; congruence).
  split.
  - intros [k K]. destruct (identity _ _ _ _ _ _ C1 _ _ _ V1 K) as [R _]. destruct (identity _ _ _ _ _ _ C2 _ _ _ V2 K) as [_ D].
    rewrite (D _ R). reflexivity.
  - intros K Q. injection Q as ->. pose proof (fresh _ _ _ _ _ _ C2 _ _ V2 K) as F.
    destruct (contents _ _ _ _ _ _ C1 _ _ V1) as [o [o' [_ [X _]]]]. apply nth_lt in X. lia.
Qed.

(** ** long linked lists *)
Definition cell (i : nat) : object := Inst (Plain "cons") [("car", Num 0); ("cdr", Ref (S i)); ("_immutable", Num 1)].
Definition long (n : nat) : proc := mkproc (map cell (seq 0 n) ++ [Inst (Single "Nil") []]) [(KSingle "Nil", n)].
Lemma long_cell n i : i < n -> nth_error (heap (long n)) i = Some (cell i).
Proof.
  intros H. cbn. rewrite nth_error_app1 by (rewrite map_length, seq_length; exact H).
  rewrite nth_error_map. rewrite (nth_error_nth' (seq 0 n) 0) by (rewrite seq_length; exact H). rewrite seq_nth by exact H. reflexivity.
Qed.
Lemma long_nil n : nth_error (heap (long n)) n = Some (Inst (Single "Nil") []).
Proof. cbn. pose proof (nth_last (map cell (seq 0 n)) (Inst (Single "Nil") [])) as H. rewrite map_length, seq_length in H. exact H. Qed.
Lemma long_len n : length (heap (long n)) = S n.
Proof. cbn. rewrite app_length, map_length, seq_length. cbn. lia. Qed.
Lemma index_seq j : index j (seq 0 j) = None.
Proof.
  destruct (index j (seq 0 j)) as [i|] eqn:E; [|reflexivity]. apply index_some, nth_error_In in E. apply in_seq in E. lia.
Qed.
Lemma long_deep n k : forall j, j + k <= n -> save k (long n) (seq 0 j) (Ref j) = Raise RuntimeError.
Proof.
  induction k as [|k IH]; intros j H; [reflexivity|]. cbn [save]. rewrite index_seq, long_cell by lia. cbn [header cell getnewargs obind].
  change (seq 0 j ++ [j]) with (seq 0 j ++ [0 + j]). rewrite <- seq_S. specialize (IH (S j) ltac:(lia)).
  assert (H1 : save k (long n) (seq 0 (S j)) (Num 0) = match k with O => Raise RuntimeError | S _ => Ok (seq 0 (S j), TPrim (Num 0)) end) by (destruct k; reflexivity).
  cbn [children map snd cell]. revert IH H1. generalize (save k (long n)) (seq 0 (S j)). intros f M IH H1. cbn. rewrite H1.
  destruct k as [|k]; [reflexivity|]. cbn. rewrite IH. reflexivity.
Qed.
Lemma long_cases n a o : nth_error (heap (long n)) a = Some o -> (a < n /\ o = cell a) \/ (a = n /\ o = Inst (Single "Nil") []).
Proof.
  intros E. pose proof (nth_lt _ _ _ E) as L. rewrite long_len in L. destruct (Nat.eq_dec a n) as [->|D].
  - right. rewrite long_nil in E. injection E as <-. auto.
  - left. rewrite long_cell in E by lia. injection E as <-. split; [lia|reflexivity].
Qed.
Lemma long_good n : good (long n) /\ sound (long n) /\ forall v, all_supported (long n) v.
Proof.
  split; [|split].
  - split; [|split].
    + intros a [x|x|c|]; cbn [has_identity].
      * intros [d [E _]]. destruct (long_cases _ _ _ E) as [[_ C]|[_ C]]; discriminate.
      * intros [d [E _]]. destruct (long_cases _ _ _ E) as [[_ C]|[_ C]]; discriminate.
      * intros [d E]. destruct (long_cases _ _ _ E) as [[_ C]|[-> C]]; [discriminate|]. injection C as -> _. reflexivity.
      * cbn. discriminate.
    + cbn. discriminate.
    + intros a o E. destruct (long_cases _ _ _ E) as [[L ->]|[-> ->]].
      * split; [|split; [|exact I]].
        -- intros b J. rewrite long_len. cbn in J. destruct J as [J|[J|[J|[]]]]; try discriminate. injection J as <-. lia.
        -- cbn. repeat constructor; cbn; intuition discriminate.
      * split; [intros b []|]. split; [constructor|exact I].
  - split.
    + intros [x|x|c|] a; cbn; try discriminate. unfold reg. cbn. destruct (String.eqb_spec c "Nil") as [->|D]; [|discriminate].
      intros J. injection J as <-. exists []. apply long_nil.
    + intros k l a. unfold reg. cbn. destruct (keqb k (KSingle "Nil")) eqn:A, (keqb l (KSingle "Nil")) eqn:B; try discriminate.
      apply keqb_eq in A. apply keqb_eq in B. congruence.
  - intros v a o _ E. destruct (long_cases _ _ _ E) as [[_ ->]|[_ ->]]; exact I.
Qed.
Lemma shim_load n1 n2 v1 v2 q c : loads q (TNode (HInst Shim [] [n1; n2]) [TNode (HInst (Plain c) [] ["x"]) [TPrim v1]; TPrim v2]) = Raise RuntimeError.
Proof.
  unfold loads. cbn. unfold alloc, write, fill. cbn. rewrite nth_last. cbn.
  rewrite nth_upd by (rewrite !app_length; cbn; lia). rewrite app_length. cbn.
  destruct (Nat.eqb_spec (length (heap q) + 1) (length (heap q))) as [E|E]; [lia|].
  rewrite nth_error_app1 by (rewrite app_length; cbn; lia). rewrite nth_last. reflexivity.
Qed.
