From Coq Require Import String Ascii List Bool Arith Lia.
From Verif Require Import Base StoModel StoSpec.
Import ListNotations.
Open Scope string_scope.
Open Scope list_scope.

(** Induction over the nodes of a scope *)
Section Ind.
Variable P : tree -> Prop.
Hypothesis Hn : forall k l, Forall P l -> P (Node k l).
Hypothesis Hs : forall t, (forall k l, t <> Node k l) -> P t.
Fixpoint node_ind (t : tree) : P t.
Proof.
  destruct t as [k l|a o b|f a o b|c bs o b|ts f r]; try (apply Hs; discriminate).
  apply Hn. induction l as [|t l IH]; constructor; [apply node_ind|exact IH].
Defined.
End Ind.

Lemma gather_ok {A} (f : tree -> outcome (list A)) l r : gather f l = Ok r ->
  forall x, In x r <-> exists t a, In t l /\ f t = Ok a /\ In x a.
Proof.
  revert r. induction l as [|t l IH]; cbn [gather]; intros r H x.
  - injection H as <-. split; [intros []|intros (t & a & [] & _)].
  - destruct (f t) as [a|e] eqn:E; [|discriminate]. destruct (gather f l) as [b|e] eqn:G; [|discriminate]. injection H as <-.
    rewrite in_app_iff, (IH b eq_refl x). split.
    + intros [I|(u & c & I & F & J)]; [exists t, a; cbn; auto|exists u, c; cbn; auto].
    + intros (u & c & [->|I] & F & J); [left; congruence|right; eauto].
Qed.
Lemma gather_all {A} (f : tree -> outcome (list A)) l : (forall t, In t l -> exists a, f t = Ok a) -> exists r, gather f l = Ok r.
Proof.
  induction l as [|t l IH]; intros H; cbn [gather]; [eauto|]. destruct (H t (or_introl eq_refl)) as [a ->].
  destruct IH as [r ->]; [intros u I; apply H; now right|]. eauto.
Qed.
Lemma gather_err {A} (f : tree -> outcome (list A)) l e : gather f l = Raise e -> exists t, In t l /\ f t = Raise e.
Proof.
  induction l as [|t l IH]; cbn [gather]; [discriminate|]. destruct (f t) as [a|x] eqn:E.
  - destruct (gather f l); [discriminate|]. intros H. destruct (IH H) as (u & I & F). exists u. cbn. auto.
  - intros H. exists t. cbn. split; [auto|congruence].
Qed.
Lemma gather_fails {A} (f : tree -> outcome (list A)) l t e : In t l -> f t = Raise e -> exists e', gather f l = Raise e'.
Proof.
  induction l as [|u l IH]; intros [].
  - subst u. intros E. cbn. rewrite E. eauto.
  - intros E. cbn [gather]. destruct (f u); [|eauto]. destruct (IH H E) as [e' ->]. eauto.
Qed.

Lemma within_node P k l : within P (Node k l) -> P (Node k l) /\ Forall (within P) l.
Proof. intros H. inversion H; subst; [auto|]. now destruct (H0 k l). Qed.
Lemma within_here P t : within P t -> P t.
Proof. intros H. now inversion H. Qed.
Lemma within_impl (P Q : tree -> Prop) t : (forall t, P t -> Q t) -> within P t -> within Q t.
Proof.
  intros HPQ. induction t as [k l IH|t N] using node_ind; intros H.
  - apply within_node in H as [H F]. constructor; [auto|]. rewrite Forall_forall in *. auto.
  - apply at_scope; [exact N|]. apply HPQ. now apply within_here.
Qed.

Lemma stored_scope t l : (forall k l, t <> Node k l) -> stored t = Ok l ->
  (exists x, l = [Some x] /\ binds x t) \/ l = [].
Proof.
  destruct t as [k m| | | |]; intros N; [now destruct (N k m)|..]; cbn; intros E; injection E as <-; auto.
  - left. exists f. split; [auto|constructor].
  - left. exists c. split; [auto|constructor].
Qed.
Lemma here_sound k l a x : no_dots (Node k l) -> stored_here k = Ok a -> In (Some x) a -> binds x (Node k l).
Proof.
  intros D. destruct k as [[] y|from ns|hs|[y|]|[y|]|r| | | | | |]; cbn; intros E; try discriminate; injection E as <-; intros I; try destruct I as [I|[]]; try contradiction.
  - injection I as ->. constructor.
  - apply in_map_iff in I. destruct I as ([n a] & E & I). cbn in E. injection E as <-. apply (b_import _ from ns (n, a) l); [exact I|].
    destruct a as [a|]; [reflexivity|]. cbn. destruct from; [reflexivity|]. symmetry. exact (D (n, None) I eq_refl).
  - now constructor.
  - injection I as ->. constructor.
  - injection I as ->. constructor.
Qed.
Theorem stored_sound t : forall l x, within no_dots t -> stored t = Ok l -> In (Some x) l -> binds x t.
Proof.
  induction t as [k l IH|t N] using node_ind; intros r x W E I.
  - apply within_node in W as [W F]. cbn in E. destruct (stored_here k) as [a|e] eqn:H; [|discriminate]. destruct (gather stored l) as [b|e] eqn:G; [|discriminate].
    injection E as <-. apply in_app_or in I as [I|I].
    + eapply here_sound; eauto.
    + apply (gather_ok stored l b G) in I. destruct I as (t & c & J & E & I). rewrite Forall_forall in IH, F.
      apply (b_part x _ t); [exact J|]. eapply IH; eauto.
  - destruct (stored_scope t r N E) as [(y & -> & B)| ->]; [|destruct I]. destruct I as [I|[]]. injection I as ->. exact B.
Qed.
Lemma here_complete k l a x : binds x (Node k l) -> no_dots (Node k l) -> stored_here k = Ok a -> In (Some x) a \/ exists u, In u l /\ binds x u.
Proof.
  intros B D E. inversion B; subst; cbn in E; try (injection E as <-; cbn; now auto); try discriminate.
  - injection E as <-. left. apply in_map_iff. exists n. split; [|assumption]. f_equal. destruct n as [n [y|]]; cbn; [reflexivity|].
    destruct from; [reflexivity|]. symmetry. exact (D (n, None) H1 eq_refl).
  - right. eauto.
Qed.
Theorem stored_exact t : ordinary t -> exists l, stored t = Ok l /\ forall x, In (Some x) l <-> binds x t.
Proof.
  intros W. assert (S : exists l, stored t = Ok l /\ forall x, binds x t -> In (Some x) l).
  { revert W. induction t as [k l IH|t N] using node_ind; intros W.
    - apply within_node in W as [(D & P & _) F]. rewrite Forall_forall in IH, F. cbn.
      assert (H : exists a, stored_here k = Ok a) by (destruct k as [[] y| | |[]|[]| | | | | | |]; cbn in *; eauto; contradiction).
      destruct H as [a H]. rewrite H.
      destruct (gather_all stored l) as [b G]; [intros u I; destruct (IH u I (F u I)) as (c & -> & _); eauto|]. rewrite G.
      exists (a ++ b). split; [reflexivity|]. intros x B. apply in_or_app. destruct (here_complete k l a x B D H) as [I|(u & I & B')]; [auto|].
      right. apply (gather_ok stored l b G). destruct (IH u I (F u I)) as (c & E & J). exists u, c. auto.
    - apply within_here in W as (_ & _ & O). destruct t as [k l|a o b|f a o b|c bs o b|ts f r]; cbn in *.
      + now destruct (N k l).
      + exists []. split; [reflexivity|]. intros x B. inversion B; subst. now destruct (O x u H).
      + exists [Some f]. split; [reflexivity|]. intros x B. inversion B; subst; [now left|]. now destruct (O x u H).
      + exists [Some c]. split; [reflexivity|]. intros x B. inversion B; subst; [now left|]. now destruct (O x u H).
      + exists []. split; [reflexivity|]. intros x B. inversion B; subst.
        * destruct H as [<-|[]]. now destruct (proj1 (O x f) eq_refl).
        * match goal with J : In u r |- _ => now destruct (proj2 (O x u) J) end. }
  destruct S as (l & E & C). exists l. split; [exact E|]. intros x. split; [|apply C]. apply stored_sound; [|exact E].
  eapply within_impl; [|exact W]. cbn. tauto.
Qed.
Theorem stored_error t e : stored t = Raise e <-> e = TypeError /\ ~ within no_patterns t.
Proof.
  assert (A : forall t, within no_patterns t -> exists l, stored t = Ok l).
  { clear t. induction t as [k l IH|t N] using node_ind; intros W.
    - apply within_node in W as [P F]. rewrite Forall_forall in IH, F. cbn.
      assert (H : exists a, stored_here k = Ok a) by (destruct k as [[] y| | |[]|[]| | | | | | |]; cbn in *; eauto; contradiction).
      destruct H as [a ->]. destruct (gather_all stored l) as [b ->]; eauto.
    - destruct t; cbn; eauto. now destruct (N k l). }
  assert (B : forall t e, stored t = Raise e -> e = TypeError).
  { clear t e. induction t as [k l IH|t N] using node_ind; intros e E.
    - cbn in E. destruct (stored_here k) as [a|x] eqn:H.
      + destruct (gather stored l) as [b|x] eqn:G; [discriminate|]. injection E as <-. apply gather_err in G. destruct G as (u & I & F).
        rewrite Forall_forall in IH. eapply IH; eauto.
      + injection E as <-. destruct k as [[] y| | |[]|[]| | | | | | |]; cbn in H; congruence.
    - destruct t; try discriminate E. now destruct (N k l). }
  split.
  - intros E. split; [eapply B; eauto|]. intros W. apply A in W. destruct W as [l W]. congruence.
  - intros [-> W]. destruct (stored t) as [l|e] eqn:E; [|f_equal; eapply B; eauto]. exfalso. apply W. clear W. revert l E.
    induction t as [k l IH|t N] using node_ind; intros r E.
    + cbn in E. destruct (stored_here k) as [a|x] eqn:H; [|discriminate]. destruct (gather stored l) as [b|x] eqn:G; [|discriminate].
      constructor; [destruct k as [[] y| | |[]|[]| | | | | | |]; cbn in *; trivial; discriminate|]. rewrite Forall_forall in *. intros u I.
      destruct (stored u) as [c|x] eqn:F; [eapply IH; eauto|]. destruct (gather_fails stored l u x I F) as [y Y]. congruence.
    + apply at_scope; [exact N|]. destruct t as [k l| | | |]; [now destruct (N k l)|exact Logic.I..].
Qed.

Theorem deleted_exact t : within no_handlers t -> forall x, In x (deleted t) <-> deletes x t.
Proof.
  induction t as [k l IH|t N] using node_ind; intros W x.
  - apply within_node in W as [W F]. rewrite Forall_forall in IH, F. cbn [deleted]. rewrite in_app_iff, in_flat_map. split.
    + intros [I|(u & I & J)]; [|apply (d_part x _ u); [exact I|now apply IH; auto]].
      destruct k as [[] y| | | | | | | | | | |]; try contradiction I. destruct I as [->|[]]. constructor.
    + intros D. inversion D; subst; [left; now left|now destruct (W x)|]. right. exists u. split; [assumption|]. apply IH; auto.
  - apply within_here in W. split.
    + destruct t as [k l| | | |]; [now destruct (N k l)|intros []..].
    + intros D. exfalso. destruct t as [k l| | | |]; [now destruct (N k l)|..]; inversion D; subst; now destruct (W x u H).
Qed.
Theorem declared_exact t x : In x (nonlocals t ++ globals t) <-> declares x t.
Proof.
  rewrite in_app_iff. induction t as [k l IH|t N] using node_ind.
  - rewrite Forall_forall in IH. cbn [nonlocals globals]. rewrite !in_app_iff, !in_flat_map. split.
    + intros [[I|(u & I & J)]|[I|(u & I & J)]]; try (apply (g_part x k l u); [exact I|apply IH; auto]); destruct k; try contradiction I; now constructor.
    + intros D. inversion D; subst; [right; auto|left; auto|]. match goal with J : In u l, D' : declares x u |- _ => apply (IH u J) in D'; destruct D'; [left|right]; right; eauto end.
  - split.
    + destruct t as [k l| | | |]; [now destruct (N k l)|cbn; tauto..].
    + intros D. inversion D; subst; now edestruct N.
Qed.
Lemma declared_all b x : In x (flat_map nonlocals b ++ flat_map globals b) <-> exists t, In t b /\ declares x t.
Proof.
  rewrite in_app_iff, !in_flat_map. split.
  - intros [(t & I & J)|(t & I & J)]; exists t; (split; [exact I|]); apply declared_exact, in_or_app; auto.
  - intros (t & I & D). apply declared_exact, in_app_or in D. destruct D; eauto.
Qed.

Section Uniq.
Context {A : Type}.
Variable eqb : A -> A -> bool.
Hypothesis eqb_ok : forall x y, eqb x y = true <-> x = y.
Lemma seen_ok x l : existsb (eqb x) l = true <-> In x l.
Proof. rewrite existsb_exists. split; [intros (y & I & E); apply eqb_ok in E; now subst|]. intros I. exists x. split; [exact I|now apply eqb_ok]. Qed.
Lemma uniq_ok l : forall seen, NoDup (uniqify eqb seen l) /\ forall x, In x (uniqify eqb seen l) <-> In x l /\ ~ In x seen.
Proof.
  induction l as [|y l IH]; intros seen; cbn [uniqify].
  - split; [constructor|]. intros x. cbn. tauto.
  - destruct (existsb (eqb y) seen) eqn:E.
    + apply seen_ok in E. destruct (IH seen) as [N I]. split; [exact N|]. intros x. rewrite I. cbn. split; [tauto|].
      intros [[->|H] H']; [contradiction|auto].
    + assert (Ny : ~ In y seen) by (intros H; apply seen_ok in H; congruence). destruct (IH (y :: seen)) as [N I]. split.
      * constructor; [|exact N]. rewrite I. cbn. tauto.
      * intros x. cbn. rewrite I. cbn. split; [intros [->|[H H']]; auto; tauto|]. intros [[->|H] H']; [auto|].
        destruct (existsb (eqb x) [y]) eqn:E'; [apply seen_ok in E'; destruct E' as [->|[]]; auto|]. right. split; [exact H|].
        intros [->|H'']; [|contradiction]. cbn in E'. rewrite (proj2 (eqb_ok x x) eq_refl) in E'. discriminate.
Qed.
End Uniq.
Lemma oeqb_ok a b : oeqb a b = true <-> a = b.
Proof. destruct a as [x|], b as [y|]; cbn; try (split; congruence). rewrite String.eqb_eq. split; congruence. Qed.
Lemma args_ok a x : In x (extract_args a) <-> parameter x a.
Proof.
  unfold extract_args, parameter, opt. rewrite !in_app_iff.
  assert (O : forall o : option string, In x match o with Some y => [y] | None => [] end <-> o = Some x) by (intros [y|]; cbn; (split; [intros []; subst; auto; contradiction|intros E; injection E; auto]) || (split; [intros []|discriminate])).
  rewrite !O. tauto.
Qed.
Lemma in_some x (l : list string) : In (Some x) (map Some l) <-> In x l.
Proof. rewrite in_map_iff. split; [intros (y & E & I); congruence|eauto]. Qed.

Theorem function_names f a o b : Forall ordinary b -> exists args nonlocs,
  get_lexical_variables (Def f a o b) true = Ok (args, nonlocs) /\ NoDup args /\ NoDup nonlocs /\
  (forall x, In (Some x) args <-> x = f \/ parameter x a \/ exists t, In t b /\ binds x t) /\
  (forall x, In x nonlocs <-> exists t, In t b /\ declares x t).
Proof.
  intros F. rewrite Forall_forall in F. cbn [get_lexical_variables].
  destruct (gather_all stored b) as [l G]; [intros t I; destruct (stored_exact t (F t I)) as (r & -> & _); eauto|]. rewrite G.
  eexists _, _. split; [reflexivity|]. destruct (uniq_ok oeqb oeqb_ok (Some f :: map Some (extract_args a) ++ uniqify oeqb [] l) []) as [N I].
  destruct (uniq_ok String.eqb String.eqb_eq (flat_map nonlocals b ++ flat_map globals b) []) as [N' I'].
  split; [exact N|]. split; [exact N'|]. split.
  - intros x. rewrite I. cbn [In]. rewrite in_app_iff, in_some, args_ok. destruct (uniq_ok oeqb oeqb_ok l []) as [_ I2]. rewrite I2.
    rewrite (gather_ok stored b l G). split.
    + intros [[E|[H|[(t & r & J & E & K) _]]] _]; [left; congruence|auto|]. right. right. exists t. split; [exact J|].
      destruct (stored_exact t (F t J)) as (r' & E' & X). apply X. congruence.
    + intros H. split; [|intros []]. destruct H as [->|[H|(t & J & B)]]; [auto|auto|]. right. right. split; [|intros []].
      destruct (stored_exact t (F t J)) as (r & E & X). exists t, r. split; [exact J|]. split; [exact E|now apply X].
  - intros x. rewrite I', declared_all. split; [intros [H _]; exact H|intros H; split; [exact H|intros []]].
Qed.
Theorem lambda_names a o b c : exists args, get_lexical_variables (Lam a o b) c = Ok (map Some args, []) /\ NoDup args /\
  forall x, In x args <-> parameter x a.
Proof.
  exists (uniqify String.eqb [] (extract_args a)). destruct (uniq_ok String.eqb String.eqb_eq (extract_args a) []) as [N I].
  split; [|split; [exact N|intros x; rewrite I, args_ok; cbn; tauto]]. cbn. do 2 f_equal.
  change (@nil (option string)) with (map (@Some string) []). generalize (extract_args a) (@nil string). clear. intros l.
  induction l as [|x l IH]; intros seen; cbn [map uniqify]; [reflexivity|].
  replace (existsb (oeqb (Some x)) (map Some seen)) with (existsb (String.eqb x) seen).
  2:{ induction seen; cbn; congruence. }
  destruct (existsb (String.eqb x) seen); [apply IH|]. cbn [map]. f_equal. apply (IH (x :: seen)).
Qed.
Lemma target_all t : simple_target t -> forall x, In x (all_names t) <-> binds x t.
Proof.
  induction t as [k l IH|t N] using node_ind; intros S x.
  - rewrite Forall_forall in IH. cbn [all_names]. rewrite in_app_iff, in_flat_map. inversion S; subst.
    + cbn. split; [intros [[->|[]]|(u & [] & _)]; constructor|]. intros B. inversion B; subst; [auto|contradiction].
    + rewrite Forall_forall in H2. split.
      * intros [I|(u & I & J)]; [destruct H1 as [->| ->]; contradiction|]. apply (b_part x _ u); [exact I|]. apply IH; auto.
      * intros B. right. inversion B; subst; try (destruct H1; discriminate). exists u. split; [assumption|]. apply IH; auto.
  - inversion S; subst; now edestruct N.
Qed.
Definition named_or_tuple (t : tree) : Prop := match t with Node (KName Store _) [] | Node KTuple _ => True | _ => False end.
Theorem comp_names ts f r c : Forall (fun t => simple_target t /\ named_or_tuple t) ts -> exists args,
  get_lexical_variables (Comp ts f r) c = Ok (args, []) /\ NoDup args /\
  (forall x, In (Some x) args <-> exists t, In t ts /\ binds x t) /\ ~ In None args.
Proof.
  intros F. rewrite Forall_forall in F. cbn [get_lexical_variables].
  assert (T : forall t, In t ts -> exists a, target_names t = Ok a /\ (forall x, In (Some x) a <-> binds x t) /\ ~ In None a).
  { intros t I. destruct (F t I) as [S N]. destruct t as [k l| | | |]; cbn in N; try contradiction. destruct k as [[] y| | | | | | | | | | |]; try contradiction.
    - destruct l; [|contradiction]. exists [Some y]. split; [reflexivity|]. split; [|intros [H|[]]; discriminate]. intros x. cbn.
      split; [intros [E|[]]; injection E as ->; constructor|]. intros B. inversion B; subst; [auto|contradiction].
    - eexists. split; [reflexivity|]. split; [|intros H; apply in_map_iff in H; destruct H as (y & E & _); discriminate].
      intros x. rewrite in_some. now apply target_all. }
  destruct (gather_all target_names ts) as [l G]; [intros t I; destruct (T t I) as (a & -> & _); eauto|]. rewrite G.
  exists (uniqify oeqb [] l). destruct (uniq_ok oeqb oeqb_ok l []) as [N I]. split; [reflexivity|]. split; [exact N|]. split.
  - intros x. rewrite I, (gather_ok target_names ts l G). split.
    + intros [(t & a & J & E & K) _]. exists t. split; [exact J|]. destruct (T t J) as (a' & E' & X & _). apply X. congruence.
    + intros (t & J & B). split; [|intros []]. destruct (T t J) as (a & E & X & _). exists t, a. split; [exact J|]. split; [exact E|now apply X].
  - rewrite I, (gather_ok target_names ts l G). intros [(t & a & J & E & K) _]. destruct (T t J) as (a' & E' & _ & X). apply X. congruence.
Qed.

(** ** The examples *)
(** nothing bound in an expression *)
Fixpoint quiet (t : tree) : bool :=
  match t with
  | Node k l => match k with KName Load _ | KTuple | KOther => true | _ => false end && forallb quiet l
  | Lam _ o _ => forallb quiet o
  | Comp _ f r => quiet f && forallb quiet r
  | _ => false
  end.
Section Ind2.
Variable P : tree -> Prop.
Hypothesis Hn : forall k l, Forall P l -> P (Node k l).
Hypothesis Hl : forall a o b, Forall P o -> P (Lam a o b).
Hypothesis Hc : forall ts f r, P f -> Forall P r -> P (Comp ts f r).
Hypothesis Hd : forall f a o b, P (Def f a o b).
Hypothesis Hk : forall c bs o b, P (Class c bs o b).
Fixpoint expr_ind (t : tree) : P t.
Proof.
  destruct t as [k l|a o b|f a o b|c bs o b|ts f r].
  - apply Hn. induction l; constructor; [apply expr_ind|assumption].
  - apply Hl. induction o; constructor; [apply expr_ind|assumption].
  - apply Hd.
  - apply Hk.
  - apply Hc; [apply expr_ind|]. induction r; constructor; [apply expr_ind|assumption].
Defined.
End Ind2.
Lemma quiet_walrus t : quiet t = true -> forall x, ~ walrus x t.
Proof.
  induction t as [k l IH|a o b IH|ts f r IHf IHr| |] using expr_ind; cbn [quiet]; intros Q x W; try discriminate.
  - apply andb_prop in Q as [K Q]. rewrite forallb_forall in Q. rewrite Forall_forall in IH. inversion W; subst; [discriminate K|]. eapply IH; eauto.
  - rewrite forallb_forall in Q. rewrite Forall_forall in IH. inversion W; subst. eapply IH; eauto.
  - apply andb_prop in Q as [Q1 Q]. rewrite forallb_forall in Q. rewrite Forall_forall in IHr. inversion W; subst.
    + destruct H as [<-|[]]. now apply (IHf Q1 x).
    + eapply IHr; eauto.
Qed.
Lemma quiet_binds t : quiet t = true -> forall x, ~ binds x t.
Proof.
  induction t as [k l IH|a o b IH|ts f r IHf IHr| |] using expr_ind; cbn [quiet]; intros Q x W; try discriminate.
  - apply andb_prop in Q as [K Q]. rewrite forallb_forall in Q. rewrite Forall_forall in IH. inversion W; subst; try discriminate K. eapply IH; eauto.
  - rewrite forallb_forall in Q. rewrite Forall_forall in IH. inversion W; subst. eapply IH; eauto.
  - apply andb_prop in Q as [Q1 Q]. rewrite forallb_forall in Q. inversion W; subst.
    + destruct H as [<-|[]]. now apply (IHf Q1 x).
    + match goal with I : In ?v r, V : walrus x ?v |- _ => exact (quiet_walrus v (Q v I) x V) end.
Qed.
Fixpoint check (t : tree) : bool :=
  match t with
  | Node k l =>
      match k with
      | KImport false ns => forallb (fun n => match snd n with None => String.eqb (before_dot (fst n)) (fst n) | Some _ => true end) ns
      | KMatchMapping _ | KMatchClass => false
      | _ => true
      end && forallb check l
  | Comp _ f r => quiet f && forallb quiet r
  | t => forallb quiet (parts t)
  end.
Lemma check_ok t : check t = true -> ordinary t.
Proof.
  induction t as [k l IH|t N] using node_ind; cbn [check]; intros C.
  - apply andb_prop in C as [K C]. rewrite forallb_forall in C. rewrite Forall_forall in IH. constructor; [|rewrite Forall_forall; intros u I; apply IH; auto].
    split; [|split; [|exact Logic.I]]; destruct k as [| [] ns| | | | | | | | | |]; cbn in *; trivial; try discriminate K.
    intros n I E. rewrite forallb_forall in K. specialize (K n I). rewrite E in K. now apply String.eqb_eq.
  - apply at_scope; [exact N|]. destruct t as [k l|a o b|f a o b|c bs o b|ts f r]; [now destruct (N k l)|..]; (split; [exact Logic.I|]); (split; [exact Logic.I|]); cbn [no_outer parts check] in *.
    1-3: intros x u I; rewrite forallb_forall in C; apply quiet_binds; auto.
    apply andb_prop in C as [C1 C]. rewrite forallb_forall in C. intros x u. split; [intros ->; now apply quiet_binds|].
    intros I. apply quiet_walrus. auto.
Qed.
Lemma ordinary_check b : forallb check b = true -> Forall ordinary b.
Proof. rewrite forallb_forall, Forall_forall. intros H t I. apply check_ok. auto. Qed.
Lemma import_case : exists t, stored t = Ok [Some "a.b"] /\ binds "a" t /\ ~ binds "a.b" t.
Proof.
  exists (Node (KImport false [("a.b", None)]) []). split; [reflexivity|]. split; [eapply b_import; [now left|reflexivity]|].
  intros B. inversion B; subst; [|contradiction]. destruct H1 as [<-|[]]. discriminate.
Qed.
Lemma handler_case : exists t l, stored t = Ok l /\ In None l.
Proof. exists (Node (KTry [None]) []), [None]. split; [reflexivity|now left]. Qed.
Lemma walrus_case : exists t u, stored t = Ok [] /\ binds "y" t /\ stored u = Ok [Some "f"] /\ binds "y" u.
Proof.
  exists (Comp [Node (KName Store "x") []] (Node (KName Load "xs") []) [Node KWalrus [Node (KName Store "y") []; Node (KName Load "x") []]]),
    (Def "f" (mkargs [] ["x"] None [] None) [Node KWalrus [Node (KName Store "y") []; Node KOther []]] []).
  split; [reflexivity|]. split; [eapply b_comp; [now left|constructor]|]. split; [reflexivity|].
  eapply b_part; [now left|]. eapply b_part; [now left|]. constructor.
Qed.
Lemma match_case : exists t u, stored t = Raise TypeError /\ binds "x" t /\ stored u = Raise TypeError /\ binds "x" u.
Proof.
  exists (Node (KMatchMapping None) [Node KOther []; Node (KMatchAs (Some "x")) []]), (Node KMatchClass [Node (KName Load "C") []; Node (KMatchAs (Some "x")) []]).
  repeat split; (eapply b_part; [right; now left|constructor]).
Qed.
Lemma del_case : exists t, deletes "err" t /\ deleted t = [].
Proof. exists (Node (KTry [Some "err"]) []). split; [constructor; now left|reflexivity]. Qed.
Lemma nonlocal_case : exists f args nonlocs, get_lexical_variables f true = Ok (args, nonlocs) /\ In (Some "x") args /\ In "x" nonlocs.
Proof.
  exists (Def "f" (mkargs [] [] None [] None) [] [Node (KNonlocal ["x"]) []; Node KOther [Node (KName Store "x") []; Node KOther []]]), [Some "f"; Some "x"], ["x"].
  split; [reflexivity|]. split; [right; now left|now left].
Qed.
Lemma target_case : exists t u,
  binds "a" t /\ get_lexical_variables (Comp [t] (Node (KName Load "l") []) [Node (KName Load "a") []]) true = Raise SyntaxError /\
  (forall x, binds x u -> x = "b") /\ get_lexical_variables (Comp [u] (Node (KName Load "l") []) []) true = Ok ([Some "o"; Some "b"], []).
Proof.
  exists (Node KOther [Node (KName Store "a") []; Node (KName Store "b") []]), (Node KTuple [Node KOther [Node (KName Load "o") []]; Node (KName Store "b") []]).
  split; [eapply b_part; [now left|constructor]|]. split; [reflexivity|]. split; [|reflexivity].
  intros x B. inversion B; subst. cbn in H. destruct H as [<-|[<-|[]]].
  - exfalso. revert H0. apply quiet_binds. reflexivity.
  - inversion H0; subst; [reflexivity|contradiction].
Qed.
