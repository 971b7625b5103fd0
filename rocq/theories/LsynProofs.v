(** Proofs about let_syntax. *)
From Coq Require Import String List Bool Arith Lia.
From Verif Require Import Base LsynModel LsynSpec.
Import ListNotations.
Open Scope string_scope.
Open Scope list_scope.
Open Scope nat_scope.

(** ** Induction *)
Section Ind.
Variable P : expr -> Prop.
Hypothesis HN : forall x, P (Name x).
Hypothesis HC : forall g l, P g -> Forall P l -> P (Call g l).
Hypothesis HS : forall g l, P g -> Forall P l -> P (Sub g l).
Hypothesis HK : forall k i l, Forall P l -> P (Node k i l).
Fixpoint expr_rec' (e : expr) : P e :=
  let all := fix all (l : list expr) : Forall P l :=
    match l with [] => Forall_nil _ | e :: l => Forall_cons e (expr_rec' e) (all l) end in
  match e with
  | Name x => HN x
  | Call g l => HC g l (expr_rec' g) (all l)
  | Sub g l => HS g l (expr_rec' g) (all l)
  | Node k i l => HK k i l (all l)
  end.
End Ind.
Section IndS.
Variable P : stmt -> Prop.
Hypothesis HE : forall e, P (SExpr e).
Hypothesis HI : forall k i l, P (SSimple k i l).
Hypothesis HC : forall k i l b o, Forall P b -> Forall P o -> P (SComp k i l b o).
Hypothesis HD : forall m ps x b, Forall P b -> P (SDecl m ps x b).
Fixpoint stmt_rec' (s : stmt) : P s :=
  let all := fix all (l : list stmt) : Forall P l :=
    match l with [] => Forall_nil _ | e :: l => Forall_cons e (stmt_rec' e) (all l) end in
  match s with
  | SExpr e => HE e
  | SSimple k i l => HI k i l
  | SComp k i l b o => HC k i l b o (all b) (all o)
  | SDecl m ps x b => HD m ps x b (all b)
  end.
End IndS.

(** ** [ends] *)
Lemma ends_const {A} (r : res A) : ends (fun _ => r) r.
Proof. exists 0. reflexivity. Qed.
Lemma ends_bind {A B} (m : nat -> res A) (k : nat -> A -> res B) a r :
  ends m (Done a) -> ends (fun n => k n a) r -> ends (fun n => bind (m n) (k n)) r.
Proof.
  intros [N H] [N' H']. exists (N + N'). intros n Hn. rewrite H by lia. cbn. apply H'. lia.
Qed.
Lemma ends_bind_err {A B} (m : nat -> res A) (k : nat -> A -> res B) e :
  ends m (Err e) -> ends (fun n => bind (m n) (k n)) (Err e).
Proof. intros [N H]. exists N. intros n Hn. rewrite H by lia. reflexivity. Qed.
Lemma ends_S {A} (m : nat -> res A) r : ends (fun n => m (S n)) r -> ends m r.
Proof. intros [N H]. exists (S N). intros [|n] Hn; [lia|]. apply H. lia. Qed.
Lemma ends_mapM {A B} (f : nat -> A -> res B) (g : A -> B) l :
  Forall (fun a => ends (fun n => f n a) (Done (g a))) l -> ends (fun n => mapM (f n) l) (Done (map g l)).
Proof.
  induction 1 as [|a l Ha _ IH]; [exists 0; reflexivity|].
  change (ends (fun n => let* b := f n a in let* l0 := mapM (f n) l in Done (b :: l0)) (Done (g a :: map g l))).
  eapply ends_bind; [exact Ha|]. eapply ends_bind; [exact IH|]. apply ends_const.
Qed.
Lemma ends_ext {A} (m m' : nat -> res A) r : (forall n, m n = m' n) -> ends m' r -> ends m r.
Proof. intros E [N H]. exists N. intros n Hn. rewrite E. now apply H. Qed.
Lemma ends_kids (f : nat -> expr -> res expr) (g : expr -> expr) e :
  match e with
  | Name _ => True
  | Call h l | Sub h l => ends (fun n => f n h) (Done (g h)) /\ Forall (fun a => ends (fun n => f n a) (Done (g a))) l
  | Node _ _ l => Forall (fun a => ends (fun n => f n a) (Done (g a))) l
  end ->
  ends (fun n => kids_e (f n) e)
    (Done (match e with
           | Name _ => e
           | Call h l => Call (g h) (map g l)
           | Sub h l => Sub (g h) (map g l)
           | Node k i l => Node k i (map g l)
           end)).
Proof.
  destruct e as [x|h l|h l|k i l]; intros H; cbn [kids_e].
  - apply ends_const.
  - destruct H as [H1 H2]. eapply ends_bind; [exact H1|]. eapply ends_bind; [apply (ends_mapM f g l); assumption|]. apply ends_const.
  - destruct H as [H1 H2]. eapply ends_bind; [exact H1|]. eapply ends_bind; [apply (ends_mapM f g l); assumption|]. apply ends_const.
  - eapply ends_bind; [apply (ends_mapM f g l); assumption|]. apply ends_const.
Qed.
Lemma Forall_ok {A} (P : A -> bool) (Q : A -> Prop) l :
  Forall (fun a => P a = false -> Q a) l -> existsb P l = false -> Forall Q l.
Proof.
  induction 1 as [|a l Ha _ IH]; intros E; [constructor|].
  cbn in E. apply orb_false_iff in E as [E1 E2]. constructor; auto.
Qed.
Lemma map_id' {A} (f : A -> A) l : (forall a, In a l -> f a = a) -> map f l = l.
Proof. induction l as [|a l IH]; intros H; [reflexivity|]. cbn. rewrite H, IH; auto; firstorder. Qed.

(** ** A bare name *)
Lemma splice_none x v e : occurs x e = false -> ends (fun n => splice_name n x v e) (Done e).
Proof.
  induction e as [y|g l IHg IHl|g l IHg IHl|k i l IHl] using expr_rec'; intros Ho; apply ends_S; cbn [splice_name].
  - cbn in Ho. rewrite Ho. apply ends_const.
  - cbn in Ho. apply orb_false_iff in Ho as [O1 O2].
    pose proof (ends_kids (fun n => splice_name n x v) (fun e => e) (Call g l)) as K. cbn in K.
    rewrite map_id in K. apply K. split; [now apply IHg|]. revert O2. now apply Forall_ok.
  - cbn in Ho. apply orb_false_iff in Ho as [O1 O2].
    pose proof (ends_kids (fun n => splice_name n x v) (fun e => e) (Sub g l)) as K. cbn in K.
    rewrite map_id in K. apply K. split; [now apply IHg|]. revert O2. now apply Forall_ok.
  - cbn in Ho.
    pose proof (ends_kids (fun n => splice_name n x v) (fun e => e) (Node k i l)) as K. cbn in K.
    rewrite map_id in K. apply K. revert Ho. now apply Forall_ok.
Qed.
(** the names only *)
Fixpoint subn (x : string) (w e : expr) : expr :=
  match e with
  | Name y => if String.eqb y x then w else e
  | Call g l => Call (subn x w g) (map (subn x w) l)
  | Sub g l => Sub (subn x w g) (map (subn x w) l)
  | Node k i l => Node k i (map (subn x w) l)
  end.
Lemma kids_none x v w : inside x w = false -> ends (fun n => kids_e (splice_name n x v) w) (Done w).
Proof.
  intros Hi. pose proof (ends_kids (fun n => splice_name n x v) (fun e => e) w) as K.
  destruct w as [y|g l|g l|k i l]; cbn in Hi; cbn [kids_e] in *; rewrite ?map_id in K; apply K; auto.
  - apply orb_false_iff in Hi as [O1 O2]. split; [now apply splice_none|].
    clear -O2. induction l; [constructor|]. cbn in O2. apply orb_false_iff in O2 as [? ?].
    constructor; [now apply splice_none|auto].
  - apply orb_false_iff in Hi as [O1 O2]. split; [now apply splice_none|].
    clear -O2. induction l; [constructor|]. cbn in O2. apply orb_false_iff in O2 as [? ?].
    constructor; [now apply splice_none|auto].
  - clear -Hi. induction l; [constructor|]. cbn in Hi. apply orb_false_iff in Hi as [? ?].
    constructor; [now apply splice_none|auto].
Qed.
Lemma splice_some x w e : inside x w = false -> ends (fun n => splice_name n x (VExpr w) e) (Done (subn x w e)).
Proof.
  intros Hi. induction e as [y|g l IHg IHl|g l IHg IHl|k i l IHl] using expr_rec'; apply ends_S; cbn [splice_name subn].
  - destruct (String.eqb y x); [now apply kids_none|apply ends_const].
  - apply (ends_kids (fun n => splice_name n x (VExpr w)) (subn x w) (Call g l)). auto.
  - apply (ends_kids (fun n => splice_name n x (VExpr w)) (subn x w) (Sub g l)). auto.
  - apply (ends_kids (fun n => splice_name n x (VExpr w)) (subn x w) (Node k i l)). auto.
Qed.
Lemma assoc1 {A} x (w : A) y : assoc y [(x, w)] = if String.eqb x y then Some w else None.
Proof. reflexivity. Qed.
Lemma eqb_sym x y : String.eqb x y = String.eqb y x.
Proof. apply String.eqb_sym. Qed.
Lemma ren1 x w i : ren [(x, w)] i = match w with Name y => rename1 x y i | _ => i end.
Proof.
  unfold ren, rename1. rewrite assoc1, (eqb_sym x i). destruct (String.eqb i x); destruct w; reflexivity.
Qed.
Lemma post_subn x w e : post_e x (VExpr w) (subn x w e) = inst [(x, w)] e.
Proof.
  induction e as [y|g l IHg IHl|g l IHg IHl|k i l IHl] using expr_rec'.
  - cbn [subn inst]. rewrite assoc1, (eqb_sym x y). destruct (String.eqb y x) eqn:E.
    + destruct w as [z| | |]; cbn; auto. unfold rename1. destruct (String.eqb z x) eqn:E2; auto.
    + destruct w as [z| | |]; cbn; auto. unfold rename1. now rewrite E.
  - destruct w; cbn [post_e subn inst rename_e] in *; f_equal; auto; rewrite ?map_map; apply map_ext_in;
      intros a Ha; rewrite Forall_forall in IHl; now apply IHl.
  - destruct w; cbn [post_e subn inst rename_e] in *; f_equal; auto; rewrite ?map_map; apply map_ext_in;
      intros a Ha; rewrite Forall_forall in IHl; now apply IHl.
  - assert (E : map (ren [(x, w)]) i = match w with Name y => map (rename1 x y) i | _ => i end).
    { destruct w; try (transitivity (map (fun i => i) i); [|now rewrite map_id]; apply map_ext; intros; now rewrite ren1).
      apply map_ext; intros; now rewrite ren1. }
    cbn [inst]. rewrite E.
    destruct w; cbn [post_e subn rename_e] in *; f_equal; auto; rewrite ?map_map; apply map_ext_in;
      intros a Ha; rewrite Forall_forall in IHl; now apply IHl.
Qed.
Lemma subn_none x w e : occurs x e = false -> subn x w e = e.
Proof.
  induction e as [y|g l IHg IHl|g l IHg IHl|k i l IHl] using expr_rec'; cbn; intros H.
  - now rewrite H.
  - apply orb_false_iff in H as [H1 H2]. f_equal; auto. apply map_id'. intros a Ha.
    pose proof (Forall_ok _ (fun a => subn x w a = a) _ IHl H2) as F. rewrite Forall_forall in F. auto.
  - apply orb_false_iff in H as [H1 H2]. f_equal; auto. apply map_id'. intros a Ha.
    pose proof (Forall_ok _ (fun a => subn x w a = a) _ IHl H2) as F. rewrite Forall_forall in F. auto.
  - f_equal; auto. apply map_id'. intros a Ha.
    pose proof (Forall_ok _ (fun a => subn x w a = a) _ IHl H) as F. rewrite Forall_forall in F. auto.
Qed.
Lemma name_ok x w e : inside x w = false \/ occurs x e = false ->
  ends (fun n => name_e n x (VExpr w) e) (Done (inst [(x, w)] e)).
Proof.
  intros H. unfold name_e. eapply ends_bind with (a := subn x w e); [|rewrite <- post_subn; apply ends_const].
  destruct (inside x w) eqn:Hi; [|now apply splice_some].
  destruct H as [H|H]; [discriminate|]. rewrite subn_none by auto. now apply splice_none.
Qed.

(** ** The other case: it never ends *)
Lemma mapM_out {A B} (f : A -> res B) l a :
  (forall a, In a l -> f a = OutOfFuel \/ exists b, f a = Done b) -> In a l -> f a = OutOfFuel ->
  mapM f l = OutOfFuel.
Proof.
  induction l as [|b l IH]; intros Hok Hin Hf; [destruct Hin|]. cbn.
  destruct (Hok b (or_introl eq_refl)) as [->|[c Hc]]; [reflexivity|]. rewrite Hc. cbn.
  destruct Hin as [->|Hin]; [congruence|]. rewrite IH; auto. firstorder.
Qed.
Definition fine {A} (m : res A) : Prop := m = OutOfFuel \/ exists b, m = Done b.
Lemma mapM_fine {A B} (f : A -> res B) l : (forall a, In a l -> fine (f a)) -> fine (mapM f l).
Proof.
  induction l as [|h l IH]; intros Hok; [right; cbn; eauto|]. cbn.
  destruct (Hok h (or_introl eq_refl)) as [E|[c E]]; rewrite E; [now left|]. cbn.
  destruct IH as [E'|[d E']]; [firstorder|rewrite E'; now left|rewrite E'; right; cbn; eauto].
Qed.
Lemma kids_fine f e : (forall a, fine (f a)) -> fine (kids_e f e).
Proof.
  intros H. destruct e as [x|g l|g l|k i l]; cbn.
  - right; eauto.
  - destruct (H g) as [->|[c ->]]; [now left|]. cbn.
    destruct (mapM_fine f l) as [->|[d ->]]; [auto|now left|right; cbn; eauto].
  - destruct (H g) as [->|[c ->]]; [now left|]. cbn.
    destruct (mapM_fine f l) as [->|[d ->]]; [auto|now left|right; cbn; eauto].
  - destruct (mapM_fine f l) as [->|[d ->]]; [auto|now left|right; cbn; eauto].
Qed.
Lemma splice_fine n x w e : fine (splice_name n x (VExpr w) e).
Proof.
  revert e. induction n as [|n IH]; intros e; [now left|]. cbn [splice_name].
  destruct e as [y|g l|g l|k i l]; try (apply kids_fine; auto).
  destruct (String.eqb y x); [apply kids_fine; auto|right; eauto].
Qed.
Lemma existsb_occ x l : existsb (occurs x) l = true -> exists a, In a l /\ occurs x a = true.
Proof. apply existsb_exists. Qed.
Lemma kids_out n x w e :
  (forall a, occurs x a = true -> splice_name n x (VExpr w) a = OutOfFuel) -> inside x e = true ->
  kids_e (splice_name n x (VExpr w)) e = OutOfFuel.
Proof.
  intros H Hi. destruct e as [y|g l|g l|k i l]; cbn in Hi; [discriminate| | |]; cbn [kids_e].
  - apply orb_true_iff in Hi as [Hi|Hi]; [now rewrite H|].
    apply existsb_exists in Hi as [a [Ha Hi]].
    destruct (splice_fine n x w g) as [->|[c ->]]; [reflexivity|]. cbn.
    rewrite (mapM_out _ l a); auto. intros; apply splice_fine.
  - apply orb_true_iff in Hi as [Hi|Hi]; [now rewrite H|].
    apply existsb_exists in Hi as [a [Ha Hi]].
    destruct (splice_fine n x w g) as [->|[c ->]]; [reflexivity|]. cbn.
    rewrite (mapM_out _ l a); auto. intros; apply splice_fine.
  - apply existsb_exists in Hi as [a [Ha Hi]].
    rewrite (mapM_out _ l a); auto. intros; apply splice_fine.
Qed.
Lemma splice_out x w : inside x w = true ->
  forall n e, occurs x e = true -> splice_name n x (VExpr w) e = OutOfFuel.
Proof.
  intros Hw. induction n as [|n IH]; intros e He; [reflexivity|]. cbn [splice_name].
  destruct e as [y|g l|g l|k i l].
  - cbn in He. rewrite He. now apply kids_out.
  - now apply kids_out.
  - now apply kids_out.
  - now apply kids_out.
Qed.
Lemma name_out x w e n : inside x w = true -> occurs x e = true -> name_e n x (VExpr w) e = OutOfFuel.
Proof. intros H1 H2. unfold name_e. now rewrite splice_out. Qed.

(** ** Statements *)
Lemma ends_visit_b (f : nat -> stmt -> res (list stmt)) (g : stmt -> list stmt) l :
  Forall (fun a => ends (fun n => f n a) (Done (g a))) l -> ends (fun n => visit_b (f n) l) (Done (flat_map g l)).
Proof.
  induction 1 as [|a l Ha _ IH]; [exists 0; reflexivity|].
  change (ends (fun n => let* b := f n a in let* l0 := visit_b (f n) l in Done (b ++ l0)) (Done (g a ++ flat_map g l))).
  eapply ends_bind; [exact Ha|]. eapply ends_bind; [exact IH|]. apply ends_const.
Qed.
Lemma flat_map_one {A B} (f : A -> B) l : flat_map (fun a => [f a]) l = map f l.
Proof. induction l as [|a l IH]; [reflexivity|]. cbn. now rewrite IH. Qed.
Fixpoint subn_s (x : string) (w : expr) (t : stmt) : stmt :=
  match t with
  | SExpr e => SExpr (subn x w e)
  | SSimple k i l => SSimple k i (map (subn x w) l)
  | SComp k i l b o => SComp k i (map (subn x w) l) (map (subn_s x w) b) (map (subn_s x w) o)
  | SDecl m ps n b => SDecl m (option_map (map (subn x w)) ps) (option_map (subn x w) n) (map (subn_s x w) b)
  end.
Lemma ends_optM {A B} (f : nat -> A -> res B) (g : A -> B) o :
  (forall a, ends (fun n => f n a) (Done (g a))) -> ends (fun n => optM (f n) o) (Done (option_map g o)).
Proof.
  intros H. destruct o as [a|]; cbn; [|apply ends_const].
  eapply ends_bind; [apply H|]. apply ends_const.
Qed.
Lemma all_ends {A B} (f : nat -> A -> res B) (g : A -> B) l :
  (forall a, ends (fun n => f n a) (Done (g a))) -> Forall (fun a => ends (fun n => f n a) (Done (g a))) l.
Proof. intros H. induction l; constructor; auto. Qed.
Lemma visit_some x w t : inside x w = false ->
  ends (fun n => visit_s (splice_name n x (VExpr w)) (hit_name x (VExpr w)) t) (Done [subn_s x w t]).
Proof.
  intros Hi. pose proof (fun e => splice_some x w e Hi) as HE.
  pose proof (fun l => ends_mapM (fun n => splice_name n x (VExpr w)) (subn x w) l (all_ends _ _ l HE)) as HL.
  induction t as [e|k i l|k i l b o IHb IHo|m ps y b IHb] using stmt_rec'; cbn [visit_s hit_name subn_s].
  - eapply ends_bind; [apply HE|]. apply ends_const.
  - eapply ends_bind; [apply HL|]. apply ends_const.
  - eapply ends_bind; [apply HL|].
    eapply ends_bind; [apply ends_visit_b; exact IHb|].
    eapply ends_bind; [apply ends_visit_b; exact IHo|].
    rewrite !flat_map_one. apply ends_const.
  - eapply ends_bind; [apply (ends_optM (fun n => mapM (splice_name n x (VExpr w)))); exact HL|].
    eapply ends_bind; [apply ends_optM; exact HE|].
    eapply ends_bind; [apply ends_visit_b; exact IHb|].
    rewrite !flat_map_one. apply ends_const.
Qed.
Lemma map_post x w l : map (post_e x (VExpr w)) (map (subn x w) l) = map (inst [(x, w)]) l.
Proof. rewrite map_map. apply map_ext. intros; apply post_subn. Qed.
Lemma ren_post x w i : map (ren [(x, w)]) i = match w with Name y => map (rename1 x y) i | _ => i end.
Proof.
  destruct w; try (transitivity (map (fun i => i) i); [|now rewrite map_id]; apply map_ext; intros; now rewrite ren1).
  apply map_ext; intros; now rewrite ren1.
Qed.
Lemma post_s_eq x w t :
  post_s x (VExpr w) t =
  match t with
  | SExpr e => SExpr (post_e x (VExpr w) e)
  | SSimple k i l => SSimple k (map (ren [(x, w)]) i) (map (post_e x (VExpr w)) l)
  | SComp k i l b o =>
      SComp k (map (ren [(x, w)]) i) (map (post_e x (VExpr w)) l) (map (post_s x (VExpr w)) b) (map (post_s x (VExpr w)) o)
  | SDecl m ps n b =>
      SDecl m (option_map (map (post_e x (VExpr w))) ps) (option_map (post_e x (VExpr w)) n) (map (post_s x (VExpr w)) b)
  end.
Proof.
  destruct w as [y| | |]; destruct t as [e|k i l|k i l b o|m ps n b];
    rewrite ?ren_post; try reflexivity;
    cbn [post_s post_e]; f_equal; try (symmetry; apply map_id);
    match goal with |- ?o = option_map _ ?o => destruct o; cbn; rewrite ?map_id; reflexivity end.
Qed.
Lemma post_subn_s x w t : post_s x (VExpr w) (subn_s x w t) = inst_s [(x, w)] t.
Proof.
  induction t as [e|k i l|k i l b o IHb IHo|m ps y b IHb] using stmt_rec'; rewrite post_s_eq; cbn [subn_s inst_s].
  - now rewrite post_subn.
  - now rewrite map_post.
  - rewrite map_post. f_equal; rewrite map_map; apply map_ext_in; rewrite Forall_forall in *; auto.
  - f_equal.
    + destruct ps; cbn [option_map]; [|reflexivity]. now rewrite map_post.
    + destruct y; cbn [option_map]; [|reflexivity]. now rewrite post_subn.
    + rewrite map_map. apply map_ext_in. rewrite Forall_forall in *; auto.
Qed.
Lemma name_b_expr x w l : inside x w = false ->
  ends (fun n => name_b n x (VExpr w) l) (Done (map (inst_s [(x, w)]) l)).
Proof.
  intros Hi. unfold name_b.
  eapply ends_bind; [apply ends_visit_b, all_ends; intros; apply visit_some; exact Hi|].
  rewrite flat_map_one, map_map.
  rewrite (map_ext _ _ (post_subn_s x w)). apply ends_const.
Qed.

(** ** Simultaneous substitution *)
Lemma assoc_app {A} x (s t : list (string * A)) :
  assoc x (s ++ t) = match assoc x s with Some a => Some a | None => assoc x t end.
Proof. induction s as [|[y a] s IH]; [reflexivity|]. cbn. destruct (String.eqb y x); auto. Qed.
Lemma assoc_in {A} x (s : list (string * A)) a : assoc x s = Some a -> In (x, a) s.
Proof.
  induction s as [|[y b] s IH]; cbn; [discriminate|]. destruct (String.eqb y x) eqn:E; [|auto].
  apply String.eqb_eq in E as ->. intros [= ->]. now left.
Qed.
Lemma mems_false x l : mems x l = false <-> ~ In x l.
Proof.
  unfold mems. split.
  - intros H Hin. assert (existsb (String.eqb x) l = true); [|congruence].
    apply existsb_exists. exists x. split; [auto|apply String.eqb_refl].
  - intros H. apply not_true_is_false. intros E. apply existsb_exists in E as [y [Hy E]].
    apply String.eqb_eq in E as ->. auto.
Qed.
Lemma existsb_false {A} (p : A -> bool) l a : existsb p l = false -> In a l -> p a = false.
Proof.
  intros H Hin. apply not_true_is_false. intros E. assert (existsb p l = true); [|congruence].
  apply existsb_exists. eauto.
Qed.
Lemma ren_none x w i : mems x i = false -> map (ren [(x, w)]) i = i.
Proof.
  intros H. apply map_id'. intros j Hj. rewrite ren1. unfold rename1.
  assert (E : String.eqb j x = false).
  { apply String.eqb_neq. intros ->. apply mems_false in H. auto. }
  rewrite E. now destruct w.
Qed.
Lemma inst_none x w e : mentions x e = false -> inst [(x, w)] e = e.
Proof.
  induction e as [y|g l IHg IHl|g l IHg IHl|k i l IHl] using expr_rec'; cbn [mentions inst]; intros H.
  - rewrite assoc1, eqb_sym, H. reflexivity.
  - apply orb_false_iff in H as [H1 H2]. f_equal; auto. apply map_id'. intros a Ha.
    rewrite Forall_forall in IHl. apply IHl; auto. eapply existsb_false; eauto.
  - apply orb_false_iff in H as [H1 H2]. f_equal; auto. apply map_id'. intros a Ha.
    rewrite Forall_forall in IHl. apply IHl; auto. eapply existsb_false; eauto.
  - apply orb_false_iff in H as [H1 H2]. rewrite ren_none by auto. f_equal. apply map_id'. intros a Ha.
    rewrite Forall_forall in IHl. apply IHl; auto. eapply existsb_false; eauto.
Qed.
Lemma inst_s_none x w t : mentions_s x t = false -> inst_s [(x, w)] t = t.
Proof.
  assert (L : forall l, existsb (mentions x) l = false -> map (inst [(x, w)]) l = l).
  { intros l H. apply map_id'. intros a Ha. apply inst_none. eapply existsb_false; eauto. }
  induction t as [e|k i l|k i l b o IHb IHo|m ps y b IHb] using stmt_rec'; cbn [mentions_s inst_s]; intros H.
  - now rewrite inst_none.
  - apply orb_false_iff in H as [H1 H2]. now rewrite ren_none, L by auto.
  - rewrite !orb_false_iff in H. destruct H as [[[H1 H2] H3] H4]. rewrite ren_none, L by auto.
    rewrite Forall_forall in IHb, IHo. f_equal; apply map_id'; intros a Ha.
    + apply IHb; [exact Ha|]. exact (existsb_false _ _ _ H3 Ha).
    + apply IHo; [exact Ha|]. exact (existsb_false _ _ _ H4 Ha).
  - rewrite !orb_false_iff in H. destruct H as [[H1 H2] H3]. f_equal.
    + destruct ps; cbn [option_map]; [|reflexivity]. now rewrite L.
    + destruct y; cbn [option_map]; [|reflexivity]. now rewrite inst_none.
    + rewrite Forall_forall in *. apply map_id'. intros a Ha. apply IHb; auto. eapply existsb_false; eauto.
Qed.
(** [x] has nothing to do with what is in [s] *)
Definition apart (x : string) (s : list (string * expr)) : Prop :=
  assoc x s = None /\ forall y w, In (y, w) s -> mentions x w = false.
Lemma ren_app x w s i : apart x s -> ren [(x, w)] (ren s i) = ren (s ++ [(x, w)]) i.
Proof.
  intros [Hx Hs]. unfold ren at 2 3. rewrite assoc_app.
  destruct (assoc i s) as [u|] eqn:E; [|reflexivity].
  assert (Hix : x <> i) by congruence.
  pose proof (Hs _ _ (assoc_in _ _ _ E)) as Hu.
  assert (K : forall j, j <> x -> ren [(x, w)] j = j).
  { intros j Hj. rewrite ren1. unfold rename1. apply String.eqb_neq in Hj. rewrite Hj. now destruct w. }
  destruct u; apply K; try congruence. cbn in Hu. now apply String.eqb_neq.
Qed.
Lemma inst_app x w s e : apart x s -> inst [(x, w)] (inst s e) = inst (s ++ [(x, w)]) e.
Proof.
  intros Ha. induction e as [y|g l IHg IHl|g l IHg IHl|k i l IHl] using expr_rec'; cbn [inst].
  - rewrite assoc_app. destruct (assoc y s) as [u|] eqn:E.
    + apply inst_none. destruct Ha as [_ Hs]. eapply Hs, assoc_in; eauto.
    + reflexivity.
  - f_equal; auto. rewrite map_map. apply map_ext_in. rewrite Forall_forall in IHl; auto.
  - f_equal; auto. rewrite map_map. apply map_ext_in. rewrite Forall_forall in IHl; auto.
  - f_equal; rewrite map_map.
    + apply map_ext. intros; now apply ren_app.
    + apply map_ext_in. rewrite Forall_forall in IHl; auto.
Qed.
Lemma inst_s_app x w s t : apart x s -> inst_s [(x, w)] (inst_s s t) = inst_s (s ++ [(x, w)]) t.
Proof.
  intros Ha.
  assert (L : forall l, map (inst [(x, w)]) (map (inst s) l) = map (inst (s ++ [(x, w)])) l).
  { intros l. rewrite map_map. apply map_ext. intros; now apply inst_app. }
  assert (R : forall i, map (ren [(x, w)]) (map (ren s) i) = map (ren (s ++ [(x, w)])) i).
  { intros l. rewrite map_map. apply map_ext. intros; now apply ren_app. }
  induction t as [e|k i l|k i l b o IHb IHo|m ps y b IHb] using stmt_rec'; cbn [inst_s].
  - now rewrite inst_app.
  - now rewrite R, L.
  - rewrite R, L. f_equal; rewrite map_map; apply map_ext_in; rewrite Forall_forall in *; auto.
  - f_equal.
    + destruct ps; cbn [option_map]; [|reflexivity]. now rewrite L.
    + destruct y; cbn [option_map]; [|reflexivity]. now rewrite inst_app.
    + rewrite map_map. apply map_ext_in. rewrite Forall_forall in *; auto.
Qed.
Lemma name_v_ok x w v : inside x w = false -> ends (fun n => name_v n x w v) (Done (inst_v [(x, w)] v)).
Proof.
  intros Hi. destruct v as [e|b]; cbn [name_v inst_v].
  - eapply ends_bind; [apply name_ok; auto|]. apply ends_const.
  - eapply ends_bind; [apply name_b_expr; auto|]. apply ends_const.
Qed.
Lemma inst_v_app x w s v : apart x s -> inst_v [(x, w)] (inst_v s v) = inst_v (s ++ [(x, w)]) v.
Proof.
  intros Ha. destruct v as [e|b]; cbn [inst_v].
  - now rewrite inst_app.
  - rewrite map_map. f_equal. apply map_ext. intros; now apply inst_s_app.
Qed.
Lemma inst_nil e : inst [] e = e.
Proof.
  induction e as [y|g l IHg IHl|g l IHg IHl|k i l IHl] using expr_rec'; cbn [inst]; auto;
    rewrite ?IHg; f_equal; try (apply map_id'; rewrite Forall_forall in IHl; auto).
Qed.
Lemma inst_s_nil t : inst_s [] t = t.
Proof.
  assert (L : forall l, map (inst []) l = l) by (intros; apply map_id'; intros; apply inst_nil).
  assert (R : forall i, map (ren []) i = i) by (intros; apply map_id'; reflexivity).
  induction t as [e|k i l|k i l b o IHb IHo|m ps y b IHb] using stmt_rec'; cbn [inst_s]; rewrite ?R, ?L, ?inst_nil; auto.
  - f_equal; apply map_id'; rewrite Forall_forall in *; auto.
  - f_equal.
    + destruct ps; cbn [option_map]; [|reflexivity]. now rewrite L.
    + destruct y; cbn [option_map]; [|reflexivity]. now rewrite inst_nil.
    + apply map_id'; rewrite Forall_forall in *; auto.
Qed.
Lemma inst_v_nil v : inst_v [] v = v.
Proof.
  destruct v; cbn; f_equal; [apply inst_nil|]. apply map_id'. intros; apply inst_s_nil.
Qed.
Lemma fill_ok ps : forall args s v,
  noclash ps args -> (forall p, In p ps -> apart p s) ->
  ends (fun n => fill n ps args (inst_v s v)) (Done (inst_v (s ++ combine ps args) v)).
Proof.
  induction ps as [|p ps IH]; intros args s v Hn Hs; cbn [fill combine].
  - rewrite app_nil_r. apply ends_const.
  - destruct args as [|a args]; [rewrite app_nil_r; apply ends_const|].
    cbn in Hn. destruct Hn as [Hi [Hq Hn]].
    eapply ends_bind; [apply name_v_ok; exact Hi|].
    rewrite inst_v_app by (apply Hs; now left).
    replace (s ++ (p, a) :: combine ps args) with ((s ++ [(p, a)]) ++ combine ps args) by (now rewrite <- app_assoc).
    apply IH; [exact Hn|]. intros q Hin. destruct (Hs q (or_intror Hin)) as [A1 A2].
    destruct (Hq q Hin) as [Q1 Q2]. split.
    + rewrite assoc_app, A1, assoc1. destruct (String.eqb p q) eqn:E; [|reflexivity].
      apply String.eqb_eq in E. congruence.
    + intros y w Hyw. apply in_app_iff in Hyw as [Hyw|[Hyw|[]]]; [eauto|]. congruence.
Qed.
Lemma subst_ok ps args v : length args = length ps -> noclash ps args ->
  ends (fun n => subst n ps v args) (Done (inst_v (combine ps args) v)).
Proof.
  intros Hl Hn. unfold subst. rewrite Hl, Nat.eqb_refl. cbn [negb].
  pose proof (fill_ok ps args [] v Hn) as F. rewrite inst_v_nil in F. apply F.
  intros p _. split; [reflexivity|]. intros y w [].
Qed.

(** ** Templates *)
Lemma mentions_occurs x e : mentions x e = false -> occurs x e = false.
Proof.
  assert (L : forall l, Forall (fun e => mentions x e = false -> occurs x e = false) l ->
    existsb (mentions x) l = false -> existsb (occurs x) l = false).
  { intros l. induction 1 as [|a l Ha _ IH]; [auto|]. cbn. rewrite !orb_false_iff. intros [? ?]; auto. }
  induction e as [y|g l IHg IHl|g l IHg IHl|k i l IHl] using expr_rec'; cbn; auto;
    rewrite !orb_false_iff; intros [H1 H2]; auto.
Qed.
Lemma mentions_inside x e : mentions x e = false -> inside x e = false.
Proof. intros H. apply mentions_occurs in H. destruct e; auto. Qed.
Lemma noclash_apart ps : forall args, NoDup ps -> (forall p a, In p ps -> In a args -> mentions p a = false) ->
  noclash ps args.
Proof.
  induction ps as [|p ps IH]; intros args Hd Hm; [exact I|]. destruct args as [|a args]; [exact I|].
  inversion Hd as [|? ? Hp Hd']; subst. cbn. split; [|split].
  - apply mentions_inside, Hm; now left.
  - intros q Hq. split; [apply Hm; [now right|now left]|]. intros ->; auto.
  - apply IH; auto. intros; apply Hm; now right.
Qed.
Lemma assoc_combine {A B} (g : A -> B) y ps : forall l,
  assoc y (combine ps (map g l)) = option_map g (assoc y (combine ps l)).
Proof.
  induction ps as [|p ps IH]; intros l; [reflexivity|]. destruct l as [|a l]; [reflexivity|].
  cbn. destruct (String.eqb p y); auto.
Qed.
Lemma assoc_combine_in {A} y ps (l : list A) a : assoc y (combine ps l) = Some a -> In a l.
Proof. intros H. apply assoc_in in H. now apply in_combine_r in H. Qed.
Lemma assoc_combine_none {A} y ps (l : list A) : ~ In y ps -> assoc y (combine ps l) = None.
Proof.
  intros H. destruct (assoc y (combine ps l)) eqn:E; [|reflexivity].
  apply assoc_in, in_combine_l in E. contradiction.
Qed.
Lemma uses_none f e : (forall l, e <> Sub (Name f) l) -> (forall l, e <> Call (Name f) l) -> uses f e = None.
Proof.
  intros H1 H2. destruct e as [y|g l|g l|k i l]; try reflexivity.
  - destruct g as [z| | |]; try reflexivity. cbn. destruct (String.eqb z f) eqn:E; [|reflexivity].
    apply String.eqb_eq in E as ->. now destruct (H2 l).
  - destruct g as [z| | |]; try reflexivity. cbn. destruct (String.eqb z f) eqn:E; [|reflexivity].
    apply String.eqb_eq in E as ->. now destruct (H1 l).
Qed.
Section Template.
Variable f : string.
Variable ps : list string.
Variable w : expr.
Hypothesis Hw : occurs f w = false.
Hypothesis Hps : NoDup ps.
Hypothesis Hbare : forall p, In p ps -> w <> Name p.

Lemma texp_name e y : (forall z, w <> Name z) -> texp f ps w e = Name y -> e = Name y.
Proof.
  intros Hn.
  assert (I : forall s, inst s w <> Name y).
  { intros s E. destruct w; try discriminate. now apply (Hn x). }
  destruct e as [z|g l|g l|k i l]; cbn; intros E; auto; try discriminate.
  - destruct g; try discriminate. destruct (String.eqb x f); [now apply I in E|discriminate].
  - destruct g; try discriminate. destruct (String.eqb x f); [now apply I in E|discriminate].
Qed.
Section Use.
Variable args : list expr.
Hypothesis Hargs : Forall (fun a => ends (fun n => splice_temp n (f, ps, VExpr w) a) (Done (texp f ps w a))) args.
Hypothesis Hprop : forall a, In a args -> a <> Name f.
Hypothesis Hn : forall z, w <> Name z.
Let s := combine ps args.
Let s' := combine ps (map (texp f ps w) args).
Lemma ren_texp i : ren s i = ren s' i.
Proof.
  unfold ren, s, s'. rewrite assoc_combine. destruct (assoc i (combine ps args)) as [a|] eqn:E; [|reflexivity].
  cbn. destruct (texp f ps w a) as [y| | |] eqn:T.
  - apply texp_name in T; auto. now subst a.
  - destruct a; try reflexivity. cbn in T. discriminate.
  - destruct a; try reflexivity. cbn in T. discriminate.
  - destruct a; try reflexivity. cbn in T. discriminate.
Qed.
Lemma inst_head u : occurs f u = false -> inst s u <> Name f.
Proof.
  destruct u as [z|g l|g l|k i l]; cbn; intros Ho; try discriminate.
  unfold s. destruct (assoc z (combine ps args)) as [a|] eqn:E.
  - apply Hprop. eapply assoc_combine_in; eauto.
  - intros [= ->]. now rewrite String.eqb_refl in Ho.
Qed.
Lemma inst_uses u : occurs f u = false -> (forall z, u <> Name z) -> uses f (inst s u) = None.
Proof.
  intros Ho Hz. destruct u as [z|g l|g l|k i l]; [now destruct (Hz z)| | |reflexivity];
    cbn in Ho; apply orb_false_iff in Ho as [Ho _]; apply uses_none; intros l' E; cbn in E; try discriminate;
    inversion E as [[E1 E2]]; now apply (inst_head g Ho).
Qed.
Lemma use_kids u : occurs f u = false -> (forall z, u <> Name z) ->
  match u with
  | Name _ => True
  | Call g l | Sub g l =>
      ends (fun n => splice_temp n (f, ps, VExpr w) (inst s g)) (Done (inst s' g)) /\ Forall (fun a => ends (fun n => splice_temp n (f, ps, VExpr w) (inst s a)) (Done (inst s' a))) l
  | Node _ _ l => Forall (fun a => ends (fun n => splice_temp n (f, ps, VExpr w) (inst s a)) (Done (inst s' a))) l
  end ->
  ends (fun n => kids_e (splice_temp n (f, ps, VExpr w)) (inst s u)) (Done (inst s' u)).
Proof.
  assert (L : forall l, Forall (fun a => ends (fun n => splice_temp n (f, ps, VExpr w) (inst s a)) (Done (inst s' a))) l ->
    ends (fun n => mapM (splice_temp n (f, ps, VExpr w)) (map (inst s) l)) (Done (map (inst s') l))).
  { intros l. induction 1 as [|a l Ha _ IH]; [exists 0; reflexivity|].
    change (ends (fun n => let* b := splice_temp n (f, ps, VExpr w) (inst s a) in
      let* l0 := mapM (splice_temp n (f, ps, VExpr w)) (map (inst s) l) in Done (b :: l0)) (Done (inst s' a :: map (inst s') l))).
    eapply ends_bind; [exact Ha|]. eapply ends_bind; [exact IH|]. apply ends_const. }
  intros Ho Hz H. destruct u as [z|g l|g l|k i l]; [now destruct (Hz z)| | |]; cbn [inst kids_e].
  - destruct H as [H1 H2]. eapply ends_bind; [exact H1|]. eapply ends_bind; [apply L; exact H2|]. apply ends_const.
  - destruct H as [H1 H2]. eapply ends_bind; [exact H1|]. eapply ends_bind; [apply L; exact H2|]. apply ends_const.
  - eapply ends_bind; [apply L; exact H|]. rewrite (map_ext _ _ ren_texp). apply ends_const.
Qed.
Lemma use_inst u : occurs f u = false ->
  ends (fun n => splice_temp n (f, ps, VExpr w) (inst s u)) (Done (inst s' u)).
Proof.
  induction u as [y|g l IHg IHl|g l IHg IHl|k i l IHl] using expr_rec'; intros Ho.
  - cbn [inst]. unfold s, s'. rewrite assoc_combine.
    destruct (assoc y (combine ps args)) as [a|] eqn:E; cbn [option_map].
    + rewrite Forall_forall in Hargs. apply Hargs. eapply assoc_combine_in; eauto.
    + apply ends_S. cbn. apply ends_const.
  - apply ends_S. cbn [splice_temp]. rewrite inst_uses by (auto; discriminate).
    apply use_kids; auto; [discriminate|]. cbn in Ho. apply orb_false_iff in Ho as [O1 O2].
    split; [auto|]. revert O2. now apply Forall_ok.
  - apply ends_S. cbn [splice_temp]. rewrite inst_uses by (auto; discriminate).
    apply use_kids; auto; [discriminate|]. cbn in Ho. apply orb_false_iff in Ho as [O1 O2].
    split; [auto|]. revert O2. now apply Forall_ok.
  - apply ends_S. cbn [splice_temp]. rewrite inst_uses by (auto; discriminate).
    apply use_kids; auto; [discriminate|]. cbn in Ho. revert Ho. now apply Forall_ok.
Qed.
Lemma use_kids_w : ends (fun n => kids_e (splice_temp n (f, ps, VExpr w)) (inst s w)) (Done (inst s' w)).
Proof.
  apply use_kids; auto. generalize Hw. generalize w at 1 2. intros u Ho. destruct u as [y|g l|g l|k i l]; auto; cbn in Ho.
  - apply orb_false_iff in Ho as [O1 O2]. split; [now apply use_inst|].
    apply Forall_forall. intros a Ha. apply use_inst. eapply existsb_false; eauto.
  - apply orb_false_iff in Ho as [O1 O2]. split; [now apply use_inst|].
    apply Forall_forall. intros a Ha. apply use_inst. eapply existsb_false; eauto.
  - apply Forall_forall. intros a Ha. apply use_inst. eapply existsb_false; eauto.
Qed.
End Use.
Lemma use_ok l :
  Forall (fun a => ends (fun n => splice_temp n (f, ps, VExpr w) a) (Done (texp f ps w a))) l ->
  (forall a, In a l -> a <> Name f) -> length l = length ps ->
  (forall p a, In p ps -> In a l -> mentions p a = false) ->
  ends (fun n => let* w' := subst n ps (VExpr w) l in
                 match w' with VExpr w' => kids_e (splice_temp n (f, ps, VExpr w)) w' | VBlock _ => Err AssertionError end)
    (Done (inst (combine ps (map (texp f ps w) l)) w)).
Proof.
  intros Hl Hf Hlen Hm. eapply ends_bind; [apply subst_ok; [exact Hlen|now apply noclash_apart]|]. cbn [inst_v].
  assert (D : (exists c, w = Name c) \/ forall z, w <> Name z).
  { destruct w; try (right; discriminate). left; eauto. }
  destruct D as [[c E]|Hn].
  - rewrite E. assert (Hc : ~ In c ps) by (intros Hc; now apply (Hbare c Hc)).
    cbn [inst]. rewrite !assoc_combine_none by exact Hc. cbn [kids_e]. apply ends_const.
  - apply use_kids_w; auto.
Qed.
Lemma proper_not_f n l : forallb (proper f n) l = true -> forall a, In a l -> a <> Name f.
Proof.
  intros H a Ha ->. rewrite forallb_forall in H. apply H in Ha. cbn in Ha. now rewrite String.eqb_refl in Ha.
Qed.
Lemma Forall_use l :
  Forall (fun e => proper f (length ps) e = true -> (forall p, In p ps -> mentions p e = false) ->
    ends (fun n => splice_temp n (f, ps, VExpr w) e) (Done (texp f ps w e))) l ->
  forallb (proper f (length ps)) l = true -> (forall p, In p ps -> existsb (mentions p) l = false) ->
  Forall (fun a => ends (fun n => splice_temp n (f, ps, VExpr w) a) (Done (texp f ps w a))) l.
Proof.
  intros H Hp Hm. rewrite Forall_forall in *. rewrite forallb_forall in Hp. intros a Ha.
  apply H; auto. intros p Hin. eapply existsb_false; [apply Hm; exact Hin|exact Ha].
Qed.
Lemma texp_sub g l : (forall z, g = Name z -> z <> f) -> texp f ps w (Sub g l) = Sub (texp f ps w g) (map (texp f ps w) l).
Proof.
  intros H. destruct g as [z| | |]; try reflexivity. cbn. destruct (String.eqb z f) eqn:E; [|reflexivity].
  apply String.eqb_eq in E. now destruct (H z).
Qed.
Lemma texp_call g l : (forall z, g = Name z -> z <> f) -> texp f ps w (Call g l) = Call (texp f ps w g) (map (texp f ps w) l).
Proof.
  intros H. destruct g as [z| | |]; try reflexivity. cbn. destruct (String.eqb z f) eqn:E; [|reflexivity].
  apply String.eqb_eq in E. now destruct (H z).
Qed.
Lemma is_use g : (g = Name f) + (forall z, g = Name z -> z <> f).
Proof.
  destruct g as [z| | |]; try (right; discriminate).
  destruct (String.eqb z f) eqn:E; [left|right].
  - apply String.eqb_eq in E. now subst.
  - intros y [= ->]. now apply String.eqb_neq.
Qed.
Lemma temp_ok e : proper f (length ps) e = true -> (forall p, In p ps -> mentions p e = false) ->
  ends (fun n => splice_temp n (f, ps, VExpr w) e) (Done (texp f ps w e)).
Proof.
  induction e as [y|g l IHg IHl|g l IHg IHl|k i l IHl] using expr_rec'; intros Hp Hm; apply ends_S.
  - cbn. apply ends_const.
  - assert (Hml : forall p, In p ps -> existsb (mentions p) l = false).
    { intros p Hin. specialize (Hm p Hin). cbn in Hm. now apply orb_false_iff in Hm. }
    assert (Hmg : forall p, In p ps -> mentions p g = false).
    { intros p Hin. specialize (Hm p Hin). cbn in Hm. now apply orb_false_iff in Hm. }
    destruct (is_use g) as [->|Hg]; cbn [splice_temp].
    + cbn [uses texp proper] in *. rewrite String.eqb_refl in *. apply andb_true_iff in Hp as [P1 P2].
      apply Nat.eqb_eq in P1. apply use_ok; auto; [now apply Forall_use|exact (proper_not_f _ _ P2)|].
      intros p a Hin Ha. eapply existsb_false; [apply Hml; exact Hin|exact Ha].
    + rewrite uses_none; [|discriminate|intros l' [= E _]; now apply (Hg f)].
      rewrite texp_call by exact Hg.
      assert (Hp' : (forall z, g <> Name z) -> proper f (length ps) g = true).
      { intros Hz. destruct g; try (now apply andb_true_iff in Hp). now destruct (Hz x). }
      assert (P2 : forallb (proper f (length ps)) l = true).
      { destruct g; cbn in Hp; now apply andb_true_iff in Hp. }
      apply (ends_kids (fun n => splice_temp n (f, ps, VExpr w)) (texp f ps w) (Call g l)). split; [|now apply Forall_use].
      destruct g as [z| | |]; try (apply IHg; auto; apply Hp'; discriminate).
      apply ends_S. cbn. apply ends_const.
  - assert (Hml : forall p, In p ps -> existsb (mentions p) l = false).
    { intros p Hin. specialize (Hm p Hin). cbn in Hm. now apply orb_false_iff in Hm. }
    assert (Hmg : forall p, In p ps -> mentions p g = false).
    { intros p Hin. specialize (Hm p Hin). cbn in Hm. now apply orb_false_iff in Hm. }
    destruct (is_use g) as [->|Hg]; cbn [splice_temp].
    + cbn [uses texp proper] in *. rewrite String.eqb_refl in *. apply andb_true_iff in Hp as [P1 P2].
      apply Nat.eqb_eq in P1. apply use_ok; auto; [now apply Forall_use|exact (proper_not_f _ _ P2)|].
      intros p a Hin Ha. eapply existsb_false; [apply Hml; exact Hin|exact Ha].
    + rewrite uses_none; [|intros l' [= E _]; now apply (Hg f)|discriminate].
      rewrite texp_sub by exact Hg.
      assert (Hp' : (forall z, g <> Name z) -> proper f (length ps) g = true).
      { intros Hz. destruct g; try (now apply andb_true_iff in Hp). now destruct (Hz x). }
      assert (P2 : forallb (proper f (length ps)) l = true).
      { destruct g; cbn in Hp; now apply andb_true_iff in Hp. }
      apply (ends_kids (fun n => splice_temp n (f, ps, VExpr w)) (texp f ps w) (Sub g l)). split; [|now apply Forall_use].
      destruct g as [z| | |]; try (apply IHg; auto; apply Hp'; discriminate).
      apply ends_S. cbn. apply ends_const.
  - cbn [splice_temp uses]. apply (ends_kids (fun n => splice_temp n (f, ps, VExpr w)) (texp f ps w) (Node k i l)).
    apply Forall_use; auto. intros p Hin. specialize (Hm p Hin). cbn in Hm. now apply orb_false_iff in Hm.
Qed.
End Template.

(** ** Block mode *)
Fixpoint clear (x : string) (t : stmt) : bool :=
  match t with
  | SExpr (Name _) => true
  | SExpr e => negb (occurs x e)
  | SSimple _ _ l => negb (existsb (occurs x) l)
  | SComp _ _ l b o => negb (existsb (occurs x) l) && forallb (clear x) b && forallb (clear x) o
  | SDecl _ ps n b =>
      negb (match ps with Some l => existsb (occurs x) l | None => false end) &&
      negb (match n with Some e => occurs x e | None => false end) && forallb (clear x) b
  end.
Fixpoint putb (x : string) (v : list stmt) (t : stmt) : list stmt :=
  match t with
  | SExpr (Name y) => if String.eqb y x then v else [t]
  | SComp k i l b o => [SComp k i l (flat_map (putb x v) b) (flat_map (putb x v) o)]
  | SDecl m ps n b => [SDecl m ps n (flat_map (putb x v) b)]
  | _ => [t]
  end.
Lemma mapM_none x v l : existsb (occurs x) l = false -> ends (fun n => mapM (splice_name n x v) l) (Done l).
Proof.
  intros H. pose proof (ends_mapM (fun n => splice_name n x v) (fun a => a) l) as E. rewrite map_id in E. apply E.
  apply Forall_forall. intros a Ha. apply splice_none. eapply existsb_false; eauto.
Qed.
Lemma visit_block x v t : clear x t = true ->
  ends (fun n => visit_s (splice_name n x (VBlock v)) (hit_name x (VBlock v)) t) (Done (putb x v t)).
Proof.
  assert (F : forall b, Forall (fun t => clear x t = true ->
      ends (fun n => visit_s (splice_name n x (VBlock v)) (hit_name x (VBlock v)) t) (Done (putb x v t))) b ->
    forallb (clear x) b = true ->
    ends (fun n => visit_b (visit_s (splice_name n x (VBlock v)) (hit_name x (VBlock v))) b) (Done (flat_map (putb x v) b))).
  { intros b H Hc. apply (ends_visit_b (fun n => visit_s (splice_name n x (VBlock v)) (hit_name x (VBlock v)))).
    rewrite Forall_forall in *. rewrite forallb_forall in Hc. auto. }
  induction t as [e|k i l|k i l b o IHb IHo|m ps y b IHb] using stmt_rec'; intros Hc; cbn [visit_s].
  - destruct e as [z|g l|g l|k i l]; cbn [hit_name putb].
    + destruct (String.eqb z x) eqn:E; [apply ends_const|].
      eapply ends_bind; [apply splice_none; exact E|]. apply ends_const.
    + eapply ends_bind; [apply splice_none; now apply negb_true_iff|]. apply ends_const.
    + eapply ends_bind; [apply splice_none; now apply negb_true_iff|]. apply ends_const.
    + eapply ends_bind; [apply splice_none; now apply negb_true_iff|]. apply ends_const.
  - eapply ends_bind; [apply mapM_none; now apply negb_true_iff|]. apply ends_const.
  - cbn [clear] in Hc. rewrite !andb_true_iff, negb_true_iff in Hc. destruct Hc as [[C1 C2] C3]. cbn [putb].
    eapply ends_bind; [apply mapM_none; exact C1|].
    eapply ends_bind; [apply F; auto|]. eapply ends_bind; [apply F; auto|]. apply ends_const.
  - cbn [clear] in Hc. rewrite !andb_true_iff, !negb_true_iff in Hc. destruct Hc as [[C1 C2] C3]. cbn [putb].
    eapply ends_bind with (a := ps).
    { destruct ps; cbn [optM]; [|apply ends_const]. eapply ends_bind; [apply mapM_none; exact C1|]. apply ends_const. }
    eapply ends_bind with (a := y).
    { destruct y; cbn [optM]; [|apply ends_const]. eapply ends_bind; [apply splice_none; exact C2|]. apply ends_const. }
    eapply ends_bind; [apply F; auto|]. apply ends_const.
Qed.
Lemma name_b_block x v l : forallb (clear x) l = true ->
  ends (fun n => name_b n x (VBlock v) l) (Done (flat_map (putb x v) l)).
Proof.
  intros Hc. unfold name_b. eapply ends_bind.
  - apply (ends_visit_b (fun n => visit_s (splice_name n x (VBlock v)) (hit_name x (VBlock v)))) with (g := putb x v).
    apply Forall_forall. intros t Ht. rewrite forallb_forall in Hc. apply visit_block; auto.
  - cbn [post_s]. change (post_s x (VBlock v)) with (fun s : stmt => s). rewrite map_id. apply ends_const.
Qed.
Lemma mentions_clear x t : mentions_s x t = false -> clear x t = true.
Proof.
  assert (E : forall l, existsb (mentions x) l = false -> existsb (occurs x) l = false).
  { induction l as [|a l IH]; auto. cbn. rewrite !orb_false_iff. intros [? ?]. split; auto using mentions_occurs. }
  assert (B : forall b, Forall (fun t => mentions_s x t = false -> clear x t = true) b ->
     existsb (mentions_s x) b = false -> forallb (clear x) b = true).
  { intros b H Hm. apply forallb_forall. rewrite Forall_forall in H. intros a Ha. apply H; auto.
    eapply existsb_false; eauto. }
  induction t as [e|k i l|k i l b o IHb IHo|m ps y b IHb] using stmt_rec'; cbn [mentions_s clear]; intros H.
  - destruct e; auto; apply negb_true_iff; now apply mentions_occurs.
  - apply orb_false_iff in H as [_ H]. apply negb_true_iff. auto.
  - rewrite !orb_false_iff in H. destruct H as [[[H1 H2] H3] H4].
    rewrite !andb_true_iff, negb_true_iff. auto.
  - rewrite !orb_false_iff in H. destruct H as [[H1 H2] H3].
    rewrite !andb_true_iff, !negb_true_iff. split; [split|auto].
    + destruct ps; auto.
    + destruct y; auto using mentions_occurs.
Qed.
Lemma putb_none x v t : mentions_s x t = false -> putb x v t = [t].
Proof.
  assert (B : forall b, Forall (fun t => mentions_s x t = false -> putb x v t = [t]) b ->
     existsb (mentions_s x) b = false -> flat_map (putb x v) b = b).
  { intros b. induction 1 as [|a b Ha _ IH]; intros Hm; [reflexivity|]. cbn in Hm. apply orb_false_iff in Hm as [? ?].
    cbn. now rewrite Ha, IH. }
  induction t as [e|k i l|k i l b o IHb IHo|m ps y b IHb] using stmt_rec'; cbn [mentions_s putb]; intros H; auto.
  - destruct e; auto. cbn in H. now rewrite H.
  - rewrite !orb_false_iff in H. destruct H as [[[H1 H2] H3] H4]. now rewrite !B.
  - rewrite !orb_false_iff in H. destruct H as [[H1 H2] H3]. now rewrite !B.
Qed.
Lemma putb_none_b x v b : existsb (mentions_s x) b = false -> flat_map (putb x v) b = b.
Proof.
  induction b as [|a b IH]; intros H; [reflexivity|]. cbn in *. apply orb_false_iff in H as [? ?].
  rewrite putb_none by auto. cbn. now rewrite IH.
Qed.

(** [x] has nothing to do with what is in [s] *)
Definition apart_v (x : string) (s : list (string * value)) : Prop :=
  assoc x s = None /\ forall y v, In (y, v) s -> mentions_v x v = false.
Lemma exprs_app s t : exprs (s ++ t) = exprs s ++ exprs t.
Proof. unfold exprs. apply flat_map_app. Qed.
Lemma in_exprs s y w : In (y, w) (exprs s) -> In (y, VExpr w) s.
Proof.
  unfold exprs. intros H. apply in_flat_map in H as [[z v] [Hz H]]. cbn in H. destruct v; [|destruct H].
  destruct H as [[= -> ->]|[]]. auto.
Qed.
Lemma assoc_none_in {A} x (s : list (string * A)) : assoc x s = None <-> ~ In x (map fst s).
Proof.
  induction s as [|[y a] s IH]; cbn; [tauto|]. destruct (String.eqb y x) eqn:E.
  - apply String.eqb_eq in E. split; [discriminate|tauto].
  - apply String.eqb_neq in E. rewrite IH. tauto.
Qed.
Lemma assoc_exprs_none x s : assoc x s = None -> assoc x (exprs s) = None.
Proof.
  rewrite !assoc_none_in. intros H Hin. apply H. apply in_map_iff in Hin as [[y w] [<- Hin]].
  apply in_exprs in Hin. apply in_map_iff. exists (y, VExpr w). auto.
Qed.
Lemma apart_exprs x s : apart_v x s -> apart x (exprs s).
Proof.
  intros [H1 H2]. split; [now apply assoc_exprs_none|]. intros y w H. apply in_exprs in H. now apply H2 in H.
Qed.
Lemma assoc_exprs y s : NoDup (map fst s) ->
  assoc y (exprs s) = match assoc y s with Some (VExpr w) => Some w | _ => None end.
Proof.
  induction s as [|[z v] s IH]; intros Hd; [reflexivity|]. inversion Hd as [|? ? Hz Hd']; subst.
  cbn. destruct v as [w|b]; cbn.
  - destruct (String.eqb z y); auto.
  - destruct (String.eqb z y) eqn:E; [|auto]. apply String.eqb_eq in E as <-.
    apply assoc_exprs_none. now apply assoc_none_in.
Qed.
Lemma occurs_inst x s e : occurs x e = false -> (forall y w, In (y, w) s -> occurs x w = false) ->
  occurs x (inst s e) = false.
Proof.
  intros Ho Hs. revert Ho.
  assert (L : forall l, Forall (fun e => occurs x e = false -> occurs x (inst s e) = false) l ->
    existsb (occurs x) l = false -> existsb (occurs x) (map (inst s) l) = false).
  { intros l. induction 1 as [|a l Ha _ IH]; [auto|]. cbn. rewrite !orb_false_iff. intros [? ?]; auto. }
  induction e as [y|g l IHg IHl|g l IHg IHl|k i l IHl] using expr_rec'; cbn [occurs inst]; auto;
    rewrite ?orb_false_iff; intros H; auto.
  - destruct (assoc y s) eqn:E; [|exact H]. eapply Hs, assoc_in; eauto.
  - destruct H; split; auto.
  - destruct H; split; auto.
Qed.
Lemma inst_not_name s e : (forall z, e <> Name z) -> forall z, inst s e <> Name z.
Proof. destruct e; intros H z; try discriminate. now destruct (H x). Qed.

Section Place.
Variable s : list (string * value).
Hypothesis Hdup : NoDup (map fst s).
Lemma place_expr x w t : apart_v x s ->
  map (inst_s [(x, w)]) (place s t) = place (s ++ [(x, VExpr w)]) t.
Proof.
  intros Ha. pose proof (apart_exprs _ _ Ha) as He.
  assert (X : exprs (s ++ [(x, VExpr w)]) = exprs s ++ [(x, w)]) by (rewrite exprs_app; reflexivity).
  assert (L : forall l, map (inst [(x, w)]) (map (inst (exprs s)) l) = map (inst (exprs s ++ [(x, w)])) l).
  { intros l. rewrite map_map. apply map_ext. intros; now apply inst_app. }
  assert (R : forall i, map (ren [(x, w)]) (map (ren (exprs s)) i) = map (ren (exprs s ++ [(x, w)])) i).
  { intros l. rewrite map_map. apply map_ext. intros; now apply ren_app. }
  assert (B : forall b, Forall (fun t => map (inst_s [(x, w)]) (place s t) = place (s ++ [(x, VExpr w)]) t) b ->
    map (inst_s [(x, w)]) (flat_map (place s) b) = flat_map (place (s ++ [(x, VExpr w)])) b).
  { intros b. induction 1 as [|a b Hab _ IH]; [reflexivity|]. cbn. now rewrite map_app, Hab, IH. }
  induction t as [e|k i l|k i l b o IHb IHo|m ps y b IHb] using stmt_rec'; cbn [place map inst_s]; rewrite ?X, ?L, ?R, ?B; auto.
  destruct e as [z|g l|g l|k i l]; cbn [place map inst_s]; rewrite ?X, ?inst_app by exact He; auto.
  rewrite assoc_app. destruct Ha as [A1 A2]. destruct (assoc z s) as [[u|b]|] eqn:E.
  - cbn [map inst_s]. rewrite inst_none; [reflexivity|]. apply assoc_in in E. now apply A2 in E.
  - apply map_id'. intros a Hin. apply inst_s_none. apply assoc_in in E. apply A2 in E. cbn in E.
    eapply existsb_false; eauto.
  - cbn [map inst_s inst]. rewrite !assoc1. destruct (String.eqb x z); reflexivity.
Qed.
Lemma place_block x v t : apart_v x s -> 
  flat_map (putb x v) (place s t) = place (s ++ [(x, VBlock v)]) t.
Proof.
  intros Ha. pose proof (apart_exprs _ _ Ha) as He.
  assert (X : exprs (s ++ [(x, VBlock v)]) = exprs s) by (rewrite exprs_app; cbn; apply app_nil_r).
  assert (B : forall b, Forall (fun t => flat_map (putb x v) (place s t) = place (s ++ [(x, VBlock v)]) t) b ->
    flat_map (putb x v) (flat_map (place s) b) = flat_map (place (s ++ [(x, VBlock v)])) b).
  { intros b. induction 1 as [|a b Hab _ IH]; [reflexivity|]. cbn. now rewrite flat_map_app, Hab, IH. }
  induction t as [e|k i l|k i l b o IHb IHo|m ps y b IHb] using stmt_rec'; cbn [place flat_map putb app]; rewrite ?X, ?B; auto.
  destruct e as [z|g l|g l|k i l]; cbn [place flat_map inst putb app]; rewrite ?X; auto.
  rewrite assoc_app. destruct Ha as [A1 A2]. destruct (assoc z s) as [[u|b]|] eqn:E.
  - cbn [flat_map app]. rewrite putb_none; [reflexivity|]. apply assoc_in in E. now apply A2 in E.
  - apply putb_none_b. apply assoc_in in E. now apply A2 in E.
  - cbn [flat_map putb]. rewrite assoc1, (eqb_sym x z). destruct (String.eqb z x); cbn; rewrite ?app_nil_r; reflexivity.
Qed.
Lemma no_block_in bn x e : no_block bn e = true -> In x bn -> occurs x e = false.
Proof. unfold no_block. rewrite forallb_forall. intros H Hin. apply H in Hin. now apply negb_true_iff in Hin. Qed.
Lemma place_clear bn x t : plain bn t = true -> In x bn -> apart_v x s -> forallb (clear x) (place s t) = true.
Proof.
  intros Hp Hx Ha. revert Hp.
  assert (Hs : forall y w, In (y, w) (exprs s) -> occurs x w = false).
  { intros y w H. apply in_exprs in H. apply Ha in H. now apply mentions_occurs. }
  assert (L : forall l, forallb (no_block bn) l = true -> negb (existsb (occurs x) (map (inst (exprs s)) l)) = true).
  { intros l H. rewrite negb_true_iff. induction l as [|a l IH]; [reflexivity|]. cbn in H. apply andb_true_iff in H as [H1 H2].
    cbn. rewrite orb_false_iff. split; auto. apply occurs_inst; auto. eapply no_block_in; eauto. }
  assert (B : forall b, Forall (fun t => plain bn t = true -> forallb (clear x) (place s t) = true) b ->
    forallb (plain bn) b = true -> forallb (clear x) (flat_map (place s) b) = true).
  { intros b. induction 1 as [|a b Hab _ IH]; [reflexivity|]. cbn. rewrite forallb_app, !andb_true_iff. intros [? ?]; auto. }
  induction t as [e|k i l|k i l b o IHb IHo|m ps y b IHb] using stmt_rec'; cbn [place plain]; intros Hp; auto.
  - destruct e as [z|g l|g l|k i l].
    + destruct (assoc z s) as [[u|b]|] eqn:E; [| |reflexivity].
      * apply assoc_in in E. apply Ha in E. cbn [mentions_v] in E.
        cbn [forallb]. rewrite mentions_clear; auto.
      * apply assoc_in in E. apply Ha in E. cbn in E. apply forallb_forall. intros a Hin. apply mentions_clear.
        eapply existsb_false; eauto.
    + cbn [forallb clear]. rewrite (occurs_inst x _ (Call g l)); auto. eapply no_block_in; eauto.
    + cbn [forallb clear]. rewrite (occurs_inst x _ (Sub g l)); auto. eapply no_block_in; eauto.
    + cbn [forallb clear]. rewrite (occurs_inst x _ (Node k i l)); auto. eapply no_block_in; eauto.
  - cbn [forallb clear]. now rewrite L.
  - rewrite !andb_true_iff in Hp. destruct Hp as [[P1 P2] P3]. cbn [forallb clear]. now rewrite L, !B.
Qed.
End Place.
Lemma place_nil t : (exists bn, plain bn t = true) -> place [] t = [t].
Proof.
  intros [bn H]. revert H.
  assert (L : forall l, map (inst []) l = l) by (intros; apply map_id'; intros; apply inst_nil).
  assert (R : forall i, map (ren []) i = i) by (intros; apply map_id'; reflexivity).
  assert (B : forall b, Forall (fun t => plain bn t = true -> place [] t = [t]) b ->
    forallb (plain bn) b = true -> flat_map (place []) b = b).
  { intros b. induction 1 as [|a b Hab _ IH]; [reflexivity|]. cbn. rewrite !andb_true_iff. intros [? ?].
    rewrite Hab, IH; auto. }
  induction t as [e|k i l|k i l b o IHb IHo|m ps y b IHb] using stmt_rec'; cbn [place plain exprs flat_map]; rewrite ?L, ?R; auto.
  - intros _. destruct e as [z|g l|g l|k i l]; cbn [assoc]; rewrite ?inst_nil; reflexivity.
  - rewrite !andb_true_iff. intros [[P1 P2] P3]. now rewrite !B.
  - discriminate.
Qed.

Definition defs_of (s : list (string * value)) : list def := map (fun xv => (fst xv, [], snd xv)) s.
(** definitions that do not mention what is defined *)
Definition tidy_defs (s : list (string * value)) : Prop :=
  NoDup (map fst s) /\ forall x y v, In x (map fst s) -> In (y, v) s -> mentions_v x v = false.
Lemma tidy_apart s x v t : tidy_defs (s ++ (x, v) :: t) -> apart_v x s.
Proof.
  intros [H1 H2]. rewrite map_app in *. cbn [map fst] in *. split.
  - apply assoc_none_in. apply NoDup_remove_2 in H1. intros Hin. apply H1. apply in_or_app. auto.
  - intros y u Hin. apply (H2 x y u); apply in_or_app; [right; now left|auto].
Qed.
Lemma NoDup_app_l {A} (s t : list A) : NoDup (s ++ t) -> NoDup s.
Proof.
  induction s as [|a s IH]; intros H; [constructor|]. cbn in H. inversion H as [|? ? H1 H2]; subst.
  constructor; auto. intros Hin. apply H1. apply in_or_app. auto.
Qed.
Lemma tidy_prefix s t : tidy_defs (s ++ t) -> tidy_defs s.
Proof.
  intros [H1 H2]. rewrite map_app in *. split.
  - now apply NoDup_app_l in H1.
  - intros x y v Hx Hy. apply (H2 x y v); apply in_or_app; auto.
Qed.
Lemma mentions_v_inside x w : mentions_v x (VExpr w) = false -> inside x w = false.
Proof. apply mentions_inside. Qed.
Lemma names_place bn t : plain bn t = true -> forall s2 s1, tidy_defs (s1 ++ s2) ->
  (forall x, In x (block_names (s1 ++ s2)) -> In x bn) ->
  ends (fun n => names_b n (defs_of s2) (place s1 t)) (Done (place (s1 ++ s2) t)).
Proof.
  intros Hp. induction s2 as [|[x v] s2 IH]; intros s1 Ht Hb.
  - rewrite app_nil_r. exists 0; reflexivity.
  - cbn [defs_of map fst snd names_b].
    assert (E : s1 ++ (x, v) :: s2 = (s1 ++ [(x, v)]) ++ s2) by (now rewrite <- app_assoc).
    assert (Hm : mentions_v x v = false).
    { destruct Ht as [_ Ht]. apply (Ht x x v); [|apply in_or_app; right; now left].
      rewrite map_app. apply in_or_app. right. now left. }
    eapply ends_bind with (a := place (s1 ++ [(x, v)]) t).
    + destruct v as [w|b].
      * rewrite <- place_expr by (eapply tidy_apart; eauto). apply name_b_expr. now apply mentions_v_inside.
      * rewrite <- place_block by (eapply tidy_apart; eauto). apply name_b_block.
        eapply place_clear; [exact Hp|apply Hb|eapply tidy_apart; eauto].
        unfold block_names. rewrite flat_map_app. apply in_or_app. right. now left.
    + rewrite E in *. apply IH; auto.
Qed.
Lemma names_none s : forall l, (forall x, In x (map fst s) -> existsb (mentions_s x) l = false) ->
  (forall x v, In (x, v) s -> mentions_v x v = false) ->
  ends (fun n => names_b n (defs_of s) l) (Done l).
Proof.
  induction s as [|[x v] s IH]; intros l Hl Hv; [exists 0; reflexivity|].
  cbn [defs_of map fst snd names_b]. eapply ends_bind with (a := l).
  - assert (Hm : existsb (mentions_s x) l = false) by (apply Hl; now left).
    assert (Hi : mentions_v x v = false) by (apply (Hv x v); now left).
    destruct v as [w|b].
    + pose proof (name_b_expr x w l (mentions_v_inside _ _ Hi)) as E.
      rewrite map_id' in E; [exact E|]. intros a Ha. apply inst_s_none. exact (existsb_false _ _ _ Hm Ha).
    + pose proof (name_b_block x b l) as E. rewrite putb_none_b in E by exact Hm. apply E.
      apply forallb_forall. intros a Ha. apply mentions_clear. exact (existsb_false _ _ _ Hm Ha).
  - apply IH; intros; [apply Hl|apply (Hv x0)]; now right.
Qed.

Definition wrapb (b : list stmt) : list stmt := [SComp "if" [] [constant "1"] b []].
Definition wrapv (v : value) : value := match v with VExpr _ => v | VBlock b => VBlock (wrapb b) end.
Definition wrap (s : list (string * value)) : list (string * value) := map (fun xv => (fst xv, wrapv (snd xv))) s.
Lemma mentions_wrap x v : mentions_v x (wrapv v) = mentions_v x v.
Proof. destruct v; [reflexivity|]. cbn. rewrite !orb_false_r. reflexivity. Qed.
Lemma wrap_names s : map fst (wrap s) = map fst s.
Proof. unfold wrap. rewrite map_map. reflexivity. Qed.
Lemma wrap_block_names s : block_names (wrap s) = block_names s.
Proof.
  unfold block_names, wrap. induction s as [|[x v] s IH]; [reflexivity|]. cbn. rewrite IH. now destruct v.
Qed.
Lemma wrap_exprs s : exprs (wrap s) = exprs s.
Proof.
  unfold exprs, wrap. induction s as [|[x v] s IH]; [reflexivity|]. cbn. rewrite IH. now destruct v.
Qed.
Lemma wrap_assoc y s : assoc y (wrap s) = option_map wrapv (assoc y s).
Proof. induction s as [|[x v] s IH]; [reflexivity|]. cbn. destruct (String.eqb x y); auto. Qed.
Lemma in_wrap s x v : In (x, v) (wrap s) -> exists u, v = wrapv u /\ In (x, u) s.
Proof. unfold wrap. intros H. apply in_map_iff in H as [[y u] [E H]]. cbn in E. injection E as <- <-. eauto. Qed.
Lemma wrap_tidy s : tidy_defs s -> tidy_defs (wrap s).
Proof.
  intros [H1 H2]. split; rewrite wrap_names; auto. intros x y v Hx Hy. apply in_wrap in Hy as [u [-> Hy]].
  rewrite mentions_wrap. eauto.
Qed.
Lemma flat_map_flat_map {A B C} (f : A -> list B) (g : B -> list C) l :
  flat_map g (flat_map f l) = flat_map (fun a => flat_map g (f a)) l.
Proof. induction l as [|a l IH]; [reflexivity|]. cbn. now rewrite flat_map_app, IH. Qed.
Lemma ifones_place s t : flat_map ifones (place (wrap s) t) = flat_map ifones (place s t).
Proof.
  assert (B : forall b, Forall (fun t => flat_map ifones (place (wrap s) t) = flat_map ifones (place s t)) b ->
    flat_map ifones (flat_map (place (wrap s)) b) = flat_map ifones (flat_map (place s) b)).
  { intros b. induction 1 as [|a b Hab _ IH]; [reflexivity|]. cbn. now rewrite !flat_map_app, Hab, IH. }
  induction t as [e|k i l|k i l b o IHb IHo|m ps y b IHb] using stmt_rec'; cbn [place]; rewrite ?wrap_exprs; auto.
  - destruct e as [z|g l|g l|k i l]; rewrite ?wrap_exprs; auto.
    rewrite wrap_assoc. destruct (assoc z s) as [[u|b]|]; cbn [option_map wrapv]; auto.
    cbn. now rewrite app_nil_r.
  - cbn [flat_map ifones]. now rewrite !B.
Qed.

(** nothing of what [place] makes is a definition *)
Definition nodecl (l : list stmt) : Prop := existsb stray l = false.
Lemma plain_nodecl bn t : plain bn t = true -> stray t = false.
Proof.
  assert (B : forall b, Forall (fun t => plain bn t = true -> stray t = false) b ->
    forallb (plain bn) b = true -> existsb stray b = false).
  { intros b. induction 1 as [|a b Hab _ IH]; [reflexivity|]. cbn. rewrite andb_true_iff, orb_false_iff. intros [? ?]; auto. }
  induction t as [e|k i l|k i l b o IHb IHo|m ps y b IHb] using stmt_rec'; cbn; auto.
  - rewrite !andb_true_iff, orb_false_iff. intros [[P1 P2] P3]; auto.
Qed.
Lemma plains_nodecl bn b : forallb (plain bn) b = true -> existsb stray b = false.
Proof.
  induction b as [|a b IH]; [reflexivity|]. cbn. rewrite andb_true_iff, orb_false_iff.
  intros [? ?]; split; auto. eapply plain_nodecl; eauto.
Qed.
Lemma place_nodecl s bn t : plain bn t = true ->
  (forall x b, In (x, VBlock b) s -> existsb stray b = false) -> existsb stray (place s t) = false.
Proof.
  intros Hp Hs. revert Hp.
  assert (B : forall b, Forall (fun t => plain bn t = true -> existsb stray (place s t) = false) b ->
    forallb (plain bn) b = true -> existsb stray (flat_map (place s) b) = false).
  { intros b. induction 1 as [|a b Hab _ IH]; [reflexivity|]. cbn. rewrite existsb_app, andb_true_iff, orb_false_iff.
    intros [? ?]; auto. }
  induction t as [e|k i l|k i l b o IHb IHo|m ps y b IHb] using stmt_rec'; cbn [place plain]; intros Hp; auto.
  - destruct e as [z|g l|g l|k i l]; auto. destruct (assoc z s) as [[u|b]|] eqn:E; auto.
    apply assoc_in in E. eauto.
  - rewrite !andb_true_iff in Hp. destruct Hp as [[P1 P2] P3]. cbn. now rewrite !B.
Qed.
Lemma assoc_wrap_stray s : (forall x b, In (x, VBlock b) s -> existsb stray b = false) ->
  forall x b, In (x, VBlock b) (wrap s) -> existsb stray b = false.
Proof.
  intros H x b Hin. apply in_wrap in Hin as [u [E Hin]]. destruct u; [discriminate|]. injection E as ->.
  cbn. now rewrite (H _ _ Hin).
Qed.

(** what comes out before constant tests are eliminated *)
Fixpoint blocksw (s : list (string * value)) (body : list stmt) : list stmt :=
  match body with
  | [] => []
  | t :: body =>
      match defines t with
      | Some d => blocksw (s ++ [d]) body
      | None => place (wrap s) t ++ blocksw s body
      end
  end.
Lemma ifones_blocksw body : forall s, flat_map ifones (blocksw s body) = flat_map ifones (blocks s body).
Proof.
  induction body as [|t body IH]; intros s; [reflexivity|]. cbn. destruct (defines t) as [d|]; [apply IH|].
  now rewrite !flat_map_app, ifones_place, IH.
Qed.
Lemma definitions_cons t body :
  definitions (t :: body) = match defines t with Some d => d :: definitions body | None => definitions body end.
Proof. unfold definitions. cbn. now destruct (defines t). Qed.
Lemma defines_decl t x v : defines t = Some (x, v) ->
  match v with
  | VBlock b => t = SDecl true None (Some (Name x)) b
  | VExpr e => t = SDecl false None (Some (Name x)) [SExpr e]
  end.
Proof.
  destruct t as [e|k i l|k i l b o|m ps y b]; try discriminate. cbn.
  destruct m; destruct ps; try discriminate; destruct y as [[z| | |]|]; try discriminate.
  - intros [= <- <-]. reflexivity.
  - destruct b as [|[e| | |] [|? ?]]; try discriminate. intros [= <- <-]. reflexivity.
Qed.
Lemma wrap_app s t : wrap (s ++ t) = wrap s ++ wrap t.
Proof. unfold wrap. apply map_app. Qed.
Lemma defs_of_app s t : defs_of (s ++ t) = defs_of s ++ defs_of t.
Proof. unfold defs_of. apply map_app. Qed.

Section Loop.
Variable bn : list string.
Lemma loop_ok body : forall s seen,
  tidy_defs (s ++ definitions body) ->
  (forall x, In x (block_names (s ++ definitions body)) -> In x bn) ->
  (forall t, In t body -> defines t = None -> plain bn t = true) ->
  (forall x b, In (x, VBlock b) (s ++ definitions body) -> existsb stray b = false) ->
  (forall x, In x seen -> In x (map fst s)) ->
  ends (fun n => block_loop n seen [] (defs_of (wrap s)) body) (Done (blocksw s body)).
Proof.
  induction body as [|t body IH]; intros s seen Ht Hb Hp Hs Hseen; [exists 0; reflexivity|].
  cbn [block_loop blocksw temps_b]. cbn [bind].
  rewrite definitions_cons in *.
  destruct (defines t) as [[x v]|] eqn:D.
  - (* a definition *)
    pose proof (defines_decl _ _ _ D) as E.
    assert (Hx : ~ In x (map fst s)).
    { destruct Ht as [Ht _]. rewrite map_app in Ht. cbn in Ht. apply NoDup_remove_2 in Ht.
      intros Hin. apply Ht. apply in_or_app. auto. }
    assert (Hv : forall y, In y (map fst s) -> mentions_v y v = false).
    { intros y Hy. destruct Ht as [_ Ht]. apply (Ht y x v).
      - rewrite map_app. apply in_or_app. auto.
      - apply in_or_app. right. now left. }
    assert (N : forall y, In y (map fst (wrap s)) -> existsb (mentions_s y) [t] = false).
    { rewrite wrap_names. intros y Hy. specialize (Hv y Hy).
      assert (String.eqb x y = false) by (apply String.eqb_neq; congruence).
      destruct v as [e|b]; subst t; cbn in *; rewrite H, ?Hv; reflexivity. }
    eapply ends_bind with (a := [t]).
    { apply names_none; [exact N|]. intros y u Hin. apply in_wrap in Hin as [u' [-> Hin]]. rewrite mentions_wrap.
      destruct Ht as [_ Ht]. apply (Ht y y u').
      - rewrite map_app. apply in_or_app. left. apply in_map_iff. exists (y, u'). auto.
      - apply in_or_app. auto. }
    assert (Hm : mems x seen = false) by (apply mems_false; intros Hin; auto).
    assert (Next : ends (fun n => block_loop n (x :: seen) [] (defs_of (wrap (s ++ [(x, v)]))) body)
                        (Done (blocksw (s ++ [(x, v)]) body))).
    { apply IH; rewrite <- ?app_assoc; auto.
      - intros y Hy Hd. apply Hp; [now right|exact Hd].
      - intros y [->|Hy]; rewrite map_app; apply in_or_app; [right; now left|left; auto]. }
    rewrite wrap_app, defs_of_app in Next.
    destruct v as [e|b]; subst t; cbn [destructure bind]; rewrite Hm; cbn [bind stray_v app1].
    + exact Next.
    + cbn [existsb stray]. rewrite (Hs x b) by (apply in_or_app; right; now left). cbn. exact Next.
  - (* another statement *)
    assert (Pt : plain bn t = true) by (apply Hp; [now left|exact D]).
    eapply ends_bind with (a := place (wrap s) t).
    { rewrite <- (place_nil t) by eauto. 
      pose proof (names_place bn t Pt (wrap s) []) as F. cbn [app] in F. apply F.
      - apply wrap_tidy. eapply tidy_prefix; eauto.
      - intros x Hx. rewrite wrap_block_names in Hx. apply Hb. unfold block_names. rewrite flat_map_app.
        apply in_or_app. auto. }
    assert (ST : existsb stray (place (wrap s) t) = false).
    { eapply place_nodecl; [exact Pt|]. apply assoc_wrap_stray. intros x b Hin. apply (Hs x b). apply in_or_app. auto. }
    assert (R : ends (fun n => block_loop n seen [] (defs_of (wrap s)) body) (Done (blocksw s body))).
    { apply IH; auto. intros y Hy Hd. apply Hp; [now right|exact Hd]. }
    assert (G : ends (fun n => if existsb stray (place (wrap s) t) then Err SyntaxError
                else let* r := block_loop n seen [] (defs_of (wrap s)) body in Done (place (wrap s) t ++ r))
              (Done (place (wrap s) t ++ blocksw s body))).
    { rewrite ST. eapply ends_bind; [exact R|]. apply ends_const. }
    destruct (place (wrap s) t) as [|[e|k i l|k i l b o|m ps y b] [|? ?]] eqn:E; try exact G.
    discriminate.
Qed.
End Loop.
Lemma block_ok body : tidy body ->
  ends (fun n => let_syntax_block n body)
    (match eliminate_ifones (blocks [] body) with [] => Err SyntaxError | l => Done l end).
Proof.
  intros [H1 [H2 H3]]. unfold let_syntax_block.
  eapply ends_bind.
  - apply (loop_ok (block_names (definitions body)) body []); cbn [app]; auto.
    + split; [exact H1|]. intros x y v Hx Hy. now apply (H3 y v Hy).
    + intros x b Hin. apply H3 in Hin as [_ Hin]. eapply plains_nodecl; eauto.
  - unfold eliminate_ifones. rewrite ifones_blocksw. apply ends_const.
Qed.

(** ** Expression mode *)
Definition tdefs (bs : list binding) : list def :=
  flat_map (fun b => match b with BTemp f ps w => [(f, ps, VExpr w)] | BName _ _ => [] end) bs.
Definition ndefs (bs : list binding) : list def :=
  flat_map (fun b => match b with BTemp _ _ _ => [] | BName x w => [(x, [], VExpr w)] end) bs.
Lemma mapM_ident ps : mapM ident (map Name ps) = Done ps.
Proof.
  induction ps as [|p ps IH]; [reflexivity|].
  change (mapM ident (map Name (p :: ps))) with (let* b := ident (Name p) in let* l := mapM ident (map Name ps) in Done (b :: l)).
  rewrite IH. reflexivity.
Qed.
Lemma register_ok bs : forall seen, NoDup (map bound_name bs) -> (forall b, In b bs -> ~ In (bound_name b) seen) ->
  (forall f ps w, In (BTemp f ps w) bs -> ps <> []) ->
  register seen (map written bs) = Done (tdefs bs, ndefs bs).
Proof.
  induction bs as [|b bs IH]; intros seen Hd Hs Hp; [reflexivity|].
  inversion Hd as [|? ? Hb Hd']; subst.
  assert (Hm : mems (bound_name b) seen = false) by (apply mems_false, Hs; now left).
  assert (R : register (bound_name b :: seen) (map written bs) = Done (tdefs bs, ndefs bs)).
  { apply IH; auto.
    - intros c Hc [E|Hin]; [|now apply (Hs c (or_intror Hc))]. apply Hb. rewrite E. now apply in_map.
    - intros f ps w H. apply (Hp f ps w). now right. }
  destruct b as [x w|f ps w]; cbn [map written register analyze_lhs bind bound_name] in *.
  - rewrite Hm, R. reflexivity.
  - rewrite mapM_ident. cbn [bind]. rewrite Hm, R. cbn [bind].
    destruct ps as [|p ps]; [|reflexivity]. exfalso. now apply (Hp f [] w); [left|].
Qed.
Lemma temps_e_ok bs : forall e, all_usable bs e -> ends (fun n => temps_e n (tdefs bs) e) (Done (by_templates bs e)).
Proof.
  induction bs as [|[x w|f ps w] bs IH]; intros e H; cbn [by_templates].
  - exists 0; reflexivity.
  - destruct H as [_ H]. now apply IH.
  - destruct H as [[_ [H1 [H2 [H3 [H4 H5]]]]] H].
    change (tdefs (BTemp f ps w :: bs)) with ((f, ps, VExpr w) :: tdefs bs). cbn [temps_e].
    eapply ends_bind; [apply temp_ok; assumption|]. now apply IH.
Qed.
Lemma names_e_ok bs : forall e, (forall x w, In (BName x w) bs -> inside x w = false) ->
  ends (fun n => names_e n (ndefs bs) e) (Done (by_names bs e)).
Proof.
  induction bs as [|[x w|f ps w] bs IH]; intros e H; cbn [by_names].
  - exists 0; reflexivity.
  - change (ndefs (BName x w :: bs)) with ((x, @nil string, VExpr w) :: ndefs bs). cbn [names_e].
    eapply ends_bind; [apply name_ok; left; apply H; now left|]. apply IH. intros; apply H; now right.
  - apply IH. intros; apply H; now right.
Qed.
Lemma usable_facts bs : forall e, all_usable bs e ->
  (forall x w, In (BName x w) bs -> inside x w = false) /\ (forall f ps w, In (BTemp f ps w) bs -> ps <> []).
Proof.
  induction bs as [|[x w|f ps w] bs IH]; intros e H; [split; intros ? * []| |]; destruct H as [H1 H]; apply IH in H as [H2 H3].
  - split; [intros y u [[= -> ->]|Hin]|intros g qs u [[=]|Hin]]; eauto.
  - split; [intros y u [[=]|Hin]|intros g qs u [[= -> -> ->]|Hin]]; eauto. apply H1.
Qed.
Lemma expr_ok bs e : NoDup (map bound_name bs) -> all_usable bs e ->
  ends (fun n => let_syntax_expr n (map written bs) e) (Done (by_names bs (by_templates bs e))).
Proof.
  intros Hd Hu. destruct (usable_facts _ _ Hu) as [U1 U2].
  destruct bs as [|b bs]; [exists 0; reflexivity|].
  pose proof (register_ok (b :: bs) [] Hd (fun _ _ H => H) U2) as R.
  unfold let_syntax_expr. cbn [map] in *. rewrite R. cbn [bind].
  eapply ends_bind; [apply temps_e_ok; exact Hu|]. now apply names_e_ok.
Qed.
Lemma register_dup bs1 : forall seen x, In x seen -> forall bs k w, (exists ps, analyze_lhs k = Done (x, ps)) ->
  (forall kw, In kw bs1 -> exists xp, analyze_lhs (fst kw) = Done xp) ->
  register seen (bs1 ++ (k, w) :: bs) = Err SyntaxError.
Proof.
  induction bs1 as [|[k' w'] bs1 IH]; intros seen x Hx bs k w [ps Hk] Hok; cbn [app register].
  - rewrite Hk. cbn [bind]. assert (E : mems x seen = true).
    { unfold mems. apply existsb_exists. exists x. split; [auto|apply String.eqb_refl]. }
    now rewrite E.
  - destruct (Hok (k', w') (or_introl eq_refl)) as [[y qs] Hy]. cbn [fst] in Hy. rewrite Hy. cbn [bind].
    destruct (mems y seen); [reflexivity|].
    rewrite (IH (y :: seen) x); [reflexivity|now right|eauto|]. intros; apply Hok; now right.
Qed.
Lemma expr_dup bs1 bs2 bs3 k k' w w' e x ps ps' n :
  analyze_lhs k = Done (x, ps) -> analyze_lhs k' = Done (x, ps') ->
  (forall kw, In kw (bs1 ++ bs2) -> exists xp, analyze_lhs (fst kw) = Done xp) ->
  let_syntax_expr n (bs1 ++ (k, w) :: bs2 ++ (k', w') :: bs3) e = Err SyntaxError.
Proof.
  intros Hk Hk' Hok.
  assert (R : forall seen, register seen (bs1 ++ (k, w) :: bs2 ++ (k', w') :: bs3) = Err SyntaxError).
  { clear n e. revert Hok. induction bs1 as [|[k1 w1] bs1 IH]; intros Hok seen; cbn [app register].
    - rewrite Hk. cbn [bind]. destruct (mems x seen); [reflexivity|].
      rewrite (register_dup bs2 (x :: seen) x); [reflexivity|now left|eauto|exact Hok].
    - destruct (Hok (k1, w1) (or_introl eq_refl)) as [[y qs] Hy]. cbn [fst] in Hy. rewrite Hy. cbn [bind].
      destruct (mems y seen); [reflexivity|]. rewrite IH; [reflexivity|]. intros; apply Hok; now right. }
  specialize (R []). revert R. generalize (bs1 ++ (k, w) :: bs2 ++ (k', w') :: bs3). intros [|b l] R; [discriminate|].
  unfold let_syntax_expr. now rewrite R.
Qed.

(** ** Constant tests *)
Lemma isifone_test k l : match isifone k l with Some _ => false | None => true end = negb (constant_test k l).
Proof.
  unfold isifone, constant_test. destruct l as [|[x|f a|f a|c [|] [|]] [|]]; cbn [andb negb];
    rewrite ?andb_false_r; try reflexivity.
  destruct (String.eqb k "if"); [|reflexivity]. cbn.
  repeat match goal with |- context [String.eqb c ?d] => destruct (String.eqb c d) end; reflexivity.
Qed.
Lemma ifone_branch c i b o :
  (In c ["1"; "True"] -> eliminate_ifones [SComp "if" i [constant c] b o] = eliminate_ifones b) /\
  (In c ["0"; "False"; "None"] -> eliminate_ifones [SComp "if" i [constant c] b o] = eliminate_ifones o).
Proof.
  unfold eliminate_ifones. split; intros H; cbn in H.
  - destruct H as [<-|[<-|[]]]; cbn; apply app_nil_r.
  - destruct H as [<-|[<-|[<-|[]]]]; cbn; apply app_nil_r.
Qed.
Lemma expr_body n ps x b rest : (forall e, b <> [SExpr e]) ->
  forall l, let_syntax_block n (SDecl false ps x b :: rest) <> Done l.
Proof.
  intros H l. unfold let_syntax_block. cbn [block_loop temps_b names_b bind].
  assert (E : forall d, destructure [] false ps x b <> Done d).
  { unfold destructure. intros d. destruct x as [[y|f a|f a|k i es]|]; try discriminate.
    cbn [mems existsb]. destruct (match ps with Some l => mapM ident l | None => Done [] end);
      cbn [bind]; try discriminate.
    destruct b as [|[e| | |] [|]]; try discriminate. exfalso. now apply (H e). }
  destruct (destructure [] false ps x b) as [d| |]; try discriminate. exfalso. now apply (E d).
Qed.
Lemma ifones_none l : (forall t, In t l -> no_ifone t = true) -> eliminate_ifones l = l.
Proof.
  assert (S : forall t, no_ifone t = true -> ifones t = [t]).
  { assert (B : forall b, Forall (fun t => no_ifone t = true -> ifones t = [t]) b ->
      forallb no_ifone b = true -> flat_map ifones b = b).
    { intros b. induction 1 as [|a b Ha _ IH]; [reflexivity|]. cbn. rewrite andb_true_iff. intros [H1 H2].
      rewrite Ha, IH; auto. }
    induction t as [e|k i es|k i es b o IHb IHo|m ps y b IHb] using stmt_rec'; cbn [no_ifone ifones]; auto.
    - rewrite !andb_true_iff, <- isifone_test. intros [[H1 H2] H3]. rewrite !B by auto. destruct (isifone k es); [discriminate|reflexivity].
    - intros H. now rewrite B. }
  unfold eliminate_ifones. induction l as [|t l IH]; intros H; [reflexivity|]. cbn.
  rewrite S by (apply H; now left). cbn. f_equal. apply IH. intros; apply H; now right.
Qed.
Lemma ifones_gone l : forallb no_ifone (eliminate_ifones l) = true.
Proof.
  assert (S : forall t, forallb no_ifone (ifones t) = true).
  { assert (B : forall b, Forall (fun t => forallb no_ifone (ifones t) = true) b -> forallb no_ifone (flat_map ifones b) = true).
    { intros b. induction 1 as [|a b Ha _ IH]; [reflexivity|]. cbn. rewrite forallb_app, Ha. auto. }
    induction t as [e|k i es|k i es b o IHb IHo|m ps y b IHb] using stmt_rec'; auto.
    - cbn [ifones]. destruct (isifone k es) as [[|]|] eqn:E; auto. cbn [forallb no_ifone]. rewrite <- isifone_test, E, !B by auto. reflexivity.
    - cbn. rewrite B; auto. }
  unfold eliminate_ifones. induction l as [|t l IH]; [reflexivity|]. cbn. now rewrite forallb_app, S.
Qed.
Lemma count_bad n f ps v l : length l <> length ps ->
  splice_temp (S n) (f, ps, VExpr v) (Sub (Name f) l) = Err SyntaxError.
Proof.
  intros H. cbn. rewrite String.eqb_refl. unfold subst. apply Nat.eqb_neq in H. now rewrite H.
Qed.

(** ** Single cases *)
Lemma name1_ok x w e : inside x w = false -> ends (fun n => let_syntax_expr n [(Name x, w)] e) (Done (inst [(x, w)] e)).
Proof.
  intros H. apply (expr_ok [BName x w] e); [|split; [exact H|exact I]]. repeat constructor. intros [].
Qed.
Lemma name1_out x w e : inside x w = true -> occurs x e = true ->
  forall n, let_syntax_expr n [(Name x, w)] e = OutOfFuel.
Proof.
  intros H1 H2 n. unfold let_syntax_expr. cbn [register analyze_lhs bind mems existsb temps_e names_e].
  now rewrite name_out.
Qed.
Lemma temp1_ok f ps w e : usable f ps w e ->
  ends (fun n => let_syntax_expr n [(Sub (Name f) (map Name ps), w)] e) (Done (texp f ps w e)).
Proof.
  intros H. apply (expr_ok [BTemp f ps w] e); [|split; [exact H|exact I]]. repeat constructor. intros [].
Qed.
Ltac fuel := exists 9; intros n H; do 9 (destruct n as [|n]; [exfalso; repeat apply le_S_n in H; inversion H|]); reflexivity.
Lemma later_case : exists f ps w args,
  ends (fun n => let_syntax_expr n [(Sub (Name f) (map Name ps), w)] (Sub (Name f) args))
    (Done (Node "-" [] [Name "c"; Name "c"])) /\
  inst (combine ps args) w = Node "-" [] [Name "b"; Name "c"].
Proof.
  exists "f", ["a"; "b"], (Node "-" [] [Name "a"; Name "b"]), [Name "b"; Name "c"].
  split; [|reflexivity]. fuel.
Qed.
Lemma own_case : exists f ps w args,
  length args = length ps /\
  (forall n, let_syntax_expr n [(Sub (Name f) (map Name ps), w)] (Sub (Name f) args) = OutOfFuel) /\
  inst (combine ps args) w = Call (Name "g") [Call (Name "h") [Name "a"]].
Proof.
  exists "f", ["a"], (Call (Name "g") [Name "a"]), [Call (Name "h") [Name "a"]].
  split; [reflexivity|]. split; [|reflexivity]. intros [|n]; [reflexivity|].
  unfold let_syntax_expr. cbn [map register analyze_lhs mapM ident bind mems existsb temps_e splice_temp uses].
  cbn [String.eqb Ascii.eqb Bool.eqb]. unfold subst. cbn [length Nat.eqb negb fill name_v].
  rewrite name_out by reflexivity. reflexivity.
Qed.
Lemma nested_case : exists f ps w e,
  ends (fun n => let_syntax_expr n [(Sub (Name f) (map Name ps), w)] e) (Done (Sub (Name "f") [Name "x"])) /\
  texp f ps w e = Name "x".
Proof.
  exists "f", ["a"], (Name "a"), (Sub (Name "f") [Sub (Name "f") [Name "x"]]).
  split; [|reflexivity]. fuel.
Qed.
Lemma user_code_case : exists body,
  definitions body = [] /\ tidy body /\
  body = [SComp "def" ["f"] [] [SComp "if" [] [constant "0"] [SSimple "yield" [] []] []] []] /\
  ends (fun n => let_syntax_block n body) (Done [SComp "def" ["f"] [] [] []]).
Proof.
  eexists. split; [|split; [|split; [reflexivity|]]].
  - reflexivity.
  - split; [constructor|]. split; [|intros x v []]. intros t [<-|[]] _. reflexivity.
  - exists 0. intros n _. reflexivity.
Qed.
