From Coq Require Import String List ZArith Arith Bool Lia.
From Verif Require Import Base PyModel PyProofs AretModel AretSpec AretProofs MtcoModel MtcoSpec.
From Verif Require PtcSpec.
Import ListNotations.
Open Scope string_scope.
Open Scope list_scope.
Open Scope nat_scope.

Section Ecs.
Variable ecs : list string.
Variable isb : nat -> bool.
Notation isec := (isec ecs).
Notation retexpr := (retexpr ecs).
Notation lam_e := (lam_e ecs).
Notation lam_s := (lam_s ecs).
Notation ret_s := (ret_s ecs).

(** * The transformations, unfolded *)
Lemma retexpr_bool isand l e : retexpr (EBool isand (l ++ [e])) =
  if compound e then bool_op isand l (retexpr e) else EBool isand (l ++ [e]).
Proof.
  cbn [MtcoModel.retexpr].
  assert (E : (fix last (l : list expr) : option expr :=
               match l with [] => None | [e] => if compound e then Some (retexpr e) else None | _ :: l => last l end) (l ++ [e])
              = if compound e then Some (retexpr e) else None).
  { induction l as [|a l IH]; [reflexivity|]. cbn [app]. destruct (l ++ [e]) eqn:D; [destruct l; discriminate D|]. exact IH. }
  rewrite E, removelast_last. destruct (compound e); reflexivity.
Qed.
Lemma lam_bool isand l : lam_e (EBool isand l) = EBool isand (map lam_e l).
Proof. reflexivity. Qed.
Lemma lam_compound e : compound (lam_e e) = compound e.
Proof. destruct e; reflexivity. Qed.
Lemma lam_isec e : isec (lam_e e) = isec e.
Proof. destruct e; try reflexivity. destruct e; reflexivity. Qed.
(** the order in which line 1532 and 1541-1542 do it gives the same *)
Lemma lam_ret : forall e, lam_e (retexpr e) = retexpr (lam_e e).
Proof.
  apply expr_ind'; try reflexivity.
  - intros f l _ _. change (retexpr (lam_e (ECall f l))) with (if isec (lam_e (ECall f l)) then lam_e (ECall f l) else EJump (lam_e f) (map lam_e l)).
    rewrite lam_isec. cbn [MtcoModel.retexpr]. destruct (isec (ECall f l)); reflexivity.
  - intros t a b _ Ha Hb. cbn [MtcoModel.retexpr MtcoModel.lam_e]. now rewrite Ha, Hb.
  - intros i l Hl. destruct l as [|x l]; [reflexivity|]. destruct (@exists_last _ (x :: l)) as (init & e & E); [discriminate|]. rewrite E in *.
    rewrite lam_bool, map_app. cbn [map]. rewrite !retexpr_bool, lam_compound. destruct (compound e).
    + apply Forall_app in Hl. destruct Hl as [_ Hl]. inversion Hl as [|? ? He _]; subst. rewrite <- He. unfold bool_op.
      destruct i; destruct init as [|y [|z init]]; reflexivity.
    + rewrite lam_bool, map_app. reflexivity.
Qed.

Definition tco_s (s : stmt) : stmt := lam_s (def_s (ret_s s)).
Definition tco_h (hs : list ((exn -> bool) * list stmt)) := map (fun mh => (fst mh, map tco_s (snd mh))) hs.
Lemma tco_all l : map lam_s (map def_s (map ret_s l)) = map tco_s l.
Proof. now rewrite !map_map. Qed.
Lemma tco_return e : tco_s (SReturn e) = if isec e then SExpr (lam_e e) else SReturn (retexpr (lam_e e)).
Proof. unfold tco_s. cbn [MtcoModel.ret_s]. destruct (isec e); [reflexivity|]. cbn [def_s MtcoModel.lam_s]. now rewrite lam_ret. Qed.
Lemma tco_if e a b : tco_s (SIf e a b) = SIf (lam_e e) (map tco_s a) (map tco_s b).
Proof. rewrite <- !tco_all. reflexivity. Qed.
Lemma tco_while e a b : tco_s (SWhile e a b) = SWhile (lam_e e) (map tco_s a) (map tco_s b).
Proof. rewrite <- !tco_all. reflexivity. Qed.
Lemma tco_with e x a : tco_s (SWith e x a) = SWith (lam_e e) x (map tco_s a).
Proof. rewrite <- !tco_all. reflexivity. Qed.
Lemma tco_def tr x ps b : tco_s (SDef tr x ps b) = SDef true x ps (map tco_s b).
Proof. rewrite <- !tco_all. reflexivity. Qed.
Lemma tco_class x b : tco_s (SClass x b) = SClass x (map tco_s b).
Proof. rewrite <- !tco_all. reflexivity. Qed.
Lemma tco_list l : tco_s (SList l) = SList (map tco_s l).
Proof. rewrite <- !tco_all. reflexivity. Qed.
Lemma tco_try a hs b c : tco_s (STry a hs b c) = STry (map tco_s a) (tco_h hs) (map tco_s b) (map tco_s c).
Proof.
  assert (E : tco_s (STry a hs b c) = STry (map lam_s (map def_s (map ret_s a)))
    (map (fun mh => (fst mh, map lam_s (map def_s (map ret_s (snd mh))))) hs) (map lam_s (map def_s (map ret_s b))) (map lam_s (map def_s (map ret_s c)))).
  { unfold tco_s. cbn [MtcoModel.ret_s def_s MtcoModel.lam_s]. f_equal. induction hs as [|[m l] hs IH]; [reflexivity|]. cbn [map fst snd]. f_equal. exact IH. }
  rewrite E, !tco_all. f_equal. apply map_ext. intros. now rewrite tco_all.
Qed.
Lemma tco_eq l : tco ecs l = map tco_s l.
Proof. reflexivity. Qed.

Lemma binds_map l : Forall (fun s => binds (tco_s s) = binds s) l -> binds_all (map tco_s l) = binds_all l.
Proof. induction 1 as [|s l Hs Hl IH]; [reflexivity|]. cbn [map binds_all]. now rewrite Hs, IH. Qed.
Lemma binds_tco : forall s, binds (tco_s s) = binds s.
Proof.
  apply (stmt_ind' (fun s => binds (tco_s s) = binds s)); try reflexivity.
  - intros e. rewrite tco_return. destruct (isec e); reflexivity.
  - intros e a b Ha Hb. rewrite tco_if. change (binds_all (map tco_s a) ++ binds_all (map tco_s b) = binds_all a ++ binds_all b). now rewrite !binds_map.
  - intros e a b Ha Hb. rewrite tco_while. change (binds_all (map tco_s a) ++ binds_all (map tco_s b) = binds_all a ++ binds_all b). now rewrite !binds_map.
  - intros a hs b c Ha Hhs Hb Hc. rewrite tco_try.
    set (bh := fix hl (hs : list ((exn -> bool) * list stmt)) : list string := match hs with [] => [] | (_, l) :: hs => binds_all l ++ hl hs end).
    change (binds_all (map tco_s a) ++ bh (tco_h hs) ++ binds_all (map tco_s b) ++ binds_all (map tco_s c) =
            binds_all a ++ bh hs ++ binds_all b ++ binds_all c). rewrite !binds_map by auto. do 2 f_equal.
    induction Hhs as [|[m l] hs Hl Hhs IH]; [reflexivity|]. cbn [tco_h map fst snd bh] in *. unfold tco_h in IH. now rewrite binds_map, IH.
  - intros e x a Ha. rewrite tco_with.
    change (match x with Some x => [x] | None => [] end ++ binds_all (map tco_s a) = match x with Some x => [x] | None => [] end ++ binds_all a).
    now rewrite binds_map.
  - intros l Hl. rewrite tco_list. change (binds_all (map tco_s l) = binds_all l). now apply binds_map.
Qed.
Lemma binds_tco_all l : binds_all (map tco_s l) = binds_all l.
Proof. apply binds_map, Forall_forall. intros; apply binds_tco. Qed.

(** * The heap of the transformed program *)
Definition Tf (f : fobj) : fobj :=
  mkFun true (fparams f) (match fcode f with BExpr e => BExpr (retexpr (lam_e e)) | BBlock b => BBlock (map tco_s b) end) (fenv f).
Definition good_f (f : fobj) : Prop :=
  ftramp f = false /\
  match fcode f with BExpr e => good_e ecs isb e /\ ~ and_in_tail isb e | BBlock b => Forall (good_s ecs isb false) b end.
Definition good_slots (l : list (string * option value)) : Prop := forall x v, In (x, Some v) l -> not_jump v = true.

Section Sim.
Variable W : Type.
Variable prim : nat -> list value -> W -> outcome value * W.
Hypothesis prim_bool : bool_ops isb prim.
Hypothesis prim_ok : forall o l w v w', prim o l w = (Ok v, w') -> Forall (fun v => not_jump v = true) l -> not_jump v = true.
Notation heap := (heap W).
Notation eval := (eval W prim).
Notation exec := (exec W prim).
Notation block := (block W prim).
Notation evals := (evals W prim).
Notation items := (items W prim).
Notation noj v := (not_jump v = true).

Definition T (h : heap) : heap := mkHeap (frames h) (map Tf (funs h)) (objs h) (world h).
Definition lift {A} (r : option (A * heap)) : option (A * heap) := match r with Some (a, h) => Some (a, T h) | None => None end.
Definition ok (h : heap) : Prop := Forall (fun f => good_slots (slots f)) (frames h) /\ Forall good_f (funs h).
Definition ok_v (r : option (outcome value * heap)) : Prop :=
  match r with Some (o, h) => ok h /\ (forall v, o = Ok v -> noj v) | None => True end.
Definition ok_vs (r : option (outcome (list value) * heap)) : Prop :=
  match r with Some (o, h) => ok h /\ (forall l, o = Ok l -> Forall (fun v => noj v) l) | None => True end.
Definition ok_c (r : option (comp * heap)) : Prop :=
  match r with Some (c, h) => ok h /\ (forall v, c = CNormal v \/ c = CReturn v -> noj v) | None => True end.

Lemma T_assign cur x v h : T (assign W cur x v h) = assign W cur x v (T h).
Proof. unfold assign. cbn. destruct (nth_error (frames h) cur); reflexivity. Qed.
Lemma T_new_fun f h : T (new_fun W f h) = new_fun W (Tf f) (T h).
Proof. unfold T, new_fun. cbn. now rewrite map_app. Qed.
Lemma T_length_funs h : length (funs (T h)) = length (funs h).
Proof. apply map_length. Qed.
Lemma good_put x v l : good_slots l -> noj v -> good_slots (put x v l).
Proof.
  intros H Hv y w. induction l as [|[z u] l IH]; cbn.
  - intros [E|[]]. injection E as _ <-. exact Hv.
  - destruct (String.eqb z x); cbn.
    + intros [E|I]; [injection E as _ <-; exact Hv|]. eapply H. right. exact I.
    + intros [E|I]; [eapply H; left; exact E|]. apply IH; [|exact I]. intros a b J. eapply H. right. exact J.
Qed.
Lemma Forall_set_nth {A} (P : A -> Prop) a l : forall n, Forall P l -> P a -> Forall P (set_nth n a l).
Proof. induction l as [|b l IH]; intros [|n] H Ha; cbn; inversion H; subst; constructor; auto. Qed.
Lemma ok_assign cur x v h : ok h -> noj v -> ok (assign W cur x v h).
Proof.
  intros [Hf Hg] Hv. unfold assign. destruct (nth_error (frames h) cur) as [f|] eqn:E; [|now split]. split; [|exact Hg]. cbn.
  apply Forall_set_nth; [exact Hf|]. cbn. apply good_put; [|exact Hv]. rewrite Forall_forall in Hf. apply Hf. eapply nth_error_In, E.
Qed.
Lemma ok_new_fun f h : ok h -> good_f f -> ok (new_fun W f h).
Proof. intros [Hf Hg] H. split; [exact Hf|]. cbn. apply Forall_app. split; [exact Hg|]. repeat constructor; apply H. Qed.
Lemma ok_new_frame f h : ok h -> good_slots (slots f) -> ok (new_frame W f h).
Proof. intros [Hf Hg] H. split; [|exact Hg]. cbn. apply Forall_app. split; [exact Hf|]. now constructor. Qed.
Lemma get_In x v l : get x l = Some (Some v) -> In (x, Some v) l.
Proof.
  induction l as [|[y w] l IH]; cbn; [discriminate|]. destruct (String.eqb_spec y x); [|auto]. subst. intros E. injection E as <-. now left.
Qed.
Lemma lookup_ok x v fs : Forall (fun f => good_slots (slots f)) fs -> forall k cur, lookup k x cur fs = Ok v -> noj v.
Proof.
  intros H. induction k as [|k IH]; intros cur; cbn; [discriminate|]. destruct (nth_error fs cur) as [f|] eqn:E; [|discriminate].
  destruct (get x (slots f)) as [[w|]|] eqn:G.
  - intros K. injection K as <-. rewrite Forall_forall in H. apply (H f (nth_error_In _ _ E) x w). now apply get_In.
  - destruct (isclass f); [|discriminate]. destruct (up f); [apply IH|discriminate].
  - destruct (up f); [apply IH|discriminate].
Qed.

Section Step.
(** calls in the target; calls by a trampoline in the target; calls in the source *)
Variables c1 cb c2 : value -> list value -> M W value.
Variable loops : nat.
Hypothesis Hc : forall g args h, ok h -> Forall (fun v => noj v) args -> c1 g args (T h) = lift (c2 g args h) /\ ok_v (c2 g args h).
Hypothesis Hb : forall g args h, ok h -> Forall (fun v => noj v) args -> cb g args (T h) = lift (c2 g args h).

Definition sim_e (e : expr) := good_e ecs isb e -> forall cur h, ok h -> eval c1 cur (lam_e e) (T h) = lift (eval c2 cur e h) /\ ok_v (eval c2 cur e h).
Lemma sim_evals l : Forall sim_e l -> Forall (good_e ecs isb) l -> forall cur h, ok h ->
  evals c1 cur (map lam_e l) (T h) = lift (evals c2 cur l h) /\ ok_vs (evals c2 cur l h).
Proof.
  induction 1 as [|e l He Hl IH]; intros G cur h Hh; [split; [reflexivity|split; [exact Hh|intros ? E; injection E as <-; constructor]]|].
  inversion G; subst. cbn [map PyProofs.evals]. destruct (He H1 cur h Hh) as [-> K].
  destruct (eval c2 cur e h) as [[[v|x] h1]|]; cbn [lift]; [| |now split].
  - fold (evals c1 cur) (evals c2 cur). destruct K as [K1 K2]. destruct (IH H2 cur h1 K1) as [-> K].
    destruct (evals c2 cur l h1) as [[[vs|x] h2]|]; cbn [lift]; [| |now split].
    + split; [reflexivity|]. destruct K as [K3 K4]. split; [exact K3|]. intros ? E. injection E as <-. constructor; auto.
    + split; [reflexivity|]. destruct K as [K3 K4]. split; [exact K3|discriminate].
  - split; [reflexivity|]. destruct K. split; [assumption|discriminate].
Qed.
Lemma sim_items a l : l <> [] -> Forall sim_e l -> Forall (good_e ecs isb) l -> forall cur h, ok h ->
  items c1 a cur (map lam_e l) (T h) = lift (items c2 a cur l h) /\ ok_v (items c2 a cur l h).
Proof.
  intros N F. induction F as [|e l He Hl IH]; intros G cur h Hh; [congruence|]. inversion G; subst. cbn [map PyProofs.items].
  destruct l as [|e' l]; [now apply He|]. destruct (He H1 cur h Hh) as [-> K]. cbn [map].
  destruct (eval c2 cur e h) as [[[v|x] h1]|]; cbn [lift]; [| |now split].
  - destruct K as [K1 K2]. destruct (Bool.eqb (truthy v) a); [apply IH; auto; discriminate|]. split; [reflexivity|]. split; auto.
  - split; [reflexivity|]. exact K.
Qed.
Lemma sim_expr : forall e, sim_e e.
Proof.
  apply expr_ind'; unfold sim_e.
  - intros v G cur h Hh. inversion G; subst. split; [reflexivity|]. split; [exact Hh|]. intros ? E. injection E as <-. assumption.
  - intros x G cur h Hh. split; [reflexivity|]. split; [exact Hh|]. intros v. apply lookup_ok, Hh.
  - intros o l Hl G cur h Hh. inversion G; subst. change (lam_e (EPrim o l)) with (EPrim o (map lam_e l)). rewrite !eval_prim.
    destruct (sim_evals l Hl ltac:(assumption) cur h Hh) as [-> K]. destruct (evals c2 cur l h) as [[[vs|x] h1]|]; cbn [lift]; [| |now split].
    + destruct K as [K1 K2]. change (world (T h1)) with (world h1). destruct (prim o vs (world h1)) as [r w] eqn:P. split; [reflexivity|].
      split; [exact K1|]. intros v ->. eapply prim_ok; [exact P|]. now apply K2.
    + split; [reflexivity|]. destruct K. split; [assumption|discriminate].
  - intros f l Hf Hl G cur h Hh. inversion G; subst. change (lam_e (ECall f l)) with (ECall (lam_e f) (map lam_e l)). rewrite !eval_call.
    destruct (Hf ltac:(assumption) cur h Hh) as [-> K]. destruct (eval c2 cur f h) as [[[g|x] h1]|]; cbn [lift]; [| |now split].
    + destruct K as [K1 K2]. destruct (sim_evals l Hl ltac:(assumption) cur h1 K1) as [-> K]. destruct (evals c2 cur l h1) as [[[vs|x] h2]|]; cbn [lift]; [| |now split].
      * destruct K as [K3 K4]. apply Hc; auto.
      * split; [reflexivity|]. destruct K. split; [assumption|discriminate].
    + split; [reflexivity|exact K].
  - intros t a b Ht Ha Hbb G cur h Hh. inversion G; subst. cbn [MtcoModel.lam_e PyModel.eval].
    destruct (Ht ltac:(assumption) cur h Hh) as [-> K]. destruct (eval c2 cur t h) as [[[v|x] h1]|]; cbn [lift]; [| |now split].
    + destruct K as [K1 K2]. destruct (truthy v); auto.
    + split; [reflexivity|exact K].
  - intros i l Hl G cur h Hh. inversion G; subst. rewrite lam_bool, !eval_bool. apply sim_items; auto. destruct l; cbn in *; [lia|discriminate].
  - intros tr ps b _ G cur h Hh. inversion G; subst. cbn [MtcoModel.lam_e PyModel.eval lift]. rewrite T_new_fun, T_length_funs. split; [reflexivity|].
    split; [|intros ? E; injection E as <-; reflexivity]. apply ok_new_fun; [exact Hh|]. split; [reflexivity|]. cbn. now split.
  - intros f l _ _ G. inversion G.
Qed.

(** ** In tail position *)
Definition resolve (r : option (outcome value * heap)) : option (outcome value * heap) :=
  match r with Some (Ok (VJump t a), h) => cb t a h | r => r end.
Lemma resolve_lift r : ok_v r -> resolve (lift r) = lift r.
Proof.
  destruct r as [[[v|x] h]|]; cbn; try reflexivity. intros [_ H]. specialize (H v eq_refl). destruct v; try reflexivity. discriminate H.
Qed.
Lemma items_last c a e cur : forall l h, l <> [] -> items c a cur (l ++ [e]) h =
  match items c a cur l h with
  | Some (Ok v, h) => if Bool.eqb (truthy v) a then eval c cur e h else Some (Ok v, h)
  | r => r
  end.
Proof.
  induction l as [|x l IH]; intros h N; [congruence|]. destruct l as [|y l].
  - cbn [app PyProofs.items]. destruct (eval c cur x h) as [[[v|z] h1]|]; reflexivity.
  - cbn [app] in *. change (items c a cur (x :: y :: l ++ [e]) h) with
      (match eval c cur x h with Some (Ok v, h) => if Bool.eqb (truthy v) a then items c a cur (y :: l ++ [e]) h else Some (Ok v, h) | r => r end).
    change (items c a cur (x :: y :: l) h) with
      (match eval c cur x h with Some (Ok v, h) => if Bool.eqb (truthy v) a then items c a cur (y :: l) h else Some (Ok v, h) | r => r end).
    destruct (eval c cur x h) as [[[v|z] h1]|]; try reflexivity. destruct (Bool.eqb (truthy v) a) eqn:E; [apply IH; discriminate|].
    now rewrite E.
Qed.
Definition others (i : bool) (l : list expr) : expr := match l with [e] => e | _ => EBool i l end.
Lemma eval_others c cur i l h : l <> [] -> eval c cur (others i l) h = items c i cur l h.
Proof. intros N. destruct l as [|x [|y l]]; [congruence|reflexivity|reflexivity]. Qed.
Lemma items_bool c i l : l <> [] -> Forall (is_bool isb) l -> forall cur h,
  match items c i cur l h with Some (Ok v, _) => exists b, v = VBool b | _ => True end.
Proof.
  intros N F. induction F as [|e l He Hl IH]; intros cur h; [congruence|].
  assert (V : match eval c cur e h with Some (Ok v, _) => exists b, v = VBool b | _ => True end).
  { destruct e; try contradiction He.
    - destruct v; try contradiction He. cbn. eauto.
    - cbn in He. rewrite eval_prim. destruct (evals c cur l0 h) as [[[vs|x] h1]|]; auto.
      destruct (prim o vs (world h1)) as [[v|x] w] eqn:P; auto. eapply prim_bool; eauto. }
  cbn [PyProofs.items]. destruct l as [|e' l]; [exact V|]. destruct (eval c cur e h) as [[[v|x] h1]|]; auto.
  destruct (Bool.eqb (truthy v) i); [apply IH; discriminate|exact V].
Qed.
Lemma isec_good f l : (forall x, f = EVar x -> ~ In x ecs) -> isec (ECall f l) = false.
Proof.
  intros H. destruct f; try reflexivity. cbn. destruct (existsb (String.eqb x) ecs) eqn:E; [|reflexivity].
  apply existsb_exists in E. destruct E as (y & I & E). apply String.eqb_eq in E. subst. destruct (H y eq_refl I).
Qed.
Lemma tail_item_last l e : tail_item (l ++ [e]) = if compound e then Some e else None.
Proof. unfold tail_item. rewrite rev_app_distr. cbn. destruct e; reflexivity. Qed.
Lemma compound_ends e : compound e = false -> ~ ends_in_call e /\ ~ and_in_tail isb e.
Proof. intros H. split; intros K; inversion K; subst; discriminate H. Qed.
(** an expression and the transformed one, in tail position; if the expression cannot end in a call, the
    transformed one does not give a jump *)
Lemma sim_tail : forall e, good_e ecs isb e -> ~ and_in_tail isb e -> forall cur h, ok h ->
  resolve (eval c1 cur (retexpr (lam_e e)) (T h)) = lift (eval c2 cur e h) /\
  (~ ends_in_call e -> eval c1 cur (retexpr (lam_e e)) (T h) = lift (eval c2 cur e h)).
Proof.
  assert (D : forall e, good_e ecs isb e -> forall cur h, ok h -> retexpr (lam_e e) = lam_e e ->
    resolve (eval c1 cur (retexpr (lam_e e)) (T h)) = lift (eval c2 cur e h) /\
    (~ ends_in_call e -> eval c1 cur (retexpr (lam_e e)) (T h) = lift (eval c2 cur e h))).
  { intros e G cur h Hh E. rewrite E. destruct (sim_expr e G cur h Hh) as [-> K]. rewrite resolve_lift by exact K. split; reflexivity. }
  apply (expr_ind' (fun e => good_e ecs isb e -> ~ and_in_tail isb e -> forall cur h, ok h ->
    resolve (eval c1 cur (retexpr (lam_e e)) (T h)) = lift (eval c2 cur e h) /\
    (~ ends_in_call e -> eval c1 cur (retexpr (lam_e e)) (T h) = lift (eval c2 cur e h)))).
  - intros v G _ cur h Hh. now apply D.
  - intros x G _ cur h Hh. now apply D.
  - intros o l _ G _ cur h Hh. now apply D.
  - intros f l _ _ G _ cur h Hh. split; [|intros N; destruct N; constructor]. inversion G; subst.
    assert (E : retexpr (lam_e (ECall f l)) = EJump (lam_e f) (map lam_e l)).
    { change (retexpr (lam_e (ECall f l))) with (if isec (lam_e (ECall f l)) then lam_e (ECall f l) else EJump (lam_e f) (map lam_e l)).
      rewrite lam_isec, isec_good by assumption. reflexivity. }
    rewrite E, eval_jump, eval_call. destruct (sim_expr f ltac:(assumption) cur h Hh) as [-> K].
    destruct (eval c2 cur f h) as [[[g|x] h1]|]; cbn [lift]; [|reflexivity|reflexivity].
    destruct K as [K1 K2]. destruct (sim_evals l) with (cur := cur) (h := h1) as [-> K]; auto.
    { apply Forall_forall. intros; apply sim_expr. }
    destruct (evals c2 cur l h1) as [[[vs|x] h2]|]; cbn [lift resolve]; try reflexivity. destruct K as [K3 K4]. apply Hb; auto.
  - intros t a b _ Ha Hbb G N cur h Hh. inversion G; subst. cbn [MtcoModel.lam_e MtcoModel.retexpr PyModel.eval].
    destruct (sim_expr t ltac:(assumption) cur h Hh) as [-> K]. destruct (eval c2 cur t h) as [[[v|x] h1]|]; cbn [lift]; [|now split|now split].
    destruct K as [K1 K2]. destruct (truthy v).
    + destruct (Ha ltac:(assumption) (fun X => N (ands_then isb t a b X)) cur h1 K1) as [A1 A2]. split; [exact A1|]. intros X. apply A2. intros Y. apply X. now constructor.
    + destruct (Hbb ltac:(assumption) (fun X => N (ands_else isb t a b X)) cur h1 K1) as [A1 A2]. split; [exact A1|]. intros X. apply A2. intros Y. apply X. now apply ends_else.
  - intros i l Hl G N cur h Hh. inversion G as [| | | | |i0 l0 L2 Gl|]; subst. destruct l as [|x l]; [cbn in *; lia|].
    destruct (@exists_last _ (x :: l)) as (init & e & E); [discriminate|]. rewrite E in *. clear E x l.
    assert (NI : init <> []) by (intros ->; cbn in *; lia).
    apply Forall_app in Gl. destruct Gl as [Gi Ge]. inversion Ge as [|? ? Ge' _]; subst. apply Forall_app in Hl. destruct Hl as [_ Hl]. inversion Hl as [|? ? He _]; subst.
    destruct (compound e) eqn:Ce.
    + rewrite lam_bool, map_app. cbn [map]. rewrite retexpr_bool, lam_compound, Ce, eval_bool, (items_last c2) by assumption.
      assert (NM : map lam_e init <> []) by (destruct init; [congruence|discriminate]).
      destruct (sim_items i init NI) with (cur := cur) (h := h) as [S K]; auto.
      { apply Forall_forall. intros; apply sim_expr. }
      pose proof (fun h1 K1 => He Ge' (fun X => N (ands_bool isb i init e X)) cur h1 K1) as He'.
      unfold bool_op. fold (others i (map lam_e init)). destruct i.
      * assert (B : Forall (is_bool isb) init).
        { assert (X : Forall (is_bool isb) init \/ ~ Forall (is_bool isb) init).
          { clear. induction init as [|x l IH]; [left; constructor|].
            assert (Y : is_bool isb x \/ ~ is_bool isb x).
            { destruct x; cbn; auto. destruct v; auto. destruct (isb o); [now left|now right]. }
            destruct Y as [Y|Y]; [|right; intros Z; inversion Z; auto]. destruct IH; [left; now constructor|right; intros Z; inversion Z; auto]. }
          destruct X as [X|X]; [exact X|]. destruct N. constructor; [|exact X]. rewrite tail_item_last, Ce. discriminate. }
        cbn [PyModel.eval]. rewrite eval_others, S by exact NM. pose proof (items_bool c2 true init NI B cur h) as V.
        destruct (items c2 true cur init h) as [[[v|y] h1]|]; cbn [lift]; [|now split|now split]. destruct K as [K1 K2].
        destruct V as (bb & ->). destruct bb; cbn [truthy Bool.eqb].
        -- destruct (He' h1 K1) as [A1 A2]. split; [exact A1|]. intros X. apply A2. intros Y. apply X. now constructor.
        -- split; reflexivity.
      * rewrite eval_bool.
        change (items c1 false cur [others false (map lam_e init); retexpr (lam_e e)] (T h)) with
          (items c1 false cur ([others false (map lam_e init)] ++ [retexpr (lam_e e)]) (T h)). rewrite items_last by discriminate.
        change (items c1 false cur [others false (map lam_e init)] (T h)) with (eval c1 cur (others false (map lam_e init)) (T h)).
        rewrite eval_others, S by exact NM.
        destruct (items c2 false cur init h) as [[[v|y] h1]|]; cbn [lift]; [|now split|now split]. destruct K as [K1 K2].
        destruct (Bool.eqb (truthy v) false).
        -- destruct (He' h1 K1) as [A1 A2]. split; [exact A1|]. intros X. apply A2. intros Y. apply X. now constructor.
        -- split; [|reflexivity]. specialize (K2 v eq_refl). destruct v; try reflexivity. discriminate K2.
    + apply D; auto. rewrite lam_bool, map_app. cbn [map]. now rewrite retexpr_bool, lam_compound, Ce.
  - intros tr ps b _ G _ cur h Hh. now apply D.
  - intros f l _ _ G. inversion G.
Qed.

(** ** Statements *)
Definition back (r : option (outcome value * heap)) : option (comp * heap) :=
  match r with Some (Ok v, h) => Some (CReturn v, h) | Some (Raise x, h) => Some (CRaise x, h) | None => None end.
(** the end of a statement of the target, that of the source *)
Definition sim (guarded : bool) (r' r : option (comp * heap)) : Prop :=
  match r' with
  | Some (CReturn (VJump t a), h') => guarded = false /\ lift r = back (cb t a h')
  | _ => r' = lift r
  end.
Lemma sim_lift g r : ok_c r -> sim g (lift r) r.
Proof.
  destruct r as [[[v|v|x| |] h]|]; cbn; try reflexivity. intros [_ H]. specialize (H v (or_intror eq_refl)). destruct v; try reflexivity. discriminate H.
Qed.
Lemma sim_guarded r' r : sim true r' r -> r' = lift r.
Proof. destruct r' as [[[v|v|x| |] h]|]; cbn; auto. destruct v; auto. intros [D _]. discriminate D. Qed.
Definition sim_st (s : stmt) := forall g, good_s ecs isb g s -> forall cur h, ok h ->
  sim g (exec c1 loops cur (tco_s s) (T h)) (exec c2 loops cur s h) /\ ok_c (exec c2 loops cur s h).
Lemma ok_of_expr m k : ok_v m -> (forall v h, m = Some (Ok v, h) -> ok h -> noj v -> ok_c (k v h)) -> ok_c (of_expr W k m).
Proof.
  destruct m as [[[v|x] h]|]; cbn; [| |auto].
  - intros [H1 H2] K. apply K; auto.
  - intros [H1 _] _. split; [exact H1|]. intros v [E|E]; discriminate E.
Qed.
Lemma sim_of_expr g e k' k : good_e ecs isb e -> forall cur h, ok h ->
  (forall v h, ok h -> noj v -> sim g (k' v (T h)) (k v h) /\ ok_c (k v h)) ->
  sim g (of_expr W k' (eval c1 cur (lam_e e) (T h))) (of_expr W k (eval c2 cur e h)) /\ ok_c (of_expr W k (eval c2 cur e h)).
Proof.
  intros G cur h Hh K. destruct (sim_expr e G cur h Hh) as [-> O]. split.
  - destruct (eval c2 cur e h) as [[[v|x] h1]|]; cbn [lift of_expr]; [|reflexivity|reflexivity]. destruct O as [O1 O2]. apply K; auto.
  - apply ok_of_expr; [exact O|]. intros v h1 _ O1 O2. now apply K.
Qed.
Lemma sim_and_then g r' r k' k : sim g r' r -> ok_c r -> (forall v h, ok h -> noj v -> sim g (k' v (T h)) (k v h) /\ ok_c (k v h)) ->
  sim g (and_then W r' k') (and_then W r k) /\ ok_c (and_then W r k).
Proof.
  intros S O K. split.
  - destruct r' as [[[v|v|x| |] h']|].
    + cbn in S. destruct r as [[d h]|]; [|discriminate S]. injection S as <- ->. cbn. destruct O as [O1 O2]. apply K; auto.
    + cbn [and_then]. assert (E : forall w h, r <> Some (CNormal w, h)).
      { intros w h ->. destruct v; cbn in S; try discriminate S. destruct S as [_ S]. destruct (cb v args h') as [[[]]|]; discriminate S. }
      destruct r as [[[w|w|x| |] h]|]; cbn [and_then]; try exact S. destruct (E w h eq_refl).
    + cbn in *. destruct r as [[d h]|]; [|discriminate S]. injection S as <- ->. reflexivity.
    + cbn in *. destruct r as [[d h]|]; [|discriminate S]. injection S as <- ->. reflexivity.
    + cbn in *. destruct r as [[d h]|]; [|discriminate S]. injection S as <- ->. reflexivity.
    + cbn in *. destruct r as [[d h]|]; [discriminate S|]. reflexivity.
  - destruct r as [[[v|v|x| |] h]|]; cbn; try exact O. destruct O as [O1 O2]. apply K; auto.
Qed.
Lemma sim_block l g : Forall sim_st l -> Forall (good_s ecs isb g) l -> forall cur v h, ok h -> noj v ->
  sim g (block c1 loops cur (map tco_s l) v (T h)) (block c2 loops cur l v h) /\ ok_c (block c2 loops cur l v h).
Proof.
  induction 1 as [|s l Hs Hl IH]; intros G cur v h Hh Hv.
  - split; [reflexivity|]. split; [exact Hh|]. intros w [E|E]; [injection E as <-; exact Hv|discriminate E].
  - inversion G; subst. cbn [map]. rewrite !block_cons. destruct (Hs g H1 cur h Hh) as [S O]. apply sim_and_then; auto.
Qed.
Lemma ok_nv (v : value) h : ok h -> noj v -> ok_c (Some (CNormal v, h)).
Proof. intros H K. split; [exact H|]. intros w [E|E]; [injection E as <-; exact K|discriminate E]. Qed.
Lemma ok_rv (v : value) h : ok h -> noj v -> ok_c (Some (CReturn v, h)).
Proof. intros H K. split; [exact H|]. intros w [E|E]; [discriminate E|injection E as <-; exact K]. Qed.
Lemma ok_other c h : ok h -> (forall v, c <> CNormal v) -> (forall v, c <> CReturn v) -> ok_c (Some (c, h)).
Proof. intros H K L. split; [exact H|]. intros w [E|E]; [destruct (K _ E)|destruct (L _ E)]. Qed.
Lemma sim_stmt : forall s, sim_st s.
Proof.
  apply stmt_ind'; unfold sim_st.
  - intros e g G cur h Hh. inversion G; subst. change (tco_s (SExpr e)) with (SExpr (lam_e e)). cbn [PyModel.exec].
    apply sim_of_expr; auto. intros v h1 O1 O2. split; [reflexivity|now apply ok_nv].
  - intros x e g G cur h Hh. inversion G; subst. change (tco_s (SAssign x e)) with (SAssign x (lam_e e)). cbn [PyModel.exec].
    apply sim_of_expr; auto. intros v h1 O1 O2. split; [cbn; now rewrite T_assign|]. apply ok_nv; [now apply ok_assign|reflexivity].
  - intros g G cur h Hh. split; [reflexivity|]. now apply ok_nv.
  - intros e g G cur h Hh. inversion G as [| | |g0 e0 Ge Na Nc| | | | | | | | | |]; subst.
    assert (O : ok_c (exec c2 loops cur (SReturn e) h)).
    { cbn [PyModel.exec]. apply ok_of_expr; [now apply sim_expr|]. intros v h1 _ O1 O2. now apply ok_rv. }
    split; [|exact O]. rewrite tco_return.
    assert (E : isec e = false) by (destruct e; try reflexivity; inversion Ge; subst; now apply isec_good).
    rewrite E. destruct (sim_tail e Ge Na cur h Hh) as [R Q]. cbn [PyModel.exec] in *.
    destruct g.
    + rewrite Q by auto.
      replace (of_expr W (fun v h0 => Some (CReturn v, h0)) (lift (eval c2 cur e h))) with (lift (of_expr W (fun v h0 => Some (CReturn v, h0)) (eval c2 cur e h)))
        by (destruct (eval c2 cur e h) as [[[]]|]; reflexivity).
      now apply sim_lift.
    + destruct (eval c1 cur (retexpr (lam_e e)) (T h)) as [[[v|x] h']|]; cbn [of_expr resolve] in *.
      * assert (P : forall w, Some (Ok w, h') = lift (eval c2 cur e h) ->
          sim false (Some (CReturn w, h')) (of_expr W (fun v h0 => Some (CReturn v, h0)) (eval c2 cur e h)) \/ exists t a, w = VJump t a).
        { intros w X. destruct (eval c2 cur e h) as [[[u|x] h1]|]; try discriminate X. injection X as -> ->. cbn [of_expr].
          destruct u; try (left; reflexivity). right. eauto. }
        destruct v as [| | | | | | |t a].
        8: { split; [reflexivity|]. rewrite R. destruct (eval c2 cur e h) as [[[u|x] h1]|]; reflexivity. }
        all: destruct (P _ R) as [X|(t & a & X)]; [exact X|discriminate X].
      * destruct (eval c2 cur e h) as [[[u|y] h1]|]; try discriminate R. injection R as -> ->. reflexivity.
      * destruct (eval c2 cur e h) as [[[u|y] h1]|]; try discriminate R. reflexivity.
  - intros e g G cur h Hh. inversion G; subst. change (tco_s (SRaise e)) with (SRaise (lam_e e)). cbn [PyModel.exec].
    apply sim_of_expr; auto. intros v h1 O1 O2. split; [reflexivity|]. apply ok_other; [exact O1|discriminate|discriminate].
  - intros g G cur h Hh. split; [reflexivity|]. apply ok_other; [exact Hh|discriminate|discriminate].
  - intros g G cur h Hh. split; [reflexivity|]. apply ok_other; [exact Hh|discriminate|discriminate].
  - intros e a b Ha Hbb g G cur h Hh. inversion G; subst. rewrite tco_if, !exec_if. apply sim_of_expr; auto. intros v h1 O1 O2.
    unfold block0. destruct (truthy v); now apply sim_block.
  - intros e a b Ha Hbb g G cur h Hh. inversion G as [| | | | | | | |g0 e0 a0 b0 Ge Ga Gb| | | | |]; subst. rewrite tco_while, !exec_while.
    revert h Hh. generalize loops at 2 4 6 as k. intros k. induction k as [|k IH]; intros h Hh; [split; [reflexivity|exact I]|]. cbn [while].
    apply sim_of_expr; auto. intros v h1 O1 O2. destruct (truthy v).
    + unfold block0. destruct (sim_block a g Ha Ga cur VNone h1 O1 eq_refl) as [S O].
      destruct (block c1 loops cur (map tco_s a) VNone (T h1)) as [[[w|w|x| |] h']|].
      * cbn in S. destruct (block c2 loops cur a VNone h1) as [[d h2]|]; [|discriminate S]. injection S as <- ->. destruct O. now apply IH.
      * split; [|destruct (block c2 loops cur a VNone h1) as [[[]]|]; try exact O;
          exfalso; destruct w; cbn in S; try discriminate S; destruct S as [_ S]; destruct (cb w args h') as [[[]]|]; discriminate S].
        destruct w; cbn in *; try (destruct (block c2 loops cur a VNone h1) as [[d h2]|]; [injection S as <- ->; reflexivity|discriminate S]).
        destruct S as [S1 S2]. split; [exact S1|]. destruct (block c2 loops cur a VNone h1) as [[[]]|]; try exact S2; destruct (cb w args h') as [[[]]|]; discriminate S2.
      * cbn in S. destruct (block c2 loops cur a VNone h1) as [[d h2]|]; [|discriminate S]. injection S as <- ->. split; [reflexivity|exact O].
      * cbn in S. destruct (block c2 loops cur a VNone h1) as [[d h2]|]; [|discriminate S]. injection S as <- ->. destruct O. split; [reflexivity|now apply ok_nv].
      * cbn in S. destruct (block c2 loops cur a VNone h1) as [[d h2]|]; [|discriminate S]. injection S as <- ->. destruct O. now apply IH.
      * cbn in S. destruct (block c2 loops cur a VNone h1) as [[d h2]|]; [discriminate S|]. now split.
    + destruct (sim_block b g Hbb Gb cur VNone h1 O1 eq_refl) as [S O]. apply sim_and_then; auto. intros w h2 P1 P2. split; [reflexivity|now apply ok_nv].
  - intros a hs b c Ha Hhs Hbb Hcc g G cur h Hh. inversion G as [| | | | | | | | |g0 g' a0 hs0 b0 c0 Lc Lg Ga Gh Gb Gc| | | |]; subst. rewrite tco_try, !exec_try. unfold block0.
    destruct (sim_block a true Ha Ga cur VNone h Hh eq_refl) as [S O]. apply sim_guarded in S.
    assert (A : sim g' (after_body W prim c1 loops cur (tco_h hs) (map tco_s b) (block c1 loops cur (map tco_s a) VNone (T h)))
                  (after_body W prim c2 loops cur hs b (block c2 loops cur a VNone h)) /\
                ok_c (after_body W prim c2 loops cur hs b (block c2 loops cur a VNone h))).
    { rewrite S. destruct (block c2 loops cur a VNone h) as [[d h1]|]; cbn [lift]; [|now split].
      destruct d as [v|v|x| |]; cbn [after_body].
      - destruct O as [O1 O2]. destruct b as [|s b]; [split; [reflexivity|now split]|]. cbn [map]. change (tco_s s :: map tco_s b) with (map tco_s (s :: b)).
        now apply sim_block.
      - split; [|exact O]. exact (sim_lift g' (Some (CReturn v, h1)) O).
      - destruct O as [O1 _]. clear -Hhs Gh O1 Hc Hb prim_ok prim_bool. induction Hhs as [|[m l] hs Hl Hhs IH].
        + split; [reflexivity|]. apply ok_other; [exact O1|discriminate|discriminate].
        + inversion Gh; subst. cbn [tco_h map fst snd handle] in *. destruct (m x); [|now apply IH]. now apply sim_block.
      - split; [reflexivity|exact O].
      - split; [reflexivity|exact O]. }
    destruct A as [A1 A2]. destruct c as [|s c].
    + cbn [map]. rewrite (block_nil W prim c1 loops cur VNone) || idtac.
      assert (E : forall (r : option (comp * heap)) cc, at_last W r (fun h0 => block cc loops cur [] VNone h0) = r).
      { intros r cc. destruct r as [[d h1]|]; reflexivity. }
      rewrite !E. split; [|exact A2]. destruct g'; [|destruct g; [discriminate (Lg eq_refl)|exact A1]].
      apply sim_guarded in A1. rewrite A1. now apply sim_lift.
    + rewrite (Lc ltac:(discriminate)) in A1. apply sim_guarded in A1. rewrite A1. clear A1.
      destruct (after_body W prim c2 loops cur hs b (block c2 loops cur a VNone h)) as [[d h1]|]; cbn [lift at_last]; [|now split].
      destruct A2 as [A2 A3]. destruct (sim_block (s :: c) g Hcc Gc cur VNone h1 A2 eq_refl) as [S2 P2].
      destruct (block c1 loops cur (map tco_s (s :: c)) VNone (T h1)) as [[[w|w|x| |] h']|].
      * cbn [sim] in S2. destruct (block c2 loops cur (s :: c) VNone h1) as [[d2 h2]|]; [|discriminate S2]. injection S2 as <- ->.
        destruct P2 as [P2 _]. assert (Q : ok_c (Some (d, h2))) by now split. split; [exact (sim_lift g (Some (d, h2)) Q)|exact Q].
      * assert (E : forall w h, block c2 loops cur (s :: c) VNone h1 <> Some (CNormal w, h)).
        { intros w2 h2 E. rewrite E in S2. destruct w; cbn [sim] in S2; try discriminate S2. destruct S2 as [_ S2]. destruct (cb w args h') as [[[]]|]; discriminate S2. }
        destruct (block c2 loops cur (s :: c) VNone h1) as [[[v|v|x| |] h2]|]; [destruct (E v h2 eq_refl)|..]; (split; [exact S2|exact P2]).
      * cbn [sim] in S2. destruct (block c2 loops cur (s :: c) VNone h1) as [[d2 h2]|]; [|discriminate S2]. injection S2 as <- ->. now split.
      * cbn [sim] in S2. destruct (block c2 loops cur (s :: c) VNone h1) as [[d2 h2]|]; [|discriminate S2]. injection S2 as <- ->. now split.
      * cbn [sim] in S2. destruct (block c2 loops cur (s :: c) VNone h1) as [[d2 h2]|]; [|discriminate S2]. injection S2 as <- ->. now split.
      * cbn [sim] in S2. destruct (block c2 loops cur (s :: c) VNone h1) as [[d2 h2]|]; [discriminate S2|]. now split.
  - intros e x a Ha g G cur h Hh. inversion G; subst. rewrite tco_with, !exec_with. apply sim_of_expr; auto. intros v h1 O1 O2.
    set (h2 := match x with Some x0 => assign W cur x0 v h1 | None => h1 end).
    replace (match x with Some x0 => assign W cur x0 v (T h1) | None => T h1 end) with (T h2) by (unfold h2; destruct x; [apply T_assign|reflexivity]).
    assert (Q2 : ok h2) by (unfold h2; destruct x; [now apply ok_assign|exact O1]).
    unfold block0. destruct (sim_block a true Ha H4 cur VNone h2 Q2 eq_refl) as [S O]. apply sim_guarded in S. rewrite S.
    destruct (block c2 loops cur a VNone h2) as [[d h3]|]; cbn [lift leave_with]; [|now split]. destruct O as [O3 O4].
    assert (AR : Forall (fun v => noj v) [match d with CRaise e0 => VExn e0 | _ => VNone end]) by (repeat constructor; destruct d; reflexivity).
    destruct (Hc v _ h3 O3 AR) as [-> K]. set (r := c2 v _ h3) in *.
    assert (E : of_expr W (fun x0 h0 => match d with CRaise _ => Some (if truthy x0 then CNormal VNone else d, h0) | _ => Some (d, h0) end) (lift r) =
                lift (of_expr W (fun x0 h0 => match d with CRaise _ => Some (if truthy x0 then CNormal VNone else d, h0) | _ => Some (d, h0) end) r)).
    { destruct r as [[[]]|]; cbn; try reflexivity. destruct d; reflexivity. }
    rewrite E.
    assert (P : ok_c (of_expr W (fun x0 h0 => match d with CRaise _ => Some (if truthy x0 then CNormal VNone else d, h0) | _ => Some (d, h0) end) r)).
    { apply ok_of_expr; [exact K|]. intros w h4 _ P1 P2. destruct d; try (split; [exact P1|exact O4]).
      destruct (truthy w); [now apply ok_nv|]. apply ok_other; [exact P1|discriminate|discriminate]. }
    split; [now apply sim_lift|exact P].
  - intros tr x ps b Hbb g G cur h Hh. inversion G; subst. rewrite tco_def. cbn [PyModel.exec]. rewrite T_length_funs. split.
    + cbn [sim lift]. rewrite T_assign, T_new_fun. reflexivity.
    + apply ok_nv; [|reflexivity]. apply ok_assign; [|reflexivity]. apply ok_new_fun; [exact Hh|]. now split.
  - intros x b Hbb g G cur h Hh. inversion G as [| | | | | | | | | | | |g0 x0 b0 Gb|]; subst. rewrite tco_class, !exec_class. cbn zeta. rewrite binds_tco_all.
    change (outer W cur (T h)) with (outer W cur h). change (frames (T h)) with (frames h).
    set (n := length (frames h)). set (fr := mkFrame _ _ _).
    assert (E : forall h, ok h -> cblock W prim c1 loops n (map tco_s b) (T h) = lift (cblock W prim c2 loops n b h) /\ ok_c (cblock W prim c2 loops n b h)).
    { clear fr. clearbody n. clear h Hh G. induction Hbb as [|s b Hs Hbb IH]; intros h Hh; [split; [reflexivity|now apply ok_nv]|].
      inversion Gb; subst. cbn [map cblock]. destruct (Hs true H1 n h Hh) as [S O]. 
      destruct (sim_and_then true _ _ (fun _ h => cblock W prim c1 loops n (map tco_s b) h) (fun _ h => cblock W prim c2 loops n b h) S O) as [S2 O2].
      - intros v h1 P1 P2. destruct (IH H2 h1 P1) as [-> Q]. split; [now apply sim_lift|exact Q].
      - split; [now apply sim_guarded|exact O2]. }
    change (new_frame W fr (T h)) with (T (new_frame W fr h)).
    assert (Q : ok (new_frame W fr h)).
    { apply ok_new_frame; [exact Hh|]. intros y v I. cbn in I. unfold unbound in I. apply in_map_iff in I. destruct I as (z & I & _). discriminate I. }
    destruct (E _ Q) as [-> O]. clear E. destruct (cblock W prim c2 loops n b (new_frame W fr h)) as [[d h1]|]; cbn [lift]; [|now split].
    destruct O as [O1 O2]. destruct d; try (split; [reflexivity|]; apply ok_other; [exact O1|discriminate|discriminate]).
    split; [cbn [sim lift]; rewrite T_assign; reflexivity|]. apply ok_nv; [|reflexivity]. apply ok_assign; [|reflexivity]. exact O1.
  - intros l Hl g G cur h Hh. inversion G; subst. rewrite tco_list, !exec_list. now apply sim_block.
Qed.
End Step.

(** ** Calls and whole programs *)
Lemma bound_ok : forall ps args l, bound ps args = Some l -> Forall (fun v => noj v) args -> good_slots l.
Proof.
  induction ps as [|p ps IH]; intros [|a args] l E F; cbn in E; try discriminate E.
  - injection E as <-. intros x v [].
  - destruct (bound ps args) as [l'|] eqn:B; [|discriminate E]. injection E as <-. inversion F; subst.
    intros x v [X|I]; [injection X as _ <-; assumption|]. eapply IH; eauto.
Qed.
Lemma good_app l l' : good_slots l -> good_slots l' -> good_slots (l ++ l').
Proof. intros A B x v I. apply in_app_or in I. destruct I; [eapply A|eapply B]; eauto. Qed.
Lemma good_unbound l : good_slots (unbound l).
Proof. intros x v I. unfold unbound in I. apply in_map_iff in I. destruct I as (z & I & _). discriminate I. Qed.
Lemma run_sim c1 cb c2 loops :
  (forall g args h, ok h -> Forall (fun v => noj v) args -> c1 g args (T h) = lift (c2 g args h) /\ ok_v (c2 g args h)) ->
  (forall g args h, ok h -> Forall (fun v => noj v) args -> cb g args (T h) = lift (c2 g args h)) ->
  forall f args h, ok h -> good_f f -> Forall (fun v => noj v) args ->
  resolve cb (run_body W prim false c1 loops (Tf f) args (T h)) = lift (run_body W prim false c2 loops f args h) /\
  ok_v (run_body W prim false c2 loops f args h).
Proof.
  intros Hc Hb f args h Hh [Ht Hg] Ha. unfold run_body, Tf. cbn [fparams fcode fenv].
  destruct (bound (fparams f) args) as [l|] eqn:B; [|split; [reflexivity|split; [exact Hh|discriminate]]]. pose proof (bound_ok _ _ _ B Ha) as Gl.
  destruct (fcode f) as [e|b].
  - change (frames (T h)) with (frames h). set (fr := mkFrame _ _ _). change (new_frame W fr (T h)) with (T (new_frame W fr h)).
    destruct Hg as [Ge Na]. assert (O : ok (new_frame W fr h)) by now apply ok_new_frame.
    split; [now apply (sim_tail c1 cb c2 Hc Hb)|]. now apply (sim_expr c1 c2 Hc).
  - rewrite binds_tco_all. change (frames (T h)) with (frames h). set (fr := mkFrame _ _ _). change (new_frame W fr (T h)) with (T (new_frame W fr h)).
    assert (O : ok (new_frame W fr h)) by (apply ok_new_frame; [exact Hh|]; apply good_app; [exact Gl|apply good_unbound]).
    destruct (sim_block c1 cb c2 loops b false) with (cur := length (frames h)) (v := VNone) (h := new_frame W fr h) as [S P]; auto.
    { apply Forall_forall. intros; apply (sim_stmt c1 cb c2 loops Hc Hb). }
    destruct (block c2 loops (length (frames h)) b VNone (new_frame W fr h)) as [[c h1]|].
    + destruct P as [P1 P2]. assert (Q : ok_v (Some (result false c, h1))).
      { split; [exact P1|]. intros v. destruct c; cbn; intros E; inversion E; subst; auto. }
      split; [|exact Q].
      destruct (block c1 loops (length (frames h)) (map tco_s b) VNone (T (new_frame W fr h))) as [[[w|w|x| |] h']|];
        try (cbn in S; injection S as <- ->; reflexivity); try (cbn in S; discriminate S).
      destruct w as [| | | | | | |t a]; try (cbn in S; injection S as <- ->; reflexivity).
      cbn in S. destruct S as [_ S]. cbn [result resolve]. destruct (cb t a h') as [[[v|x] h2]|]; cbn in S; try discriminate S; injection S as -> <-; reflexivity.
    + split; [|exact I].
      destruct (block c1 loops (length (frames h)) (map tco_s b) VNone (T (new_frame W fr h))) as [[[w|w|x| |] h']|];
        try (cbn in S; discriminate S); [|reflexivity].
      destruct w as [| | | | | | |t a]; try (cbn in S; discriminate S). cbn in S. destruct S as [_ S]. cbn [result resolve].
      destruct (cb t a h') as [[[v|x] h2]|]; cbn in S; try discriminate S. reflexivity.
Qed.
Lemma nth_T h n : nth_error (funs (T h)) n = option_map Tf (nth_error (funs h) n).
Proof. cbn. revert n. induction (funs h) as [|f l IH]; intros [|n]; cbn; auto. Qed.
Lemma call_sim u : u true = u false -> forall fuel bounce g args h, ok h -> Forall (fun v => noj v) args ->
  call W prim false u fuel None bounce g args (T h) = lift (call W prim false u fuel None false g args h) /\
  ok_v (call W prim false u fuel None false g args h).
Proof.
  intros Hu. assert (N : forall bounce h, ok h -> not_callable W u bounce (T h) = lift (not_callable W u false h) /\ ok_v (not_callable W u false h)).
  { intros bounce h Hh. unfold not_callable. replace (u bounce) with (u false) by (destruct bounce; auto).
    destruct (u false); [|now split]. split; [reflexivity|]. split; [exact Hh|discriminate]. }
  induction fuel as [|fuel IH]; intros bounce g args h Hh Ha; [now split|]. cbn [call].
  destruct g; try (now apply N).
  2: { change (world (T h)) with (world h). destruct (prim o args (world h)) as [r w] eqn:P. split; [reflexivity|]. split; [exact Hh|].
       intros v ->. eapply prim_ok; eauto. }
  rewrite nth_T. destruct (nth_error (funs h) n) as [f|] eqn:F; [|now apply N]. cbn [option_map deeper].
  assert (G : good_f f). { destruct Hh as [_ Hf]. rewrite Forall_forall in Hf. eapply Hf, nth_error_In, F. }
  destruct (run_sim (call W prim false u fuel None false) (call W prim false u fuel None true) (call W prim false u fuel None false) fuel) with (f := f) (args := args) (h := h) as [R O]; auto.
  { intros; now apply IH. }
  assert (E : match run_body W prim false (call W prim false u fuel None false) fuel f args h with
    | Some (Ok (VJump t a), h0) => if false || ftramp f then call W prim false u fuel None true t a h0 else Some (Ok (VJump t a), h0)
    | r => r end = run_body W prim false (call W prim false u fuel None false) fuel f args h).
  { destruct (run_body W prim false (call W prim false u fuel None false) fuel f args h) as [[[v|x] h1]|]; try reflexivity.
    destruct O as [_ O]. specialize (O v eq_refl). destruct v; try reflexivity. discriminate O. }
  rewrite E. split; [|exact O]. rewrite <- R. change (ftramp (Tf f)) with true. rewrite orb_true_r.
  destruct (run_body W prim false (call W prim false u fuel None false) fuel (Tf f) args (T h)) as [[[[]|] ?]|]; reflexivity.
Qed.
Lemma module_sim u fuel l h : u true = u false -> ok h -> Forall (good_s ecs isb true) l ->
  module W prim false u fuel None (tco ecs l) (T h) = lift (module W prim false u fuel None l h).
Proof.
  intros Hu Hh G. unfold module. rewrite tco_eq.
  apply (sim_guarded (call W prim false u fuel None true)).
  apply (sim_block (call W prim false u fuel None false) (call W prim false u fuel None true) (call W prim false u fuel None false) fuel l true); auto.
  apply Forall_forall. intros. apply (sim_stmt _ (call W prim false u fuel None true)); intros; now apply call_sim.
Qed.
(** ** The same, with tail calls that take no room (see PtcSpec) *)
Section Room.
Variables c1 cb c2 t2 : value -> list value -> M W value.
Variable loops : nat.
Hypothesis Hc : forall g args h, ok h -> Forall (fun v => noj v) args -> c1 g args (T h) = lift (c2 g args h) /\ ok_v (c2 g args h).
Hypothesis Hb : forall g args h, ok h -> Forall (fun v => noj v) args -> cb g args (T h) = lift (t2 g args h) /\ ok_v (t2 g args h).
Notation last := (PtcSpec.eval_last W prim c2 t2).
Notation exec2 := (PtcSpec.exec W prim c2 t2 loops).
Notation block2 := (PtcSpec.block W prim c2 t2 loops).
Definition items2 (isand : bool) (cur : nat) := fix items (l : list expr) (h : heap) : option (outcome value * heap) :=
  match l with
  | [] => Some (Ok VNone, h)
  | [e] => last cur e h
  | e :: l =>
      match eval c2 cur e h with
      | Some (Ok v, h) => if Bool.eqb (truthy v) isand then items l h else Some (Ok v, h)
      | r => r
      end
  end.
Lemma last_bool cur a l h : last cur (EBool a l) h = items2 a cur l h.
Proof. reflexivity. Qed.
Lemma last_call_eq cur f l h : last cur (ECall f l) h =
  match eval c2 cur f h with
  | Some (Ok g, h) => match evals c2 cur l h with Some (Ok vs, h) => t2 g vs h | Some (Raise x, h) => Some (Raise x, h) | None => None end
  | r => r
  end.
Proof. reflexivity. Qed.
Lemma items2_last a e cur : forall l h, l <> [] -> items2 a cur (l ++ [e]) h =
  match items c2 a cur l h with
  | Some (Ok v, h) => if Bool.eqb (truthy v) a then last cur e h else Some (Ok v, h)
  | r => r
  end.
Proof.
  induction l as [|x l IH]; intros h N; [congruence|]. destruct l as [|y l].
  - cbn [app items2 PyProofs.items]. destruct (eval c2 cur x h) as [[[v|z] h1]|]; reflexivity.
  - cbn [app] in *. change (items2 a cur (x :: y :: l ++ [e]) h) with
      (match eval c2 cur x h with Some (Ok v, h) => if Bool.eqb (truthy v) a then items2 a cur (y :: l ++ [e]) h else Some (Ok v, h) | r => r end).
    change (items c2 a cur (x :: y :: l) h) with
      (match eval c2 cur x h with Some (Ok v, h) => if Bool.eqb (truthy v) a then items c2 a cur (y :: l) h else Some (Ok v, h) | r => r end).
    destruct (eval c2 cur x h) as [[[v|z] h1]|]; try reflexivity. destruct (Bool.eqb (truthy v) a) eqn:E; [apply IH; discriminate|].
    now rewrite E.
Qed.
Definition while2 (cur : nat) (e : expr) (a b : list stmt) := fix while (k : nat) (h : heap) : option (comp * heap) :=
  match k with
  | 0 => None
  | S k =>
      of_expr W (fun v h =>
        if truthy v
        then match block2 cur a VNone h with
             | Some (CNormal _, h) | Some (CContinue, h) => while k h
             | Some (CBreak, h) => Some (CNormal VNone, h)
             | r => r
             end
        else and_then W (block2 cur b VNone h) (fun _ h => Some (CNormal VNone, h))) (eval c2 cur e h)
  end.
Definition handle2 (cur : nat) (x : exn) (h : heap) := fix handle (hs : list ((exn -> bool) * list stmt)) : option (comp * heap) :=
  match hs with
  | [] => Some (CRaise x, h)
  | (m, l) :: hs => if m x then block2 cur l VNone h else handle hs
  end.
Definition after_body2 cur hs b (r : option (comp * heap)) : option (comp * heap) :=
  match r with
  | Some (CNormal v, h) => match b with [] => Some (CNormal v, h) | _ => block2 cur b VNone h end
  | Some (CRaise x, h) => handle2 cur x h hs
  | r => r
  end.
Lemma exec2_try cur a hs b c h : exec2 cur (STry a hs b c) h =
  at_last W (after_body2 cur hs b (block2 cur a VNone h)) (fun h => block2 cur c VNone h).
Proof.
  cbn [PtcSpec.exec]. fold (block2 cur). unfold after_body2. destruct (block2 cur a VNone h) as [[[] ?]|]; reflexivity.
Qed.
Lemma exec2_while cur e a b h : exec2 cur (SWhile e a b) h = while2 cur e a b loops h.
Proof. reflexivity. Qed.
Lemma exec2_if cur e a b h : exec2 cur (SIf e a b) h = of_expr W (fun v h => block2 cur (if truthy v then a else b) VNone h) (eval c2 cur e h).
Proof. reflexivity. Qed.
Lemma exec2_with cur e x a h : exec2 cur (SWith e x a) h =
  of_expr W (fun v h => leave_with W c2 v (block2 cur a VNone (match x with Some x => assign W cur x v h | None => h end))) (eval c2 cur e h).
Proof. reflexivity. Qed.
Definition cblock2 (n : nat) := fix cblock (l : list stmt) (h : heap) : option (comp * heap) :=
  match l with [] => Some (CNormal VNone, h) | s :: l => and_then W (exec2 n s h) (fun _ h => cblock l h) end.
Lemma exec2_class cur x b h : exec2 cur (SClass x b) h =
  let n := length (frames h) in
  match cblock2 n b (new_frame W (mkFrame (unbound (binds_all b)) (Some (outer W cur h)) true) h) with
  | Some (CNormal _, h) => let v := VObj (length (objs h)) in Some (CNormal v, assign W cur x v (new_obj W n h))
  | Some (CRaise e, h) => Some (CRaise e, h)
  | Some (_, h) => Some (CRaise SyntaxError, h)
  | None => None
  end.
Proof. reflexivity. Qed.
Lemma exec2_list cur l h : exec2 cur (SList l) h = block2 cur l VNone h.
Proof. reflexivity. Qed.
Lemma block2_cons cur s l v h : block2 cur (s :: l) v h = and_then W (exec2 cur s h) (fun v h => block2 cur l v h).
Proof. reflexivity. Qed.

(** an expression and the transformed one, in tail position; if the expression cannot end in a call, the
    transformed one does not give a jump *)
Definition tail_ok (e : expr) cur h : Prop :=
  resolve cb (eval c1 cur (retexpr (lam_e e)) (T h)) = lift (last cur e h) /\
  (~ ends_in_call e -> eval c1 cur (retexpr (lam_e e)) (T h) = lift (last cur e h)) /\ ok_v (last cur e h).
Lemma last_plain e cur h : compound e = false -> last cur e h = eval c2 cur e h.
Proof. destruct e; intros H; try discriminate H; reflexivity. Qed.
Lemma sim_tail2 : forall e, good_e ecs isb e -> ~ and_in_tail isb e -> forall cur h, ok h -> tail_ok e cur h.
Proof.
  assert (D : forall e, good_e ecs isb e -> forall cur h, ok h -> retexpr (lam_e e) = lam_e e -> last cur e h = eval c2 cur e h -> tail_ok e cur h).
  { intros e G cur h Hh E L. unfold tail_ok. rewrite E, L. destruct (sim_expr c1 c2 Hc e G cur h Hh) as [-> K]. rewrite resolve_lift by exact K. split; [|split]; auto. }
  apply (expr_ind' (fun e => good_e ecs isb e -> ~ and_in_tail isb e -> forall cur h, ok h -> tail_ok e cur h)).
  - intros v G _ cur h Hh. now apply D.
  - intros x G _ cur h Hh. now apply D.
  - intros o l _ G _ cur h Hh. now apply D.
  - intros f l _ _ G _ cur h Hh. inversion G; subst.
    assert (E : retexpr (lam_e (ECall f l)) = EJump (lam_e f) (map lam_e l)).
    { change (retexpr (lam_e (ECall f l))) with (if isec (lam_e (ECall f l)) then lam_e (ECall f l) else EJump (lam_e f) (map lam_e l)).
      rewrite lam_isec, isec_good by assumption. reflexivity. }
    assert (X : resolve cb (eval c1 cur (retexpr (lam_e (ECall f l))) (T h)) = lift (last cur (ECall f l) h) /\ ok_v (last cur (ECall f l) h)).
    { rewrite E, eval_jump, last_call_eq. destruct (sim_expr c1 c2 Hc f ltac:(assumption) cur h Hh) as [-> K].
      destruct (eval c2 cur f h) as [[[g|x] h1]|]; cbn [lift]; [|now split|now split].
      destruct K as [K1 K2]. destruct (sim_evals c1 c2 l) with (cur := cur) (h := h1) as [-> K]; auto.
      { apply Forall_forall. intros; apply (sim_expr c1 c2 Hc). }
      destruct (evals c2 cur l h1) as [[[vs|x] h2]|]; cbn [lift resolve]; [|split; [reflexivity|destruct K; split; [assumption|discriminate]]|now split].
      destruct K as [K3 K4]. apply Hb; auto. }
    destruct X as [X1 X2]. split; [exact X1|split; [|exact X2]]. intros N; destruct N; constructor.
  - intros t a b _ Ha Hbb G N cur h Hh. inversion G; subst. unfold tail_ok. cbn [MtcoModel.lam_e MtcoModel.retexpr PyModel.eval PtcSpec.eval_last].
    destruct (sim_expr c1 c2 Hc t ltac:(assumption) cur h Hh) as [-> K]. destruct (eval c2 cur t h) as [[[v|x] h1]|]; cbn [lift]; [|now split|now split].
    destruct K as [K1 K2]. destruct (truthy v).
    + destruct (Ha ltac:(assumption) (fun X => N (ands_then isb t a b X)) cur h1 K1) as (A1 & A2 & A3). split; [exact A1|split; [|exact A3]]. intros X. apply A2. intros Y. apply X. now constructor.
    + destruct (Hbb ltac:(assumption) (fun X => N (ands_else isb t a b X)) cur h1 K1) as (A1 & A2 & A3). split; [exact A1|split; [|exact A3]]. intros X. apply A2. intros Y. apply X. now apply ends_else.
  - intros i l Hl G N cur h Hh. inversion G as [| | | | |i0 l0 L2 Gl|]; subst. destruct l as [|x l]; [cbn in *; lia|].
    destruct (@exists_last _ (x :: l)) as (init & e & E); [discriminate|]. rewrite E in *. clear E x l.
    assert (NI : init <> []) by (intros ->; cbn in *; lia).
    apply Forall_app in Gl. destruct Gl as [Gi Ge]. inversion Ge as [|? ? Ge' _]; subst. apply Forall_app in Hl. destruct Hl as [_ Hl]. inversion Hl as [|? ? He _]; subst.
    destruct (compound e) eqn:Ce.
    + unfold tail_ok. rewrite lam_bool, map_app. cbn [map]. rewrite retexpr_bool, lam_compound, Ce, last_bool, items2_last by assumption.
      assert (NM : map lam_e init <> []) by (destruct init; [congruence|discriminate]).
      destruct (sim_items c1 c2 i init NI) with (cur := cur) (h := h) as [S K]; auto.
      { apply Forall_forall. intros; apply (sim_expr c1 c2 Hc). }
      pose proof (fun h1 K1 => He Ge' (fun X => N (ands_bool isb i init e X)) cur h1 K1) as He'.
      unfold bool_op. fold (others i (map lam_e init)). destruct i.
      * assert (B : Forall (is_bool isb) init).
        { assert (X : Forall (is_bool isb) init \/ ~ Forall (is_bool isb) init).
          { clear. induction init as [|x l IH]; [left; constructor|].
            assert (Y : is_bool isb x \/ ~ is_bool isb x).
            { destruct x; cbn; auto. destruct v; auto. destruct (isb o); [now left|now right]. }
            destruct Y as [Y|Y]; [|right; intros Z; inversion Z; auto]. destruct IH; [left; now constructor|right; intros Z; inversion Z; auto]. }
          destruct X as [X|X]; [exact X|]. destruct N. constructor; [|exact X]. rewrite tail_item_last, Ce. discriminate. }
        cbn [PyModel.eval]. rewrite eval_others, S by exact NM. pose proof (items_bool c2 true init NI B cur h) as V.
        destruct (items c2 true cur init h) as [[[v|y] h1]|]; cbn [lift]; [|now split|now split]. destruct K as [K1 K2].
        destruct V as (bb & ->). destruct bb; cbn [truthy Bool.eqb].
        -- destruct (He' h1 K1) as (A1 & A2 & A3). split; [exact A1|split; [|exact A3]]. intros X. apply A2. intros Y. apply X. now constructor.
        -- split; [reflexivity|split; [reflexivity|]]. split; [exact K1|]. exact K2.
      * rewrite eval_bool.
        change (items c1 false cur [others false (map lam_e init); retexpr (lam_e e)] (T h)) with
          (items c1 false cur ([others false (map lam_e init)] ++ [retexpr (lam_e e)]) (T h)). rewrite items_last by discriminate.
        change (items c1 false cur [others false (map lam_e init)] (T h)) with (eval c1 cur (others false (map lam_e init)) (T h)).
        rewrite eval_others, S by exact NM.
        destruct (items c2 false cur init h) as [[[v|y] h1]|]; cbn [lift]; [|now split|now split]. destruct K as [K1 K2].
        destruct (Bool.eqb (truthy v) false).
        -- destruct (He' h1 K1) as (A1 & A2 & A3). split; [exact A1|split; [|exact A3]]. intros X. apply A2. intros Y. apply X. now constructor.
        -- split; [|split; [reflexivity|now split]]. specialize (K2 v eq_refl). destruct v; try reflexivity. discriminate K2.
    + apply D; auto; [rewrite lam_bool, map_app; cbn [map]; now rewrite retexpr_bool, lam_compound, Ce|].
      rewrite last_bool, eval_bool, items2_last, items_last by assumption. destruct (items c2 i cur init h) as [[[v|y] h1]|]; try reflexivity.
      now rewrite last_plain.
  - intros tr ps b _ G _ cur h Hh. now apply D.
  - intros f l _ _ G. inversion G.
Qed.

Definition sim_st2 (s : stmt) := forall g, good_s ecs isb g s -> forall cur h, ok h ->
  sim cb g (exec c1 loops cur (tco_s s) (T h)) (exec2 cur s h) /\ ok_c (exec2 cur s h).
Lemma sim_block2 l g : Forall sim_st2 l -> Forall (good_s ecs isb g) l -> forall cur v h, ok h -> noj v ->
  sim cb g (block c1 loops cur (map tco_s l) v (T h)) (block2 cur l v h) /\ ok_c (block2 cur l v h).
Proof.
  induction 1 as [|s l Hs Hl IH]; intros G cur v h Hh Hv.
  - split; [reflexivity|]. split; [exact Hh|]. intros w [E|E]; [injection E as <-; exact Hv|discriminate E].
  - inversion G; subst. cbn [map]. rewrite block_cons, block2_cons. destruct (Hs g H1 cur h Hh) as [S O]. apply sim_and_then; auto.
Qed.
Lemma sim_stmt2 : forall s, sim_st2 s.
Proof.
  apply stmt_ind'; unfold sim_st2.
  - intros e g G cur h Hh. inversion G; subst. change (tco_s (SExpr e)) with (SExpr (lam_e e)). cbn [PyModel.exec PtcSpec.exec].
    apply (sim_of_expr c1 cb c2 Hc); auto. intros v h1 O1 O2. split; [reflexivity|now apply ok_nv].
  - intros x e g G cur h Hh. inversion G; subst. change (tco_s (SAssign x e)) with (SAssign x (lam_e e)). cbn [PyModel.exec PtcSpec.exec].
    apply (sim_of_expr c1 cb c2 Hc); auto. intros v h1 O1 O2. split; [cbn; now rewrite T_assign|]. apply ok_nv; [now apply ok_assign|reflexivity].
  - intros g G cur h Hh. split; [reflexivity|]. now apply ok_nv.
  - intros e g G cur h Hh. inversion G as [| | |g0 e0 Ge Na Nc| | | | | | | | | |]; subst.
    assert (O : ok_c (exec2 cur (SReturn e) h)).
    { cbn [PyModel.exec PtcSpec.exec]. apply ok_of_expr; [now apply sim_tail2|]. intros v h1 _ O1 O2. now apply ok_rv. }
    split; [|exact O]. rewrite tco_return.
    assert (E : isec e = false) by (destruct e; try reflexivity; inversion Ge; subst; now apply isec_good).
    rewrite E. destruct (sim_tail2 e Ge Na cur h Hh) as (R & Q & _). cbn [PyModel.exec PtcSpec.exec] in *.
    destruct g.
    + rewrite Q by auto.
      replace (of_expr W (fun v h0 => Some (CReturn v, h0)) (lift (last cur e h))) with (lift (of_expr W (fun v h0 => Some (CReturn v, h0)) (last cur e h)))
        by (destruct (last cur e h) as [[[]]|]; reflexivity).
      now apply (sim_lift cb).
    + destruct (eval c1 cur (retexpr (lam_e e)) (T h)) as [[[v|x] h']|]; cbn [of_expr resolve] in *.
      * assert (P : forall w, Some (Ok w, h') = lift (last cur e h) ->
          sim cb false (Some (CReturn w, h')) (of_expr W (fun v h0 => Some (CReturn v, h0)) (last cur e h)) \/ exists t a, w = VJump t a).
        { intros w X. destruct (last cur e h) as [[[u|x] h1]|]; try discriminate X. injection X as -> ->. cbn [of_expr].
          destruct u; try (left; reflexivity). right. eauto. }
        destruct v as [| | | | | | |t a].
        8: { split; [reflexivity|]. rewrite R. destruct (last cur e h) as [[[u|x] h1]|]; reflexivity. }
        all: destruct (P _ R) as [X|(t & a & X)]; [exact X|discriminate X].
      * destruct (last cur e h) as [[[u|y] h1]|]; try discriminate R. injection R as -> ->. reflexivity.
      * destruct (last cur e h) as [[[u|y] h1]|]; try discriminate R. reflexivity.
  - intros e g G cur h Hh. inversion G; subst. change (tco_s (SRaise e)) with (SRaise (lam_e e)). cbn [PyModel.exec PtcSpec.exec].
    apply (sim_of_expr c1 cb c2 Hc); auto. intros v h1 O1 O2. split; [reflexivity|]. apply ok_other; [exact O1|discriminate|discriminate].
  - intros g G cur h Hh. split; [reflexivity|]. apply ok_other; [exact Hh|discriminate|discriminate].
  - intros g G cur h Hh. split; [reflexivity|]. apply ok_other; [exact Hh|discriminate|discriminate].
  - intros e a b Ha Hbb g G cur h Hh. inversion G; subst. rewrite tco_if, exec_if, exec2_if. apply (sim_of_expr c1 cb c2 Hc); auto. intros v h1 O1 O2.
    unfold block0. destruct (truthy v); now apply sim_block2.
  - intros e a b Ha Hbb g G cur h Hh. inversion G as [| | | | | | | |g0 e0 a0 b0 Ge Ga Gb| | | | |]; subst. rewrite tco_while, exec_while, exec2_while.
    revert h Hh. generalize loops at 2 3 4 as k. intros k. induction k as [|k IH]; intros h Hh; [split; [reflexivity|exact I]|]. cbn [while while2].
    apply (sim_of_expr c1 cb c2 Hc); auto. intros v h1 O1 O2. destruct (truthy v).
    + unfold block0. destruct (sim_block2 a g Ha Ga cur VNone h1 O1 eq_refl) as [S O].
      destruct (block c1 loops cur (map tco_s a) VNone (T h1)) as [[[w|w|x| |] h']|].
      * cbn in S. destruct (block2 cur a VNone h1) as [[d h2]|]; [|discriminate S]. injection S as <- ->. destruct O. now apply IH.
      * split; [|destruct (block2 cur a VNone h1) as [[[]]|]; try exact O;
          exfalso; destruct w; cbn in S; try discriminate S; destruct S as [_ S]; destruct (cb w args h') as [[[]]|]; discriminate S].
        destruct w; cbn in *; try (destruct (block2 cur a VNone h1) as [[d h2]|]; [injection S as <- ->; reflexivity|discriminate S]).
        destruct S as [S1 S2]. split; [exact S1|]. destruct (block2 cur a VNone h1) as [[[]]|]; try exact S2; destruct (cb w args h') as [[[]]|]; discriminate S2.
      * cbn in S. destruct (block2 cur a VNone h1) as [[d h2]|]; [|discriminate S]. injection S as <- ->. split; [reflexivity|exact O].
      * cbn in S. destruct (block2 cur a VNone h1) as [[d h2]|]; [|discriminate S]. injection S as <- ->. destruct O. split; [reflexivity|now apply ok_nv].
      * cbn in S. destruct (block2 cur a VNone h1) as [[d h2]|]; [|discriminate S]. injection S as <- ->. destruct O. now apply IH.
      * cbn in S. destruct (block2 cur a VNone h1) as [[d h2]|]; [discriminate S|]. now split.
    + destruct (sim_block2 b g Hbb Gb cur VNone h1 O1 eq_refl) as [S O]. apply sim_and_then; auto. intros w h2 P1 P2. split; [reflexivity|now apply ok_nv].
  - intros a hs b c Ha Hhs Hbb Hcc g G cur h Hh. inversion G as [| | | | | | | | |g0 g' a0 hs0 b0 c0 Lc Lg Ga Gh Gb Gc| | | |]; subst. rewrite tco_try, exec_try, exec2_try. unfold block0.
    destruct (sim_block2 a true Ha Ga cur VNone h Hh eq_refl) as [S O]. apply (sim_guarded cb) in S.
    assert (A : sim cb g' (after_body W prim c1 loops cur (tco_h hs) (map tco_s b) (block c1 loops cur (map tco_s a) VNone (T h)))
                  (after_body2 cur hs b (block2 cur a VNone h)) /\
                ok_c (after_body2 cur hs b (block2 cur a VNone h))).
    { rewrite S. destruct (block2 cur a VNone h) as [[d h1]|]; cbn [lift]; [|now split].
      destruct d as [v|v|x| |]; cbn [after_body after_body2].
      - destruct O as [O1 O2]. destruct b as [|s b]; [split; [reflexivity|now split]|]. cbn [map]. change (tco_s s :: map tco_s b) with (map tco_s (s :: b)).
        now apply sim_block2.
      - split; [|exact O]. exact (sim_lift cb g' (Some (CReturn v, h1)) O).
      - destruct O as [O1 _]. clear -Hhs Gh O1 Hc Hb prim_ok prim_bool. induction Hhs as [|[m l] hs Hl Hhs IH].
        + split; [reflexivity|]. apply ok_other; [exact O1|discriminate|discriminate].
        + inversion Gh; subst. cbn [tco_h map fst snd handle handle2] in *. destruct (m x); [|now apply IH]. now apply sim_block2.
      - split; [reflexivity|exact O].
      - split; [reflexivity|exact O]. }
    destruct A as [A1 A2]. destruct c as [|s c].
    + cbn [map]. rewrite (block_nil W prim c1 loops cur VNone) || idtac.
      assert (E : forall (r : option (comp * heap)) cc, at_last W r (fun h0 => block cc loops cur [] VNone h0) = r).
      { intros r cc. destruct r as [[d h1]|]; reflexivity. }
      assert (E2 : forall (r : option (comp * heap)), at_last W r (fun h0 => block2 cur [] VNone h0) = r).
      { intros r. destruct r as [[d h1]|]; reflexivity. }
      rewrite E, E2. split; [|exact A2]. destruct g'; [|destruct g; [discriminate (Lg eq_refl)|exact A1]].
      apply (sim_guarded cb) in A1. rewrite A1. now apply (sim_lift cb).
    + rewrite (Lc ltac:(discriminate)) in A1. apply (sim_guarded cb) in A1. rewrite A1. clear A1.
      destruct (after_body2 cur hs b (block2 cur a VNone h)) as [[d h1]|]; cbn [lift at_last]; [|now split].
      destruct A2 as [A2 A3]. destruct (sim_block2 (s :: c) g Hcc Gc cur VNone h1 A2 eq_refl) as [S2 P2].
      destruct (block c1 loops cur (map tco_s (s :: c)) VNone (T h1)) as [[[w|w|x| |] h']|].
      * cbn [sim] in S2. destruct (block2 cur (s :: c) VNone h1) as [[d2 h2]|]; [|discriminate S2]. injection S2 as <- ->.
        destruct P2 as [P2 _]. assert (Q : ok_c (Some (d, h2))) by now split. split; [exact (sim_lift cb g (Some (d, h2)) Q)|exact Q].
      * assert (E : forall w h, block2 cur (s :: c) VNone h1 <> Some (CNormal w, h)).
        { intros w2 h2 E. rewrite E in S2. destruct w; cbn [sim] in S2; try discriminate S2. destruct S2 as [_ S2]. destruct (cb w args h') as [[[]]|]; discriminate S2. }
        destruct (block2 cur (s :: c) VNone h1) as [[[v|v|x| |] h2]|]; [destruct (E v h2 eq_refl)|..]; (split; [exact S2|exact P2]).
      * cbn [sim] in S2. destruct (block2 cur (s :: c) VNone h1) as [[d2 h2]|]; [|discriminate S2]. injection S2 as <- ->. now split.
      * cbn [sim] in S2. destruct (block2 cur (s :: c) VNone h1) as [[d2 h2]|]; [|discriminate S2]. injection S2 as <- ->. now split.
      * cbn [sim] in S2. destruct (block2 cur (s :: c) VNone h1) as [[d2 h2]|]; [|discriminate S2]. injection S2 as <- ->. now split.
      * cbn [sim] in S2. destruct (block2 cur (s :: c) VNone h1) as [[d2 h2]|]; [discriminate S2|]. now split.
  - intros e x a Ha g G cur h Hh. inversion G; subst. rewrite tco_with, exec_with, exec2_with. apply (sim_of_expr c1 cb c2 Hc); auto. intros v h1 O1 O2.
    set (h2 := match x with Some x0 => assign W cur x0 v h1 | None => h1 end).
    replace (match x with Some x0 => assign W cur x0 v (T h1) | None => T h1 end) with (T h2) by (unfold h2; destruct x; [apply T_assign|reflexivity]).
    assert (Q2 : ok h2) by (unfold h2; destruct x; [now apply ok_assign|exact O1]).
    unfold block0. destruct (sim_block2 a true Ha H4 cur VNone h2 Q2 eq_refl) as [S O]. apply (sim_guarded cb) in S. rewrite S.
    destruct (block2 cur a VNone h2) as [[d h3]|]; cbn [lift leave_with]; [|now split]. destruct O as [O3 O4].
    assert (AR : Forall (fun v => noj v) [match d with CRaise e0 => VExn e0 | _ => VNone end]) by (repeat constructor; destruct d; reflexivity).
    destruct (Hc v _ h3 O3 AR) as [-> K]. set (r := c2 v _ h3) in *.
    assert (E : of_expr W (fun x0 h0 => match d with CRaise _ => Some (if truthy x0 then CNormal VNone else d, h0) | _ => Some (d, h0) end) (lift r) =
                lift (of_expr W (fun x0 h0 => match d with CRaise _ => Some (if truthy x0 then CNormal VNone else d, h0) | _ => Some (d, h0) end) r)).
    { destruct r as [[[]]|]; cbn; try reflexivity. destruct d; reflexivity. }
    rewrite E.
    assert (P : ok_c (of_expr W (fun x0 h0 => match d with CRaise _ => Some (if truthy x0 then CNormal VNone else d, h0) | _ => Some (d, h0) end) r)).
    { apply ok_of_expr; [exact K|]. intros w h4 _ P1 P2. destruct d; try (split; [exact P1|exact O4]).
      destruct (truthy w); [now apply ok_nv|]. apply ok_other; [exact P1|discriminate|discriminate]. }
    split; [now apply (sim_lift cb)|exact P].
  - intros tr x ps b Hbb g G cur h Hh. inversion G; subst. rewrite tco_def. cbn [PyModel.exec PtcSpec.exec]. rewrite T_length_funs. split.
    + cbn [sim lift]. rewrite T_assign, T_new_fun. reflexivity.
    + apply ok_nv; [|reflexivity]. apply ok_assign; [|reflexivity]. apply ok_new_fun; [exact Hh|]. now split.
  - intros x b Hbb g G cur h Hh. inversion G as [| | | | | | | | | | | |g0 x0 b0 Gb|]; subst. rewrite tco_class, exec_class, exec2_class. cbn zeta. rewrite binds_tco_all.
    change (outer W cur (T h)) with (outer W cur h). change (frames (T h)) with (frames h).
    set (n := length (frames h)). set (fr := mkFrame _ _ _).
    assert (E : forall h, ok h -> cblock W prim c1 loops n (map tco_s b) (T h) = lift (cblock2 n b h) /\ ok_c (cblock2 n b h)).
    { clear fr. clearbody n. clear h Hh G. induction Hbb as [|s b Hs Hbb IH]; intros h Hh; [split; [reflexivity|now apply ok_nv]|].
      inversion Gb; subst. cbn [map cblock cblock2]. destruct (Hs true H1 n h Hh) as [S O]. 
      destruct (sim_and_then cb true _ _ (fun _ h => cblock W prim c1 loops n (map tco_s b) h) (fun _ h => cblock2 n b h) S O) as [S2 O2].
      - intros v h1 P1 P2. destruct (IH H2 h1 P1) as [-> Q]. split; [now apply (sim_lift cb)|exact Q].
      - split; [now apply (sim_guarded cb)|exact O2]. }
    change (new_frame W fr (T h)) with (T (new_frame W fr h)).
    assert (Q : ok (new_frame W fr h)).
    { apply ok_new_frame; [exact Hh|]. intros y v I. cbn in I. unfold unbound in I. apply in_map_iff in I. destruct I as (z & I & _). discriminate I. }
    destruct (E _ Q) as [-> O]. clear E. destruct (cblock2 n b (new_frame W fr h)) as [[d h1]|]; cbn [lift]; [|now split].
    destruct O as [O1 O2]. destruct d; try (split; [reflexivity|]; apply ok_other; [exact O1|discriminate|discriminate]).
    split; [cbn [sim lift]; rewrite T_assign; reflexivity|]. apply ok_nv; [|reflexivity]. apply ok_assign; [|reflexivity]. exact O1.
  - intros l Hl g G cur h Hh. inversion G; subst. rewrite tco_list, exec_list, exec2_list. now apply sim_block2.
Qed.
End Room.
Lemma run_sim2 c1 cb c2 t2 loops :
  (forall g args h, ok h -> Forall (fun v => noj v) args -> c1 g args (T h) = lift (c2 g args h) /\ ok_v (c2 g args h)) ->
  (forall g args h, ok h -> Forall (fun v => noj v) args -> cb g args (T h) = lift (t2 g args h) /\ ok_v (t2 g args h)) ->
  forall f args h, ok h -> good_f f -> Forall (fun v => noj v) args ->
  resolve cb (run_body W prim false c1 loops (Tf f) args (T h)) = lift (PtcSpec.run_body W prim c2 t2 loops f args h) /\
  ok_v (PtcSpec.run_body W prim c2 t2 loops f args h).
Proof.
  intros Hc Hb f args h Hh [Ht Hg] Ha. unfold run_body, PtcSpec.run_body, Tf. cbn [fparams fcode fenv].
  destruct (bound (fparams f) args) as [l|] eqn:B; [|split; [reflexivity|split; [exact Hh|discriminate]]]. pose proof (bound_ok _ _ _ B Ha) as Gl.
  destruct (fcode f) as [e|b].
  - change (frames (T h)) with (frames h). set (fr := mkFrame _ _ _). change (new_frame W fr (T h)) with (T (new_frame W fr h)).
    destruct Hg as [Ge Na]. assert (O : ok (new_frame W fr h)) by now apply ok_new_frame.
    destruct (sim_tail2 c1 cb c2 t2 Hc Hb e Ge Na (length (frames h)) _ O) as (X & _ & Y). now split.
  - rewrite binds_tco_all. change (frames (T h)) with (frames h). set (fr := mkFrame _ _ _). change (new_frame W fr (T h)) with (T (new_frame W fr h)).
    assert (O : ok (new_frame W fr h)) by (apply ok_new_frame; [exact Hh|]; apply good_app; [exact Gl|apply good_unbound]).
    destruct (sim_block2 c1 cb c2 t2 loops b false) with (cur := length (frames h)) (v := VNone) (h := new_frame W fr h) as [S P]; auto.
    { apply Forall_forall. intros; apply (sim_stmt2 c1 cb c2 t2 loops Hc Hb). }
    destruct (PtcSpec.block W prim c2 t2 loops (length (frames h)) b VNone (new_frame W fr h)) as [[c h1]|].
    + destruct P as [P1 P2]. assert (Q : ok_v (Some (result false c, h1))).
      { split; [exact P1|]. intros v. destruct c; cbn; intros E; inversion E; subst; auto. }
      split; [|exact Q].
      destruct (block c1 loops (length (frames h)) (map tco_s b) VNone (T (new_frame W fr h))) as [[[w|w|x| |] h']|];
        try (cbn in S; injection S as <- ->; reflexivity); try (cbn in S; discriminate S).
      destruct w as [| | | | | | |t a]; try (cbn in S; injection S as <- ->; reflexivity).
      cbn in S. destruct S as [_ S]. cbn [result resolve]. destruct (cb t a h') as [[[v|x] h2]|]; cbn in S; try discriminate S; injection S as -> <-; reflexivity.
    + split; [|exact I].
      destruct (block c1 loops (length (frames h)) (map tco_s b) VNone (T (new_frame W fr h))) as [[[w|w|x| |] h']|];
        try (cbn in S; discriminate S); [|reflexivity].
      destruct w as [| | | | | | |t a]; try (cbn in S; discriminate S). cbn in S. destruct S as [_ S]. cbn [result resolve].
      destruct (cb t a h') as [[[v|x] h2]|]; cbn in S; try discriminate S. reflexivity.
Qed.
Notation nowhere := (fun _ : bool => @None exn).
Lemma call_sim2 : forall fuel depth bounce g args h, ok h -> Forall (fun v => noj v) args ->
  call W prim false nowhere fuel depth bounce g args (T h) = lift (PtcSpec.call W prim fuel depth bounce g args h) /\
  ok_v (PtcSpec.call W prim fuel depth bounce g args h).
Proof.
  induction fuel as [|fuel IH]; intros depth bounce g args h Hh Ha; [now split|]. cbn [call PtcSpec.call].
  destruct g; try (now split).
  2: { change (world (T h)) with (world h). destruct (prim o args (world h)) as [r w] eqn:P. split; [reflexivity|]. split; [exact Hh|].
       intros v ->. eapply prim_ok; eauto. }
  rewrite nth_T. destruct (nth_error (funs h) n) as [f|] eqn:F; [|now split]. cbn [option_map].
  assert (G : good_f f). { destruct Hh as [_ Hf]. rewrite Forall_forall in Hf. eapply Hf, nth_error_In, F. }
  assert (R : forall d, match run_body W prim false (call W prim false nowhere fuel d false) fuel (Tf f) args (T h) with
      | Some (Ok (VJump t a), h) => if bounce || ftramp (Tf f) then call W prim false nowhere fuel d true t a h else Some (Ok (VJump t a), h)
      | r => r end = lift (PtcSpec.run_body W prim (PtcSpec.call W prim fuel d false) (PtcSpec.call W prim fuel d true) fuel f args h) /\
      ok_v (PtcSpec.run_body W prim (PtcSpec.call W prim fuel d false) (PtcSpec.call W prim fuel d true) fuel f args h)).
  { intros d. destruct (run_sim2 (call W prim false nowhere fuel d false) (call W prim false nowhere fuel d true)
      (PtcSpec.call W prim fuel d false) (PtcSpec.call W prim fuel d true) fuel) with (f := f) (args := args) (h := h) as [R O]; auto.
    split; [|exact O]. rewrite <- R. change (ftramp (Tf f)) with true. rewrite orb_true_r.
    destruct (run_body W prim false (call W prim false nowhere fuel d false) fuel (Tf f) args (T h)) as [[[[]|] ?]|]; reflexivity. }
  destruct depth as [d|]; cbn [deeper].
  - destruct bounce; [apply R|]. destruct d as [|d]; [|apply R]. split; [reflexivity|]. split; [exact Hh|discriminate].
  - destruct bounce; apply R.
Qed.
Lemma module_sim2 fuel depth l h : ok h -> Forall (good_s ecs isb true) l ->
  module W prim false nowhere fuel depth (tco ecs l) (T h) = lift (PtcSpec.module W prim fuel depth l h).
Proof.
  intros Hh G. unfold module, PtcSpec.module. rewrite tco_eq.
  apply (sim_guarded (call W prim false nowhere fuel depth true)).
  apply (sim_block2 (call W prim false nowhere fuel depth false) (call W prim false nowhere fuel depth true)
    (PtcSpec.call W prim fuel depth false) (PtcSpec.call W prim fuel depth true) fuel l true); auto.
  apply Forall_forall. intros. apply (sim_stmt2 _ (call W prim false nowhere fuel depth true)); intros; now apply call_sim2.
Qed.
Lemma same_T h : same_state h (T h).
Proof. repeat split. cbn. rewrite map_map. reflexivity. Qed.
End Sim.

Theorem tco_lockstep W prim fuel l fs w : no_jumps prim fs -> bool_ops isb prim -> Forall (good_s ecs isb true) l ->
  same_end (module W prim false (fun _ => None) fuel None l (mkHeap fs [] [] w))
           (module W prim false (fun _ => None) fuel None (tco ecs l) (mkHeap fs [] [] w)).
Proof.
  intros [P F] B G. pose proof (module_sim W prim B P (fun _ => None) fuel l (mkHeap fs [] [] w) eq_refl) as H.
  unfold T at 1 in H. cbn [funs frames objs world map] in H. rewrite H; [|split; [exact F|constructor]|exact G].
  destruct (module W prim false (fun _ => None) fuel None l _) as [[c h]|]; cbn; [|exact I]. split; [reflexivity|apply same_T].
Qed.
Theorem tco_room W prim fuel depth l fs w : no_jumps prim fs -> bool_ops isb prim -> Forall (good_s ecs isb true) l ->
  same_end (PtcSpec.module W prim fuel depth l (mkHeap fs [] [] w))
           (module W prim false (fun _ => None) fuel depth (tco ecs l) (mkHeap fs [] [] w)).
Proof.
  intros [P F] B G. pose proof (module_sim2 W prim B P fuel depth l (mkHeap fs [] [] w)) as H.
  unfold T at 1 in H. cbn [funs frames objs world map] in H. rewrite H; [|split; [exact F|constructor]|exact G].
  destruct (PtcSpec.module W prim fuel depth l _) as [[c h]|]; cbn; [|exact I]. split; [reflexivity|apply same_T].
Qed.
Theorem ptc_same W prim fuel l fs w : no_jumps prim fs -> bool_ops isb prim -> Forall (good_s ecs isb true) l ->
  same_end (module W prim false (fun _ => None) fuel None l (mkHeap fs [] [] w))
           (PtcSpec.module W prim fuel None l (mkHeap fs [] [] w)).
Proof.
  intros P B G. pose proof (tco_room W prim fuel None l fs w P B G) as H. pose proof (tco_lockstep W prim fuel l fs w P B G) as K.
  destruct (module W prim false (fun _ => None) fuel None l _) as [[c h]|], (PtcSpec.module W prim fuel None l _) as [[c2 h2]|],
    (module W prim false (fun _ => None) fuel None (tco ecs l) _) as [[c3 h3]|]; cbn in *; try contradiction; auto.
  destruct H as (-> & A1 & A2 & A3 & A4), K as (-> & B1 & B2 & B3 & B4). split; [reflexivity|]. repeat split; congruence.
Qed.
Theorem tco_same W prim fuel l fs w c h : no_jumps prim fs -> bool_ops isb prim -> Forall (good_s ecs isb true) l ->
  module W prim false (fun _ => None) fuel None l (mkHeap fs [] [] w) = Some (c, h) ->
  module W prim false py_uncallable fuel None l (mkHeap fs [] [] w) = Some (c, h) /\
  exists h', module W prim false py_uncallable fuel None (tco ecs l) (mkHeap fs [] [] w) = Some (c, h') /\ same_state h h'.
Proof.
  intros P PB G E. assert (B : forall b, below ((fun _ : bool => @None exn) b) (py_uncallable b)) by (intros b a X; discriminate X).
  split; [eapply module_mono; [exact B|apply le_n|exact E]|].
  pose proof (tco_lockstep W prim fuel l fs w P PB G) as S. rewrite E in S. cbn in S.
  destruct (module W prim false (fun _ => None) fuel None (tco ecs l) (mkHeap fs [] [] w)) as [[c' h']|] eqn:E'; [|destruct S].
  destruct S as [<- S]. exists h'. split; [|exact S]. eapply module_mono; [exact B|apply le_n|exact E'].
Qed.

(** * Depth *)
(** code without calls, but for those that the trampolines make; the boolean: other calls are allowed *)
Inductive nc_e : bool -> expr -> Prop :=
| nc_const g v : nc_e g (EConst v)
| nc_var g x : nc_e g (EVar x)
| nc_prim g o l : Forall (nc_e g) l -> nc_e g (EPrim o l)
| nc_call f l : nc_e true f -> Forall (nc_e true) l -> nc_e true (ECall f l)
| nc_if g t a b : nc_e g t -> nc_e g a -> nc_e g b -> nc_e g (EIf t a b)
| nc_bool g i l : Forall (nc_e g) l -> nc_e g (EBool i l)
| nc_lam g ps b : nc_e false b -> nc_e g (ELam true ps b)
| nc_jump g f l : nc_e g f -> Forall (nc_e g) l -> nc_e g (EJump f l).
Inductive nc_s : bool -> stmt -> Prop :=
| ns_expr g e : nc_e g e -> nc_s g (SExpr e)
| ns_assign g x e : nc_e g e -> nc_s g (SAssign x e)
| ns_pass g : nc_s g SPass
| ns_return g e : nc_e g e -> nc_s g (SReturn e)
| ns_raise g e : nc_e g e -> nc_s g (SRaise e)
| ns_break g : nc_s g SBreak
| ns_continue g : nc_s g SContinue
| ns_if g e a b : nc_e g e -> Forall (nc_s g) a -> Forall (nc_s g) b -> nc_s g (SIf e a b)
| ns_while g e a b : nc_e g e -> Forall (nc_s g) a -> Forall (nc_s g) b -> nc_s g (SWhile e a b)
| ns_try g a hs b c : Forall (nc_s g) a -> Forall (fun mh => Forall (nc_s g) (snd mh)) hs -> Forall (nc_s g) b ->
    Forall (nc_s g) c -> nc_s g (STry a hs b c)
| ns_with e x a : nc_e true e -> Forall (nc_s true) a -> nc_s true (SWith e x a)
| ns_def g x ps b : Forall (nc_s false) b -> nc_s g (SDef true x ps b)
| ns_class g x b : Forall (nc_s g) b -> nc_s g (SClass x b)
| ns_list g l : Forall (nc_s g) l -> nc_s g (SList l).
Definition nc_f (f : fobj) : Prop := match fcode f with BExpr e => nc_e false e | BBlock b => Forall (nc_s false) b end.

Lemma nc_more : forall e, nc_e false e -> forall g, nc_e g e.
Proof.
  apply (expr_ind' (fun e => nc_e false e -> forall g, nc_e g e)).
  - constructor.
  - constructor.
  - intros o l Hl H g. inversion H; subst. constructor. rewrite Forall_forall in *. auto.
  - intros f l Hf Hl H. inversion H.
  - intros t a b Ht Ha Hb H g. inversion H; subst. constructor; auto.
  - intros i l Hl H g. inversion H; subst. constructor. rewrite Forall_forall in *. auto.
  - intros tr ps b Hb H g. inversion H; subst. constructor; auto.
  - intros f l Hf Hl H g. inversion H; subst. constructor; auto. rewrite Forall_forall in *. auto.
Qed.
Lemma Forall_map_impl {A B} (P : A -> Prop) (Q : B -> Prop) (f : A -> B) l : (forall a, In a l -> P a -> Q (f a)) -> Forall P l -> Forall Q (map f l).
Proof. intros H F. rewrite Forall_forall in *. intros b I. apply in_map_iff in I. destruct I as (a & <- & I). auto. Qed.
Lemma nc_bool_op i l t : l <> [] -> Forall (nc_e false) l -> nc_e false t -> nc_e false (bool_op i l t).
Proof.
  intros N F H. unfold bool_op.
  assert (O : nc_e false match l with [e] => e | _ => EBool i l end).
  { destruct l as [|a [|b l]]; [congruence|now inversion F|now constructor]. }
  destruct i; repeat constructor; auto.
Qed.
Lemma nc_tco_e : forall e, good_e ecs isb e -> (forall g, calls_e g e -> nc_e g (lam_e e)) /\ (tail_e e -> nc_e false (retexpr (lam_e e))).
Proof.
  assert (D : forall e, (forall g, calls_e g e -> nc_e g (lam_e e)) -> retexpr (lam_e e) = lam_e e -> compound e = false ->
    (forall g, calls_e g e -> nc_e g (lam_e e)) /\ (tail_e e -> nc_e false (retexpr (lam_e e)))).
  { intros e H E C. split; [exact H|]. rewrite E. intros K. apply H. inversion K; subst; try discriminate C. assumption. }
  apply (expr_ind' (fun e => good_e ecs isb e -> (forall g, calls_e g e -> nc_e g (lam_e e)) /\ (tail_e e -> nc_e false (retexpr (lam_e e))))).
  - intros v G. apply D; try reflexivity. constructor.
  - intros x G. apply D; try reflexivity. constructor.
  - intros o l Hl G. inversion G as [| |o0 l0 Gl| | | |]; subst. apply D; try reflexivity. intros g C. inversion C; subst. change (lam_e (EPrim o l)) with (EPrim o (map lam_e l)).
    constructor. eapply Forall_map_impl; [|eassumption]. rewrite Forall_forall in Hl, Gl. intros a I. now apply Hl; auto.
  - intros f l Hf Hl G. inversion G as [| | |f0 l0 Nf Gf Gl| | |]; subst. destruct (Hf Gf) as [Hf1 _].
    assert (L : forall g, Forall (calls_e g) l -> Forall (nc_e g) (map lam_e l)).
    { intros g. apply Forall_map_impl. rewrite Forall_forall in Hl, Gl. intros a I. now apply Hl; auto. }
    split.
    + intros g C. inversion C; subst. change (lam_e (ECall f l)) with (ECall (lam_e f) (map lam_e l)). constructor; auto.
    + assert (E : retexpr (lam_e (ECall f l)) = EJump (lam_e f) (map lam_e l)).
      { change (retexpr (lam_e (ECall f l))) with (if isec (lam_e (ECall f l)) then lam_e (ECall f l) else EJump (lam_e f) (map lam_e l)).
        rewrite lam_isec, isec_good by assumption. reflexivity. }
      rewrite E. intros C. inversion C as [f1 l1 Cf Cl| | |e1 Ce]; subst; [constructor; auto|inversion Ce].
  - intros t a b Ht Ha Hb G. inversion G as [| | | |t0 a0 b0 Gt Ga Gb| |]; subst. destruct (Ht Gt) as [T1 _]. destruct (Ha Ga) as [A1 A2]. destruct (Hb Gb) as [B1 B2]. split.
    + intros g C. inversion C; subst. cbn [MtcoModel.lam_e]. constructor; auto.
    + intros C. cbn [MtcoModel.lam_e MtcoModel.retexpr]. inversion C as [|t1 a1 b1 Ct Ca Cb| |e1 Ce]; subst; [constructor; auto|].
      inversion Ce; subst. constructor; [now apply T1|apply A2; now constructor|apply B2; now constructor].
  - intros i l Hl G. inversion G as [| | | | |i0 l0 L2 Gl|]; subst.
    assert (L : forall g, calls_e g (EBool i l) -> nc_e g (lam_e (EBool i l))).
    { intros g C. inversion C as [| | | | |g0 i0 l0 Cl|]; subst. rewrite lam_bool. constructor. eapply Forall_map_impl; [|exact Cl].
      rewrite Forall_forall in Hl, Gl. intros a I. now apply Hl; auto. }
    split; [exact L|]. intros C.
    destruct l as [|x l]; [cbn in *; lia|]. destruct (@exists_last _ (x :: l)) as (init & e & E); [discriminate|]. rewrite E in *. clear E x l.
    assert (NI : init <> []) by (intros ->; cbn in *; lia).
    assert (C' : Forall (calls_e false) init /\ tail_e e).
    { inversion C as [| |i1 l1 e1 C1 C2|e1 Ce]; subst; [match goal with E1 : _ ++ [_] = _ ++ [_] |- _ => apply app_inj_tail in E1; destruct E1; subst end; now split|].
      inversion Ce as [| | | | |g0 i0 l0 Cl|]; subst. apply Forall_app in Cl. destruct Cl as [C1 C2]. inversion C2; subst. split; [exact C1|now constructor]. }
    destruct C' as [C1 C2]. apply Forall_app in Hl. destruct Hl as [Hi He]. inversion He as [|? ? He1 _]; subst. apply Forall_app in Gl. destruct Gl as [Gi Ge]. inversion Ge as [|? ? Ge1 _]; subst.
    assert (Li : Forall (nc_e false) (map lam_e init)).
    { eapply Forall_map_impl; [|exact C1]. rewrite Forall_forall in Hi, Gi. intros a I. now apply Hi; auto. }
    rewrite lam_bool, map_app. cbn [map]. rewrite retexpr_bool, lam_compound. destruct (compound e) eqn:Ce.
    + apply nc_bool_op; [destruct init; [congruence|discriminate]|exact Li|]. now apply He1.
    + constructor. apply Forall_app. split; [exact Li|]. constructor; [|constructor]. apply He1; auto. inversion C2; subst; try discriminate Ce. assumption.
  - intros tr ps b Hb G. inversion G; subst. apply D; try reflexivity. intros g C. inversion C; subst. cbn [MtcoModel.lam_e]. constructor. now apply Hb.
  - intros f l _ _ G. inversion G.
Qed.
Lemma nc_tco_s : forall s gu g, good_s ecs isb gu s -> calls_s g s -> nc_s g (tco_s s).
Proof.
  assert (L : forall l, Forall (fun s => forall gu g, good_s ecs isb gu s -> calls_s g s -> nc_s g (tco_s s)) l ->
    forall gu g, Forall (good_s ecs isb gu) l -> Forall (calls_s g) l -> Forall (nc_s g) (map tco_s l)).
  { induction 1 as [|s l Hs Hl IH]; intros gu g G C; [constructor|]. inversion G; inversion C; subst. cbn [map]. constructor; eauto. }
  apply (stmt_ind' (fun s => forall gu g, good_s ecs isb gu s -> calls_s g s -> nc_s g (tco_s s))).
  - intros e gu g G C. inversion G; inversion C; subst. change (tco_s (SExpr e)) with (SExpr (lam_e e)). constructor. now apply nc_tco_e.
  - intros x e gu g G C. inversion G; inversion C; subst. change (tco_s (SAssign x e)) with (SAssign x (lam_e e)). constructor. now apply nc_tco_e.
  - constructor.
  - intros e gu g G C. inversion G as [| | |g0 e0 Ge _ _| | | | | | | | | |]; inversion C; subst. rewrite tco_return.
    assert (E : isec e = false) by (destruct e; try reflexivity; inversion Ge; subst; now apply isec_good). rewrite E. constructor. apply nc_more. now apply nc_tco_e.
  - intros e gu g G C. inversion G; inversion C; subst. change (tco_s (SRaise e)) with (SRaise (lam_e e)). constructor. now apply nc_tco_e.
  - constructor.
  - constructor.
  - intros e a b Ha Hb gu g G C. inversion G; inversion C; subst. rewrite tco_if. constructor; [now apply nc_tco_e|eauto|eauto].
  - intros e a b Ha Hb gu g G C. inversion G; inversion C; subst. rewrite tco_while. constructor; [now apply nc_tco_e|eauto|eauto].
  - intros a hs b c Ha Hhs Hb Hc gu g G C. inversion G as [| | | | | | | | |g0 g' a0 hs0 b0 c0 Lc Lg Ga Gh Gb Gc| | | |]; inversion C; subst.
    rewrite tco_try. constructor; eauto. unfold tco_h. apply Forall_forall. intros mh I. apply in_map_iff in I. destruct I as (mh' & <- & I). cbn [snd].
    rewrite Forall_forall in Hhs. eapply L; [apply Hhs; exact I| |].
    + rewrite Forall_forall in Gh. apply (Gh _ I).
    + match goal with H : Forall (fun mh => Forall (calls_s g) (snd mh)) hs |- _ => rewrite Forall_forall in H; apply (H _ I) end.
  - intros e x a Ha gu g G C. inversion G; inversion C; subst. rewrite tco_with. constructor; [now apply nc_tco_e|eauto].
  - intros tr x ps b Hb gu g G C. inversion G; inversion C; subst. rewrite tco_def. constructor. eauto.
  - intros x b Hb gu g G C. inversion G; inversion C; subst. rewrite tco_class. constructor. eauto.
  - intros l Hl gu g G C. inversion G; inversion C; subst. rewrite tco_list. constructor. eauto.
Qed.
End Ecs.

Lemma nc_call_inv g f l : nc_e g (ECall f l) -> g = true /\ nc_e g f /\ Forall (nc_e g) l.
Proof. intros H. inversion H; subst. auto. Qed.
Lemma nc_with_inv g e x a : nc_s g (SWith e x a) -> g = true /\ nc_e g e /\ Forall (nc_s g) a.
Proof. intros H. inversion H; subst. auto. Qed.
Section Depth.
Variable W : Type.
Variable prim : nat -> list value -> W -> outcome value * W.
Notation heap := (heap W).
Notation eval := (eval W prim).
Notation exec := (exec W prim).
Notation block := (block W prim).
Notation evals := (evals W prim).
Notation items := (items W prim).
Definition nch (h : heap) : Prop := Forall nc_f (funs h).
Definition keeps {A} (r : option (A * heap)) : Prop := match r with Some (_, h) => nch h | None => True end.
Definition agree {A} (r r' : option (A * heap)) : Prop := r = r' /\ keeps r'.
Lemma nch_assign cur x v h : nch h -> nch (assign W cur x v h).
Proof. unfold assign. destruct (nth_error (frames h) cur); auto. Qed.
Lemma nch_new_fun f h : nch h -> nc_f f -> nch (new_fun W f h).
Proof. intros H K. unfold nch, new_fun. cbn. apply Forall_app. split; [exact H|]. now constructor. Qed.
Section Agree.
Variables c c' : value -> list value -> M W value.
Variable loops : nat.
Variable lvl : bool.
Hypothesis Hcc : lvl = true -> forall g args h, nch h -> agree (c g args h) (c' g args h).
Definition ag_e (e : expr) := nc_e lvl e -> forall cur h, nch h -> agree (eval c cur e h) (eval c' cur e h).
Lemma ag_evals l : Forall ag_e l -> Forall (nc_e lvl) l -> forall cur h, nch h -> agree (evals c cur l h) (evals c' cur l h).
Proof.
  induction 1 as [|e l He Hl IH]; intros G cur h Hh; [split; [reflexivity|exact Hh]|]. inversion G; subst. cbn [PyProofs.evals].
  destruct (He H1 cur h Hh) as [-> K]. destruct (eval c' cur e h) as [[[v|x] h1]|]; [|now split|now split].
  fold (evals c cur) (evals c' cur). destruct (IH H2 cur h1 K) as [-> K2]. destruct (evals c' cur l h1) as [[[vs|x] h2]|]; now split.
Qed.
Lemma ag_items a l : Forall ag_e l -> Forall (nc_e lvl) l -> forall cur h, nch h -> agree (items c a cur l h) (items c' a cur l h).
Proof.
  induction 1 as [|e l He Hl IH]; intros G cur h Hh; [split; [reflexivity|exact Hh]|]. inversion G; subst. cbn [PyProofs.items].
  destruct l as [|e' l]; [now apply He|]. destruct (He H1 cur h Hh) as [-> K]. destruct (eval c' cur e h) as [[[v|x] h1]|]; [|now split|now split].
  destruct (Bool.eqb (truthy v) a); [now apply IH|now split].
Qed.
Lemma ag_expr : forall e, ag_e e.
Proof.
  apply expr_ind'; unfold ag_e.
  - intros; now split.
  - intros; now split.
  - intros o l Hl G cur h Hh. inversion G; subst. rewrite !eval_prim. destruct (ag_evals l Hl ltac:(assumption) cur h Hh) as [-> K].
    destruct (evals c' cur l h) as [[[vs|x] h1]|]; [|now split|now split]. destruct (prim o vs (world h1)). now split.
  - intros f l Hf Hl G cur h Hh. apply nc_call_inv in G. destruct G as (L & Gf & Gl). rewrite !eval_call.
    destruct (Hf Gf cur h Hh) as [-> K].
    destruct (eval c' cur f h) as [[[g|x] h1]|]; [|now split|now split]. destruct (ag_evals l Hl Gl cur h1 K) as [-> K2].
    destruct (evals c' cur l h1) as [[[vs|x] h2]|]; [|now split|now split]. now apply Hcc.
  - intros t a b Ht Ha Hb G cur h Hh. inversion G; subst. cbn [PyModel.eval]. destruct (Ht ltac:(assumption) cur h Hh) as [-> K].
    destruct (eval c' cur t h) as [[[v|x] h1]|]; [|now split|now split]. destruct (truthy v); auto.
  - intros i l Hl G cur h Hh. inversion G; subst. rewrite !eval_bool. now apply ag_items.
  - intros tr ps b _ G cur h Hh. inversion G; subst. split; [reflexivity|]. cbn. now apply nch_new_fun.
  - intros f l Hf Hl G cur h Hh. inversion G; subst. rewrite !eval_jump. destruct (Hf ltac:(assumption) cur h Hh) as [-> K].
    destruct (eval c' cur f h) as [[[g|x] h1]|]; [|now split|now split]. destruct (ag_evals l Hl ltac:(assumption) cur h1 K) as [-> K2].
    destruct (evals c' cur l h1) as [[[vs|x] h2]|]; now split.
Qed.
Definition ag_s (s : stmt) := nc_s lvl s -> forall cur h, nch h -> agree (exec c loops cur s h) (exec c' loops cur s h).
Lemma ag_of_expr e k k' cur h : nc_e lvl e -> nch h -> (forall v h, nch h -> agree (k v h) (k' v h)) ->
  agree (of_expr W k (eval c cur e h)) (of_expr W k' (eval c' cur e h)).
Proof.
  intros G Hh K. destruct (ag_expr e G cur h Hh) as [-> O]. destruct (eval c' cur e h) as [[[v|x] h1]|]; cbn; [now apply K|now split|now split].
Qed.
Lemma ag_and_then r r' k k' : agree r r' -> (forall v h, nch h -> agree (k v h) (k' v h)) -> agree (and_then W r k) (and_then W r' k').
Proof. intros [-> O] K. destruct r' as [[[v|v|x| |] h1]|]; cbn; try (now split). now apply K. Qed.
Lemma ag_block l : Forall ag_s l -> Forall (nc_s lvl) l -> forall cur v h, nch h -> agree (block c loops cur l v h) (block c' loops cur l v h).
Proof.
  induction 1 as [|s l Hs Hl IH]; intros G cur v h Hh; [now split|]. inversion G; subst. rewrite !block_cons. apply ag_and_then; [now apply Hs|].
  intros; now apply IH.
Qed.
Lemma ag_stmt : forall s, ag_s s.
Proof.
  apply stmt_ind'; unfold ag_s.
  - intros e G cur h Hh. inversion G; subst. cbn [PyModel.exec]. apply ag_of_expr; auto. intros; now split.
  - intros x e G cur h Hh. inversion G; subst. cbn [PyModel.exec]. apply ag_of_expr; auto. intros; split; [reflexivity|now apply nch_assign].
  - intros; now split.
  - intros e G cur h Hh. inversion G; subst. cbn [PyModel.exec]. apply ag_of_expr; auto. intros; now split.
  - intros e G cur h Hh. inversion G; subst. cbn [PyModel.exec]. apply ag_of_expr; auto. intros; now split.
  - intros; now split.
  - intros; now split.
  - intros e a b Ha Hb G cur h Hh. inversion G; subst. rewrite !exec_if. apply ag_of_expr; auto. intros v h1 H1. unfold block0. destruct (truthy v); now apply ag_block.
  - intros e a b Ha Hb G cur h Hh. inversion G as [| | | | | | | |g0 e0 a0 b0 Ge Ga Gb| | | | |]; subst. rewrite !exec_while.
    revert h Hh. generalize loops at 2 4 as k. intros k. induction k as [|k IH]; intros h Hh; [now split|]. cbn [while].
    apply ag_of_expr; auto. intros v h1 H1. destruct (truthy v).
    + unfold block0. destruct (ag_block a Ha Ga cur VNone h1 H1) as [-> O]. destruct (block c' loops cur a VNone h1) as [[[] h2]|]; try (now split); now apply IH.
    + apply ag_and_then; [now apply ag_block|]. intros; now split.
  - intros a hs b d Ha Hhs Hb Hd G cur h Hh. inversion G as [| | | | | | | | |g0 a0 hs0 b0 d0 Ga Gh Gb Gd| | | |]; subst. rewrite !exec_try. unfold block0.
    destruct (ag_block a Ha Ga cur VNone h Hh) as [-> O].
    assert (A : agree (after_body W prim c loops cur hs b (block c' loops cur a VNone h)) (after_body W prim c' loops cur hs b (block c' loops cur a VNone h))).
    { destruct (block c' loops cur a VNone h) as [[[v|v|x| |] h1]|]; cbn [after_body]; try (now split).
      - destruct b; [now split|]. now apply ag_block.
      - cbn in O. clear -Hhs Gh O Hcc. induction Hhs as [|[m l] hs Hl Hhs IH]; [now split|]. inversion Gh; subst. cbn [handle].
        destruct (m x); [now apply ag_block|now apply IH]. }
    destruct A as [-> A]. destruct (after_body W prim c' loops cur hs b (block c' loops cur a VNone h)) as [[q h1]|]; cbn [at_last]; [|now split].
    destruct (ag_block d Hd Gd cur VNone h1 A) as [-> O2]. destruct (block c' loops cur d VNone h1) as [[[] h2]|]; now split.
  - intros e x a Ha G cur h Hh. apply nc_with_inv in G. destruct G as (L & Ge & Ga). rewrite !exec_with.
    apply ag_of_expr; auto. intros v h1 H1.
    set (h2 := match x with Some x0 => assign W cur x0 v h1 | None => h1 end).
    assert (H2 : nch h2) by (unfold h2; destruct x; [now apply nch_assign|exact H1]).
    unfold block0. destruct (ag_block a Ha Ga cur VNone h2 H2) as [-> O]. destruct (block c' loops cur a VNone h2) as [[q h3]|]; cbn [leave_with]; [|now split].
    destruct (Hcc L v [match q with CRaise e0 => VExn e0 | _ => VNone end] h3 O) as [-> K].
    destruct (c' v _ h3) as [[[w|y] h4]|]; cbn; try (now split). destruct q; now split.
  - intros tr x ps b Hb G cur h Hh. inversion G; subst. cbn [PyModel.exec]. split; [reflexivity|]. apply nch_assign. now apply nch_new_fun.
  - intros x b Hb G cur h Hh. inversion G as [| | | | | | | | | | | |g0 x0 b0 Gb|]; subst. rewrite !exec_class. cbn zeta.
    set (n := length (frames h)). set (h0 := new_frame W _ h).
    assert (E : forall h, nch h -> agree (cblock W prim c loops n b h) (cblock W prim c' loops n b h)).
    { clear h0. clearbody n. clear h Hh G. induction Hb as [|s b Hs Hb IH]; intros h Hh; [now split|]. inversion Gb; subst. cbn [cblock].
      apply ag_and_then; [now apply Hs|]. intros; now apply IH. }
    destruct (E h0 Hh) as [-> O]. destruct (cblock W prim c' loops n b h0) as [[[] h1]|]; try (now split). split; [reflexivity|]. now apply nch_assign.
  - intros l Hl G cur h Hh. inversion G; subst. rewrite !exec_list. now apply ag_block.
Qed.
End Agree.
Lemma call_depth u : forall fuel g args h, nch h ->
  agree (call W prim false u fuel (Some 1) false g args h) (call W prim false u fuel None false g args h) /\
  agree (call W prim false u fuel (Some 0) true g args h) (call W prim false u fuel None true g args h).
Proof.
  induction fuel as [|fuel IH]; intros g args h Hh; [split; now split|]. cbn [call].
  assert (N : forall b, agree (not_callable W u b h) (not_callable W u b h)).
  { intros b. split; [reflexivity|]. unfold not_callable. destruct (u b); [exact Hh|exact I]. }
  destruct g; try (split; apply N).
  2: { destruct (prim o args (world h)). split; now split. }
  destruct (nth_error (funs h) n) as [f|] eqn:F; [|split; apply N]. cbn [deeper].
  assert (G : nc_f f). { unfold nch in Hh. rewrite Forall_forall in Hh. eapply Hh, nth_error_In, F. }
  assert (R : agree (run_body W prim false (call W prim false u fuel (Some 0) false) fuel f args h)
                    (run_body W prim false (call W prim false u fuel None false) fuel f args h)).
  { unfold run_body. destruct (bound (fparams f) args) as [l|]; [|now split]. unfold nc_f in G. destruct (fcode f) as [e|b].
    - apply (ag_expr _ _ false); [discriminate|exact G|exact Hh].
    - set (h0 := new_frame W _ h).
      destruct (ag_block (call W prim false u fuel (Some 0) false) (call W prim false u fuel None false) fuel false b) with (cur := length (frames h)) (v := VNone) (h := h0) as [-> O]; auto.
      { apply Forall_forall. intros. apply (ag_stmt _ _ fuel false). discriminate. }
      destruct (block (call W prim false u fuel None false) fuel (length (frames h)) b VNone h0) as [[q h1]|]; now split. }
  destruct R as [-> O].
  destruct (run_body W prim false (call W prim false u fuel None false) fuel f args h) as [[[[| | | | | | |t a]|] h1]|]; try (split; now split).
  split; destruct (ftramp f); cbn [orb]; try (now split); now apply IH.
Qed.
Lemma module_depth u fuel l h : nch h -> Forall (nc_s true) l -> module W prim false u fuel (Some 1) l h = module W prim false u fuel None l h.
Proof.
  intros Hh G. apply (ag_block _ _ fuel true l); auto. apply Forall_forall. intros. apply (ag_stmt _ _ fuel true). intros _ g args h0 H0. now apply call_depth.
Qed.
End Depth.
Theorem tco_depth ecs isb W prim u fuel l fs w : Forall (good_s ecs isb true) l -> Forall (calls_s true) l ->
  module W prim false u fuel (Some 1) (tco ecs l) (mkHeap fs [] [] w) = module W prim false u fuel None (tco ecs l) (mkHeap fs [] [] w).
Proof.
  intros G C. apply module_depth; [constructor|]. rewrite tco_eq. apply Forall_forall. intros s I. apply in_map_iff in I. destruct I as (s' & <- & I).
  rewrite Forall_forall in *. eapply nc_tco_s; eauto.
Qed.

Theorem autoreturn_tco ecs isb W prim fuel l fs w : no_jumps prim fs -> bool_ops isb prim -> Forall (good_s ecs isb true) (autoreturn l) ->
  same_end (module W prim true (fun _ => None) fuel None l (mkHeap fs [] [] w))
           (module W prim false (fun _ => None) fuel None (tco ecs (autoreturn l)) (mkHeap fs [] [] w)).
Proof.
  intros P B G. pose proof (tco_lockstep ecs isb W prim fuel (autoreturn l) fs w P B G) as H.
  pose proof (autoreturn_same W prim (fun _ => None) fuel None l fs w) as K.
  destruct (module W prim true (fun _ => None) fuel None l _) as [[c h]|]; destruct (module W prim false (fun _ => None) fuel None (autoreturn l) _) as [[c1 h1]|];
    destruct (module W prim false (fun _ => None) fuel None (tco ecs (autoreturn l)) _) as [[c2 h2]|]; cbn in *; try contradiction; auto.
  destruct K as [-> (K1 & K2 & K3 & K4)]. destruct H as [-> (H1 & H2 & H3 & H4)]. split; [reflexivity|]. unfold same_state.
  rewrite K1, K2, K3. repeat split; auto. rewrite <- H4.
  assert (E : forall l : list fobj, map (fun f => (fparams f, fenv f)) l = map (fun x => (snd (fst x), snd x)) (map (fun f => (ftramp f, fparams f, fenv f)) l)).
  { intros q. rewrite map_map. reflexivity. }
  now rewrite !E, K4.
Qed.
