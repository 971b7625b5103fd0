From Coq Require Import String List ZArith Arith Bool Lia.
From Verif Require Import Base PyModel PyProofs AretModel AretSpec.
Import ListNotations.
Open Scope string_scope.
Open Scope list_scope.
Open Scope nat_scope.

(** * The transformations, unfolded *)
Definition tail_handlers (hs : list ((exn -> bool) * list stmt)) := map (fun mh => (fst mh, tail_block (snd mh))) hs.
Lemma tail_if e a b : tail (SIf e a b) = SIf e (tail_block a) (tail_block b).
Proof. reflexivity. Qed.
Lemma tail_with e x a : tail (SWith e x a) = SWith e x (tail_block a).
Proof. reflexivity. Qed.
Lemma tail_try a hs b c : tail (STry a hs b c) =
  match b with [] => STry (tail_block a) (tail_handlers hs) b c | _ => STry a (tail_handlers hs) (tail_block b) c end.
Proof.
  cbn [tail].
  assert (E : (fix hl (hs : list ((exn -> bool) * list stmt)) :=
                   match hs with [] => [] | (m, l) :: hs => (m, tail_block l) :: hl hs end) hs = tail_handlers hs).
  { induction hs as [|[m l] hs IH]; [reflexivity|]. cbn [tail_handlers map fst snd]. now rewrite IH. }
  fold tail_block. rewrite E. destruct b; reflexivity.
Qed.
Definition visit_handlers (hs : list ((exn -> bool) * list stmt)) := map (fun mh => (fst mh, map visit (snd mh))) hs.
Lemma visit_all l : (fix all (l : list stmt) : list stmt := match l with [] => [] | s :: l => visit s :: all l end) l = map visit l.
Proof. reflexivity. Qed.
Lemma visit_try a hs b c : visit (STry a hs b c) = STry (map visit a) (visit_handlers hs) (map visit b) (map visit c).
Proof.
  cbn [visit]. f_equal. induction hs as [|[m l] hs IH]; [reflexivity|]. cbn [visit_handlers map fst snd]. now rewrite IH.
Qed.
(** The order in which lines 677-683 do it gives the same: the tail of the body is transformed, and then
    what results is visited.  ([return x] is not changed by a visit.) *)
Lemma map_tail_block l : Forall (fun s => visit (tail s) = tail (visit s)) l -> map visit (tail_block l) = tail_block (map visit l).
Proof.
  induction 1 as [|s l Hs Hl IH]; [reflexivity|]. destruct l as [|s' l]; [cbn; now rewrite Hs|].
  change (tail_block (s :: s' :: l)) with (s :: tail_block (s' :: l)). cbn [map]. cbn [map] in IH. rewrite IH. reflexivity.
Qed.
Lemma visit_tail : forall s, visit (tail s) = tail (visit s).
Proof.
  apply (stmt_ind' (fun s => visit (tail s) = tail (visit s))); try reflexivity.
  - intros e a b Ha Hb. rewrite tail_if.
    change (visit (SIf e (tail_block a) (tail_block b))) with (SIf e (map visit (tail_block a)) (map visit (tail_block b))).
    change (visit (SIf e a b)) with (SIf e (map visit a) (map visit b)). rewrite tail_if, !map_tail_block; auto.
  - intros a hs b c Ha Hhs Hb Hc. rewrite visit_try, !tail_try.
    assert (E : visit_handlers (tail_handlers hs) = tail_handlers (visit_handlers hs)).
    { clear -Hhs. unfold visit_handlers, tail_handlers. rewrite !map_map. cbn [fst snd].
      induction Hhs as [|[m l] hs Hl Hhs IH]; [reflexivity|]. cbn [map fst snd] in *.
      now rewrite map_tail_block, IH. }
    destruct b as [|s b].
    + rewrite visit_try, map_tail_block by auto. cbn [map]. now rewrite E.
    + rewrite visit_try, map_tail_block by auto. cbn [map]. now rewrite E.
  - intros e x a Ha. rewrite tail_with.
    change (visit (SWith e x (tail_block a))) with (SWith e x (map visit (tail_block a))).
    change (visit (SWith e x a)) with (SWith e x (map visit a)). rewrite tail_with, map_tail_block; auto.
  - intros l Hl. change (SList (map visit (tail_block l)) = SList (tail_block (map visit l))). now rewrite map_tail_block.
Qed.
Lemma map_tail_block' l : map visit (tail_block l) = tail_block (map visit l).
Proof. apply map_tail_block, Forall_forall. intros; apply visit_tail. Qed.
Lemma visit_def tr x ps b : visit (SDef tr x ps b) = SDef tr x ps (map visit (tail_block b)).
Proof. rewrite map_tail_block'. reflexivity. Qed.

(** * Names bound *)
Lemma binds_all_eq l : (fix block (l : list stmt) : list string := match l with [] => [] | s :: l => binds s ++ block l end) l = binds_all l.
Proof. reflexivity. Qed.
Lemma binds_list l : binds (SList l) = binds_all l.
Proof. reflexivity. Qed.
Definition binds_handlers := fix hl (hs : list ((exn -> bool) * list stmt)) : list string :=
                    match hs with [] => [] | (_, l) :: hs => binds_all l ++ hl hs end.
Lemma binds_try a hs b c : binds (STry a hs b c) = binds_all a ++ binds_handlers hs ++ binds_all b ++ binds_all c.
Proof. reflexivity. Qed.
Lemma binds_tail_block l : Forall (fun s => binds (tail s) = binds s) l -> binds_all (tail_block l) = binds_all l.
Proof.
  induction 1 as [|s l Hs Hl IH]; [reflexivity|]. destruct l as [|s' l]; [cbn; now rewrite Hs|].
  change (tail_block (s :: s' :: l)) with (s :: tail_block (s' :: l)). cbn [binds_all]. now rewrite IH.
Qed.
Lemma binds_tail : forall s, binds (tail s) = binds s.
Proof.
  apply (stmt_ind' (fun s => binds (tail s) = binds s)); try reflexivity.
  - intros e a b Ha Hb. rewrite tail_if. change (binds_all (tail_block a) ++ binds_all (tail_block b) = binds_all a ++ binds_all b).
    now rewrite !binds_tail_block.
  - intros a hs b c Ha Hhs Hb Hc. rewrite tail_try.
    assert (E : binds_handlers (tail_handlers hs) = binds_handlers hs).
    { induction Hhs as [|[m l] hs Hl Hhs IH]; [reflexivity|]. cbn [tail_handlers map fst snd binds_handlers].
      unfold tail_handlers in IH. now rewrite binds_tail_block, IH. }
    destruct b; rewrite !binds_try, E; now rewrite binds_tail_block.
  - intros e x a Ha. rewrite tail_with.
    change (match x with Some x => [x] | None => [] end ++ binds_all (tail_block a) = match x with Some x => [x] | None => [] end ++ binds_all a).
    now rewrite binds_tail_block.
  - intros l Hl. change (binds_all (tail_block l) = binds_all l). now apply binds_tail_block.
Qed.
Lemma binds_map l : Forall (fun s => binds (visit s) = binds s) l -> binds_all (map visit l) = binds_all l.
Proof. induction 1 as [|s l Hs Hl IH]; [reflexivity|]. cbn [map binds_all]. now rewrite Hs, IH. Qed.
Lemma binds_visit : forall s, binds (visit s) = binds s.
Proof.
  apply (stmt_ind' (fun s => binds (visit s) = binds s)); try reflexivity.
  - intros e a b Ha Hb. change (binds_all (map visit a) ++ binds_all (map visit b) = binds_all a ++ binds_all b). now rewrite !binds_map.
  - intros e a b Ha Hb. change (binds_all (map visit a) ++ binds_all (map visit b) = binds_all a ++ binds_all b). now rewrite !binds_map.
  - intros a hs b c Ha Hhs Hb Hc. rewrite visit_try, !binds_try, !binds_map by auto. do 2 f_equal.
    induction Hhs as [|[m l] hs Hl Hhs IH]; [reflexivity|]. cbn [visit_handlers map fst snd binds_handlers].
    unfold visit_handlers in IH. now rewrite binds_map, IH.
  - intros e x a Ha.
    change (match x with Some x => [x] | None => [] end ++ binds_all (map visit a) = match x with Some x => [x] | None => [] end ++ binds_all a).
    now rewrite binds_map.
  - intros l Hl. change (binds_all (map visit l) = binds_all l). now apply binds_map.
Qed.
Lemma binds_visit_all l : binds_all (map visit l) = binds_all l.
Proof. apply binds_map, Forall_forall. intros; apply binds_visit. Qed.

(** * The heap of the transformed program *)
Definition Tcode (b : list stmt) : list stmt := tail_block (map visit b).
Definition Tf (f : fobj) : fobj :=
  match fcode f with BExpr _ => f | BBlock b => mkFun (ftramp f) (fparams f) (BBlock (Tcode b)) (fenv f) end.
Lemma binds_code b : binds_all (Tcode b) = binds_all b.
Proof.
  unfold Tcode. rewrite binds_tail_block, binds_visit_all; [reflexivity|]. apply Forall_forall. intros; apply binds_tail.
Qed.

Section Aret.
Variable W : Type.
Variable prim : nat -> list value -> W -> outcome value * W.
Notation heap := (heap W).
Notation eval := (eval W prim).
Notation exec := (exec W prim).
Notation block := (block W prim).

Definition T (h : heap) : heap := mkHeap (frames h) (map Tf (funs h)) (objs h) (world h).
Definition lift {A} (r : option (A * heap)) : option (A * heap) := match r with Some (a, h) => Some (a, T h) | None => None end.
Lemma T_assign cur x v h : T (assign W cur x v h) = assign W cur x v (T h).
Proof. unfold assign. cbn. destruct (nth_error (frames h) cur); reflexivity. Qed.
Lemma T_new_fun f h : T (new_fun W f h) = new_fun W (Tf f) (T h).
Proof. unfold T, new_fun. cbn. now rewrite map_app. Qed.
Lemma T_length_funs h : length (funs (T h)) = length (funs h).
Proof. apply map_length. Qed.

(** ** The source in a world where functions return what they end in, against the target *)
Section Visit.
Variables c1 c2 : value -> list value -> M W value.   (* c1 in the target, c2 in the source *)
Variable loops : nat.
Hypothesis Hc : forall g args h, c1 g args (T h) = lift (c2 g args h).
Definition agree_e (e : expr) := forall cur h, eval c1 cur e (T h) = lift (eval c2 cur e h).
Lemma evals_T l : Forall agree_e l -> forall cur h, evals W prim c1 cur l (T h) = lift (evals W prim c2 cur l h).
Proof.
  induction 1 as [|e l He Hl IH]; intros cur h; [reflexivity|]. cbn [evals]. rewrite He.
  destruct (eval c2 cur e h) as [[[v|x] h1]|]; cbn [lift]; try reflexivity. fold (evals W prim c1 cur) (evals W prim c2 cur). rewrite IH.
  destruct (evals W prim c2 cur l h1) as [[[vs|x] h2]|]; reflexivity.
Qed.
Lemma items_T a l : Forall agree_e l -> forall cur h, items W prim c1 a cur l (T h) = lift (items W prim c2 a cur l h).
Proof.
  induction 1 as [|e l He Hl IH]; intros cur h; [reflexivity|]. cbn [items]. destruct l as [|e' l]; [apply He|]. rewrite He.
  destruct (eval c2 cur e h) as [[[v|x] h1]|]; cbn [lift]; try reflexivity.
  destruct (Bool.eqb (truthy v) a); [apply IH|reflexivity].
Qed.
Lemma eval_T : forall e, agree_e e.
Proof.
  apply expr_ind'; unfold agree_e.
  - reflexivity.
  - reflexivity.
  - intros o l Hl cur h. rewrite !eval_prim, (evals_T l Hl). destruct (evals W prim c2 cur l h) as [[[vs|x] h1]|]; cbn [lift]; try reflexivity.
    change (world (T h1)) with (world h1). destruct (prim o vs (world h1)). reflexivity.
  - intros f l Hf Hl cur h. rewrite !eval_call, Hf. destruct (eval c2 cur f h) as [[[g|x] h1]|]; cbn [lift]; try reflexivity.
    rewrite (evals_T l Hl). destruct (evals W prim c2 cur l h1) as [[[vs|x] h2]|]; cbn [lift]; try reflexivity. apply Hc.
  - intros t a b Ht Ha Hb cur h. cbn [PyModel.eval]. rewrite Ht. destruct (eval c2 cur t h) as [[[v|x] h1]|]; cbn [lift]; try reflexivity.
    destruct (truthy v); auto.
  - intros b l Hl cur h. rewrite !eval_bool. now apply items_T.
  - intros tr ps e _ cur h. cbn [PyModel.eval lift]. rewrite T_new_fun, T_length_funs. reflexivity.
  - intros f l Hf Hl cur h. rewrite !eval_jump, Hf. destruct (eval c2 cur f h) as [[[g|x] h1]|]; cbn [lift]; try reflexivity.
    rewrite (evals_T l Hl). destruct (evals W prim c2 cur l h1) as [[[vs|x] h2]|]; reflexivity.
Qed.
Lemma of_expr_T k1 k2 m : (forall v h, k1 v (T h) = lift (k2 v h)) -> of_expr W k1 (lift m) = lift (of_expr W k2 m).
Proof. intros H. destruct m as [[[v|x] h]|]; cbn; auto. Qed.
Lemma and_then_T r k1 k2 : (forall v h, k1 v (T h) = lift (k2 v h)) -> and_then W (lift r) k1 = lift (and_then W r k2).
Proof. intros H. destruct r as [[[] h]|]; cbn; auto. Qed.
Definition agree_s (s : stmt) := forall cur h, exec c1 loops cur (visit s) (T h) = lift (exec c2 loops cur s h).
Lemma block_T l : Forall agree_s l -> forall cur v h, block c1 loops cur (map visit l) v (T h) = lift (block c2 loops cur l v h).
Proof.
  induction 1 as [|s l Hs Hl IH]; intros cur v h; [reflexivity|]. cbn [map]. rewrite !block_cons, Hs. apply and_then_T. intros; apply IH.
Qed.
Lemma exec_T : forall s, agree_s s.
Proof.
  apply stmt_ind'; unfold agree_s.
  - intros e cur h. cbn [visit PyModel.exec]. rewrite eval_T. now apply of_expr_T.
  - intros x e cur h. cbn [visit PyModel.exec]. rewrite eval_T. apply of_expr_T. intros. cbn [lift]. now rewrite T_assign.
  - reflexivity.
  - intros e cur h. cbn [visit PyModel.exec]. rewrite eval_T. now apply of_expr_T.
  - intros e cur h. cbn [visit PyModel.exec]. rewrite eval_T. now apply of_expr_T.
  - reflexivity.
  - reflexivity.
  - intros e a b Ha Hb cur h. change (visit (SIf e a b)) with (SIf e (map visit a) (map visit b)). rewrite !exec_if, eval_T.
    apply of_expr_T. intros v h1. unfold block0. destruct (truthy v); now apply block_T.
  - intros e a b Ha Hb cur h. change (visit (SWhile e a b)) with (SWhile e (map visit a) (map visit b)). rewrite !exec_while.
    revert h. generalize loops at 2 4 as k. intros k. induction k as [|k IH]; intros h; [reflexivity|]. cbn [while]. rewrite eval_T.
    apply of_expr_T. intros v h1. unfold block0. destruct (truthy v).
    + rewrite (block_T a Ha). destruct (block c2 loops cur a VNone h1) as [[[] h2]|]; cbn [lift]; auto.
    + rewrite (block_T b Hb). now apply and_then_T.
  - intros a hs b c Ha Hhs Hb Hcc cur h. rewrite visit_try, !exec_try. unfold block0.
    assert (E : after_body W prim c1 loops cur (visit_handlers hs) (map visit b) (block c1 loops cur (map visit a) VNone (T h)) =
                lift (after_body W prim c2 loops cur hs b (block c2 loops cur a VNone h))).
    { rewrite (block_T a Ha). destruct (block c2 loops cur a VNone h) as [[[] h1]|]; cbn [lift after_body]; try reflexivity.
      - destruct b as [|s b]; [reflexivity|]. cbn [map]. unfold block0. now rewrite <- (block_T (s :: b) Hb).
      - clear -Hhs Hc. induction Hhs as [|[m l] hs Hl Hhs IH]; [reflexivity|]. cbn [visit_handlers map handle fst snd] in *.
        destruct (m e); [|exact IH]. unfold block0. now apply block_T. }
    rewrite E. destruct (after_body W prim c2 loops cur hs b (block c2 loops cur a VNone h)) as [[d h1]|]; cbn [lift at_last]; [|reflexivity].
    rewrite (block_T c Hcc). destruct (block c2 loops cur c VNone h1) as [[[] h2]|]; reflexivity.
  - intros e x a Ha cur h. change (visit (SWith e x a)) with (SWith e x (map visit a)). rewrite !exec_with, eval_T.
    apply of_expr_T. intros v h1.
    replace (match x with Some x0 => assign W cur x0 v (T h1) | None => T h1 end) with (T (match x with Some x0 => assign W cur x0 v h1 | None => h1 end))
      by (destruct x; [apply T_assign|reflexivity]).
    unfold block0. rewrite (block_T a Ha). destruct (block c2 loops cur a VNone _) as [[c h2]|]; cbn [lift leave_with]; [|reflexivity].
    rewrite Hc. apply of_expr_T. intros x0 h0. destruct c; reflexivity.
  - intros tr x ps b Hb cur h. cbn [PyModel.exec lift].
    change (visit (SDef tr x ps b)) with (SDef tr x ps (Tcode b)). cbn [PyModel.exec]. rewrite T_assign, T_new_fun, T_length_funs. reflexivity.
  - intros x b Hb cur h. change (visit (SClass x b)) with (SClass x (map visit b)). rewrite !exec_class. cbn zeta.
    rewrite binds_visit_all. change (outer W cur (T h)) with (outer W cur h). change (frames (T h)) with (frames h).
    set (n := length (frames h)). set (fr := mkFrame _ _ _).
    assert (E : forall h, cblock W prim c1 loops n (map visit b) (T h) = lift (cblock W prim c2 loops n b h)).
    { clear fr. clearbody n. clear h. induction Hb as [|s b Hs Hb IH]; intros h; [reflexivity|]. cbn [map cblock]. rewrite Hs. apply and_then_T. intros; apply IH. }
    change (new_frame W fr (T h)) with (T (new_frame W fr h)). rewrite E.
    destruct (cblock W prim c2 loops n b (new_frame W fr h)) as [[[] h1]|]; cbn [lift]; try reflexivity.
    change (T (assign W cur x (VObj (length (objs h1))) (new_obj W n h1))) with (T (assign W cur x (VObj (length (objs h1))) (new_obj W n h1))).
    rewrite T_assign. reflexivity.
  - intros l Hl cur h. change (visit (SList l)) with (SList (map visit l)). rewrite !exec_list. now apply block_T.
Qed.
Lemma block_visit l cur v h : block c1 loops cur (map visit l) v (T h) = lift (block c2 loops cur l v h).
Proof. apply block_T, Forall_forall. intros; apply exec_T. Qed.
End Visit.

(** ** The tail of a block, before and after *)
(** the completion [c] of a block, and that of the block with its tail transformed *)
Definition tails (c c' : comp) : Prop :=
  (exists v, c = CNormal v /\ c' = CReturn v) \/ (c' = c /\ forall v, c = CNormal v -> v = VNone).
Definition rtails (r r' : option (comp * heap)) : Prop :=
  match r, r' with
  | Some (c, h), Some (c', h') => tails c c' /\ h = h'
  | None, None => True
  | _, _ => False
  end.
Lemma get_put x v l : get x (put x v l) = Some (Some v).
Proof. induction l as [|[y w] l IH]; cbn; [now rewrite String.eqb_refl|]. destruct (String.eqb y x) eqn:E; cbn; now rewrite E. Qed.
Lemma nth_set {A} (a : A) l : forall n, n < length l -> nth_error (set_nth n a l) n = Some a.
Proof. induction l as [|b l IH]; intros [|n] H; cbn in *; try lia; auto. apply IH. lia. Qed.
Lemma lookup_assign cur x v (h : heap) : cur < length (frames h) ->
  let h' := assign W cur x v h in lookup (S (length (frames h'))) x cur (frames h') = Ok v.
Proof.
  intros H h'. unfold h', assign. destruct (nth_error (frames h) cur) as [f|] eqn:E; [|apply nth_error_None in E; lia].
  cbn [frames lookup]. rewrite nth_set by assumption. cbn [slots]. now rewrite get_put.
Qed.
Section Tail.
Variable c1 : value -> list value -> M W value.
Variable loops : nat.
Hypothesis Hg : forall g args h, grows W h (c1 g args h).
Definition tailed (s : stmt) := forall cur h, cur < length (frames h) ->
  rtails (exec c1 loops cur s h) (exec c1 loops cur (tail s) h).
Lemma rtails_refl r : (forall v h, r = Some (CNormal v, h) -> v = VNone) -> rtails r r.
Proof.
  intros H. destruct r as [[c h]|]; [|exact I]. split; [right|reflexivity]. split; [reflexivity|]. intros v E. subst. eapply H. reflexivity.
Qed.
Lemma and_then_nil r : and_then W r (fun v h => Some (CNormal v, h)) = r.
Proof. destruct r as [[[] h]|]; reflexivity. Qed.
Lemma block_tails l : Forall tailed l -> forall cur h v, cur < length (frames h) -> (l = [] -> v = VNone) ->
  rtails (block c1 loops cur l v h) (block c1 loops cur (tail_block l) v h).
Proof.
  induction 1 as [|s l Hs Hl IH]; intros cur h v Hcur Hv.
  - apply rtails_refl. intros w h' E. injection E as <- <-. now apply Hv.
  - destruct l as [|s' l].
    + change (rtails (and_then W (exec c1 loops cur s h) (fun v h => Some (CNormal v, h)))
                     (and_then W (exec c1 loops cur (tail s) h) (fun v h => Some (CNormal v, h)))).
      rewrite !and_then_nil. now apply Hs.
    + change (tail_block (s :: s' :: l)) with (s :: tail_block (s' :: l)). rewrite !(block_cons W prim c1 loops cur s).
      pose proof (exec_grows W prim c1 loops Hg s cur h) as G. unfold and_then.
      destruct (exec c1 loops cur s h) as [[[] h1]|]; try (apply rtails_refl; intros ? ? E; discriminate E).
      apply IH; auto; [|discriminate]. unfold grows in G. lia.
Qed.
Lemma of_expr_tails k k' m : (forall v h', m = Some (Ok v, h') -> rtails (k v h') (k' v h')) -> rtails (of_expr W k m) (of_expr W k' m).
Proof.
  intros H. destruct m as [[[v|x] h]|]; cbn; [now apply H| |exact I]. split; [right; split; [reflexivity|discriminate]|reflexivity].
Qed.
Lemma eval_below e cur h v h' n : n < length (frames h) -> eval c1 cur e h = Some (v, h') -> n < length (frames h').
Proof. intros H E. pose proof (eval_grows W prim c1 Hg e cur h) as G. rewrite E in G. cbn in G. unfold grows in G. lia. Qed.
Lemma exec_tails : forall s, tailed s.
Proof.
  apply stmt_ind'; unfold tailed.
  - intros e cur h Hcur. cbn [tail PyModel.exec]. apply of_expr_tails. intros v h' _. cbn. split; [left; now exists v|reflexivity].
  - intros x e cur h _. cbn [tail]. apply rtails_refl. cbn [PyModel.exec]. destruct (eval c1 cur e h) as [[[]]|]; cbn; congruence.
  - intros cur h _. apply rtails_refl. cbn. congruence.
  - intros e cur h _. cbn [tail]. apply rtails_refl. cbn [PyModel.exec]. destruct (eval c1 cur e h) as [[[]]|]; cbn; congruence.
  - intros e cur h _. cbn [tail]. apply rtails_refl. cbn [PyModel.exec]. destruct (eval c1 cur e h) as [[[]]|]; cbn; congruence.
  - intros cur h _. apply rtails_refl. cbn. congruence.
  - intros cur h _. apply rtails_refl. cbn. congruence.
  - intros e a b Ha Hb cur h Hcur. rewrite tail_if, !exec_if. apply of_expr_tails. intros v h' E.
    pose proof (eval_below e cur h _ h' cur Hcur E). unfold block0. destruct (truthy v); apply block_tails; auto.
  - intros e a b _ _ cur h _. cbn [tail]. apply rtails_refl. rewrite exec_while. generalize loops at 2 as k. intros k.
    revert h. induction k as [|k IH]; intros h v h'; cbn [while]; [discriminate|].
    destruct (eval c1 cur e h) as [[[w|x] h1]|]; cbn [of_expr]; try discriminate. destruct (truthy w).
    + destruct (block0 W prim c1 loops cur a h1) as [[[] h2]|]; try discriminate; try apply IH. congruence.
    + unfold and_then. destruct (block0 W prim c1 loops cur b h1) as [[[] h2]|]; congruence.
  - intros a hs b c Ha Hhs Hb _ cur h Hcur. rewrite tail_try.
    assert (AL : forall r r' fin, rtails r r' -> rtails (at_last W r fin) (at_last W r' fin)).
    { intros [[d h1]|] [[d' h1']|] fin R; try contradiction; [|exact I]. destruct R as [R ->]. cbn [at_last].
      destruct (fin h1') as [[[] h2]|]; try (split; [right; split; [reflexivity|discriminate]|reflexivity]); [|exact I]. now split. }
    assert (HH : forall e h1, cur < length (frames h1) ->
      rtails (handle W prim c1 loops cur e h1 hs) (handle W prim c1 loops cur e h1 (tail_handlers hs))).
    { intros e h1 Hc1. clear -Hhs Hc1 Hg. induction Hhs as [|[m l] hs Hl Hhs IH].
      - cbn. split; [right; split; [reflexivity|discriminate]|reflexivity].
      - cbn [handle tail_handlers map fst snd] in *. destruct (m e); [|now apply IH]. apply block_tails; auto. }
    assert (GA : forall c2 h2, block0 W prim c1 loops cur a h = Some (c2, h2) -> cur < length (frames h2)).
    { intros c2 h2 E. pose proof (block_grows' W prim c1 loops Hg a cur VNone h) as G. unfold block0 in E. rewrite E in G. cbn in G. unfold grows in G. lia. }
    destruct b as [|s b]; rewrite !exec_try; apply AL.
    + assert (R : rtails (block0 W prim c1 loops cur a h) (block0 W prim c1 loops cur (tail_block a) h)) by (apply block_tails; auto).
      destruct (block0 W prim c1 loops cur a h) as [[d h1]|] eqn:E; destruct (block0 W prim c1 loops cur (tail_block a) h) as [[d' h1']|]; try contradiction; [|exact I].
      destruct R as [[(v & -> & ->)|[-> R]] <-].
      * cbn. split; [left; now exists v|reflexivity].
      * destruct d as [v|v|e| |]; try (cbn; split; [right; split; [reflexivity|discriminate]|reflexivity]).
        -- cbn. split; [right; split; [reflexivity|exact R]|reflexivity].
        -- cbn [after_body]. apply HH. eapply GA. reflexivity.
    + unfold after_body. destruct (block0 W prim c1 loops cur a h) as [[[v|v|e| |] h1]|] eqn:E;
        try (cbn; split; [right; split; [reflexivity|discriminate]|reflexivity]); [| |exact I].
      * assert (R : rtails (block0 W prim c1 loops cur (s :: b) h1) (block0 W prim c1 loops cur (tail_block (s :: b)) h1)).
        { apply block_tails; auto. eapply GA. reflexivity. }
        destruct (tail_block (s :: b)) eqn:TB; [destruct b; discriminate TB|]. exact R.
      * apply HH. eapply GA. reflexivity.
  - intros e x a Ha cur h Hcur. rewrite tail_with, !exec_with. apply of_expr_tails. intros v h1 E.
    pose proof (eval_below e cur h _ h1 cur Hcur E) as Hc1.
    set (h2 := match x with Some x0 => assign W cur x0 v h1 | None => h1 end).
    assert (Hc2 : cur < length (frames h2)) by (unfold h2; destruct x; [rewrite assign_length|]; exact Hc1).
    assert (R : rtails (block0 W prim c1 loops cur a h2) (block0 W prim c1 loops cur (tail_block a) h2)) by (apply block_tails; auto).
    destruct (block0 W prim c1 loops cur a h2) as [[d h3]|]; destruct (block0 W prim c1 loops cur (tail_block a) h2) as [[d' h3']|]; try contradiction; [|exact I].
    destruct R as [R <-]. cbn [leave_with].
    destruct R as [(w & -> & ->)|[-> R]].
    + apply of_expr_tails. intros. cbn. split; [left; now exists w|reflexivity].
    + apply of_expr_tails. intros w h4 _. destruct d; try (split; [right; split; [reflexivity|discriminate]|reflexivity]).
      * split; [right; split; [reflexivity|exact R]|reflexivity].
      * destruct (truthy w); (split; [right; split; [reflexivity|congruence]|reflexivity]).
  - intros tr x ps b _ cur h Hcur. cbn [tail]. rewrite exec_list. unfold block0. rewrite block_cons. cbn [PyModel.exec and_then].
    rewrite block_cons. cbn [PyModel.exec PyModel.eval]. rewrite lookup_assign by exact Hcur. cbn. split; [left; eexists; split; reflexivity|reflexivity].
  - intros x b _ cur h Hcur. cbn [tail]. rewrite exec_list. unfold block0. rewrite block_cons.
    assert (X : forall v h1, exec c1 loops cur (SClass x b) h = Some (CNormal v, h1) ->
      lookup (S (length (frames h1))) x cur (frames h1) = Ok v).
    { intros v h1. pose proof (exec_grows W prim c1 loops Hg (SClass x b) cur h) as G. rewrite exec_class in *. cbn zeta in *.
      destruct (cblock _ _ _ _ _ b _) as [[[] h2]|]; try discriminate. intros E. injection E as <- <-.
      unfold grows in G. rewrite assign_length in G. apply lookup_assign. cbn in *. lia. }
    unfold and_then. destruct (exec c1 loops cur (SClass x b) h) as [[[v|v|e| |] h1]|] eqn:E;
      try (split; [right; split; [reflexivity|discriminate]|reflexivity]); [|exact I].
    rewrite block_cons. cbn [PyModel.exec PyModel.eval]. rewrite (X v h1 eq_refl). cbn. split; [left; now exists v|reflexivity].
  - intros l Hl cur h Hcur. change (tail (SList l)) with (SList (tail_block l)). rewrite !exec_list. now apply block_tails.
Qed.
Lemma block_tail l cur h : cur < length (frames h) ->
  rtails (block c1 loops cur l VNone h) (block c1 loops cur (tail_block l) VNone h).
Proof. intros. apply block_tails; auto. apply Forall_forall. intros; apply exec_tails. Qed.
End Tail.

(** ** Calls and whole programs *)
Lemma result_tails c c' : tails c c' -> result false c' = result true c.
Proof. intros [(v & -> & ->)|[-> H]]; [reflexivity|]. destruct c; cbn; try reflexivity. now rewrite (H v eq_refl). Qed.
Lemma nth_T h n : nth_error (funs (T h)) n = option_map Tf (nth_error (funs h) n).
Proof. cbn. revert n. induction (funs h) as [|f l IH]; intros [|n]; cbn; auto. Qed.
Lemma run_T c1 c2 loops : (forall g args h, c1 g args (T h) = lift (c2 g args h)) -> (forall g args h, grows W h (c2 g args h)) ->
  forall f args h, run_body W prim false c1 loops (Tf f) args (T h) = lift (run_body W prim true c2 loops f args h).
Proof.
  intros Hc Hg f args h. unfold run_body, Tf. destruct f as [tr ps [e|b] env]; cbn [fcode fparams fenv ftramp].
  - destruct (bound ps args) as [l|]; [|reflexivity].
    change (frames (T h)) with (frames h). set (fr := mkFrame _ _ _). change (new_frame W fr (T h)) with (T (new_frame W fr h)).
    now apply eval_T.
  - destruct (bound ps args) as [l|]; [|reflexivity]. rewrite binds_code.
    change (frames (T h)) with (frames h). set (fr := mkFrame _ _ _). change (new_frame W fr (T h)) with (T (new_frame W fr h)).
    unfold Tcode. rewrite <- map_tail_block'. rewrite (block_visit c1 c2 loops Hc).
    assert (L : length (frames h) < length (frames (new_frame W fr h))) by (cbn; rewrite app_length; cbn; lia).
    pose proof (block_tail c2 loops Hg b (length (frames h)) (new_frame W fr h) L) as R.
    destruct (block c2 loops (length (frames h)) b VNone (new_frame W fr h)) as [[c h1]|];
      destruct (block c2 loops (length (frames h)) (tail_block b) VNone (new_frame W fr h)) as [[c' h1']|]; try contradiction; [|reflexivity].
    destruct R as [R <-]. cbn [lift]. now rewrite (result_tails _ _ R).
Qed.
Lemma call_T u : forall fuel depth bounce g args h,
  call W prim false u fuel depth bounce g args (T h) = lift (call W prim true u fuel depth bounce g args h).
Proof.
  assert (N : forall bounce h, not_callable W u bounce (T h) = lift (not_callable W u bounce h)).
  { intros. unfold not_callable. destruct (u bounce); reflexivity. }
  induction fuel as [|fuel IH]; intros depth bounce g args h; [reflexivity|]. cbn [call]. destruct g; try apply N.
  2: { change (world (T h)) with (world h). destruct (prim o args (world h)). reflexivity. }
  rewrite nth_T. destruct (nth_error (funs h) n) as [f|]; [|apply N]. cbn [option_map].
  destruct (deeper bounce depth) as [d|]; [|reflexivity].
  rewrite (run_T _ (call W prim true u fuel d false)); [|apply IH|apply call_grows].
  assert (E : ftramp (Tf f) = ftramp f) by (unfold Tf; destruct (fcode f); reflexivity). rewrite E.
  destruct (run_body W prim true (call W prim true u fuel d false) fuel f args h) as [[[[| | | | | | |t a]|] h1]|]; cbn [lift]; try reflexivity.
  destruct (bounce || ftramp f); [|reflexivity]. apply IH.
Qed.
Theorem module_T u fuel depth l h : module W prim false u fuel depth (autoreturn l) (T h) = lift (module W prim true u fuel depth l h).
Proof. unfold module, autoreturn. apply block_visit. apply call_T. Qed.
End Aret.

Lemma same_T W (h : heap W) : same_but_code h (T W h).
Proof.
  repeat split. cbn. rewrite map_map. apply map_ext. intros f. unfold Tf. destruct (fcode f); reflexivity.
Qed.
Theorem autoreturn_same W prim u fuel depth l fs w :
  same_run (module W prim true u fuel depth l (mkHeap fs [] [] w)) (module W prim false u fuel depth (autoreturn l) (mkHeap fs [] [] w)).
Proof.
  pose proof (module_T W prim u fuel depth l (mkHeap fs [] [] w)) as H. unfold T at 1 in H. cbn [funs frames objs world map] in H. rewrite H.
  destruct (module W prim true u fuel depth l _) as [[c h]|]; cbn; [|exact I]. split; [reflexivity|apply same_T].
Qed.
