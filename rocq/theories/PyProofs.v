(** Lemmas about the fragment of Python. *)
From Coq Require Import String List ZArith Arith Bool Lia.
From Verif Require Import Base PyModel.
Import ListNotations.
Open Scope string_scope.
Open Scope list_scope.
Open Scope nat_scope.

Section ExprInd.
Variable P : expr -> Prop.
Hypothesis HConst : forall v, P (EConst v).
Hypothesis HVar : forall x, P (EVar x).
Hypothesis HPrim : forall o l, Forall P l -> P (EPrim o l).
Hypothesis HCall : forall f l, P f -> Forall P l -> P (ECall f l).
Hypothesis HIf : forall t a b, P t -> P a -> P b -> P (EIf t a b).
Hypothesis HBool : forall b l, Forall P l -> P (EBool b l).
Hypothesis HLam : forall tr ps e, P e -> P (ELam tr ps e).
Hypothesis HJump : forall f l, P f -> Forall P l -> P (EJump f l).
Fixpoint expr_ind' (e : expr) : P e :=
  let all := fix all (l : list expr) : Forall P l :=
    match l with [] => Forall_nil P | e :: l => Forall_cons e (expr_ind' e) (all l) end in
  match e with
  | EConst v => HConst v
  | EVar x => HVar x
  | EPrim o l => HPrim o l (all l)
  | ECall f l => HCall f l (expr_ind' f) (all l)
  | EIf t a b => HIf t a b (expr_ind' t) (expr_ind' a) (expr_ind' b)
  | EBool b l => HBool b l (all l)
  | ELam tr ps e => HLam tr ps e (expr_ind' e)
  | EJump f l => HJump f l (expr_ind' f) (all l)
  end.
End ExprInd.

Section StmtInd.
Variable P : stmt -> Prop.
Hypothesis HExpr : forall e, P (SExpr e).
Hypothesis HAssign : forall x e, P (SAssign x e).
Hypothesis HPass : P SPass.
Hypothesis HReturn : forall e, P (SReturn e).
Hypothesis HRaise : forall e, P (SRaise e).
Hypothesis HBreak : P SBreak.
Hypothesis HContinue : P SContinue.
Hypothesis HIf : forall e a b, Forall P a -> Forall P b -> P (SIf e a b).
Hypothesis HWhile : forall e a b, Forall P a -> Forall P b -> P (SWhile e a b).
Hypothesis HTry : forall a hs b c, Forall P a -> Forall (fun mh => Forall P (snd mh)) hs -> Forall P b -> Forall P c -> P (STry a hs b c).
Hypothesis HWith : forall e x a, Forall P a -> P (SWith e x a).
Hypothesis HDef : forall tr x ps b, Forall P b -> P (SDef tr x ps b).
Hypothesis HClass : forall x b, Forall P b -> P (SClass x b).
Hypothesis HList : forall l, Forall P l -> P (SList l).
Fixpoint stmt_ind' (s : stmt) : P s :=
  let all := fix all (l : list stmt) : Forall P l :=
    match l with [] => Forall_nil P | s :: l => Forall_cons s (stmt_ind' s) (all l) end in
  match s with
  | SExpr e => HExpr e
  | SAssign x e => HAssign x e
  | SPass => HPass
  | SReturn e => HReturn e
  | SRaise e => HRaise e
  | SBreak => HBreak
  | SContinue => HContinue
  | SIf e a b => HIf e a b (all a) (all b)
  | SWhile e a b => HWhile e a b (all a) (all b)
  | STry a hs b c =>
      HTry a hs b c (all a)
        ((fix hl (hs : list ((exn -> bool) * list stmt)) : Forall (fun mh => Forall P (snd mh)) hs :=
            match hs with
            | [] => Forall_nil _
            | mh :: hs => Forall_cons mh (all (snd mh)) (hl hs)
            end) hs) (all b) (all c)
  | SWith e x a => HWith e x a (all a)
  | SDef tr x ps b => HDef tr x ps b (all b)
  | SClass x b => HClass x b (all b)
  | SList l => HList l (all l)
  end.
End StmtInd.

Section Py.
Variable W : Type.
Variable prim : nat -> list value -> W -> outcome value * W.
Notation heap := (heap W).
Notation eval := (eval W prim).
Notation exec := (exec W prim).
Notation block := (block W prim).

(** * Unfolding *)
Section Unfold.
Variable call : value -> list value -> M W value.
Variable loops : nat.
Definition evals (cur : nat) := fix evals (l : list expr) (h : heap) : option (outcome (list value) * heap) :=
  match l with
  | [] => Some (Ok [], h)
  | e :: l =>
      match eval call cur e h with
      | Some (Ok v, h) => match evals l h with Some (Ok vs, h) => Some (Ok (v :: vs), h) | r => r end
      | Some (Raise x, h) => Some (Raise x, h)
      | None => None
      end
  end.
Definition items (isand : bool) (cur : nat) := fix items (l : list expr) (h : heap) : option (outcome value * heap) :=
  match l with
  | [] => Some (Ok VNone, h)
  | [e] => eval call cur e h
  | e :: l =>
      match eval call cur e h with
      | Some (Ok v, h) => if Bool.eqb (truthy v) isand then items l h else Some (Ok v, h)
      | r => r
      end
  end.
Lemma eval_prim cur o l h : eval call cur (EPrim o l) h =
  match evals cur l h with
  | Some (Ok vs, h) => let (r, w) := prim o vs (world h) in Some (r, set_world W w h)
  | Some (Raise x, h) => Some (Raise x, h)
  | None => None
  end.
Proof. reflexivity. Qed.
Lemma eval_call cur f l h : eval call cur (ECall f l) h =
  match eval call cur f h with
  | Some (Ok g, h) => match evals cur l h with Some (Ok vs, h) => call g vs h | Some (Raise x, h) => Some (Raise x, h) | None => None end
  | r => r
  end.
Proof. reflexivity. Qed.
Lemma eval_jump cur f l h : eval call cur (EJump f l) h =
  match eval call cur f h with
  | Some (Ok g, h) => match evals cur l h with Some (Ok vs, h) => Some (Ok (VJump g vs), h) | Some (Raise x, h) => Some (Raise x, h) | None => None end
  | r => r
  end.
Proof. reflexivity. Qed.
Lemma eval_bool cur a l h : eval call cur (EBool a l) h = items a cur l h.
Proof. reflexivity. Qed.
Lemma block_nil cur v h : block call loops cur [] v h = Some (CNormal v, h).
Proof. reflexivity. Qed.
Lemma block_cons cur s l v h : block call loops cur (s :: l) v h = and_then W (exec call loops cur s h) (fun v h => block call loops cur l v h).
Proof. reflexivity. Qed.
Definition block0 cur l h := block call loops cur l VNone h.
Definition while (cur : nat) (e : expr) (a b : list stmt) := fix while (k : nat) (h : heap) : option (comp * heap) :=
  match k with
  | 0 => None
  | S k =>
      of_expr W (fun v h =>
        if truthy v
        then match block0 cur a h with
             | Some (CNormal _, h) | Some (CContinue, h) => while k h
             | Some (CBreak, h) => Some (CNormal VNone, h)
             | r => r
             end
        else and_then W (block0 cur b h) (fun _ h => Some (CNormal VNone, h))) (eval call cur e h)
  end.
Definition handle (cur : nat) (x : exn) (h : heap) := fix handle (hs : list ((exn -> bool) * list stmt)) : option (comp * heap) :=
  match hs with
  | [] => Some (CRaise x, h)
  | (m, l) :: hs => if m x then block0 cur l h else handle hs
  end.
Definition after_body cur hs b (r : option (comp * heap)) : option (comp * heap) :=
  match r with
  | Some (CNormal v, h) => match b with [] => Some (CNormal v, h) | _ => block0 cur b h end
  | Some (CRaise x, h) => handle cur x h hs
  | r => r
  end.
Lemma exec_if cur e a b h : exec call loops cur (SIf e a b) h =
  of_expr W (fun v h => block0 cur (if truthy v then a else b) h) (eval call cur e h).
Proof. reflexivity. Qed.
Lemma exec_while cur e a b h : exec call loops cur (SWhile e a b) h = while cur e a b loops h.
Proof. reflexivity. Qed.
Lemma exec_try cur a hs b c h : exec call loops cur (STry a hs b c) h =
  at_last W (after_body cur hs b (block0 cur a h)) (fun h => block0 cur c h).
Proof.
  cbn [PyModel.exec]. fold (block call loops cur). unfold block0, after_body.
  destruct (block call loops cur a VNone h) as [[[] ?]|]; reflexivity.
Qed.
Lemma exec_with cur e x a h : exec call loops cur (SWith e x a) h =
  of_expr W (fun v h => leave_with W call v (block0 cur a (match x with Some x => assign W cur x v h | None => h end))) (eval call cur e h).
Proof. reflexivity. Qed.
Definition cblock (n : nat) := fix cblock (l : list stmt) (h : heap) : option (comp * heap) :=
  match l with [] => Some (CNormal VNone, h) | s :: l => and_then W (exec call loops n s h) (fun _ h => cblock l h) end.
Lemma exec_class cur x b h : exec call loops cur (SClass x b) h =
  let n := length (frames h) in
  match cblock n b (new_frame W (mkFrame (unbound (binds_all b)) (Some (outer W cur h)) true) h) with
  | Some (CNormal _, h) => let v := VObj (length (objs h)) in Some (CNormal v, assign W cur x v (new_obj W n h))
  | Some (CRaise e, h) => Some (CRaise e, h)
  | Some (_, h) => Some (CRaise SyntaxError, h)
  | None => None
  end.
Proof. reflexivity. Qed.
Lemma exec_list cur l h : exec call loops cur (SList l) h = block0 cur l h.
Proof. reflexivity. Qed.
End Unfold.

(** * The frames only grow in number *)
Definition grows {A} (h : heap) (r : option (A * heap)) : Prop :=
  match r with Some (_, h') => length (frames h) <= length (frames h') | None => True end.
Lemma set_nth_length {A} (a : A) l : forall n, length (set_nth n a l) = length l.
Proof. induction l; intros [|n]; cbn; auto. Qed.
Lemma assign_length cur x v (h : heap) : length (frames (assign W cur x v h)) = length (frames h).
Proof. unfold assign. destruct (nth_error (frames h) cur); [cbn; apply set_nth_length|reflexivity]. Qed.
Lemma grows_trans {A B} h (r : option (A * heap)) (k : A -> heap -> option (B * heap)) :
  grows h r -> (forall a h', grows h' (k a h')) -> grows h match r with Some (a, h') => k a h' | None => None end.
Proof.
  unfold grows. destruct r as [[a h']|]; [|auto]. intros H K. specialize (K a h'). destruct (k a h') as [[b h'']|]; [lia|auto].
Qed.
Section Grow.
Variable call : value -> list value -> M W value.
Variable loops : nat.
Hypothesis Hcall : forall g args h, grows h (call g args h).
Lemma grow_some {A B} h (r : option (A * heap)) (a : A) h' (q : option (B * heap)) : r = Some (a, h') -> grows h r -> grows h' q -> grows h q.
Proof. intros ->. unfold grows. destruct q as [[b h'']|]; [lia|auto]. Qed.
Lemma evals_grows l : Forall (fun e => forall cur h, grows h (eval call cur e h)) l -> forall cur h, grows h (evals call cur l h).
Proof.
  induction 1 as [|e l He Hl IH]; intros cur h; cbn [evals]; [cbn; lia|]. specialize (He cur h).
  destruct (eval call cur e h) as [[[v|x] h1]|] eqn:E; [|exact He|exact I].
  eapply grow_some; [reflexivity|exact He|]. specialize (IH cur h1).
  destruct (evals call cur l h1) as [[[vs|x] h2]|]; exact IH.
Qed.
Lemma items_grows a l : Forall (fun e => forall cur h, grows h (eval call cur e h)) l -> forall cur h, grows h (items call a cur l h).
Proof.
  induction 1 as [|e l He Hl IH]; intros cur h; cbn [items]; [cbn; lia|]. specialize (He cur h).
  destruct l as [|e' l]; [exact He|]. destruct (eval call cur e h) as [[[v|x] h1]|] eqn:E; [|exact He|exact I].
  eapply grow_some; [reflexivity|exact He|]. destruct (Bool.eqb (truthy v) a); [apply IH|cbn; lia].
Qed.
Lemma eval_grows : forall e cur h, grows h (eval call cur e h).
Proof.
  apply (expr_ind' (fun e => forall cur h, grows h (eval call cur e h))).
  - intros v cur h. cbn. lia.
  - intros x cur h. cbn. lia.
  - intros o l Hl cur h. rewrite eval_prim. pose proof (evals_grows l Hl cur h) as H.
    destruct (evals call cur l h) as [[[vs|x] h1]|]; [|exact H|exact I]. destruct (prim o vs (world h1)). exact H.
  - intros f l Hf Hl cur h. rewrite eval_call. specialize (Hf cur h).
    destruct (eval call cur f h) as [[[g|x] h1]|]; [|exact Hf|exact I]. eapply grow_some; [reflexivity|exact Hf|].
    pose proof (evals_grows l Hl cur h1) as H. destruct (evals call cur l h1) as [[[vs|x] h2]|]; [|exact H|exact I].
    eapply grow_some; [reflexivity|exact H|]. apply Hcall.
  - intros t a b Ht Ha Hb cur h. cbn [PyModel.eval]. specialize (Ht cur h).
    destruct (eval call cur t h) as [[[v|x] h1]|]; [|exact Ht|exact I]. eapply grow_some; [reflexivity|exact Ht|].
    destruct (truthy v); auto.
  - intros b l Hl cur h. rewrite eval_bool. now apply items_grows.
  - intros tr ps e _ cur h. cbn. lia.
  - intros f l Hf Hl cur h. rewrite eval_jump. specialize (Hf cur h).
    destruct (eval call cur f h) as [[[g|x] h1]|]; [|exact Hf|exact I]. eapply grow_some; [reflexivity|exact Hf|].
    pose proof (evals_grows l Hl cur h1) as H. destruct (evals call cur l h1) as [[[vs|x] h2]|]; [exact H|exact H|exact I].
Qed.
Lemma of_expr_grows h k m : grows h m -> (forall v h, grows h (k v h)) -> grows h (of_expr W k m).
Proof.
  intros Hm Hk. unfold of_expr. destruct m as [[[v|x] h1]|]; [|exact Hm|exact I]. eapply grow_some; [reflexivity|exact Hm|]. apply Hk.
Qed.
Lemma and_then_grows h r k : grows h r -> (forall v h, grows h (k v h)) -> grows h (and_then W r k).
Proof.
  intros Hm Hk. unfold and_then. destruct r as [[[v|v|x| |] h1]|]; try exact Hm. eapply grow_some; [reflexivity|exact Hm|]. apply Hk.
Qed.
Lemma block_grows l : Forall (fun s => forall cur h, grows h (exec call loops cur s h)) l ->
  forall cur v h, grows h (block call loops cur l v h).
Proof.
  induction 1 as [|s l Hs Hl IH]; intros cur v h; [cbn; lia|]. rewrite block_cons. apply and_then_grows; [apply Hs|]. intros; apply IH.
Qed.
Lemma exec_grows : forall s cur h, grows h (exec call loops cur s h).
Proof.
  apply (stmt_ind' (fun s => forall cur h, grows h (exec call loops cur s h))).
  - intros e cur h. apply of_expr_grows; [apply eval_grows|]. intros; cbn; lia.
  - intros x e cur h. apply of_expr_grows; [apply eval_grows|]. intros v h1. unfold grows. rewrite assign_length. lia.
  - intros; cbn; lia.
  - intros e cur h. apply of_expr_grows; [apply eval_grows|]. intros; cbn; lia.
  - intros e cur h. apply of_expr_grows; [apply eval_grows|]. intros; cbn; lia.
  - intros; cbn; lia.
  - intros; cbn; lia.
  - intros e a b Ha Hb cur h. rewrite exec_if. apply of_expr_grows; [apply eval_grows|]. intros v h1.
    destruct (truthy v); now apply block_grows.
  - intros e a b Ha Hb cur h. rewrite exec_while. revert h. generalize loops at 2 as k. intros k. induction k as [|k IH]; intros h; [exact I|].
    cbn [while]. apply of_expr_grows; [apply eval_grows|]. intros v h1. destruct (truthy v).
    + pose proof (block_grows a Ha cur VNone h1) as H. unfold block0.
      destruct (block call loops cur a VNone h1) as [[[] h2]|]; try exact H; (eapply grow_some; [reflexivity|exact H|]; apply IH).
    + apply and_then_grows; [now apply block_grows|]. intros; cbn; lia.
  - intros a hs b c Ha Hhs Hb Hc cur h. rewrite exec_try.
    assert (A : grows h (after_body call loops cur hs b (block0 call loops cur a h))).
    { unfold after_body. pose proof (block_grows a Ha cur VNone h) as H.
      change (block0 call loops cur a h) with (block call loops cur a VNone h). destruct (block call loops cur a VNone h) as [[[] h1]|]; try exact H.
      - destruct b; [exact H|]. eapply grow_some; [reflexivity|exact H|]. now apply block_grows.
      - eapply grow_some; [reflexivity|exact H|]. clear H. induction Hhs as [|[m l] hs Hl Hhs IH]; cbn [handle]; [apply le_n|].
        destruct (m e); [now apply block_grows|exact IH]. }
    unfold at_last. destruct (after_body call loops cur hs b (block0 call loops cur a h)) as [[d h1]|]; [|exact I].
    pose proof (block_grows c Hc cur VNone h1) as H. unfold block0.
    destruct (block call loops cur c VNone h1) as [[[] h2]|]; unfold grows in *; (lia || exact I).
  - intros e x a Ha cur h. rewrite exec_with. apply of_expr_grows; [apply eval_grows|]. intros v h1.
    set (h2 := match x with Some x0 => assign W cur x0 v h1 | None => h1 end).
    assert (L : length (frames h2) = length (frames h1)) by (unfold h2; destruct x; [apply assign_length|reflexivity]).
    pose proof (block_grows a Ha cur VNone h2) as H. unfold leave_with, block0.
    destruct (block call loops cur a VNone h2) as [[c h3]|]; [|exact I].
    assert (K : grows h3 (of_expr W (fun x0 h0 => match c with CRaise _ => Some (if truthy x0 then CNormal VNone else c, h0) | _ => Some (c, h0) end)
                            (call v [match c with CRaise e0 => VExn e0 | _ => VNone end] h3))).
    { apply of_expr_grows; [apply Hcall|]. intros x0 h0. destruct c; cbn; lia. }
    unfold grows in *. destruct (of_expr _ _ _) as [[]|]; [lia|exact I].
  - intros tr x ps b _ cur h. cbn [PyModel.exec]. unfold grows. rewrite assign_length. cbn. lia.
  - intros x b Hb cur h. rewrite exec_class. cbn zeta.
    set (h0 := new_frame W _ h). set (n := length (frames h)).
    assert (L : grows h (cblock call loops n b h0)).
    { assert (L0 : length (frames h) <= length (frames h0)) by (unfold h0; cbn; rewrite app_length; lia).
      assert (G : forall h0, grows h0 (cblock call loops n b h0)).
      { clear -Hb. induction Hb as [|s b Hs Hb IH]; intros h0; cbn [cblock]; [cbn; lia|]. apply and_then_grows; auto. }
      specialize (G h0). unfold grows in *. destruct (cblock call loops n b h0) as [[]|]; [lia|exact I]. }
    destruct (cblock call loops n b h0) as [[[] h1]|]; try exact L. unfold grows in *. rewrite assign_length. exact L.
  - intros l Hl cur h. rewrite exec_list. now apply block_grows.
Qed.
Lemma block_grows' l cur v h : grows h (block call loops cur l v h).
Proof. apply block_grows, Forall_forall. intros; apply exec_grows. Qed.
End Grow.
Lemma not_callable_grows u bounce (h : heap) : grows h (not_callable W u bounce h).
Proof. unfold not_callable. destruct (u bounce); cbn; lia || exact I. Qed.
Lemma call_grows implicit u : forall fuel depth bounce g args h, grows h (call W prim implicit u fuel depth bounce g args h).
Proof.
  induction fuel as [|fuel IH]; intros depth bounce g args h; [exact I|]. cbn [call].
  destruct g; try apply not_callable_grows; [|destruct (prim o args (world h)); cbn; lia].
  destruct (nth_error (funs h) n) as [f|]; [|apply not_callable_grows].
  destruct (deeper bounce depth) as [d|]; [|cbn; lia].
  assert (H : grows h (run_body W prim implicit (call W prim implicit u fuel d false) fuel f args h)).
  { unfold run_body. destruct (bound (fparams f) args) as [l|]; [|cbn; lia]. destruct (fcode f) as [e|b].
    - set (h0 := new_frame W _ h). pose proof (eval_grows (call W prim implicit u fuel d false) (IH d false) e (length (frames h)) h0) as E.
      unfold grows in *. destruct (eval _ _ e h0) as [[]|]; [|exact I]. cbn in E. rewrite app_length in E. lia.
    - set (h0 := new_frame W _ h).
      pose proof (block_grows' (call W prim implicit u fuel d false) fuel (IH d false) b (length (frames h)) VNone h0) as E.
      unfold grows in *. destruct (block _ _ _ b VNone h0) as [[]|]; [|exact I]. cbn in E. rewrite app_length in E. lia. }
  destruct (run_body W prim implicit (call W prim implicit u fuel d false) fuel f args h) as [[[[| | | | | | |t a] |] h1]|]; try exact H.
  destruct (bounce || ftramp f); [|exact H]. eapply grow_some; [reflexivity|exact H|]. apply IH.
Qed.

(** * More defined calls, more fuel: the same results *)
Definition below {A} (r r' : option A) : Prop := forall a, r = Some a -> r' = Some a.
Lemma below_refl {A} (r : option A) : below r r.
Proof. intros a H. exact H. Qed.
Lemma below_none {A} (r : option A) : below None r.
Proof. intros a H. discriminate H. Qed.
Section Mono.
Variables c c' : value -> list value -> M W value.
Variables loops loops' : nat.
Hypothesis Hc : forall g args h, below (c g args h) (c' g args h).
Hypothesis Hl : loops <= loops'.
Ltac known H := let E := fresh "E" in
  match type of H with below ?r ?r' => destruct r as [[[]]|] eqn:E; [rewrite (H _ eq_refl)|rewrite (H _ eq_refl)|apply below_none] end.
Lemma evals_mono l : Forall (fun e => forall cur h, below (eval c cur e h) (eval c' cur e h)) l ->
  forall cur h, below (evals c cur l h) (evals c' cur l h).
Proof.
  induction 1 as [|e l He Hll IH]; intros cur h; [apply below_refl|]. cbn [evals]. specialize (He cur h). known He; [|apply below_refl].
  fold (evals c cur) (evals c' cur). specialize (IH cur h0). known IH; apply below_refl.
Qed.
Lemma items_mono a l : Forall (fun e => forall cur h, below (eval c cur e h) (eval c' cur e h)) l ->
  forall cur h, below (items c a cur l h) (items c' a cur l h).
Proof.
  induction 1 as [|e l He Hll IH]; intros cur h; [apply below_refl|]. cbn [items]. destruct l as [|e' l]; [apply He|].
  specialize (He cur h). known He; [|apply below_refl]. destruct (Bool.eqb (truthy a0) a); [apply IH|apply below_refl].
Qed.
Lemma eval_mono : forall e cur h, below (eval c cur e h) (eval c' cur e h).
Proof.
  apply (expr_ind' (fun e => forall cur h, below (eval c cur e h) (eval c' cur e h))).
  - intros. apply below_refl.
  - intros. apply below_refl.
  - intros o l H cur h. rewrite !eval_prim. pose proof (evals_mono l H cur h) as K. known K; apply below_refl.
  - intros f l Hf H cur h. rewrite !eval_call. specialize (Hf cur h). known Hf; [|apply below_refl].
    pose proof (evals_mono l H cur h0) as K. known K; [apply Hc|apply below_refl].
  - intros t a b Ht Ha Hb cur h. cbn [PyModel.eval]. specialize (Ht cur h). known Ht; [|apply below_refl]. destruct (truthy a0); auto.
  - intros b l H cur h. rewrite !eval_bool. now apply items_mono.
  - intros. apply below_refl.
  - intros f l Hf H cur h. rewrite !eval_jump. specialize (Hf cur h). known Hf; [|apply below_refl].
    pose proof (evals_mono l H cur h0) as K. known K; apply below_refl.
Qed.
Lemma of_expr_mono k k' m m' : below m m' -> (forall v h, below (k v h) (k' v h)) -> below (of_expr W k m) (of_expr W k' m').
Proof. intros H K. destruct m as [[[v|x] h]|]; [| |apply below_none]; rewrite (H _ eq_refl); [apply K|apply below_refl]. Qed.
Lemma and_then_mono r r' k k' : below r r' -> (forall v h, below (k v h) (k' v h)) -> below (and_then W r k) (and_then W r' k').
Proof. intros H K. destruct r as [[d h]|]; [|apply below_none]; rewrite (H _ eq_refl). destruct d; [apply K|apply below_refl..]. Qed.
Definition mono_s (s : stmt) := forall cur h, below (exec c loops cur s h) (exec c' loops' cur s h).
Lemma block_mono l : Forall mono_s l -> forall cur v h, below (block c loops cur l v h) (block c' loops' cur l v h).
Proof. induction 1 as [|s l Hs H IH]; intros cur v h; [apply below_refl|]. rewrite !block_cons. apply and_then_mono; [apply Hs|]. intros; apply IH. Qed.
Lemma exec_mono : forall s, mono_s s.
Proof.
  apply stmt_ind'; unfold mono_s.
  - intros e cur h. apply of_expr_mono; [apply eval_mono|]. intros; apply below_refl.
  - intros x e cur h. apply of_expr_mono; [apply eval_mono|]. intros; apply below_refl.
  - intros; apply below_refl.
  - intros e cur h. apply of_expr_mono; [apply eval_mono|]. intros; apply below_refl.
  - intros e cur h. apply of_expr_mono; [apply eval_mono|]. intros; apply below_refl.
  - intros; apply below_refl.
  - intros; apply below_refl.
  - intros e a b Ha Hb cur h. rewrite !exec_if. apply of_expr_mono; [apply eval_mono|]. intros v h1. destruct (truthy v); now apply block_mono.
  - intros e a b Ha Hb cur h. rewrite !exec_while.
    assert (G : forall k k', k <= k' -> forall h, below (while c loops cur e a b k h) (while c' loops' cur e a b k' h)).
    { clear h. induction k as [|k IH]; intros k' L h; [apply below_none|]. destruct k' as [|k']; [lia|]. cbn [while].
      apply of_expr_mono; [apply eval_mono|]. intros v h1. destruct (truthy v).
      - pose proof (block_mono a Ha cur VNone h1) as K. unfold block0. destruct (block c loops cur a VNone h1) as [[d h2]|]; [|apply below_none].
        rewrite (K _ eq_refl). destruct d; try apply below_refl; apply IH; lia.
      - apply and_then_mono; [now apply block_mono|]. intros; apply below_refl. }
    apply G. exact Hl.
  - intros a hs b d Ha Hhs Hb Hd cur h. rewrite !exec_try.
    assert (G : below (after_body c loops cur hs b (block0 c loops cur a h)) (after_body c' loops' cur hs b (block0 c' loops' cur a h))).
    { pose proof (block_mono a Ha cur VNone h) as K. change (block0 c loops cur a h) with (block c loops cur a VNone h). change (block0 c' loops' cur a h) with (block c' loops' cur a VNone h). destruct (block c loops cur a VNone h) as [[q h1]|]; [|apply below_none].
      rewrite (K _ eq_refl). destruct q; cbn [after_body]; try apply below_refl.
      - destruct b; [apply below_refl|]. now apply block_mono.
      - clear -Hhs Hc. induction Hhs as [|[m l] hs H Hhs IH]; [apply below_refl|]. cbn [handle]. destruct (m e); [|exact IH]. now apply block_mono. }
    destruct (after_body c loops cur hs b (block0 c loops cur a h)) as [[q h1]|]; [|apply below_none]. rewrite (G _ eq_refl). cbn [at_last].
    pose proof (block_mono d Hd cur VNone h1) as K. unfold block0. destruct (block c loops cur d VNone h1) as [[[] h2]|]; [rewrite (K _ eq_refl); apply below_refl..|apply below_none].
  - intros e x a Ha cur h. rewrite !exec_with. apply of_expr_mono; [apply eval_mono|]. intros v h1.
    set (h2 := match x with Some x0 => assign W cur x0 v h1 | None => h1 end).
    pose proof (block_mono a Ha cur VNone h2) as K. unfold block0. destruct (block c loops cur a VNone h2) as [[q h3]|]; [|apply below_none].
    rewrite (K _ eq_refl). cbn [leave_with]. apply of_expr_mono; [apply Hc|]. intros; apply below_refl.
  - intros; apply below_refl.
  - intros x b Hb cur h. rewrite !exec_class. cbn zeta. set (h0 := new_frame W _ h). set (n := length (frames h)).
    assert (G : forall h0, below (cblock c loops n b h0) (cblock c' loops' n b h0)).
    { clear -Hb. induction Hb as [|s b Hs Hb IH]; intros h0; [apply below_refl|]. cbn [cblock]. apply and_then_mono; [apply Hs|]. intros; apply IH. }
    specialize (G h0). destruct (cblock c loops n b h0) as [[q h1]|]; [|apply below_none]. rewrite (G _ eq_refl). apply below_refl.
  - intros l H cur h. rewrite !exec_list. now apply block_mono.
Qed.
Lemma block_mono' l cur v h : below (block c loops cur l v h) (block c' loops' cur l v h).
Proof. apply block_mono, Forall_forall. intros; apply exec_mono. Qed.
Lemma run_body_mono implicit f args h : below (run_body W prim implicit c loops f args h) (run_body W prim implicit c' loops' f args h).
Proof.
  unfold run_body. destruct (bound (fparams f) args) as [l|]; [|apply below_refl]. destruct (fcode f) as [e|b]; [apply eval_mono|].
  set (h0 := new_frame W _ h). pose proof (block_mono' b (length (frames h)) VNone h0) as K.
  destruct (block c loops (length (frames h)) b VNone h0) as [[q h1]|]; [|apply below_none]. rewrite (K _ eq_refl). apply below_refl.
Qed.
End Mono.
Lemma call_mono implicit u u' : (forall b, below (u b) (u' b)) -> forall fuel fuel', fuel <= fuel' -> forall depth bounce g args h,
  below (call W prim implicit u fuel depth bounce g args h) (call W prim implicit u' fuel' depth bounce g args h).
Proof.
  intros Hu. assert (N : forall b h, below (not_callable W u b h) (not_callable W u' b h)).
  { intros b h. unfold not_callable. specialize (Hu b). destruct (u b); [rewrite (Hu _ eq_refl); apply below_refl|apply below_none]. }
  induction fuel as [|fuel IH]; intros fuel' L depth bounce g args h; [apply below_none|]. destruct fuel' as [|fuel']; [lia|].
  cbn [call]. destruct g; try apply N; [|apply below_refl]. destruct (nth_error (funs h) n) as [f|]; [|apply N].
  destruct (deeper bounce depth) as [d|]; [|apply below_refl].
  assert (K : below (run_body W prim implicit (call W prim implicit u fuel d false) fuel f args h)
                    (run_body W prim implicit (call W prim implicit u' fuel' d false) fuel' f args h)).
  { apply run_body_mono; [intros; apply IH; lia|lia]. }
  destruct (run_body W prim implicit (call W prim implicit u fuel d false) fuel f args h) as [[o h1]|]; [|apply below_none].
  rewrite (K _ eq_refl). destruct o as [[| | | | | | |t a]|]; try apply below_refl. destruct (bounce || ftramp f); [|apply below_refl]. apply IH. lia.
Qed.
Lemma module_mono implicit u u' fuel fuel' depth l h : (forall b, below (u b) (u' b)) -> fuel <= fuel' ->
  below (module W prim implicit u fuel depth l h) (module W prim implicit u' fuel' depth l h).
Proof. intros Hu L. apply block_mono'; [|exact L]. intros. now apply call_mono. Qed.
End Py.
