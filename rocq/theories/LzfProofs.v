(** Proofs about lazify. *)
From Coq Require Import String List ZArith Bool Arith Lia.
From Verif Require Import Base LzfModel LzfSpec.
Import ListNotations.
Open Scope string_scope.
Open Scope list_scope.
Open Scope nat_scope.

(** ** Results that stay when there is more fuel *)
Definition le {A} (m m' : O A) : Prop := forall r, m = Some r -> m' = Some r.
Lemma le_refl {A} (m : O A) : le m m.
Proof. intros r H. exact H. Qed.
Lemma le_none {A} (m : O A) : le None m.
Proof. intros r H. discriminate. Qed.
Lemma le_bind {A B} (m m' : O A) (f f' : A -> O B) : le m m' -> (forall a, le (f a) (f' a)) -> le (obind m f) (obind m' f').
Proof.
  intros Hm Hf r H. destruct m as [[a|x]|]; cbn in H; try discriminate.
  - rewrite (Hm _ eq_refl). cbn. now apply Hf.
  - rewrite (Hm _ eq_refl). exact H.
Qed.
Lemma le_map {A B} (f f' : A -> O B) l : (forall a, le (f a) (f' a)) -> le (mapE f l) (mapE f' l).
Proof.
  intros Hf. induction l as [|a l IH]; [apply le_refl|]. cbn. apply le_bind; [apply Hf|]. intros b.
  apply le_bind; [exact IH|]. intros bs. apply le_refl.
Qed.
Lemma obind_some {A B} (m : O A) (f : A -> O B) r : obind m f = Some r ->
  (exists x, m = Some (Raise x) /\ r = Raise x) \/ (exists a, m = Some (Ok a) /\ f a = Some r).
Proof. destruct m as [[a|x]|]; cbn; intros H; [right; eauto|left; exists x; split; congruence|discriminate]. Qed.

Lemma F2_length {A B} (R : A -> B -> Prop) l l' : Forall2 R l l' -> length l = length l'.
Proof. induction 1; cbn; auto. Qed.

Section Proofs.
Variable prim : nat -> list data -> outcome data.
Variable globals : string -> option (list string * ex).
Variable builtins : string -> option nat.
Notation name := (name prim globals builtins).
Notation demand := (demand prim globals builtins).
Notation deep := (deep prim globals builtins).
Notation strict := (strict prim globals builtins).
Notation ev := (ev prim globals builtins).
Notation nname := (nname globals builtins).
Notation lname := (lname globals builtins).
Notation napply := (apply_prim prim (fun c => NC c) (fun l => NT (map Now l))).

(** ** The equations of [name] *)
Definition get_now (s : susp) : O nval := match s with Now v => pure v | Later _ _ => None end.
Definition nwhole (k : nat) (env : nenv) (e : ex) : O nval := obind (name k Whole env e) get_now.
Definition nhead (k : nat) (env : nenv) (e : ex) : O nval := obind (name k Head env e) get_now.
Definition nused (k : nat) (u : use) (s : susp) : O susp :=
  match u with Ref => pure s | Head => demand k s | Whole => obind (demand k s) (deep k) end.
Definition nargument (k : nat) (env : nenv) (e : ex) : O susp := if isref e then name k Ref env e else pure (delay env e).
Definition narg (k : nat) (env : nenv) (se : bool * ex) : O (list susp) :=
  let (star, e) := se in
  if star then
    match e with
    | ETup l => pure (map (delay env) l)
    | _ => obind (if isref e then nhead k env e else nwhole k env e) (fun v => match v with NT l => pure l | _ => Some (Raise TypeError) end)
    end
  else obind (nargument k env e) (fun s => pure [s]).
Definition nvalue (k : nat) (s : susp) : O susp := obind (demand k s) (deep k).
Definition sdatum (s : susp) : data := match s with Now v => ndata v | Later _ _ => DOther end.
Definition ncall (k : nat) (f : nval) (ss : list susp) : O susp :=
  match f with
  | NClo ps b env' =>
      if Nat.eqb (length ps) (length ss) then name k Whole (combine ps ss ++ env') b else Some (Raise TypeError)
  | NBuiltin o => obind (mapE (nvalue k) ss) (fun vs => obind (Some (napply o (map sdatum vs))) (fun v => pure (Now v)))
  | _ => obind (mapE (nvalue k) ss) (fun _ => Some (Raise TypeError))
  end.
Lemma name_S k u env e :
  name (S k) u env e =
  match e with
  | EName x => obind (Some (nname env x)) (nused k u)
  | ESub v i =>
      obind (nhead k env v) (fun v => obind (nwhole k env i) (fun i =>
        match v with NT l => obind (Some (item l (ndata i))) (nused k u) | _ => Some (Raise TypeError) end))
  | EConst c => pure (Now (NC c))
  | EPrim o l => obind (mapE (nwhole k env) l) (fun vs => obind (Some (napply o (map ndata vs))) (fun v => pure (Now v)))
  | EIf t a b => obind (nwhole k env t) (fun v => if truthy (ndata v) then name k Whole env a else name k Whole env b)
  | ELam ps b => pure (Now (NClo ps b env))
  | ETup l => obind (mapE (nwhole k env) l) (fun vs => pure (Now (NT (map Now vs))))
  | ELet x v b => obind (nargument k env v) (fun s => name k Whole ((x, s) :: env) b)
  | ECall f l =>
      obind (match u with Head => nhead k env f | _ => nwhole k env f end) (fun f =>
      obind (mapE (narg k env) l) (fun ss => ncall k f (concat ss)))
  end.
Proof. destruct e; reflexivity. Qed.
Lemma demand_S k s : demand (S k) s = match s with Now v => pure s | Later env e => name k Whole env e end.
Proof. reflexivity. Qed.
Lemma deep_S k s : deep (S k) s =
  match s with Now (NT l) => obind (mapE (nvalue k) l) (fun l => pure (Now (NT l))) | _ => pure s end.
Proof. reflexivity. Qed.

Lemma mono_all k :
  (forall u env e, le (name k u env e) (name (S k) u env e)) /\
  (forall s, le (demand k s) (demand (S k) s)) /\
  (forall s, le (deep k s) (deep (S k) s)).
Proof.
  induction k as [|k [IN [ID IP]]]; [repeat split; intros; apply le_none|].
  assert (W : forall env e, le (nwhole k env e) (nwhole (S k) env e)) by (intros; apply le_bind; [apply IN|intros; apply le_refl]).
  assert (Hd : forall env e, le (nhead k env e) (nhead (S k) env e)) by (intros; apply le_bind; [apply IN|intros; apply le_refl]).
  assert (V : forall s, le (nvalue k s) (nvalue (S k) s)) by (intros; apply le_bind; [apply ID|intros; apply IP]).
  assert (U : forall u s, le (nused k u s) (nused (S k) u s)).
  { intros [] s; cbn [nused]; [apply V|apply ID|apply le_refl]. }
  assert (G : forall env e, le (nargument k env e) (nargument (S k) env e)).
  { intros. unfold nargument. destruct (isref e); [apply IN|apply le_refl]. }
  assert (S1 : forall env se, le (narg k env se) (narg (S k) env se)).
  { intros env [[] e]; cbn [narg].
    - destruct e; try (apply le_refl); apply le_bind; try (intros; apply le_refl); try apply W; try apply Hd.
    - apply le_bind; [apply G|intros; apply le_refl]. }
  assert (C : forall f ss, le (ncall k f ss) (ncall (S k) f ss)).
  { intros f ss. destruct f; cbn [ncall].
    - apply le_bind; [apply le_map, V|intros; apply le_refl].
    - apply le_bind; [apply le_map, V|intros; apply le_refl].
    - destruct (_ =? _); [apply IN|apply le_refl].
    - apply le_bind; [apply le_map, V|intros; apply le_refl]. }
  split; [|split].
  - intros u env e. rewrite (name_S k), (name_S (S k)). destruct e.
    + apply le_refl.
    + apply le_bind; [apply le_refl|intros; apply U].
    + apply le_bind; [apply le_map; intros; apply W|intros; apply le_refl].
    + apply le_bind; [apply W|]. intros v. destruct (truthy (ndata v)); apply IN.
    + apply le_refl.
    + apply le_bind; [apply le_map; intros; apply W|intros; apply le_refl].
    + apply le_bind; [apply Hd|]. intros v. apply le_bind; [apply W|]. intros i. destruct v; try apply le_refl.
      apply le_bind; [apply le_refl|intros; apply U].
    + apply le_bind; [destruct u; [apply W|apply Hd|apply W]|]. intros g. apply le_bind; [apply le_map; intros; apply S1|]. intros ss. apply C.
    + apply le_bind; [apply G|intros; apply IN].
  - intros s. rewrite (demand_S k), (demand_S (S k)). destruct s; [apply IN|apply le_refl].
  - intros s. rewrite (deep_S k), (deep_S (S k)). destruct s as [|[]]; try apply le_refl.
    apply le_bind; [apply le_map; intros; apply V|intros; apply le_refl].
Qed.
Lemma name_mono k k' u env e o : name k u env e = Some o -> k <= k' -> name k' u env e = Some o.
Proof. intros H. induction 1; [exact H|]. now apply mono_all. Qed.
Lemma name_det k k' u env e o o' : name k u env e = Some o -> name k' u env e = Some o' -> o = o'.
Proof.
  intros H1 H2. apply (name_mono _ (max k k')) in H1; [|lia]. apply (name_mono _ (max k k')) in H2; [|lia]. congruence.
Qed.

(** ** Values with all their items evaluated *)
Inductive whole : nval -> Prop :=
| WC c : whole (NC c)
| WT l : wholes l -> whole (NT l)
| WClo ps b env : whole (NClo ps b env)
| WB o : whole (NBuiltin o)
with wholes : list susp -> Prop :=
| WNil : wholes []
| WCons v l : whole v -> wholes l -> wholes (Now v :: l).
Scheme whole_i := Induction for whole Sort Prop with wholes_i := Induction for wholes Sort Prop.
Combined Scheme whole_ind' from whole_i, wholes_i.
Lemma wholes_Forall l : Forall whole l -> wholes (map Now l).
Proof. induction 1; cbn; constructor; auto. Qed.
Lemma wholes_In l s : wholes l -> In s l -> exists v, s = Now v /\ whole v.
Proof. induction 1; intros []; subst; eauto. Qed.
Lemma deep_whole_n k : forall v o, whole v -> deep k (Now v) = Some o -> o = Ok (Now v).
Proof.
  induction k as [|k IH]; intros v o Hw H; [discriminate|]. rewrite deep_S in H.
  destruct Hw as [c|l Hl|ps b env|n]; try (injection H as <-; reflexivity).
  apply obind_some in H as [[x [H _]]|[l' [H E]]].
  - exfalso. induction Hl as [|v l Hv Hl IHl]; cbn in H; [discriminate|].
    apply obind_some in H as [[y [H E]]|[a [H E]]].
    + unfold nvalue in H. destruct k; [discriminate|]. cbn [obind] in H. rewrite demand_S in H. cbn [pure obind] in H.
      apply IH in H; [discriminate|exact Hv].
    + apply obind_some in E as [[y [H2 E]]|[a2 [H2 E]]]; [|discriminate]. injection E as ->. auto.
  - injection E as <-. f_equal. f_equal. f_equal. revert l' H. induction Hl as [|v l Hv Hl IHl]; intros l' H; cbn in H.
    + injection H as <-. reflexivity.
    + apply obind_some in H as [[y [H E]]|[a [H E]]]; [discriminate|].
      apply obind_some in E as [[y [H2 E]]|[a2 [H2 E]]]; [discriminate|]. injection E as <-. f_equal; [|auto].
      unfold nvalue in H. destruct k; [discriminate|]. cbn [obind] in H. rewrite demand_S in H. cbn [pure obind] in H.
      apply IH in H; [|exact Hv]. congruence.
Qed.

Fixpoint data_rec' (P : data -> Prop) (HC : forall c, P (DC c)) (HT : forall l, Forall P l -> P (DT l)) (HO : P DOther) (d : data) : P d :=
  match d with
  | DC c => HC c
  | DT l => HT l ((fix all (l : list data) : Forall P l :=
       match l with [] => Forall_nil _ | d :: l => Forall_cons _ (data_rec' P HC HT HO d) (all l) end) l)
  | DOther => HO
  end.
Definition of_all {A} (c : const -> A) (t : list A -> A) := fix all (l : list data) : option (list A) :=
  match l with
  | [] => Some []
  | d :: l => match of_data c t d, all l with Some a, Some l => Some (a :: l) | _, _ => None end
  end.
Lemma of_data_T {A} (c : const -> A) t l : of_data c t (DT l) = match of_all c t l with Some l => Some (t l) | None => None end.
Proof. reflexivity. Qed.
(** Conversions of data into two kinds of values agree *)
Lemma of_data_rel {A B} (R : A -> B -> Prop) c t c' t' :
  (forall k, R (c k) (c' k)) -> (forall l l', Forall2 R l l' -> R (t l) (t' l')) ->
  forall d, match of_data c t d, of_data c' t' d with Some a, Some b => R a b | None, None => True | _, _ => False end.
Proof.
  intros Hc Ht d. induction d as [k|l IH|] using data_rec'; [apply Hc| |exact I].
  rewrite !of_data_T.
  assert (Hl : match of_all c t l, of_all c' t' l with Some a, Some b => Forall2 R a b | None, None => True | _, _ => False end).
  { induction IH as [|d l Hd _ IHl]; [constructor|]. cbn.
    destruct (of_data c t d), (of_data c' t' d); try contradiction; auto.
    destruct (of_all c t l), (of_all c' t' l); try contradiction; auto. }
  destruct (of_all c t l), (of_all c' t' l); try contradiction; auto.
Qed.
Definition orel {A B} (R : A -> B -> Prop) (o : outcome A) (o' : outcome B) : Prop :=
  match o, o' with Ok a, Ok b => R a b | Raise x, Raise y => x = y | _, _ => False end.
Lemma apply_rel {A B} (R : A -> B -> Prop) c t c' t' o l :
  (forall k, R (c k) (c' k)) -> (forall l l', Forall2 R l l' -> R (t l) (t' l')) ->
  orel R (apply_prim prim c t o l) (apply_prim prim c' t' o l).
Proof.
  intros Hc Ht. unfold apply_prim. destruct (prim o l) as [d|x]; [|reflexivity].
  pose proof (of_data_rel R c t c' t' Hc Ht d) as P. destruct (of_data c t d), (of_data c' t' d); try contradiction; exact P || reflexivity.
Qed.
Lemma item_rel {A B} (R : A -> B -> Prop) l l' i : Forall2 R l l' -> orel R (item l i) (item l' i).
Proof.
  intros HF. unfold item. destruct i as [[|b|z]|l0|]; try reflexivity.
  rewrite (F2_length _ _ _ HF).
  set (n := (if (z <? 0)%Z then _ else _)). cbn zeta. destruct (n <? 0)%Z; [reflexivity|]. generalize (Z.to_nat n). clear n.
  induction HF; intros [|n]; cbn; auto.
Qed.

(** ** Enough fuel *)
Definition gives {A} (m : nat -> O A) (o : outcome A) : Prop := exists k0, forall k, k0 <= k -> m k = Some o.
Lemma gives_const {A} (o : outcome A) : gives (fun _ => Some o) o.
Proof. exists 0. reflexivity. Qed.
Lemma gives_bind {A B} (m : nat -> O A) (f : nat -> A -> O B) a o :
  gives m (Ok a) -> gives (fun k => f k a) o -> gives (fun k => obind (m k) (f k)) o.
Proof.
  intros [k1 H1] [k2 H2]. exists (max k1 k2). intros k Hk. rewrite H1 by lia. cbn. apply H2. lia.
Qed.
Lemma gives_raise {A B} (m : nat -> O A) (f : nat -> A -> O B) x :
  gives m (Raise x) -> gives (fun k => obind (m k) (f k)) (Raise x).
Proof. intros [k1 H1]. exists k1. intros k Hk. rewrite H1 by lia. reflexivity. Qed.
Lemma gives_S {A} (m body : nat -> O A) o : (forall k, m (S k) = body k) -> gives body o -> gives m o.
Proof. intros E [k0 H]. exists (S k0). intros [|k] Hk; [lia|]. rewrite E. apply H. lia. Qed.
Lemma gives_map {A B} (f : nat -> A -> O B) l l' :
  Forall2 (fun a b => gives (fun k => f k a) (Ok b)) l l' -> gives (fun k => mapE (f k) l) (Ok l').
Proof.
  induction 1 as [|a b l l' Hab Hl IH]; [apply gives_const|]. cbn [mapE].
  apply (gives_bind (fun k => f k a) (fun k b => obind (mapE (f k) l) (fun bs => pure (b :: bs))) b); [exact Hab|].
  apply (gives_bind (fun k => mapE (f k) l) (fun k bs => pure (b :: bs)) l'); [exact IH|apply gives_const].
Qed.
Lemma mapE_some {A B} (f : A -> O B) l : forall l', mapE f l = Some (Ok l') -> Forall2 (fun a b => f a = Some (Ok b)) l l'.
Proof.
  induction l as [|a l IH]; intros l' H; cbn in H; [injection H as <-; constructor|].
  apply obind_some in H as [[x [_ H]]|[b [Hb H]]]; [discriminate|].
  apply obind_some in H as [[x [_ H]]|[bs [Hbs H]]]; [discriminate|]. injection H as <-. constructor; auto.
Qed.
Lemma F2_impl {A B} (P Q : A -> B -> Prop) l l' : (forall a b, P a b -> Q a b) -> Forall2 P l l' -> Forall2 Q l l'.
Proof. induction 2; constructor; auto. Qed.
Lemma F2_ex {A B C} (P : A -> B -> Prop) (Q : A -> C -> Prop) (R : B -> C -> Prop) l l' :
  (forall a b, P a b -> exists c, Q a c /\ R b c) -> Forall2 P l l' -> exists l2, Forall2 Q l l2 /\ Forall2 R l' l2.
Proof.
  intros H. induction 1 as [|a b l l' Hab _ [l2 [I1 I2]]]; [exists []; split; constructor|].
  destruct (H _ _ Hab) as [c [C1 C2]]. exists (c :: l2). split; constructor; auto.
Qed.

(** ** Python's value is found by name *)
Inductive av : sval -> nval -> Prop :=
| AC c : av (SC c) (NC c)
| AT l l' : avs l l' -> av (ST l) (NT l')
| AClo ps b env env' : aenv env env' -> av (SClo ps b env) (NClo ps b env')
| AB o : av (SBuiltin o) (NBuiltin o)
with asusp : sval -> susp -> Prop :=
| ANow v v' : av v v' -> asusp v (Now v')
| ALater v env e v' : gives (fun k => name k Whole env e) (Ok (Now v')) -> av v v' -> asusp v (Later env e)
with avs : list sval -> list susp -> Prop :=
| ANil : avs [] []
| ACons v s l l' : asusp v s -> avs l l' -> avs (v :: l) (s :: l')
with aenv : list (string * sval) -> nenv -> Prop :=
| ENil : aenv [] []
| ECons x v s l l' : asusp v s -> aenv l l' -> aenv ((x, v) :: l) ((x, s) :: l').
Scheme av_i := Induction for av Sort Prop with asusp_i := Induction for asusp Sort Prop
with avs_i := Induction for avs Sort Prop with aenv_i := Induction for aenv Sort Prop.
Combined Scheme av_ind' from av_i, asusp_i, avs_i, aenv_i.

Lemma avs_F2 l l' : avs l l' <-> Forall2 asusp l l'.
Proof. split; induction 1; constructor; auto. Qed.
Lemma avs_now l l' : Forall2 av l l' -> avs l (map Now l').
Proof. induction 1; cbn; constructor; auto. now constructor. Qed.
Lemma data_av :
  (forall v v', av v v' -> whole v' -> ndata v' = sdata v) /\ (forall v s, asusp v s -> forall v', s = Now v' -> whole v' -> ndata v' = sdata v) /\
  (forall l l', avs l l' -> wholes l' -> map sdatum l' = map sdata l) /\ (forall l l', aenv l l' -> True).
Proof.
  apply (av_ind' (fun v v' _ => whole v' -> ndata v' = sdata v) (fun v s _ => forall v', s = Now v' -> whole v' -> ndata v' = sdata v)
    (fun l l' _ => wholes l' -> map sdatum l' = map sdata l) (fun l l' _ => True)); auto.
  - intros l l' _ IH Hw. inversion Hw; subst. cbn [ndata sdata]. f_equal. change (fun s => match s with Now v => ndata v | Later _ _ => DOther end) with sdatum. auto.
  - intros v v' _ IH v2 [= <-]. exact IH.
  - intros; discriminate.
  - intros v s l l' _ IH _ IHl Hw. inversion Hw; subst. cbn. f_equal; auto.
Qed.
Lemma data_av_map l l' : Forall2 (fun v v' => av v v' /\ whole v') l l' -> map ndata l' = map sdata l.
Proof. induction 1 as [|v v' l l' [H1 H2] _ IH]; [reflexivity|]. cbn. f_equal; [now apply data_av|exact IH]. Qed.

Lemma demand_a v s : asusp v s -> exists v', gives (fun k => demand k s) (Ok (Now v')) /\ av v v'.
Proof.
  intros [v0 v' H|v0 env e v' Hg H].
  - exists v'. split; [|exact H]. apply (gives_S _ (fun _ => pure (Now v'))); [reflexivity|apply gives_const].
  - exists v'. split; [|exact H]. apply (gives_S _ (fun k => name k Whole env e)); [reflexivity|exact Hg].
Qed.
Lemma deep_a :
  (forall v v', av v v' -> exists v2, gives (fun k => deep k (Now v')) (Ok (Now v2)) /\ av v v2 /\ whole v2) /\
  (forall v s, asusp v s -> exists v2, gives (fun k => nvalue k s) (Ok (Now v2)) /\ av v v2 /\ whole v2) /\
  (forall l l', avs l l' -> exists l2, gives (fun k => mapE (nvalue k) l') (Ok l2) /\ avs l l2 /\ wholes l2) /\
  (forall l l', aenv l l' -> True).
Proof.
  apply (av_ind' (fun v v' _ => exists v2, gives (fun k => deep k (Now v')) (Ok (Now v2)) /\ av v v2 /\ whole v2)
    (fun v s _ => exists v2, gives (fun k => nvalue k s) (Ok (Now v2)) /\ av v v2 /\ whole v2)
    (fun l l' _ => exists l2, gives (fun k => mapE (nvalue k) l') (Ok l2) /\ avs l l2 /\ wholes l2)
    (fun l l' _ => True)); auto.
  - intros c. exists (NC c). split; [|split; constructor]. apply (gives_S _ (fun _ => pure (Now (NC c)))); [reflexivity|apply gives_const].
  - intros l l' _ [l2 [G1 [A1 W1]]]. exists (NT l2). split; [|split; constructor; auto].
    apply (gives_S _ (fun k => obind (mapE (nvalue k) l') (fun l => pure (Now (NT l))))); [reflexivity|].
    apply (gives_bind (fun k => mapE (nvalue k) l') (fun _ l => pure (Now (NT l))) l2); [exact G1|apply gives_const].
  - intros ps b env env' He _. exists (NClo ps b env'). split; [|split; constructor; auto].
    apply (gives_S _ (fun _ => pure (Now (NClo ps b env')))); [reflexivity|apply gives_const].
  - intros o. exists (NBuiltin o). split; [|split; constructor]. apply (gives_S _ (fun _ => pure (Now (NBuiltin o)))); [reflexivity|apply gives_const].
  - intros v v' _ [v2 [G1 H]]. exists v2. split; [|exact H]. unfold nvalue.
    apply (gives_bind (fun k => demand k (Now v')) (fun k => deep k) (Now v')); [|exact G1].
    apply (gives_S _ (fun _ => pure (Now v'))); [reflexivity|apply gives_const].
  - intros v env e v' Hg _ [v2 [G1 H]]. exists v2. split; [|exact H]. unfold nvalue.
    apply (gives_bind (fun k => demand k (Later env e)) (fun k => deep k) (Now v')); [|exact G1].
    apply (gives_S _ (fun k => name k Whole env e)); [reflexivity|exact Hg].
  - exists []. split; [apply gives_const|split; constructor].
  - intros v s l l' _ [v2 [G1 [A1 W1]]] _ [l2 [G2 [A2 W2]]]. exists (Now v2 :: l2). split; [|split; constructor; auto; now constructor].
    cbn [mapE]. apply (gives_bind (fun k => nvalue k s) (fun k b => obind (mapE (nvalue k) l') (fun bs => pure (b :: bs))) (Now v2)); [exact G1|].
    apply (gives_bind (fun k => mapE (nvalue k) l') (fun k bs => pure (Now v2 :: bs)) l2); [exact G2|apply gives_const].
Qed.
Lemma assoc_a env env' : aenv env env' -> forall x,
  match assoc x env, assoc x env' with Some v, Some s => asusp v s | None, None => True | _, _ => False end.
Proof. induction 1; intros y; cbn; [exact I|]. destruct (String.eqb x y); [assumption|apply IHaenv]. Qed.
Lemma aenv_app env env' : aenv env env' -> forall l l', aenv l l' -> aenv (l ++ env) (l' ++ env').
Proof. intros H. induction 1; cbn; [exact H|]. constructor; auto. Qed.
Lemma aenv_combine ps : forall vs ss, Forall2 asusp vs ss -> aenv (combine ps vs) (combine ps ss).
Proof. induction ps as [|p ps IH]; intros vs ss []; cbn; constructor; auto. Qed.

Definition found (e : ex) (v : sval) (env : nenv) : Prop :=
  (exists v', gives (fun k => name k Whole env e) (Ok (Now v')) /\ av v v' /\ whole v') /\
  (exists v', gives (fun k => name k Head env e) (Ok (Now v')) /\ av v v') /\
  (isref e = true -> exists s, gives (fun k => name k Ref env e) (Ok s) /\ asusp v s) /\
  asusp v (delay env e).
Lemma found_whole e v env : found e v env -> exists v', gives (fun k => nwhole k env e) (Ok v') /\ av v v' /\ whole v'.
Proof.
  intros [[v' [G H]] _]. exists v'. split; [|exact H].
  apply (gives_bind (fun k => name k Whole env e) (fun _ => get_now) (Now v')); [exact G|apply gives_const].
Qed.
Lemma found_head e v env : found e v env -> exists v', gives (fun k => nhead k env e) (Ok v') /\ av v v'.
Proof.
  intros [_ [[v' [G H]] _]]. exists v'. split; [|exact H].
  apply (gives_bind (fun k => name k Head env e) (fun _ => get_now) (Now v')); [exact G|apply gives_const].
Qed.
Lemma found_argument e v env : found e v env -> exists s, gives (fun k => nargument k env e) (Ok s) /\ asusp v s.
Proof.
  intros [_ [_ [HR HD]]]. unfold nargument. destruct (isref e).
  - destruct (HR eq_refl) as [s H]. eauto.
  - exists (delay env e). split; [apply gives_const|exact HD].
Qed.
(** a computation that is the same for all uses *)
Lemma found_same e v v' env (body : nat -> O susp) : isref e = false ->
  (match e with ETup _ => False | _ => True end) ->
  (forall k, name (S k) Whole env e = body k) -> (forall k, name (S k) Head env e = body k) ->
  gives body (Ok (Now v')) -> av v v' -> whole v' -> found e v env.
Proof.
  intros Hr Ht E1 E2 G A W. split; [|split; [|split]].
  - exists v'. split; [|auto]. exact (gives_S _ body _ E1 G).
  - exists v'. split; [|auto]. exact (gives_S _ body _ E2 G).
  - congruence.
  - replace (delay env e) with (Later env e) by (destruct e; tauto). econstructor; [|exact A]. exact (gives_S _ body _ E1 G).
Qed.
(** a reference *)
Lemma found_ref e v env s (ref : nat -> O susp) : isref e = true ->
  (forall u, gives (fun k => nused k u s) (Ok s) \/ True -> forall o, gives (fun k => nused k u s) o -> gives (fun k => name k u env e) o) ->
  asusp v s -> found e v env.
Proof.
  intros Hr E A. destruct (demand_a _ _ A) as [v1 [G1 A1]]. destruct deep_a as [_ [DS _]]. destruct (DS _ _ A) as [v2 [G2 [A2 W2]]].
  assert (GW : gives (fun k => name k Whole env e) (Ok (Now v2))) by (apply (E Whole); [now right|exact G2]).
  split; [|split; [|split]].
  - exists v2. auto.
  - exists v1. split; [|auto]. apply (E Head); [now right|exact G1].
  - intros _. exists s. split; [|exact A]. apply (E Ref); [now right|apply gives_const].
  - replace (delay env e) with (Later env e) by (destruct e; discriminate || reflexivity). econstructor; eauto.
Qed.
Lemma strict_found k : forall env e v env', strict k env e = Some (Ok v) -> aenv env env' -> found e v env'.
Proof.
  induction k as [|k IH]; intros env e v env' H He; [discriminate|].
  destruct e as [c|x|o l|t a b|ps b|l|w i|f l|x w b]; cbn [LzfSpec.strict] in H.
  - injection H as <-. apply (found_same _ _ (NC c) _ (fun _ => pure (Now (NC c)))); try reflexivity; try exact I; try constructor. apply gives_const.
  - injection H as H. unfold sname in H.
    assert (N : exists s, nname env' x = Ok s /\ asusp v s).
    { unfold nname. pose proof (assoc_a _ _ He x) as P. destruct (assoc x env) as [v0|], (assoc x env') as [s|]; try contradiction.
      - injection H as ->. eauto.
      - destruct (globals x) as [[ps b]|].
        + injection H as <-. eexists. split; [reflexivity|]. repeat constructor.
        + destruct (builtins x); [|discriminate]. injection H as <-. eexists. split; [reflexivity|]. repeat constructor. }
    destruct N as [s [N A]]. apply (found_ref _ _ _ s (fun _ => pure s)); [reflexivity| |exact A].
    intros u _ o G. apply (gives_S _ (fun k => obind (Some (nname env' x)) (nused k u))); [intros; now rewrite name_S|].
    rewrite N. exact G.
  - apply obind_some in H as [[y [_ H]]|[vs [Hvs H]]]; [discriminate|]. injection H as H.
    apply mapE_some in Hvs.
    destruct (F2_ex _ (fun e v' => gives (fun k => nwhole k env' e) (Ok v')) (fun v v' => av v v' /\ whole v') _ _
      (fun e v Hev => found_whole _ _ _ (IH _ _ _ _ Hev He)) Hvs) as [l2 [G2 A2]].
    assert (P : exists v', napply o (map ndata l2) = Ok v' /\ av v v' /\ whole v').
    { rewrite (data_av_map _ _ A2).
      pose proof (apply_rel (fun a b => av a b /\ whole b) SC ST (fun c => NC c) (fun l => NT (map Now l)) o (map sdata vs)) as Q.
      rewrite H in Q. destruct (napply o (map sdata vs)) as [v'|y].
      - exists v'. split; [reflexivity|]. apply Q.
        + intros; split; constructor.
        + intros l1 l3 HF. split; constructor; [apply avs_now|apply wholes_Forall].
          * eapply F2_impl; [|exact HF]. now intros ? ? [].
          * induction HF as [|? ? ? ? []]; constructor; auto.
      - destruct Q; [intros; split; constructor|].
        intros l1 l3 HF. split; constructor; [apply avs_now|apply wholes_Forall].
        * eapply F2_impl; [|exact HF]. now intros ? ? [].
        * induction HF as [|? ? ? ? []]; constructor; auto. }
    destruct P as [v' [P [A W]]].
    apply (found_same _ _ v' _ (fun k => obind (mapE (nwhole k env') l) (fun vs => obind (Some (napply o (map ndata vs))) (fun v => pure (Now v)))));
      try reflexivity; try exact I; auto; try (intros; now rewrite name_S).
    apply (gives_bind (fun k => mapE (nwhole k env') l) (fun _ vs => obind (Some (napply o (map ndata vs))) (fun v => pure (Now v))) l2).
    + exact (gives_map _ _ _ G2).
    + rewrite P. apply gives_const.
  - apply obind_some in H as [[y [_ H]]|[vt [Ht H]]]; [discriminate|].
    destruct (found_whole _ _ _ (IH _ _ _ _ Ht He)) as [vt' [Gt [At Wt]]].
    set (c := if truthy (sdata vt) then a else b).
    assert (Hc : strict k env c = Some (Ok v)) by (unfold c; destruct (truthy (sdata vt)); exact H).
    destruct (IH _ _ _ _ Hc He) as [[v' [G [A W]]] _].
    apply (found_same _ _ v' _ (fun k => obind (nwhole k env' t) (fun v => if truthy (ndata v) then name k Whole env' a else name k Whole env' b)));
      try reflexivity; try exact I; auto; try (intros; now rewrite name_S).
    apply (gives_bind (fun k => nwhole k env' t) (fun k v => if truthy (ndata v) then name k Whole env' a else name k Whole env' b) vt'); [exact Gt|].
    destruct data_av as [DA _]. rewrite (DA _ _ At Wt). unfold c in G. destruct (truthy (sdata vt)); exact G.
  - injection H as <-. apply (found_same _ _ (NClo ps b env') _ (fun _ => pure (Now (NClo ps b env')))); try reflexivity; try exact I; try constructor; auto. apply gives_const.
  - apply obind_some in H as [[y [_ H]]|[vs [Hvs H]]]; [discriminate|]. injection H as <-. apply mapE_some in Hvs.
    destruct (F2_ex _ (fun e v' => gives (fun k => nwhole k env' e) (Ok v')) (fun v v' => av v v' /\ whole v') _ _
      (fun e v Hev => found_whole _ _ _ (IH _ _ _ _ Hev He)) Hvs) as [l2 [G2 A2]].
    assert (GB : gives (fun k => obind (mapE (nwhole k env') l) (fun vs => pure (Now (NT (map Now vs))))) (Ok (Now (NT (map Now l2))))).
    { apply (gives_bind (fun k => mapE (nwhole k env') l) (fun _ vs => pure (Now (NT (map Now vs)))) l2); [exact (gives_map _ _ _ G2)|apply gives_const]. }
    assert (AW : av (ST vs) (NT (map Now l2)) /\ whole (NT (map Now l2))).
    { split; constructor; [apply avs_now|apply wholes_Forall].
      - eapply F2_impl; [|exact A2]. now intros ? ? [].
      - clear -A2. induction A2 as [|? ? ? ? []]; constructor; auto. }
    destruct AW as [A W]. split; [|split; [|split]].
    + exists (NT (map Now l2)). split; [|auto]. eapply gives_S; [|exact GB]. intros. now rewrite name_S.
    + exists (NT (map Now l2)). split; [|auto]. eapply gives_S; [|exact GB]. intros. now rewrite name_S.
    + discriminate.
    + cbn [delay]. constructor. constructor. clear -IH Hvs He. induction Hvs as [|e v l vs Hev _ IHl]; cbn; constructor; [|exact IHl].
      apply (IH _ _ _ _ Hev He).
  - apply obind_some in H as [[y [_ H]]|[vw [Hw H]]]; [discriminate|].
    apply obind_some in H as [[y [_ H]]|[vi [Hi H]]]; [discriminate|].
    destruct vw as [| lw | |]; try discriminate. injection H as H.
    destruct (found_head _ _ _ (IH _ _ _ _ Hw He)) as [w' [Gw Aw]]. inversion Aw as [|l0 l' Al| |]; subst.
    destruct (found_whole _ _ _ (IH _ _ _ _ Hi He)) as [i' [Gi [Ai Wi]]].
    destruct data_av as [DA _]. pose proof (DA _ _ Ai Wi) as Di.
    pose proof (item_rel asusp lw l' (sdata vi) (proj1 (avs_F2 _ _) Al)) as Q. rewrite H in Q.
    destruct (item l' (sdata vi)) as [s|y] eqn:Es; [|destruct Q]. cbn in Q.
    apply (found_ref _ _ _ s (fun _ => pure s)); [reflexivity| |exact Q].
    intros u _ o G. eapply gives_S; [intros; now rewrite name_S|].
    apply (gives_bind (fun k => nhead k env' w) (fun k v => obind (nwhole k env' i) (fun i =>
        match v with NT l => obind (Some (item l (ndata i))) (nused k u) | _ => Some (Raise TypeError) end)) (NT l')); [exact Gw|].
    apply (gives_bind (fun k => nwhole k env' i) (fun k i => obind (Some (item l' (ndata i))) (nused k u)) i'); [exact Gi|].
    rewrite Di, Es. exact G.
  - apply obind_some in H as [[y [_ H]]|[vf [Hf H]]]; [discriminate|].
    apply obind_some in H as [[y [_ H]]|[vss [Hvss H]]]; [discriminate|].
    apply mapE_some in Hvss.
    assert (HA : exists ss, Forall2 (fun se s => gives (fun k => narg k env' se) (Ok s)) l ss /\ Forall2 (Forall2 asusp) vss ss).
    { apply (F2_ex (fun (se : bool * ex) (vs : list sval) => obind (strict k env (snd se)) (fun v =>
           if fst se then match v with ST l => pure l | _ => Some (Raise TypeError) end else pure [v]) = Some (Ok vs))); [|exact Hvss].
      intros [star e] vs Hse. cbn [fst snd] in Hse. apply obind_some in Hse as [[y [_ Hse]]|[ve [Hve Hse]]]; [discriminate|].
      pose proof (IH _ _ _ _ Hve He) as Fe. destruct star.
      - destruct ve as [|le| |]; try discriminate. injection Hse as ->.
        assert (GN : (match e with ETup _ => True | _ => False end) \/ ~ (match e with ETup _ => True | _ => False end)) by (destruct e; tauto).
        destruct GN as [GN|GN].
        + destruct e; try contradiction. destruct Fe as [_ [_ [_ Fe]]]. cbn [delay] in Fe. inversion Fe as [v0 v' AV|]; subst.
          inversion AV; subst. exists (map (delay env') l0). split; [apply gives_const|]. now apply avs_F2.
        + assert (GV : exists v', gives (fun k => if isref e then nhead k env' e else nwhole k env' e) (Ok v') /\ av (ST vs) v').
          { destruct (isref e); [apply found_head, Fe|]. destruct (found_whole _ _ _ Fe) as [v' [? [? ?]]]. eauto. }
          destruct GV as [v' [G A]]. inversion A; subst. exists l'. split; [|now apply avs_F2].
          replace (fun k => narg k env' (true, e)) with (fun k => obind (if isref e then nhead k env' e else nwhole k env' e) (fun v => match v with NT l => pure l | _ => Some (Raise TypeError) end))
            by (destruct e; tauto || reflexivity).
          apply (gives_bind (fun k => if isref e then nhead k env' e else nwhole k env' e) (fun _ v => match v with NT l => pure l | _ => Some (Raise TypeError) end) (NT l')); [exact G|apply gives_const].
      - injection Hse as <-. destruct (found_argument _ _ _ Fe) as [s [G A]]. exists [s]. split; [|repeat constructor; auto].
        apply (gives_bind (fun k => nargument k env' e) (fun _ s => pure [s]) s); [exact G|apply gives_const]. }
    destruct HA as [ss [GA AA]].
    assert (AQ : Forall2 asusp (concat vss) (concat ss)).
    { clear -AA. induction AA; cbn; [constructor|]. apply Forall2_app; auto. }
    assert (HC : forall f', av vf f' -> exists v', gives (fun k => ncall k f' (concat ss)) (Ok (Now v')) /\ av v v' /\ whole v').
    { intros f' Af. destruct Af as [c|fl fl' Al|ps b cenv cenv' Ac|o]; cbn zeta in H; try discriminate.
      - cbn [ncall]. rewrite <- (F2_length _ _ _ AQ). destruct (length ps =? length (concat vss)); [|discriminate].
        destruct (IH _ _ _ (combine ps (concat ss) ++ cenv') H) as [FW _]; [|exact FW].
        apply aenv_app; [exact Ac|]. now apply aenv_combine.
      - injection H as H. cbn [ncall]. destruct deep_a as [_ [_ [DL _]]]. destruct (DL _ _ (proj2 (avs_F2 _ _) AQ)) as [l2 [G2 [A2 W2]]].
        assert (P : exists v', napply o (map sdatum l2) = Ok v' /\ av v v' /\ whole v').
        { destruct data_av as [_ [_ [DD _]]]. rewrite (DD _ _ A2 W2).
          assert (QT : forall l l' : list _, Forall2 (fun a b => av a b /\ whole b) l l' -> av (ST l) (NT (map Now l')) /\ whole (NT (map Now l'))).
          { intros l1 l3 HF. split; constructor; [apply avs_now|apply wholes_Forall].
            - eapply F2_impl; [|exact HF]. now intros ? ? [].
            - induction HF as [|? ? ? ? []]; constructor; auto. }
          pose proof (apply_rel (fun a b => av a b /\ whole b) SC ST (fun c => NC c) (fun l => NT (map Now l)) o (map sdata (concat vss))
            (fun c => conj (AC c) (WC c)) QT) as Q.
          rewrite H in Q. destruct (napply o (map sdata (concat vss))) as [v'|y]; [eauto|destruct Q]. }
        destruct P as [v' [P AW]]. exists v'. split; [|exact AW].
        apply (gives_bind (fun k => mapE (nvalue k) (concat ss)) (fun _ vs => obind (Some (napply o (map sdatum vs))) (fun v => pure (Now v))) l2); [exact G2|].
        rewrite P. apply gives_const. }
    pose proof (IH _ _ _ _ Hf He) as Ff.
    destruct (found_whole _ _ _ Ff) as [f1 [Gf1 [Af1 _]]]. destruct (found_head _ _ _ Ff) as [f2 [Gf2 Af2]].
    destruct (HC _ Af1) as [v1 [G1 [A1 W1]]]. destruct (HC _ Af2) as [v2 [G2 [A2 W2]]].
    assert (NW : gives (fun k => name k Whole env' (ECall f l)) (Ok (Now v1))).
    { eapply gives_S; [intros; now rewrite name_S|].
      apply (gives_bind (fun k => nwhole k env' f) (fun k f => obind (mapE (narg k env') l) (fun ss => ncall k f (concat ss))) f1); [exact Gf1|].
      apply (gives_bind (fun k => mapE (narg k env') l) (fun k ss => ncall k f1 (concat ss)) ss); [exact (gives_map _ _ _ GA)|exact G1]. }
    split; [|split; [|split]].
    + eauto.
    + exists v2. split; [|exact A2]. eapply gives_S; [intros; now rewrite name_S|].
      apply (gives_bind (fun k => nhead k env' f) (fun k f => obind (mapE (narg k env') l) (fun ss => ncall k f (concat ss))) f2); [exact Gf2|].
      apply (gives_bind (fun k => mapE (narg k env') l) (fun k ss => ncall k f2 (concat ss)) ss); [exact (gives_map _ _ _ GA)|exact G2].
    + discriminate.
    + cbn [delay]. econstructor; eauto.
  - apply obind_some in H as [[y [_ H]]|[vw [Hw H]]]; [discriminate|].
    destruct (found_argument _ _ _ (IH _ _ _ _ Hw He)) as [s [G A]].
    destruct (IH _ _ _ ((x, s) :: env') H) as [[v' [G' [A' W']]] _]; [now constructor|].
    apply (found_same _ _ v' _ (fun k => obind (nargument k env' w) (fun s => name k Whole ((x, s) :: env') b)));
      try reflexivity; try exact I; auto; try (intros; now rewrite name_S).
    apply (gives_bind (fun k => nargument k env' w) (fun k s => name k Whole ((x, s) :: env') b) s); auto.
Qed.
End Proofs.
