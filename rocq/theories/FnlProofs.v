From Coq Require Import String List ZArith Bool Arith Lia.
From Verif Require Import Base FnlModel FnlSpec.
Import ListNotations.
Open Scope string_scope.
Open Scope list_scope.
Open Scope nat_scope.

Section Ind.
Variable P : ex -> Prop.
Hypothesis HConst : forall v, P (FConst v).
Hypothesis HName : forall x, P (FName x).
Hypothesis HPrim : forall o l, Forall P l -> P (FPrim o l).
Hypothesis HCall : forall f l, P f -> Forall P l -> P (FCall f l).
Hypothesis HIf : forall a t b, P a -> P t -> P b -> P (FIf a t b).
Hypothesis HDict : forall l, Forall (fun kv => P (fst kv) /\ P (snd kv)) l -> P (FDict l).
Hypothesis HLam : forall ps b, P b -> P (FLam ps b).
Hypothesis HFn : forall b, P b -> P (FFn b).
Fixpoint ex_ind' (t : ex) : P t :=
  match t with
  | FConst v => HConst v
  | FName x => HName x
  | FPrim o l => HPrim o l ((fix lst (l : list ex) : Forall P l := match l with [] => Forall_nil P | t :: l => Forall_cons t (ex_ind' t) (lst l) end) l)
  | FCall f l => HCall f l (ex_ind' f) ((fix lst (l : list ex) : Forall P l := match l with [] => Forall_nil P | t :: l => Forall_cons t (ex_ind' t) (lst l) end) l)
  | FIf a t b => HIf a t b (ex_ind' a) (ex_ind' t) (ex_ind' b)
  | FDict l => HDict l ((fix lst (l : list (ex * ex)) : Forall (fun kv => P (fst kv) /\ P (snd kv)) l :=
      match l with [] => Forall_nil _ | kv :: l => Forall_cons kv (conj (ex_ind' (fst kv)) (ex_ind' (snd kv))) (lst l) end) l)
  | FLam ps b => HLam ps b (ex_ind' b)
  | FFn b => HFn b (ex_ind' b)
  end.
End Ind.

(** Both relations: a tree as written, at a place with [off] underscores on the left in an fn[...] whose
    parameters are named from [base] on; and the tree after the macro.  [full]: after the inner fn[...] too. *)
Definition under : nm := User "_".
Inductive corr (full : bool) : option nat -> nat -> ex -> ex -> Prop :=
| CConst base off v : corr full base off (FConst v) (FConst v)
| CName base off x : base = None \/ x <> under -> is_user x = true -> corr full base off (FName x) (FName x)
| CSlot b off : corr full (Some b) off (FName under) (FName (Gen (b + off)))
| CPrim base off o l l' : corrs full base off l l' -> corr full base off (FPrim o l) (FPrim o l')
| CCall base off f l f' l' : corr full base off f f' -> corrs full base (off + slots f) l l' -> corr full base off (FCall f l) (FCall f' l')
| CIf base off a t b a' t' b' : corr full base off a a' -> corr full base (off + slots a) t t' ->
    corr full base (off + slots a + slots t) b b' -> corr full base off (FIf a t b) (FIf a' t' b')
| CDict base off l l' : corrd full base off l l' -> corr full base off (FDict l) (FDict l')
| CLam base off ps b b' : forallb is_user ps = true -> base = None \/ existsb (nmeqb under) ps = false ->
    corr full base off b b' -> corr full base off (FLam ps b) (FLam ps b')
| CFn0 base off b : full = false -> plain true b = true -> corr full base off (FFn b) (FFn b)
| CFn1 base off n b b' : full = true -> corr full (Some n) 0 b b' -> corr full base off (FFn b) (FLam (gens n (slots b)) b')
with corrs (full : bool) : option nat -> nat -> list ex -> list ex -> Prop :=
| CNil base off : corrs full base off [] []
| CCons base off t l t' l' : corr full base off t t' -> corrs full base (off + slots t) l l' -> corrs full base off (t :: l) (t' :: l')
with corrd (full : bool) : option nat -> nat -> list (ex * ex) -> list (ex * ex) -> Prop :=
| DNil base off : corrd full base off [] []
| DCons base off k v l k' v' l' : corr full base off k k' -> corr full base (off + slots k) v v' ->
    corrd full base (off + slots k + slots v) l l' -> corrd full base off ((k, v) :: l) ((k', v') :: l').
Scheme corr_m := Minimality for corr Sort Prop
with corrs_m := Minimality for corrs Sort Prop
with corrd_m := Minimality for corrd Sort Prop.
Combined Scheme corr_all from corr_m, corrs_m, corrd_m.

(** with no underscores, the offset does not matter *)
Definition dslots (l : list (ex * ex)) := list_sum (map (fun kv => slots (fst kv) + slots (snd kv)) l).
Lemma corr_zero full :
  (forall base off s t, corr full base off s t -> slots s = 0 -> forall off', corr full base off' s t) /\
  (forall base off s t, corrs full base off s t -> list_sum (map slots s) = 0 -> forall off', corrs full base off' s t) /\
  (forall base off s t, corrd full base off s t -> dslots s = 0 -> forall off', corrd full base off' s t).
Proof.
  apply corr_all; unfold dslots, list_sum; cbn [slots map fst snd list_sum fold_right]; unfold list_sum; intros.
  - constructor.
  - now constructor.
  - discriminate.
  - constructor. auto.
  - constructor; [apply H0|apply H2]; lia.
  - constructor; [apply H0|apply H2|apply H4]; lia.
  - constructor. auto.
  - constructor; auto.
  - now constructor.
  - now constructor.
  - constructor.
  - cbn in H3. constructor; [apply H0|apply H2]; lia.
  - constructor.
  - cbn in H5. constructor; [apply H0|apply H2|apply H4]; lia.
Qed.
Lemma corr_off full base off off' s t : corr full base off s t -> (slots s <> 0 -> off = off') -> corr full base off' s t.
Proof.
  intros C E. destruct (Nat.eq_dec (slots s) 0) as [Z|Z]; [eapply corr_zero; eauto|]. rewrite <- E; auto.
Qed.

(** transform *)
Definition trs := fix trs (n : nat) (l : list ex) : list ex * nat :=
  match l with [] => ([], n) | t :: l => let (t, n) := transform n t in let (l, n) := trs n l in (t :: l, n) end.
Definition trk := fix keys (n : nat) (l : list (ex * ex)) : list ex * nat :=
  match l with [] => ([], n) | (t, _) :: l => let (t, n) := transform n t in let (l, n) := keys n l in (t :: l, n) end.
Definition trv := fix vals (n : nat) (l : list (ex * ex)) : list ex * nat :=
  match l with [] => ([], n) | (_, t) :: l => let (t, n) := transform n t in let (l, n) := vals n l in (t :: l, n) end.
Definition good (s : ex) := plain true s = true -> forall base off,
  corr false (Some base) off s (fst (transform (base + off) s)) /\ snd (transform (base + off) s) = base + off + slots s.
Lemma good_trs l : Forall good l -> forallb (plain true) l = true -> forall base off,
  corrs false (Some base) off l (fst (trs (base + off) l)) /\ snd (trs (base + off) l) = base + off + list_sum (map slots l).
Proof.
  induction 1 as [|t l G _ IH]; intros U base off; [cbn; split; [constructor|lia]|]. cbn in U. apply andb_prop in U as [U1 U2].
  cbn [trs]. destruct (G U1 base off) as [C E]. destruct (transform (base + off) t) as [t' n] eqn:Q. cbn in C, E. subst n.
  destruct (IH U2 base (off + slots t)) as [Cl El]. rewrite Nat.add_assoc in Cl, El.
  destruct (trs (base + off + slots t) l) as [l' n]. cbn in *. split; [constructor; auto|]. unfold list_sum in *. lia.
Qed.
Definition ksum (l : list (ex * ex)) := list_sum (map (fun kv => slots (fst kv)) l).
Definition vsum (l : list (ex * ex)) := list_sum (map (fun kv => slots (snd kv)) l).
Lemma seen_keys l : dict_ok true l = true -> ksum l = 0.
Proof.
  unfold ksum. induction l as [|[k v] l IH]; cbn; [reflexivity|]. intros E. apply andb_prop in E as [E1 E2].
  apply Nat.eqb_eq in E1. rewrite E1. now apply IH.
Qed.
Lemma good_dict l : Forall (fun kv => good (fst kv) /\ good (snd kv)) l ->
  forallb (fun kv => plain true (fst kv) && plain true (snd kv)) l = true ->
  forall seen base off kp vp, dict_ok seen l = true -> (ksum l <> 0 -> kp = off) -> (vsum l <> 0 -> vp = off + ksum l) ->
  corrd false (Some base) off l (combine (fst (trk (base + kp) l)) (fst (trv (base + vp) l))) /\
  snd (trk (base + kp) l) = base + kp + ksum l /\ snd (trv (base + vp) l) = base + vp + vsum l.
Proof.
  induction 1 as [|[k v] l [Gk Gv] _ IH]; intros U seen base off kp vp O I1 I2; [cbn; repeat split; try constructor; lia|].
  cbn [fst snd] in Gk, Gv.
  cbn [forallb fst snd] in U. apply andb_prop in U as [U U3]. apply andb_prop in U as [U1 U2].
  cbn [dict_ok] in O. apply andb_prop in O as [O1 O2]. cbn [trk trv].
  destruct (Gk U1 base kp) as [Ck Ek]. destruct (transform (base + kp) k) as [k' nk]. cbn [fst snd] in Ck, Ek. subst nk.
  destruct (Gv U2 base vp) as [Cv Ev]. destruct (transform (base + vp) v) as [v' nv]. cbn [fst snd] in Cv, Ev. subst nv.
  unfold ksum, vsum in I1, I2. cbn [map list_sum fold_right fst snd] in I1, I2. fold (list_sum (map (fun kv : ex * ex => slots (fst kv)) l)) in I1, I2.
  fold (list_sum (map (fun kv : ex * ex => slots (snd kv)) l)) in I2. fold (ksum l) in I1, I2. fold (vsum l) in I2.
  assert (K : slots v <> 0 -> ksum l = 0).
  { intros N. apply seen_keys. apply Nat.eqb_neq in N. rewrite N in O2. cbn in O2. now rewrite orb_true_r in O2. }
  specialize (IH U3 (seen || negb (slots v =? 0)) base (off + slots k + slots v) (kp + slots k) (vp + slots v) O2) as (Cl & El1 & El2).
  { intros N. destruct (Nat.eq_dec (slots v) 0) as [Z|Z]; [|now apply K in Z]. assert (kp = off) by (apply I1; lia). lia. }
  { intros N. assert (vp = off + (slots k + ksum l)) by (apply I2; lia). lia. }
  rewrite !Nat.add_assoc in *.
  destruct (trk (base + kp + slots k) l) as [kl nk], (trv (base + vp + slots v) l) as [vl nv]. cbn [fst snd combine] in *. split; [|split].
  - constructor; auto.
    + eapply corr_off; [exact Ck|]. intros N. apply I1. lia.
    + eapply corr_off; [exact Cv|]. intros N. assert (vp = off + slots k + ksum l) by (apply I2; lia). apply K in N. lia.
  - rewrite El1. unfold ksum, list_sum. cbn. lia.
  - rewrite El2. unfold vsum, list_sum. cbn. lia.
Qed.
Lemma kv_sum l : dslots l = ksum l + vsum l.
Proof. unfold dslots, ksum, vsum, list_sum. induction l as [|[k v] l IH]; [reflexivity|]. cbn in *. lia. Qed.
Lemma transform_good s : good s.
Proof.
  induction s using ex_ind'; intros U base off; cbn [plain] in U.
  - cbn. split; [constructor|lia].
  - assert (X : x = under \/ x <> under /\ transform (base + off) (FName x) = (FName x, base + off) /\ slots (FName x) = 0).
    { destruct x as [x|]; [|discriminate U]. destruct (string_dec x "_") as [->|N]; [now left|]. right.
      split; [intros [= ->]; now apply N|]. cbn [transform slots].
      destruct x as [|a [|b x]]; try (split; reflexivity); destruct a as [[] [] [] [] [] [] [] []]; split; try reflexivity; now destruct N. }
    destruct X as [->|(N & -> & ->)].
    + cbn. split; [constructor|lia].
    + cbn. split; [constructor; auto|lia].
  - destruct (good_trs l H U base off) as [C E]. cbn [transform]. fold trs. destruct (trs (base + off) l). cbn in *. split; [now constructor|exact E].
  - apply andb_prop in U as [U1 U2]. cbn [transform]. fold trs. destruct (IHs U1 base off) as [C E]. destruct (transform (base + off) s) as [s' n]. cbn in C, E. subst n.
    destruct (good_trs l H U2 base (off + slots s)) as [Cl El]. rewrite Nat.add_assoc in Cl, El. destruct (trs (base + off + slots s) l). cbn in *. split; [now constructor|lia].
  - cbn [negb orb] in U. apply andb_prop in U as [U U4]. apply andb_prop in U as [U U3]. apply andb_prop in U as [U1 U2].
    cbn [transform].
    destruct (IHs2 U3 base off) as [Ct Et]. destruct (transform (base + off) s2) as [t' n]. cbn in Ct, Et. subst n.
    destruct (IHs1 U2 base (off + slots s2)) as [Ca Ea]. rewrite Nat.add_assoc in Ca, Ea.
    destruct (transform (base + off + slots s2) s1) as [a' n]. cbn in Ca, Ea. subst n.
    destruct (IHs3 U4 base (off + slots s1 + slots s2)) as [Cb Eb].
    replace (base + (off + slots s1 + slots s2)) with (base + off + slots s2 + slots s1) in Cb, Eb by lia.
    destruct (transform (base + off + slots s2 + slots s1) s3) as [b' n]. cbn in *. split; [|lia].
    apply orb_prop in U1 as [Z|Z]; apply Nat.eqb_eq in Z; constructor; auto; (eapply corr_off; [eassumption|lia]).
  - cbn [negb orb] in U. apply andb_prop in U as [U1 U2]. cbn [transform]. fold trk trv.
    destruct (good_dict l H U2 false base off off (off + ksum l) U1) as (C & E1 & E2); [auto|auto|].
    rewrite Nat.add_assoc in C, E2. destruct (trk (base + off) l) as [ks n]. cbn [fst snd] in *. subst n.
    destruct (trv (base + off + ksum l) l) as [vs n]. cbn [fst snd] in *. split; [now constructor|].
    cbn [slots]. fold (dslots l). rewrite kv_sum. lia.
  - cbn [negb orb] in U. apply andb_prop in U as [U U2]. apply andb_prop in U as [U1 U3]. apply negb_true_iff in U3.
    cbn [transform]. destruct (IHs U2 base off) as [C E]. destruct (transform (base + off) s). cbn in *. split; [constructor; auto|exact E].
  - cbn. split; [now constructor|lia].
Qed.

(** a program as written *)
Lemma corr_refl s : plain false s = true -> forall off, corr false None off s s.
Proof.
  induction s using ex_ind'; intros U off; cbn [plain] in U.
  - constructor.
  - constructor; auto.
  - constructor. revert U off. induction H as [|t l G _ IH]; intros U off; constructor; cbn in U; apply andb_prop in U as [U1 U2]; auto.
  - apply andb_prop in U as [U1 U2]. constructor; [auto|]. generalize (off + slots s). revert U2. clear -H.
    induction H as [|t l G _ IH]; intros U off; constructor; cbn in U; apply andb_prop in U as [U1 U2]; auto.
  - cbn [negb orb andb] in U. apply andb_prop in U as [U U3]. apply andb_prop in U as [U1 U2]. constructor; auto.
  - constructor. cbn [negb orb andb] in U. revert U off. induction H as [|[k v] l [Gk Gv] _ IH]; intros U off; [constructor|].
    cbn in U. apply andb_prop in U as [U U3]. apply andb_prop in U as [U1 U2]. constructor; auto.
  - apply andb_prop in U as [U U2]. apply andb_prop in U as [U1 _]. constructor; auto.
  - now constructor.
Qed.

(** expand *)
Definition exps (k : nat) := fix exps (n : nat) (l : list ex) : option (list ex * nat) :=
  match l with
  | [] => Some ([], n)
  | t :: l => match expand k n t with Some (t, n) => match exps n l with Some (l, n) => Some (t :: l, n) | None => None end | None => None end
  end.
Definition exp_ok k := forall base off s s1 n t n', corr false base off s s1 -> expand k n s1 = Some (t, n') -> corr true base off s t.
Lemma exps_ok k : exp_ok k -> forall base off l l1, corrs false base off l l1 -> forall n l2 n', exps k n l1 = Some (l2, n') -> corrs true base off l l2.
Proof.
  intros IH. induction 1 as [|base off t l t' l' C _ IHl]; intros n l2 n' E; cbn in E.
  - injection E as <- <-. constructor.
  - destruct (expand k n t') as [[t2 n2]|] eqn:E1; [|discriminate]. destruct (exps k n2 l') as [[l3 n3]|] eqn:E2; [|discriminate].
    injection E as <- <-. constructor; [eapply IH; eauto|eapply IHl; eauto].
Qed.
Lemma exps_length k n l l' n' : exps k n l = Some (l', n') -> length l' = length l.
Proof.
  revert n l' n'. induction l as [|t l IH]; intros n l' n' E; cbn in E; [now injection E as <- <-|].
  destruct (expand k n t) as [[t2 n2]|]; [|discriminate]. destruct (exps k n2 l) as [[l3 n3]|] eqn:E2; [|discriminate].
  injection E as <- <-. cbn. f_equal. eauto.
Qed.
Lemma expd_ok k : exp_ok k -> forall base off l l1, corrd false base off l l1 -> forall n ks n1 m vs m1,
  exps k n (map fst l1) = Some (ks, n1) -> exps k m (map snd l1) = Some (vs, m1) -> corrd true base off l (combine ks vs).
Proof.
  intros IH. induction 1 as [|base off kk v l k' v' l' Ck Cv _ IHl]; intros n ks n1 m vs m1 E F; cbn in E, F.
  - injection E as <- <-. constructor.
  - destruct (expand k n k') as [[t2 n2]|] eqn:E1; [|discriminate]. destruct (exps k n2 (map fst l')) as [[l3 n3]|] eqn:E2; [|discriminate].
    destruct (expand k m v') as [[t4 n4]|] eqn:F1; [|discriminate]. destruct (exps k n4 (map snd l')) as [[l5 n5]|] eqn:F2; [|discriminate].
    injection E as <- <-. injection F as <- <-. cbn. constructor; [eapply IH; eauto|eapply IH; eauto|eapply IHl; eauto].
Qed.
Lemma transform_corr n b : plain true b = true ->
  exists b1, transform n b = (b1, n + slots b) /\ corr false (Some n) 0 b b1.
Proof.
  intros U. destruct (transform_good b U n 0) as [C E]. rewrite Nat.add_0_r in C, E. destruct (transform n b) as [b1 n1]. cbn in *. subst. eauto.
Qed.
Lemma expand_ok k : exp_ok k.
Proof.
  induction k as [k IHk] using (well_founded_induction lt_wf). intros base off s s1 n t n' C E.
  destruct k as [|k]; [discriminate|]. cbn [expand] in E. fold (exps k) in E.
  assert (IH : exp_ok k) by (apply IHk; lia).
  destruct C.
  - injection E as <- <-. constructor.
  - injection E as <- <-. constructor; auto.
  - injection E as <- <-. constructor.
  - destruct (exps k n l') as [[l2 n2]|] eqn:E2; [|discriminate]. injection E as <- <-. constructor. eapply exps_ok; eauto.
  - cbn [exps] in E. destruct (expand k n f') as [[f2 n2]|] eqn:E1; [|discriminate].
    fold (exps k) in E. destruct (exps k n2 l') as [[l2 n3]|] eqn:E2; [|discriminate]. injection E as <- <-.
    constructor; [eapply IH; eauto|eapply exps_ok; eauto].
  - cbn [exps] in E. destruct (expand k n t') as [[t2 n2]|] eqn:E1; [|discriminate].
    destruct (expand k n2 a') as [[a2 n3]|] eqn:E2; [|discriminate].
    destruct (expand k n3 b') as [[b2 n4]|] eqn:E3; [|discriminate]. injection E as <- <-.
    constructor; eapply IH; eauto.
  - destruct (exps k n (map fst l')) as [[ks n2]|] eqn:E1; [|discriminate].
    destruct (exps k n2 (map snd l')) as [[vs n3]|] eqn:E2; [|discriminate]. injection E as <- <-.
    constructor. eapply expd_ok; eauto.
  - destruct (expand k n b') as [[b2 n2]|] eqn:E1; [|discriminate]. injection E as <- <-. constructor; auto. eapply IH; eauto.
  - destruct (transform_corr n b H0) as (b1 & T & C). rewrite T in E.
    destruct k as [|k]; [discriminate|]. cbn [expand] in E. destruct (expand k (n + slots b) b1) as [[b2 n2]|] eqn:E1; [|discriminate].
    injection E as <- <-. replace (n + slots b - n) with (slots b) by lia. apply CFn1; [reflexivity|].
    assert (IH' : exp_ok k) by (apply IHk; lia). eapply IH'; eauto.
  - discriminate.
Qed.

(** * Simulation *)
Lemma nmeqb_spec a b : reflect (a = b) (nmeqb a b).
Proof.
  destruct a as [x|i], b as [y|j]; cbn; try (constructor; congruence).
  - destruct (String.eqb_spec x y); constructor; congruence.
  - destruct (Nat.eqb_spec i j); constructor; congruence.
Qed.
Lemma look_app x a e : look x (a ++ e) = match look x a with Some v => Some v | None => look x e end.
Proof. induction a as [|[y v] a IH]; cbn; [reflexivity|]. destruct (nmeqb y x); auto. Qed.
Lemma look_users_gen ps vs i : forallb is_user ps = true -> look (Gen i) (combine ps vs) = None.
Proof.
  revert vs. induction ps as [|p ps IH]; intros vs; [reflexivity|]. destruct vs; [reflexivity|]. cbn. intros U. apply andb_prop in U as [U1 U2].
  destruct p; [|discriminate]. cbn. auto.
Qed.
Lemma look_gens_user n k vs x : look (User x) (combine (gens n k) vs) = None.
Proof.
  unfold gens. revert n vs. induction k as [|k IH]; intros n vs; [reflexivity|]. destruct vs; [reflexivity|]. cbn. apply IH.
Qed.
Lemma look_gens n k vs i v : length vs = k -> nth_error vs i = Some v -> look (Gen (n + i)) (combine (gens n k) vs) = Some v.
Proof.
  unfold gens. revert n vs i. induction k as [|k IH]; intros n vs i L E.
  - destruct vs; [destruct i; discriminate|discriminate].
  - destruct vs as [|u vs]; [discriminate|]. cbn [seq map combine look]. destruct i as [|i].
    + rewrite Nat.add_0_r. cbn. rewrite Nat.eqb_refl. exact E.
    + cbn [nmeqb]. destruct (Nat.eqb_spec n (n + S i)); [lia|]. replace (n + S i) with (S n + i) by lia. apply IH; auto.
Qed.

Section Sim.
Variable W : Type.
Variable prim : nat -> list value -> W -> outcome value * W.
Variable mkdict : list (value * value) -> W -> outcome value * W.
Variable globals : string -> option value.
Notation eval := (eval W prim mkdict globals).
Notation seval := (seval W prim mkdict globals).
Notation fcall := (fcall W prim mkdict globals).
Notation scall := (scall W prim mkdict globals).

Definition envok (base : option nat) (args : option (list value)) (e e' : env) : Prop :=
  (forall x, is_user x = true -> base = None \/ x <> under -> look x e' = look x e) /\
  match args, base with
  | Some vs, Some b => forall i v, nth_error vs i = Some v -> look (Gen (b + i)) e' = Some v
  | None, None => True
  | _, _ => False
  end.
Definition fits (args : option (list value)) (n : nat) : Prop := match args with Some vs => n <= length vs | None => True end.
Inductive frel : sfun -> env * list nm * ex -> Prop :=
| RLam e args off ps b e' b' base : envok base args e e' -> corr true base off b b' -> fits args (off + slots b) ->
    forallb is_user ps = true -> base = None \/ existsb (nmeqb under) ps = false ->
    frel (SLam e args off ps b) (e', ps, b')
| RFn e b e' n b' : (forall x, is_user x = true -> x <> under -> look x e' = look x e) -> corr true (Some n) 0 b b' ->
    frel (SFn e b) (e', gens n (slots b), b').
Definition hrel (h : sheap W) (h' : heap W) : Prop := Forall2 frel (sfuns _ h) (funs _ h') /\ sworld _ h = world _ h'.
Definition rrel {A} (r : option (outcome A * sheap W)) (r' : option (outcome A * heap W)) : Prop :=
  match r, r' with
  | Some (a, h), Some (a', h') => a = a' /\ hrel h h'
  | None, None => True
  | _, _ => False
  end.
Lemma hrel_new f f' h h' : hrel h h' -> frel f f' ->
  rrel (Some (Ok (VFun (length (sfuns _ h))), mkSH _ (sfuns _ h ++ [f]) (sworld _ h)))
       (Some (Ok (VFun (length (funs _ h'))), mkH _ (funs _ h' ++ [f']) (world _ h'))).
Proof.
  intros [F E] R. cbn. assert (L : length (sfuns _ h) = length (funs _ h')) by (clear -F; induction F; cbn; congruence).
  rewrite L. split; [reflexivity|]. split; cbn; [|exact E]. apply Forall2_app; auto.
Qed.
Lemma hrel_prim (h : sheap W) (h' : heap W) (f : W -> outcome value * W) : hrel h h' ->
  rrel (let (r, w) := f (sworld _ h) in Some (r, mkSH _ (sfuns _ h) w)) (let (r, w) := f (world _ h') in Some (r, mkH _ (funs _ h') w)).
Proof. intros [F E]. rewrite E. destruct (f (world _ h')) as [r w]. split; [reflexivity|]. split; [exact F|reflexivity]. Qed.

Section Ev.
Variable call : value -> list value -> sheap W -> option (outcome value * sheap W).
Variable call' : value -> list value -> heap W -> option (outcome value * heap W).
Hypothesis Hcall : forall g vs h h', hrel h h' -> rrel (call g vs h) (call' g vs h').
Variables (args : option (list value)) (e e' : env).

Definition evals := fix evals (l : list ex) (h : heap W) : option (outcome (list value) * heap W) :=
    match l with
    | [] => Some (Ok [], h)
    | t :: l =>
        match eval call' e' t h with
        | Some (Ok v, h) => match evals l h with Some (Ok vs, h) => Some (Ok (v :: vs), h) | r => r end
        | Some (Raise x, h) => Some (Raise x, h)
        | None => None
        end
    end.
Definition sevals := fix evals (off : nat) (l : list ex) (h : sheap W) : option (outcome (list value) * sheap W) :=
    match l with
    | [] => Some (Ok [], h)
    | t :: l =>
        match seval call e args off t h with
        | Some (Ok v, h) => match evals (off + slots t) l h with Some (Ok vs, h) => Some (Ok (v :: vs), h) | r => r end
        | Some (Raise x, h) => Some (Raise x, h)
        | None => None
        end
    end.
Definition evald := fix items (l : list (ex * ex)) (h : heap W) : option (outcome (list (value * value)) * heap W) :=
               match l with
               | [] => Some (Ok [], h)
               | (k, t) :: l =>
                   match eval call' e' k h with
                   | Some (Ok k, h) =>
                       match eval call' e' t h with
                       | Some (Ok v, h) => match items l h with Some (Ok vs, h) => Some (Ok ((k, v) :: vs), h) | r => r end
                       | Some (Raise x, h) => Some (Raise x, h)
                       | None => None
                       end
                   | Some (Raise x, h) => Some (Raise x, h)
                   | None => None
                   end
               end.
Definition sevald := fix items (off : nat) (l : list (ex * ex)) (h : sheap W) : option (outcome (list (value * value)) * sheap W) :=
               match l with
               | [] => Some (Ok [], h)
               | (k, t) :: l =>
                   match seval call e args off k h with
                   | Some (Ok kv, h) =>
                       match seval call e args (off + slots k) t h with
                       | Some (Ok v, h) =>
                           match items (off + slots k + slots t) l h with Some (Ok vs, h) => Some (Ok ((kv, v) :: vs), h) | r => r end
                       | Some (Raise x, h) => Some (Raise x, h)
                       | None => None
                       end
                   | Some (Raise x, h) => Some (Raise x, h)
                   | None => None
                   end
               end.
Ltac step0 IH E FL := let Q := fresh in assert (Q := IH E);
  match type of Q with fits ?a ?n -> _ => let F := fresh in assert (F : fits a n) by (apply FL; lia); match goal with H : hrel _ _ |- _ => specialize (Q F _ _ H); clear H end end;
  match type of Q with rrel ?a ?b => destruct a as [[[?|?] ?]|], b as [[[?|?] ?]|]; cbn in Q; try contradiction; try (lazymatch type of Q with _ /\ _ => destruct Q as [Q ?]; try discriminate Q end); try (solve [exact I|subst; split; auto|injection Q as <-; split; auto]) end;
  injection Q as <-.
Ltac step A := let Q := fresh in pose proof A as Q;
  match type of Q with rrel ?a ?b => destruct a as [[[?|?] ?]|], b as [[[?|?] ?]|]; cbn in Q; try contradiction; try (lazymatch type of Q with _ /\ _ => destruct Q as [Q ?]; try discriminate Q end); try (solve [exact I|subst; split; auto|injection Q as <-; split; auto]) end.
Lemma fits_le n m : fits args m -> n <= m -> fits args n.
Proof. unfold fits. destruct args; [lia|auto]. Qed.
Lemma sim :
  (forall base off s t, corr true base off s t -> envok base args e e' -> fits args (off + slots s) ->
     forall h h', hrel h h' -> rrel (seval call e args off s h) (eval call' e' t h')) /\
  (forall base off l l', corrs true base off l l' -> envok base args e e' -> fits args (off + list_sum (map slots l)) ->
     forall h h', hrel h h' -> rrel (sevals off l h) (evals l' h')) /\
  (forall base off l l', corrd true base off l l' -> envok base args e e' -> fits args (off + dslots l) ->
     forall h h', hrel h h' -> rrel (sevald off l h) (evald l' h')).
Proof.
  apply corr_all.
  - intros base off v E F h h' H. split; auto.
  - intros base off x N U E F h h' H. destruct E as [E1 E2]. cbn [seval eval FnlSpec.seval FnlModel.eval].
    rewrite (E1 x U N). split; [|exact H].
    destruct args as [vs|]; [|reflexivity]. destruct base as [b|]; [|contradiction]. destruct N as [N|N]; [discriminate|].
    destruct x as [x|]; [|discriminate].
    destruct x as [|a [|b' x]]; try reflexivity; destruct a as [[] [] [] [] [] [] [] []]; try reflexivity; now destruct N.
  - intros b off E F h h' H. cbn. destruct E as [_ E]. destruct args as [vs|]; [|contradiction].
    cbn in F. destruct (nth_error vs off) as [v|] eqn:N; [|apply nth_error_None in N; lia].
    rewrite (E _ _ N). split; auto.
  - intros base off o l l' C IH E F h h' H. cbn [FnlSpec.seval FnlModel.eval]. fold sevals evals.
    step (IH E F h h' H).  injection H0 as <-. match goal with |- context [prim o ?vs] => now apply (hrel_prim _ _ (prim o vs)) end.
  - intros base off f l f' l' C IH Cl IHl E F h h' H. cbn [slots] in F.  pose proof (fun n => fits_le n _ F) as FL. cbn [FnlSpec.seval FnlModel.eval]. fold sevals evals.
    step0 IH E FL.
    step0 IHl E FL. now apply Hcall.
  - intros base off a t b a' t' b' Ca IHa Ct IHt Cb IHb E F h h' H. cbn [slots] in F.  pose proof (fun n => fits_le n _ F) as FL. cbn [FnlSpec.seval FnlModel.eval].
    step0 IHt E FL.
    destruct (truthy _); [apply IHa|apply IHb]; auto; apply FL; lia.
  - intros base off l l' C IH E F h h' H. cbn [FnlSpec.seval FnlModel.eval]. fold sevald evald.
    step (IH E F h h' H).  injection H0 as <-. match goal with |- context [mkdict ?vs] => now apply (hrel_prim _ _ (mkdict vs)) end.
  - intros base off ps b b' U N C IH E F h h' H. apply hrel_new; [exact H|]. now apply RLam with base.
  - discriminate.
  - intros base off n b b' _ C IH E F h h' H. apply hrel_new; [exact H|]. apply RFn; [|exact C].
    intros x U N. apply E; auto.
  - intros base off E F h h' H. split; auto.
  - intros base off t l t' l' C IH Cl IHl E F h h' H. cbn [sevals evals]. cbn [map list_sum fold_right] in F.
    change (fold_right Nat.add 0 (map slots l)) with (list_sum (map slots l)) in F.
 pose proof (fun n => fits_le n _ F) as FL.     step0 IH E FL.
    fold sevals evals. step0 IHl E FL.
  - intros base off E F h h' H. split; auto.
  - intros base off k v l k' v' l' Ck IHk Cv IHv Cl IHl E F h h' H. cbn [sevald evald]. unfold dslots in F. cbn [map list_sum fold_right fst snd] in F.
    change (fold_right Nat.add 0 (map (fun kv => slots (fst kv) + slots (snd kv)) l)) with (dslots l) in F.
 pose proof (fun n => fits_le n _ F) as FL.     step0 IHk E FL.
    step0 IHv E FL.
    fold sevald evald. step0 IHl E FL.
Qed.
End Ev.
Lemma call_sim fuel : forall g vs h h', hrel h h' -> rrel (scall fuel g vs h) (fcall fuel g vs h').
Proof.
  induction fuel as [|fuel IH]; intros g vs h h' H; cbn [FnlSpec.scall FnlModel.fcall]; [exact I|].
  destruct g as [| | |n]; try (split; auto; fail).
  destruct H as [F E].
  assert (N : match nth_error (sfuns _ h) n, nth_error (funs _ h') n with Some f, Some f' => frel f f' | None, None => True | _, _ => False end).
  { clear -F. revert F n. generalize (sfuns _ h) (funs _ h'). induction 1; intros [|n]; cbn; auto. apply IHF. }
  destruct (nth_error (sfuns _ h) n) as [f|], (nth_error (funs _ h') n) as [f'|]; try contradiction; [|split; [reflexivity|split; auto]].
  destruct N as [e args off ps b e' b' base Ho C Fi U Nu|e b e' n' b' L C].
  - destruct (length ps =? length vs) eqn:Len; [|split; [reflexivity|split; auto]].
    eapply sim; eauto; [|split; auto]. destruct Ho as [O1 O2]. split.
    + intros x Ux Nx. rewrite !look_app. rewrite (O1 x Ux Nx). reflexivity.
    + destruct args, base; auto. intros i v Hv. rewrite look_app, look_users_gen by exact U. auto.
  - unfold gens at 1. rewrite map_length, seq_length. destruct (slots b =? length vs) eqn:Len; [|split; [reflexivity|split; auto]].
    apply Nat.eqb_eq in Len. eapply sim; eauto; [|cbn; lia|split; auto]. split.
    + intros x Ux [Nx|Nx]; [discriminate|]. rewrite look_app. destruct x as [x|]; [|discriminate]. rewrite look_gens_user. auto.
    + intros i v Hv. rewrite look_app, (look_gens _ _ _ _ v); auto.
Qed.
Lemma run_sim k n t t' n' fuel w : plain false t = true -> expand k n t = Some (t', n') ->
  run W prim mkdict globals fuel t' w = srun W prim mkdict globals fuel t w.
Proof.
  intros U E. pose proof (expand_ok k _ _ _ _ _ _ _ (corr_refl t U 0) E) as C. unfold run, srun.
  pose proof (proj1 (sim _ _ (call_sim fuel) None [] []) _ _ _ _ C) as S.
  assert (S' : rrel (seval (scall fuel) [] None 0 t (mkSH _ [] w)) (eval (fcall fuel) [] t' (mkH _ [] w))).
  { apply S; [split; auto|exact I|split; [constructor|reflexivity]]. }
  destruct (seval _ [] None 0 t _) as [[r h]|], (eval _ [] t' _) as [[r' h']|]; cbn in S'; try contradiction; [|reflexivity].
  destruct S' as [-> [_ E']]. now rewrite E'.
Qed.
End Sim.

(** ** The expansion ends *)
Fixpoint sz (t : ex) : nat :=
  match t with
  | FConst _ | FName _ => 1
  | FPrim _ l => S (list_sum (map sz l))
  | FCall f l => S (sz f + list_sum (map sz l))
  | FIf a t b => S (sz a + sz t + sz b)
  | FDict l => S (list_sum (map (fun kv => sz (fst kv) + sz (snd kv)) l))
  | FLam _ b => S (sz b)
  | FFn b => S (S (sz b))
  end.
Lemma transform_sz t : forall n, sz (fst (transform n t)) = sz t.
Proof.
  induction t using ex_ind'; intros n; cbn [transform].
  - reflexivity.
  - destruct x as [x|i]; [|reflexivity]. destruct x as [|a [|b x]]; try reflexivity; destruct a as [[] [] [] [] [] [] [] []]; reflexivity.
  - fold trs. assert (E : forall n, list_sum (map sz (fst (trs n l))) = list_sum (map sz l)).
    { unfold list_sum. induction H as [|t l G _ IH]; intros m; [reflexivity|]. cbn [trs]. specialize (G m). destruct (transform m t) as [t' m1]. specialize (IH m1).
      fold trs. destruct (trs m1 l). cbn in *; unfold list_sum in *; cbn in *; lia. }
    specialize (E n). destruct (trs n l). cbn in *; unfold list_sum in *; cbn in *; lia.
  - fold trs. assert (E : forall n, list_sum (map sz (fst (trs n l))) = list_sum (map sz l)).
    { unfold list_sum. induction H as [|t0 l G _ IH]; intros m; [reflexivity|]. cbn [trs]. specialize (G m). destruct (transform m t0) as [t' m1]. specialize (IH m1).
      fold trs. destruct (trs m1 l). cbn in *; unfold list_sum in *; cbn in *; lia. }
    specialize (IHt n). destruct (transform n t) as [f' m]. specialize (E m). destruct (trs m l). cbn in *; unfold list_sum in *; cbn in *; lia.
  - specialize (IHt2 n). destruct (transform n t2) as [? m2]. specialize (IHt1 m2). destruct (transform m2 t1) as [? m1].
    specialize (IHt3 m1). destruct (transform m1 t3). cbn in *; unfold list_sum in *; cbn in *; lia.
  - fold trk trv.
    assert (E : forall n m, list_sum (map (fun kv => sz (fst kv) + sz (snd kv)) (combine (fst (trk n l)) (fst (trv m l)))) =
                 list_sum (map (fun kv => sz (fst kv) + sz (snd kv)) l)).
    { unfold list_sum. induction H as [|[k v] l [Gk Gv] _ IH]; intros n1 m1; [reflexivity|]. cbn [trk trv]. cbn [fst snd] in Gk, Gv.
      specialize (Gk n1). specialize (Gv m1). destruct (transform n1 k) as [k' n2], (transform m1 v) as [v' m2]. specialize (IH n2 m2).
      fold trk trv. destruct (trk n2 l), (trv m2 l). cbn in *; unfold list_sum in *; cbn in *; lia. }
    destruct (trk n l) as [ks m] eqn:K. specialize (E n m). rewrite K in E. destruct (trv m l). cbn in *; unfold list_sum in *; cbn in *; lia.
  - specialize (IHt n). destruct (transform n t). cbn in *; unfold list_sum in *; cbn in *; lia.
  - reflexivity.
Qed.
Lemma exps_some k l : (forall t n, In t l -> exists t' n', expand k n t = Some (t', n')) -> forall n, exists l' n', exps k n l = Some (l', n') /\ length l' = length l.
Proof.
  induction l as [|t l IH]; intros H n; [cbn; eauto|]. cbn [exps]. destruct (H t n) as (t' & n1 & ->); [now left|]. fold (exps k).
  destruct IH with (n := n1) as (l' & n2 & -> & L); [intros; apply H; now right|]. eexists _, _. split; [reflexivity|]. cbn. congruence.
Qed.
Lemma sz_in {A} (f : A -> nat) x l : In x l -> f x <= list_sum (map f l).
Proof. unfold list_sum. induction l as [|y l IH]; intros H; [destruct H|]. cbn. destruct H as [->|H]; [lia|]. specialize (IH H). lia. Qed.
Lemma expand_some k : forall n t, sz t < k -> exists t' n', expand k n t = Some (t', n').
Proof.
  induction k as [k IHk] using (well_founded_induction lt_wf). intros n t L. destruct k as [|k]; [lia|].
  assert (IH : forall n t, sz t < k -> exists t' n', expand k n t = Some (t', n')) by (intros; apply IHk; lia).
  cbn [expand]. fold (exps k). destruct t; cbn [sz] in L.
  - eauto.
  - eauto.
  - destruct (exps_some k l) with (n := n) as (l' & n' & -> & _); [|eauto]. intros t m I. apply IH. apply (sz_in sz) in I. lia.
  - destruct (IH n t) as (t' & n1 & ->); [lia|].
    destruct (exps_some k l) with (n := n1) as (l' & n' & -> & Le); [|eauto].
    intros u m I. apply IH. apply (sz_in sz) in I. lia.
  - destruct (IH n t2) as (? & n1 & ->); [lia|]. destruct (IH n1 t1) as (? & n2 & ->); [lia|]. destruct (IH n2 t3) as (? & n3 & ->); [lia|]. eauto.
  - destruct (exps_some k (map fst l)) with (n := n) as (l1 & n1 & -> & _).
    { intros u m I. apply in_map_iff in I as (kv & <- & I). apply IH. apply (sz_in (fun kv => sz (fst kv) + sz (snd kv))) in I. lia. }
    destruct (exps_some k (map snd l)) with (n := n1) as (l2 & n2 & -> & _); [|eauto].
    intros u m I. apply in_map_iff in I as (kv & <- & I). apply IH. apply (sz_in (fun kv => sz (fst kv) + sz (snd kv))) in I. lia.
  - destruct (IH n t) as (t' & n' & ->); [lia|eauto].
  - pose proof (transform_sz t n) as Z. destruct (transform n t) as [b m]. cbn in Z. apply IH. cbn. lia.
Qed.
Lemma expand_ends t : exists k0, forall k n, k0 <= k -> exists t' n', expand k n t = Some (t', n').
Proof. exists (S (sz t)). intros k n L. apply expand_some. lia. Qed.
