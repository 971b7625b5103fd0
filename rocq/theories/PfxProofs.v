(** Proofs about prefix. *)
From Coq Require Import String List ZArith Bool Arith Lia.
From Verif Require Import Base PfxModel PfxSpec.
Import ListNotations.
Open Scope string_scope.
Open Scope list_scope.
Open Scope nat_scope.

(** ** Lists *)
Lemma mapO_cons {A B} (f : A -> outcome B) a l :
  mapO f (a :: l) = obind (f a) (fun b => obind (mapO f l) (fun l => Ok (b :: l))).
Proof. reflexivity. Qed.
Lemma mapO_map {A B C} (f : B -> outcome C) (g : A -> B) l : mapO f (map g l) = mapO (fun a => f (g a)) l.
Proof. induction l as [|a l IH]; [reflexivity|]. cbn [map]. rewrite !mapO_cons, IH. reflexivity. Qed.
Lemma filter_map {A B} (p : B -> bool) (g : A -> B) l : filter p (map g l) = map g (filter (fun a => p (g a)) l).
Proof. induction l as [|a l IH]; [reflexivity|]. cbn. destruct (p (g a)); cbn; now rewrite IH. Qed.
Lemma existsb_map {A B} (p : B -> bool) (g : A -> B) l : existsb p (map g l) = existsb (fun a => p (g a)) l.
Proof. induction l as [|a l IH]; [reflexivity|]. cbn. now rewrite IH. Qed.
Lemma obind_ok {A B} (m : outcome A) (k : A -> outcome B) b : obind m k = Ok b -> exists a, m = Ok a /\ k a = Ok b.
Proof. destruct m; cbn; [eauto|discriminate]. Qed.

(** ** The last definition wins *)
Lemma uniqify_app {A} (l1 l2 : list (option string * A)) : forall seen,
  uniqify seen (l1 ++ l2) = uniqify seen l1 ++ uniqify (rev (map fst l1) ++ seen) l2.
Proof.
  assert (P : forall (l : list (option string * A)) s s', (forall k, existsb (same_key k) s = existsb (same_key k) s') -> uniqify s l = uniqify s' l).
  { induction l as [|kv l IH]; intros s s' H; [reflexivity|]. cbn. rewrite H. destruct (existsb (same_key (fst kv)) s').
    - now apply IH.
    - f_equal. apply IH. intros k. cbn. now rewrite H. }
  assert (S : forall k l, existsb (same_key k) l = true -> forall k', same_key k' k = true -> existsb (same_key k') l = true).
  { intros k l H k' Hk. apply existsb_exists in H as [j [Hj H]]. apply existsb_exists. exists j. split; [auto|].
    destruct k, k', j; cbn in *; try discriminate; auto. apply String.eqb_eq in Hk, H. subst. apply String.eqb_refl. }
  induction l1 as [|kv l1 IH]; intros seen; [reflexivity|]. cbn [app uniqify map rev].
  rewrite <- app_assoc. cbn [app]. destruct (existsb (same_key (fst kv)) seen) eqn:E.
  - rewrite IH. f_equal. apply P. intros k. rewrite !existsb_app. cbn. destruct (same_key k (fst kv)) eqn:E2; [|now rewrite orb_false_l].
    rewrite (S _ _ E _ E2). now rewrite !orb_true_r.
  - cbn. f_equal. apply IH.
Qed.
Lemma rightmost_latest {A} (l : list (string * A)) : latest (map some l) = map some (rightmost l).
Proof.
  unfold latest. induction l as [|[x a] l IH]; [reflexivity|]. cbn [map rev]. rewrite uniqify_app, rev_app_distr.
  rewrite IH. cbn [uniqify some fst snd]. rewrite app_nil_r, map_rev, rev_involutive.
  assert (E : existsb (same_key (Some x)) (map fst (map some l)) = existsb (String.eqb x) (map fst l)).
  { rewrite map_map. rewrite !existsb_map. reflexivity. }
  rewrite E. cbn [rightmost]. destruct (existsb (String.eqb x) (map fst l)); reflexivity.
Qed.
Lemma uniqify_map {A B} (g : A -> B) (l : list (option string * A)) : forall seen,
  uniqify seen (map (fun kv => (fst kv, g (snd kv))) l) = map (fun kv => (fst kv, g (snd kv))) (uniqify seen l).
Proof. induction l as [|kv l IH]; intros seen; [reflexivity|]. cbn. rewrite !IH. now destruct (existsb _ seen). Qed.
Lemma latest_map {A B} (g : A -> B) (l : list (option string * A)) :
  latest (map (fun kv => (fst kv, g (snd kv))) l) = map (fun kv => (fst kv, g (snd kv))) (latest l).
Proof. unfold latest. rewrite <- map_rev, uniqify_map, map_rev. reflexivity. Qed.

(** ** The visit of a tuple *)
Definition nvis (lvl : nat) (ks : list (option string * ex)) : outcome (list (option string * ex)) :=
  mapO (fun kv => obind (pfx (snd kv) lvl) (fun v => Ok (fst kv, v))) ks.
Definition vis (e : ex) : nat -> outcome (list (option string * ex)) :=
  match e with ECall _ _ ks => fun lvl => nvis lvl ks | _ => fun _ => Ok [] end.
Definition it (e : ex) : item := (e, pfx e, vis e).
Lemma operators_head data : forall op lvl,
  operators lvl (it op) (map it data) =
  match head lvl (op :: data) with Some (n, l) => Ok (n, map it l) | None => Raise SyntaxError end.
Proof.
  induction data as [|d data IH]; intros op lvl.
  - cbn [map operators tree it fst]. unfold isunquote, isquote, isname. destruct op; try reflexivity.
    cbn [head]. destruct (String.eqb x "u") eqn:Eu.
    + apply String.eqb_eq in Eu as ->. now destruct lvl.
    + destruct (String.eqb x "q") eqn:Eq; [apply String.eqb_eq in Eq as ->; reflexivity|].
      apply String.eqb_neq in Eu, Eq.
      destruct x as [|[[] [] [] [] [] [] [] []] [|? ?]]; try reflexivity; congruence.
  - cbn [map operators tree it fst]. unfold isunquote, isquote, isname. destruct op; try reflexivity.
    cbn [head]. destruct (String.eqb x "u") eqn:Eu.
    + apply String.eqb_eq in Eu as ->. destruct lvl; [reflexivity|]. rewrite IH. reflexivity.
    + destruct (String.eqb x "q") eqn:Eq; [apply String.eqb_eq in Eq as ->; rewrite IH; reflexivity|].
      apply String.eqb_neq in Eu, Eq.
      destruct x as [|[[] [] [] [] [] [] [] []] [|? ?]]; try reflexivity; congruence.
Qed.
Lemma head_some lvl l : forall n l', head lvl l = Some (n, l') -> l' <> [].
Proof.
  revert lvl. induction l as [|e l IH]; intros lvl n l' H; [discriminate|].
  destruct e as [x| | | | | | |]; try (cbn in H; injection H as <- <-; discriminate).
  cbn [head] in H.
  destruct x as [|[[] [] [] [] [] [] [] []] [|? ?]]; try (injection H as <- <-; discriminate);
    try (destruct lvl; [discriminate|]); eauto.
Qed.
Lemma pfx_tuple l lvl :
  pfx (ETuple l) lvl =
  match l with
  | [] => Raise ValueError
  | _ =>
      match head lvl l with
      | None => Raise SyntaxError
      | Some (S n, l) =>
          if existsb iskwargs l then Raise SyntaxError
          else obind (mapO (fun e => pfx e (S n)) l) (fun l => Ok (ETuple l))
      | Some (0, []) => Raise ValueError
      | Some (0, f :: args) =>
          let pos := filter (fun e => negb (iskwargs e)) args in
          let kws := filter iskwargs args in
          if existsb positional kws then Raise SyntaxError else
          obind (pfx f 0) (fun f => obind (mapO (fun e => pfx e 0) pos) (fun a =>
          obind (mapO (fun e => vis e 0) kws) (fun ks => Ok (ECall f a (latest (concat ks))))))
      end
  end.
Proof.
  change (pfx (ETuple l) lvl) with
    (match map it l with
      | [] => Raise ValueError
      | op :: data =>
          obind (operators lvl op data) (fun r =>
          let '(lvl, its) := r in
          if 0 <? lvl then
            if existsb (fun i => iskwargs (tree i)) its then Raise SyntaxError
            else obind (mapO (fun i => snd (fst i) lvl) its) (fun l => Ok (ETuple l))
          else
            match its with
            | [] => Raise ValueError
            | op :: data =>
                let posargs := filter (fun i => negb (iskwargs (tree i))) data in
                let kwargs_calls := filter (fun i => iskwargs (tree i)) data in
                if existsb (fun i => positional (tree i)) kwargs_calls then Raise SyntaxError else
                obind (snd (fst op) lvl) (fun f =>
                obind (mapO (fun i => snd (fst i) lvl) posargs) (fun a =>
                obind (mapO (fun i => snd i lvl) kwargs_calls) (fun ks =>
                Ok (ECall f a (latest (concat ks))))))
            end)
      end).
  destruct l as [|op data]; [reflexivity|]. cbn [map]. rewrite operators_head.
  destruct (head lvl (op :: data)) as [[n l']|]; [|reflexivity]. cbn [obind].
  destruct n as [|n]; cbn [Nat.ltb Nat.leb].
  - destruct l' as [|f args]; [reflexivity|]. cbn [map]. cbn zeta.
    rewrite !filter_map, existsb_map, !mapO_map. reflexivity.
  - rewrite existsb_map, mapO_map. reflexivity.
Qed.

Section Meaning.
Variables (V W : Type).
Variable tuple : list V -> V.
Variable const : Z -> V.
Variable name : string -> D V W.
Variable call : V -> list V -> list (option string * V) -> D V W.
Variable item_of : V -> V -> D V W.
Variable letd : list (ex * D V W) -> D V W -> D V W.
Variable dod : list (D V W) -> D V W.
Variable other : string -> list (D V W) -> D V W.
Notation means := (means V W tuple const name call item_of letd dod other).
Notation means_all := (means_all V W tuple const name call item_of letd dod other).
Notation means_named := (means_named V W tuple const name call item_of letd dod other).
Notation means_kws := (means_kws V W tuple const name call item_of letd dod other).
Notation means_bs := (means_bs V W tuple const name call item_of letd dod other).
Notation eval := (eval V W tuple const name call item_of letd dod other).
Definition ev {A} (kv : A * ex) : A * D V W := (fst kv, eval (snd kv)).

Scheme means_i := Induction for PfxSpec.means Sort Prop
with means_all_i := Induction for PfxSpec.means_all Sort Prop
with means_named_i := Induction for PfxSpec.means_named Sort Prop
with means_kws_i := Induction for PfxSpec.means_kws Sort Prop
with means_bs_i := Induction for PfxSpec.means_bs Sort Prop.
Combined Scheme means_all_ind from means_i, means_all_i, means_named_i, means_kws_i, means_bs_i.

Lemma map_some_inj {A} (l : list (string * A)) l' : map some l = map some l' -> l = l'.
Proof.
  revert l'. induction l as [|[x a] l IH]; intros [|[y b] l']; try discriminate; auto.
  cbn. intros [= -> -> H]. f_equal; auto.
Qed.
Lemma complete :
  (forall lvl e d, means lvl e d -> exists e', pfx e lvl = Ok e' /\ d = eval e') /\
  (forall lvl l ds, means_all lvl l ds -> exists l', mapO (fun e => pfx e lvl) l = Ok l' /\ ds = map eval l') /\
  (forall lvl l ds, means_named lvl l ds -> exists l', nvis lvl l = Ok l' /\ ds = map ev l') /\
  (forall lvl l ds, means_kws lvl l ds -> existsb positional l = false /\
     exists kss, mapO (fun e => vis e lvl) l = Ok kss /\ map some ds = map ev (concat kss)) /\
  (forall lvl l ds, means_bs lvl l ds -> exists l',
     mapO (fun nv => obind (pfx (snd nv) lvl) (fun v => Ok (fst nv, v))) l = Ok l' /\ ds = map ev l').
Proof.
  apply (means_all_ind V W tuple const name call item_of letd dod other
    (fun lvl e d _ => exists e', pfx e lvl = Ok e' /\ d = eval e')
    (fun lvl l ds _ => exists l', mapO (fun e => pfx e lvl) l = Ok l' /\ ds = map eval l')
    (fun lvl l ds _ => exists l', nvis lvl l = Ok l' /\ ds = map ev l')
    (fun lvl l ds _ => existsb positional l = false /\
       exists kss, mapO (fun e => vis e lvl) l = Ok kss /\ map some ds = map ev (concat kss))
    (fun lvl l ds _ => exists l',
       mapO (fun nv => obind (pfx (snd nv) lvl) (fun v => Ok (fst nv, v))) l = Ok l' /\ ds = map ev l')).
  - intros lvl x. eexists. split; reflexivity.
  - intros lvl z. eexists. split; reflexivity.
  - intros lvl l n l' ds Hh Hk _ [l2 [E ->]]. rewrite pfx_tuple.
    destruct l as [|e l]; [discriminate|]. rewrite Hh.
    change iskwargs with named_args. replace (existsb named_args l') with false.
    + rewrite E. eexists. split; reflexivity.
    + symmetry. clear -Hk. induction Hk as [|a l H _ IH]; [reflexivity|]. cbn. now rewrite H.
  - intros lvl l f args df da dk Hh _ [f' [Ef ->]] _ [a' [Ea ->]] _ [Hp [kss [Ek Edk]]]. rewrite pfx_tuple.
    destruct l as [|e l]; [discriminate|]. rewrite Hh. cbn zeta. change iskwargs with named_args. rewrite Hp, Ef. cbn [obind]. rewrite Ea. cbn [obind].
    rewrite Ek. cbn [obind]. eexists. split; [reflexivity|]. cbn [PfxModel.eval].
    f_equal. rewrite <- rightmost_latest, Edk. change (fun kv : option string * ex => (fst kv, eval (snd kv))) with (@ev (option string)).
    apply (latest_map eval).
  - intros lvl f a ks df da dk _ [f' [Ef ->]] _ [a' [Ea ->]] _ [k' [Ek ->]]. cbn [pfx]. rewrite Ef. cbn [obind].
    rewrite Ea. cbn [obind]. unfold nvis in Ek. rewrite Ek. eexists. split; reflexivity.
  - intros lvl v t l dv dl _ [v' [Ev ->]] _ [l' [El ->]]. cbn [pfx]. rewrite El. cbn [obind]. rewrite Ev.
    eexists. split; reflexivity.
  - intros lvl bs b dbs db _ [bs' [Eb ->]] _ [b' [E ->]]. cbn [pfx]. rewrite Eb. cbn [obind]. rewrite E.
    eexists. split; reflexivity.
  - intros lvl l ds _ [l' [E ->]]. cbn [pfx]. rewrite E. eexists. split; reflexivity.
  - intros lvl k l ds _ [l' [E ->]]. cbn [pfx]. rewrite E. eexists. split; reflexivity.
  - intros lvl. exists []. split; reflexivity.
  - intros lvl e l d ds _ [e' [E ->]] _ [l' [El ->]]. rewrite mapO_cons, E. cbn [obind]. rewrite El.
    eexists. split; reflexivity.
  - intros lvl. exists []. split; reflexivity.
  - intros lvl k e l d ds _ [e' [E ->]] _ [l' [El ->]]. unfold nvis in *. rewrite mapO_cons. cbn [fst snd].
    rewrite E. cbn [obind]. rewrite El. eexists. split; reflexivity.
  - intros lvl. split; [reflexivity|]. exists []. split; reflexivity.
  - intros lvl f ks l d ds _ [k' [Ek Ed]] _ [Hp [kss [E Eds]]]. split; [exact Hp|].
    exists (k' :: kss). rewrite mapO_cons. cbn [vis]. rewrite Ek. cbn [obind]. rewrite E. split; [reflexivity|].
    cbn [concat]. rewrite !map_app, Ed, Eds. reflexivity.
  - intros lvl. exists []. split; reflexivity.
  - intros lvl n e l d ds _ [e' [E ->]] _ [l' [El ->]]. rewrite mapO_cons. cbn [fst snd].
    rewrite E. cbn [obind]. rewrite El. eexists. split; reflexivity.
Qed.

Fixpoint size (e : ex) : nat :=
  match e with
  | EName _ | EConst _ => 1
  | ETuple l | EDo l | EOther _ l => S (list_sum (map size l))
  | ECall f a ks => S (size f + list_sum (map size a) + list_sum (map (fun kv => size (snd kv)) ks))
  | ESub v _ l => S (size v + list_sum (map size l))
  | ELet bs b => S (list_sum (map (fun nv => size (snd nv)) bs) + size b)
  end.
Lemma size_in e l : In e l -> size e <= list_sum (map size l).
Proof.
  induction l as [|a l IH]; [intros []|]. intros [->|H]; cbn [map list_sum fold_right]; fold (list_sum (map size l)); [lia|].
  apply IH in H. lia.
Qed.
Lemma size_in2 {A} (kv : A * ex) l : In kv l -> size (snd kv) <= list_sum (map (fun kv => size (snd kv)) l).
Proof.
  induction l as [|a l IH]; [intros []|]. intros [->|H]; cbn [map list_sum fold_right];
    fold (list_sum (map (fun kv => size (snd kv)) l)); [lia|].
  apply IH in H. lia.
Qed.
Lemma head_in lvl l : forall n l', head lvl l = Some (n, l') -> forall e, In e l' -> In e l.
Proof.
  revert lvl. induction l as [|e l IH]; intros lvl n l' H e0 Hin; [discriminate|].
  destruct e as [x| | | | | | |]; try (cbn in H; injection H as <- <-; exact Hin).
  cbn [head] in H.
  destruct x as [|[[] [] [] [] [] [] [] []] [|? ?]]; try (injection H as <- <-; exact Hin);
    try (destruct lvl; [discriminate|]); right; eauto.
Qed.
Lemma all_means lvl l : forall l',
  (forall e, In e l -> forall e', pfx e lvl = Ok e' -> means lvl e (eval e')) ->
  mapO (fun e => pfx e lvl) l = Ok l' -> means_all lvl l (map eval l').
Proof.
  induction l as [|e l IH]; intros l' H E.
  - injection E as <-. constructor.
  - rewrite mapO_cons in E. apply obind_ok in E as [e' [E1 E]]. apply obind_ok in E as [l2 [E2 E]]. injection E as <-.
    cbn [map]. constructor; [apply H; [now left|exact E1]|]. apply IH; [|exact E2]. intros; apply H; [now right|auto].
Qed.
Lemma named_means lvl ks : forall l',
  (forall kv, In kv ks -> forall e', pfx (snd kv) lvl = Ok e' -> means lvl (snd kv) (eval e')) ->
  nvis lvl ks = Ok l' -> means_named lvl ks (map ev l').
Proof.
  unfold nvis. induction ks as [|[k e] l IH]; intros l' H E.
  - injection E as <-. constructor.
  - rewrite mapO_cons in E. apply obind_ok in E as [e' [E1 E]]. apply obind_ok in E1 as [e2 [E1 E3]].
    apply obind_ok in E as [l2 [E2 E]]. injection E as <-. injection E3 as <-.
    cbn [map ev fst snd]. constructor; [apply (H (k, e)); [now left|exact E1]|]. apply IH; [|exact E2].
    intros kv Hkv. apply H. now right.
Qed.
Lemma bs_means lvl ks : forall l',
  (forall kv, In kv ks -> forall e', pfx (snd kv) lvl = Ok e' -> means lvl (snd kv) (eval e')) ->
  mapO (fun nv => obind (pfx (snd nv) lvl) (fun v => Ok (fst nv, v))) ks = Ok l' -> means_bs lvl ks (map ev l').
Proof.
  induction ks as [|[k e] l IH]; intros l' H E.
  - injection E as <-. constructor.
  - rewrite mapO_cons in E. apply obind_ok in E as [e' [E1 E]]. apply obind_ok in E1 as [e2 [E1 E3]].
    apply obind_ok in E as [l2 [E2 E]]. injection E as <-. injection E3 as <-.
    cbn [map ev fst snd]. constructor; [apply (H (k, e)); [now left|exact E1]|]. apply IH; [|exact E2].
    intros kv Hkv. apply H. now right.
Qed.
Definition unsome {A} (l : list (option string * A)) : list (string * A) :=
  flat_map (fun kv => match fst kv with Some x => [(x, snd kv)] | None => [] end) l.
Lemma some_unsome {A} (l : list (option string * A)) :
  forallb (fun kv => match fst kv with Some _ => true | None => false end) l = true -> map some (unsome l) = l.
Proof.
  induction l as [|[[x|] a] l IH]; try discriminate; auto. intros H. cbn in H. change (map some (unsome ((Some x, a) :: l))) with ((Some x, a) :: map some (unsome l)). rewrite IH; auto.
Qed.
Lemma nvis_keys lvl ks : forall l', nvis lvl ks = Ok l' ->
  forallb (fun kv => match fst kv with Some _ => true | None => false end) ks = true ->
  forallb (fun kv : option string * D V W => match fst kv with Some _ => true | None => false end) (map ev l') = true.
Proof.
  unfold nvis. induction ks as [|[k e] l IH]; intros l' E H.
  - injection E as <-. reflexivity.
  - rewrite mapO_cons in E. apply obind_ok in E as [e' [E1 E]]. apply obind_ok in E1 as [e2 [E1 E3]].
    apply obind_ok in E as [l2 [E2 E]]. injection E as <-. injection E3 as <-.
    cbn [forallb] in H. apply andb_true_iff in H as [H1 H2]. cbn [map ev fst snd forallb]. rewrite IH; auto.
    cbn [fst] in H1. now rewrite H1.
Qed.
Lemma kws_means lvl l : forall kss,
  (forall e, In e l -> iskwargs e = true /\ positional e = false /\ nostars e = true) ->
  (forall f a ks, In (ECall f a ks) l -> forall kv, In kv ks -> forall e', pfx (snd kv) lvl = Ok e' -> means lvl (snd kv) (eval e')) ->
  mapO (fun e => vis e lvl) l = Ok kss ->
  exists ds, means_kws lvl l ds /\ map some ds = map ev (concat kss).
Proof.
  induction l as [|e l IH]; intros kss Hk H E.
  - injection E as <-. exists []. split; [constructor|reflexivity].
  - rewrite mapO_cons in E. apply obind_ok in E as [k' [E1 E]]. apply obind_ok in E as [l2 [E2 E]]. injection E as <-.
    destruct (Hk e (or_introl eq_refl)) as [K1 [K2 K3]].
    destruct e as [| | |f a ks| | | |]; try discriminate. destruct a as [|? ?]; [|discriminate].
    cbn [vis] in E1. cbn [iskwargs] in K1. cbn [nostars] in K3. change (named_args (ECall f [] ks)) with (iskwargs (ECall f [] ks)) in K3. cbn [iskwargs] in K3. rewrite K1 in K3.
    rewrite !andb_true_iff in K3. destruct K3 as [[[K3 _] _] _].
    destruct (IH l2) as [ds [I1 I2]].
    + intros e He. apply Hk. now right.
    + intros g b ks' Hin. apply (H g b ks'). now right.
    + exact E2.
    + pose proof (nvis_keys _ _ _ E1 K3) as Q.
      exists (unsome (map ev k') ++ ds). split.
      * constructor; [|exact I1]. pose proof (named_means lvl ks k') as QQ; rewrite <- (some_unsome _ Q) in QQ; apply QQ; [|exact E1].
        apply (H f [] ks). now left.
      * cbn [concat]. rewrite !map_app, I2, some_unsome by exact Q. reflexivity.
Qed.
Lemma forallb_in {A} (p : A -> bool) l a : forallb p l = true -> In a l -> p a = true.
Proof. rewrite forallb_forall. auto. Qed.
Lemma sound n : forall e lvl e', size e < n -> nostars e = true -> pfx e lvl = Ok e' -> means lvl e (eval e').
Proof.
  induction n as [|n IH]; intros e lvl e' Hs Hn E; [lia|].
  assert (L : forall l, list_sum (map size l) < n -> forallb nostars l = true -> forall lvl l',
    mapO (fun e => pfx e lvl) l = Ok l' -> means_all lvl l (map eval l')).
  { intros l Hl Hf lv l' El. apply all_means; [|exact El]. intros a Ha a' Ea. apply IH; [|eapply forallb_in; eauto|exact Ea].
    apply size_in in Ha. lia. }
  destruct e as [x|z|l|f a ks|v t l|bs b|l|k l]; cbn [size nostars] in *.
  - injection E as <-. constructor.
  - injection E as <-. constructor.
  - rewrite pfx_tuple in E. destruct l as [|e0 l0] eqn:El; [discriminate|]. rewrite <- El in *. clear e0 l0 El.
    destruct (head lvl l) as [[[|m] l']|] eqn:Hh; [| |discriminate].
    + destruct l' as [|f args]; [discriminate|]. cbn zeta in E.
      destruct (existsb positional (filter iskwargs args)) eqn:Hp; [discriminate|].
      apply obind_ok in E as [f' [E1 E]]. apply obind_ok in E as [a' [E2 E]]. apply obind_ok in E as [kss [E3 E]].
      injection E as <-. pose proof (head_in _ _ _ _ Hh) as Hin.
      destruct (kws_means 0 (filter iskwargs args) kss) as [dk [K1 K2]].
      * intros e He. apply filter_In in He as [He Hk]. split; [exact Hk|]. split.
        -- apply not_true_is_false. intros P. apply eq_true_false_abs in Hp; [exact Hp|]. apply existsb_exists.
           exists e. split; [apply filter_In; auto|exact P].
        -- eapply forallb_in; [exact Hn|]. apply Hin. now right.
      * intros g b ks He kv Hkv e' Ee'. apply filter_In in He as [He _].
        assert (He' : In (ECall g b ks) l) by (apply Hin; now right).
        pose proof (forallb_in _ _ _ Hn He') as Hns. cbn [nostars] in Hns. rewrite !andb_true_iff in Hns.
        destruct Hns as [_ Hns]. apply size_in in He'. cbn [size] in He'.
        apply IH; [|apply (forallb_in _ _ _ Hns Hkv)|exact Ee']. apply size_in2 in Hkv. lia.
      * exact E3.
      * cbn [PfxModel.eval]. change (fun kv : option string * ex => (fst kv, eval (snd kv))) with (@ev (option string)).
        replace (map ev (latest (concat kss))) with (map some (rightmost dk)).
        -- eapply MApply; [exact Hh| | |exact K1].
           ++ apply IH; [|eapply forallb_in; [exact Hn|]|exact E1].
              ** assert (Hf : In f l) by (apply Hin; now left). apply size_in in Hf. lia.
              ** apply Hin. now left.
           ++ apply all_means; [|exact E2]. intros a Ha a'' Ea. apply filter_In in Ha as [Ha _].
              assert (Ha' : In a l) by (apply Hin; now right).
              apply IH; [|eapply forallb_in; eauto|exact Ea]. apply size_in in Ha'. lia.
        -- rewrite <- rightmost_latest, K2. apply (latest_map eval).
    + destruct (existsb iskwargs l') eqn:Hk; [discriminate|]. apply obind_ok in E as [l2 [E1 E]]. injection E as <-.
      cbn [PfxModel.eval]. pose proof (head_in _ _ _ _ Hh) as Hin.
      eapply MQuote; [exact Hh| |].
      * apply Forall_forall. intros e He. apply not_true_is_false. intros P. apply eq_true_false_abs in Hk; [exact Hk|].
        apply existsb_exists. eauto.
      * apply all_means; [|exact E1]. intros a Ha a'' Ea. apply Hin in Ha.
        apply IH; [|eapply forallb_in; eauto|exact Ea]. apply size_in in Ha. lia.
  - cbn [pfx] in E. apply obind_ok in E as [f' [E1 E]]. apply obind_ok in E as [a' [E2 E]]. apply obind_ok in E as [k' [E3 E]].
    injection E as <-. rewrite !andb_true_iff in Hn. destruct Hn as [[[_ N1] N2] N3]. cbn [PfxModel.eval]. constructor.
    + apply IH; [lia|exact N1|exact E1].
    + apply L; [lia|exact N2|exact E2].
    + apply named_means; [|exact E3]. intros kv Hkv e' Ee. apply IH; [|apply (forallb_in _ _ _ N3 Hkv)|exact Ee].
      apply size_in2 in Hkv. lia.
  - cbn [pfx] in E. apply obind_ok in E as [l' [E1 E]]. apply obind_ok in E as [v' [E2 E]]. injection E as <-.
    apply andb_true_iff in Hn as [N1 N2]. cbn [PfxModel.eval]. constructor; [apply IH; auto; lia|apply L; auto; lia].
  - cbn [pfx] in E. apply obind_ok in E as [l' [E1 E]]. apply obind_ok in E as [v' [E2 E]]. injection E as <-.
    apply andb_true_iff in Hn as [N1 N2]. cbn [PfxModel.eval]. constructor; [|apply IH; auto; lia].
    apply bs_means; [|exact E1]. intros kv Hkv e' Ee. apply IH; [|apply (forallb_in _ _ _ N1 Hkv)|exact Ee].
    apply size_in2 in Hkv. lia.
  - cbn [pfx] in E. apply obind_ok in E as [l' [E1 E]]. injection E as <-. cbn [PfxModel.eval]. constructor. apply L; auto; lia.
  - cbn [pfx] in E. apply obind_ok in E as [l' [E1 E]]. injection E as <-. cbn [PfxModel.eval]. constructor. apply L; auto; lia.
Qed.
Lemma meaning e lvl d : nostars e = true ->
  (means lvl e d <-> exists e', pfx e lvl = Ok e' /\ d = eval e').
Proof.
  intros Hn. split; [apply complete|]. intros [e' [E ->]]. apply (sound (S (size e))); auto.
Qed.
End Meaning.

Lemma mapO_id {A} (f : A -> outcome A) l : (forall a, In a l -> f a = Ok a) -> mapO f l = Ok l.
Proof.
  induction l as [|a l IH]; intros H; [reflexivity|]. rewrite mapO_cons, H by now left. cbn [obind].
  rewrite IH by (intros; apply H; now right). reflexivity.
Qed.
Lemma untouched_n n : forall e lvl, size e < n -> notuples e = true -> pfx e lvl = Ok e.
Proof.
  induction n as [|n IH]; intros e lvl Hs Hn; [lia|].
  assert (L : forall l, list_sum (map size l) < n -> forallb notuples l = true -> mapO (fun e => pfx e lvl) l = Ok l).
  { intros l Hl Hf. apply mapO_id. intros a Ha. apply IH; [|eapply forallb_in; eauto]. apply size_in in Ha. lia. }
  assert (K : forall A (l : list (A * ex)), list_sum (map (fun kv => size (snd kv)) l) < n -> forallb (fun kv => notuples (snd kv)) l = true ->
    mapO (fun nv => obind (pfx (snd nv) lvl) (fun v => Ok (fst nv, v))) l = Ok l).
  { intros A l Hl Hf. apply mapO_id. intros [k a] Ha. cbn [fst snd]. rewrite IH; [reflexivity| |apply (forallb_in _ _ _ Hf Ha)].
    apply size_in2 in Ha. cbn [snd] in *. lia. }
  destruct e as [x|z|l|f a ks|v t l|bs b|l|k l]; cbn [size notuples pfx] in *; try reflexivity; try discriminate.
  - rewrite !andb_true_iff in Hn. destruct Hn as [[N1 N2] N3]. rewrite IH by (auto; lia). cbn [obind].
    rewrite L by (auto; lia). cbn [obind]. rewrite K by (auto; lia). reflexivity.
  - rewrite !andb_true_iff in Hn. destruct Hn as [N1 N2]. rewrite L by (auto; lia). cbn [obind]. rewrite IH by (auto; lia). reflexivity.
  - rewrite !andb_true_iff in Hn. destruct Hn as [N1 N2]. rewrite K by (auto; lia). cbn [obind]. rewrite IH by (auto; lia). reflexivity.
  - rewrite L by (auto; lia). reflexivity.
  - rewrite L by (auto; lia). reflexivity.
Qed.
Lemma untouched e lvl : notuples e = true -> pfx e lvl = Ok e.
Proof. intros H. apply (untouched_n (S (size e))); [lia|exact H]. Qed.
Lemma quote_unquote l lvl : l <> [] -> pfx (ETuple (EName "q" :: EName "u" :: l)) lvl = pfx (ETuple l) lvl.
Proof. intros H. rewrite !pfx_tuple. cbn [head]. destruct l; [congruence|reflexivity]. Qed.
Lemma stray_unquote l : pfx (ETuple (EName "u" :: l)) 0 = Raise SyntaxError.
Proof. rewrite pfx_tuple. reflexivity. Qed.
