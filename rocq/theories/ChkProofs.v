(** Proofs for C132. *)
From Coq Require Import ZArith List Bool Arith Lia.
From Verif Require Import Base ChkModel ChkSpec.
Import ListNotations.
Open Scope list_scope.
Open Scope nat_scope.

Section P.
Context {A : Type}.
Variable input : nat -> ev A.
Variable n : Z.
Notation session := (session input n).
Notation step := (step input n).
Notation items := (items input).
Notation N := (Z.to_nat n).

Lemma items_S k : items (S k) = items k ++ match input k with Item a => [a] | _ => [] end.
Proof. unfold ChkSpec.items. rewrite seq_S, flat_map_app. cbn. now rewrite app_nil_r. Qed.
Lemma given_snoc i (tr : list (op * res A)) o r : given i (tr ++ [(o, r)]) = given i tr ++ match o, r with NextItem j, Got a => if j =? i then [a] else [] | _, _ => [] end.
Proof. unfold given. rewrite flat_map_app. cbn. now rewrite app_nil_r. Qed.
Lemma opened_snoc (tr : list (op * res A)) o r : opened (tr ++ [(o, r)]) = opened tr + match o, r with NextChunk, Chunk _ => 1 | _, _ => 0 end.
Proof. unfold opened. rewrite filter_app, app_length. cbn. destruct o, r; reflexivity. Qed.
Lemma owned_snoc i owner (l : list A) j a : length owner = length l -> owned i (owner ++ [j]) (l ++ [a]) = owned i owner l ++ if j =? i then [a] else [].
Proof.
  intros E. unfold owned.
  revert l E. induction owner as [|o owner IH]; intros [|x l] E; try discriminate; cbn.
  - now destruct (j =? i).
  - cbn in E. injection E as E. destruct (o =? i); cbn; now rewrite IH.
Qed.
Lemma over_snoc o (tr : list (op * res A)) x : over o tr -> over o (tr ++ [x]).
Proof. intros [H|[e H]]; [left|right; exists e]; apply in_or_app; auto. Qed.
Lemma over_end o (tr : list (op * res A)) : over o (tr ++ [(o, End)]).
Proof. left. apply in_or_app. cbn. auto. Qed.
Lemma over_exn o (tr : list (op * res A)) e : over o (tr ++ [(o, Exn e)]).
Proof. right. exists e. apply in_or_app. cbn. auto. Qed.
Lemma nth_upd {X} (l : list X) i j x y : nth_error l i = Some y -> nth_error (upd l i x) j = if j =? i then Some x else nth_error l j.
Proof.
  revert i j. induction l as [|z l IH]; intros [|i] [|j] H; try discriminate; cbn in *; try reflexivity. now apply IH.
Qed.
Lemma len_upd {X} (l : list X) i x : length (upd l i x) = length l.
Proof. revert i. induction l as [|z l IH]; intros [|i]; cbn; auto. Qed.
Definition opt (x : option A) : list A := match x with Some a => [a] | None => [] end.

(** one chunk *)
Definition good (owner : list nat) (tr : list (op * res A)) (l : list A) (i : nat) (c : chunk A) : Prop :=
  given i tr ++ opt (head c) = owned i owner l /\ owned i owner l <> [] /\ (head c <> None -> given i tr = []) /\
  length (owned i owner l) + left c <= N /\
  (length (owned i owner l) + left c = N \/ left c = 0 /\ over (NextItem i) tr) /\
  (over (NextItem i) tr -> head c = None /\ left c = 0).
Definition inv (tr : list (op * res A)) (s : state A) (owner : list nat) : Prop :=
  length owner = length (items (calls s)) /\
  length (chunks s) = opened tr /\
  (forall o, In o owner -> o < opened tr) /\
  (forall i c, nth_error (chunks s) i = Some c -> good owner tr (items (calls s)) i c) /\
  (forall i r, In (NextItem i, r) tr -> i < opened tr) /\
  (going s = false <-> over NextChunk tr) /\ 2 <= N.

Lemma given_none i (tr : list (op * res A)) : (forall r, ~ In (NextItem i, r) tr) -> given i tr = [].
Proof.
  intros H. induction tr as [|[o r] tr IH]; [reflexivity|]. change ((match (o, r) with (NextItem j, Got a) => if j =? i then [a] else [] | _ => [] end) ++ given i tr = []). rewrite IH by (intros r' I; apply (H r'); now right). rewrite app_nil_r.
  destruct o as [|j]; [reflexivity|]. destruct r as [ | a | | ]; try reflexivity. destruct (Nat.eqb_spec j i) as [->|]; [|reflexivity]. destruct (H (Got a)). now left.
Qed.
Lemma owned_none i owner (l : list A) : ~ In i owner -> owned i owner l = [].
Proof.
  unfold owned. revert l. induction owner as [|o owner IH]; intros [|x l] H; try reflexivity. cbn.
  destruct (Nat.eqb_spec o i) as [->|Ne]; [destruct H; now left|]. apply IH. intros X. apply H. now right.
Qed.
Lemma over_snoc_inv o (tr : list (op * res A)) p r : over o (tr ++ [(p, r)]) -> over o tr \/ o = p /\ (r = End \/ exists e, r = Exn e).
Proof.
  intros [H|[e H]]; apply in_app_or in H; destruct H as [H|[H|[]]]; try (left; left; exact H); try (left; right; exists e; exact H); injection H as -> ->; right; eauto.
Qed.

Lemma good_other owner owner' tr l l' i c o r :
  good owner tr l i c -> o <> NextItem i ->
  (owner' = owner /\ l' = l \/ exists j a, j <> i /\ owner' = owner ++ [j] /\ l' = l ++ [a] /\ length owner = length l) ->
  good owner' (tr ++ [(o, r)]) l' i c.
Proof.
  intros (g1 & g2 & g3 & g4 & g5 & g6) No Hx. unfold good.
  assert (Eo : owned i owner' l' = owned i owner l).
  { destruct Hx as [[-> ->]|(j & a & Nj & -> & -> & Ll)]; [reflexivity|]. rewrite owned_snoc by exact Ll. destruct (Nat.eqb_spec j i); [contradiction|]. apply app_nil_r. }
  assert (Eg : given i (tr ++ [(o, r)]) = given i tr).
  { rewrite given_snoc. destruct o as [|j]; [apply app_nil_r|]. destruct r; try apply app_nil_r. destruct (Nat.eqb_spec j i); [congruence|apply app_nil_r]. }
  rewrite Eo, Eg. split; [exact g1|]. split; [exact g2|]. split; [exact g3|]. split; [exact g4|]. split.
  - destruct g5 as [g5|[g5 g5']]; [now left|right; split; [exact g5|now apply over_snoc]].
  - intros Y. apply over_snoc_inv in Y. destruct Y as [Y|[Y _]]; [now apply g6|now symmetry in Y].
Qed.
Lemma item_in_snoc (tr : list (op * res A)) o r m :
  (forall i r, In (NextItem i, r) tr -> i < m) -> (forall i, o = NextItem i -> i < m) -> forall i r', In (NextItem i, r') (tr ++ [(o, r)]) -> i < m.
Proof. intros H Ho i r' I. apply in_app_or in I. destruct I as [I|[I|[]]]; [eauto|]. injection I as E1 _. now apply Ho. Qed.

(** one step: what it does to the invariant *)
Lemma inv_same tr s owner o r s' : inv tr s owner ->
  chunks s' = chunks s -> items (calls s') = items (calls s) -> o = NextChunk -> (r = End \/ exists e, r = Exn e) -> going s' = false ->
  inv (tr ++ [(o, r)]) s' owner.
Proof.
  intros (Lo & Lc & Ho & Hg & Hi & Hv & L2) Ec Eit -> Er Eg. unfold inv. rewrite Ec, Eit, opened_snoc.
  replace (opened tr + _) with (opened tr) by (destruct Er as [->|[e ->]]; lia).
  split; [exact Lo|]. split; [exact Lc|]. split; [exact Ho|]. split.
  { intros i c Hn. apply (good_other owner owner tr (items (calls s)) _ i c); [now apply Hg|discriminate|now left]. }
  split; [apply item_in_snoc; [exact Hi|discriminate]|]. split; [|exact L2]. rewrite Eg. split; [|reflexivity]. intros _.
  destruct Er as [->|[e ->]]; [apply over_end|apply over_exn].
Qed.
Lemma inv_item tr s owner i c r s' owner' c' : inv tr s owner -> nth_error (chunks s) i = Some c ->
  going s' = going s -> chunks s' = upd (chunks s) i c' ->
  (owner' = owner /\ items (calls s') = items (calls s) \/ exists a, owner' = owner ++ [i] /\ items (calls s') = items (calls s) ++ [a]) ->
  good owner' (tr ++ [(NextItem i, r)]) (items (calls s')) i c' ->
  inv (tr ++ [(NextItem i, r)]) s' owner'.
Proof.
  intros (Lo & Lc & Ho & Hg & Hi & Hv & L2) Hn Eg Ec Hx Gi. unfold inv. rewrite Ec, Eg, opened_snoc, Nat.add_0_r, len_upd.
  assert (Li : i < opened tr) by (rewrite <- Lc; apply nth_error_Some; congruence).
  split; [destruct Hx as [[-> ->]|(a & -> & ->)]; [exact Lo|rewrite !app_length, Lo; reflexivity]|]. split; [exact Lc|].
  split; [destruct Hx as [[-> _]|(a & -> & _)]; [exact Ho|intros o I; apply in_app_or in I; destruct I as [I|[<-|[]]]; auto]|]. split.
  { intros j d Hj. rewrite (nth_upd _ _ _ _ c Hn) in Hj. destruct (Nat.eqb_spec j i) as [->|Ne]; [injection Hj as <-; exact Gi|].
    apply (good_other owner owner' tr (items (calls s)) _ j d); [now apply Hg|congruence|].
    destruct Hx as [[-> ->]|(a & -> & ->)]; [now left|]. right. exists i, a. auto. }
  split; [apply item_in_snoc; [exact Hi|now intros k [= <-]]|]. split; [|exact L2]. rewrite Hv. split; [apply over_snoc|].
  intros X. apply over_snoc_inv in X. destruct X as [X|[X _]]; [exact X|discriminate].
Qed.
Lemma same_upd {X} (l : list X) i x : nth_error l i = Some x -> upd l i x = l.
Proof. revert i. induction l as [|y l IH]; intros [|i] H; try discriminate; cbn in *; [now injection H as ->|]. now rewrite IH. Qed.

(** what a step does *)
Inductive acts (tr : list (op * res A)) (s : state A) (owner : list nat) : op -> res A -> state A -> list nat -> Prop :=
| act_open a s' : going s = true -> input (calls s) = Item a -> calls s' = S (calls s) ->
    acts tr s owner NextChunk (Chunk (opened tr)) s' (owner ++ [opened tr])
| act_close r s' : going s = true -> (input (calls s) = Stop /\ r = End \/ exists e, input (calls s) = Fail e /\ r = Exn e) -> calls s' = S (calls s) ->
    acts tr s owner NextChunk r s' owner
| act_closed : going s = false -> acts tr s owner NextChunk End s owner
| act_head i a s' : given i tr = [] -> owned i owner (items (calls s)) = [a] -> i < opened tr -> ~ over (NextItem i) tr -> calls s' = calls s ->
    acts tr s owner (NextItem i) (Got a) s' owner
| act_none i : given i tr <> [] -> i < opened tr -> length (given i tr) = N \/ over (NextItem i) tr -> acts tr s owner (NextItem i) End s owner
| act_item i a s' : given i tr <> [] -> i < opened tr -> ~ over (NextItem i) tr -> length (given i tr) < N -> input (calls s) = Item a -> calls s' = S (calls s) ->
    acts tr s owner (NextItem i) (Got a) s' (owner ++ [i])
| act_over i r s' : given i tr <> [] -> i < opened tr -> ~ over (NextItem i) tr -> length (given i tr) < N -> (input (calls s) = Stop /\ r = End \/ exists e, input (calls s) = Fail e /\ r = Exn e) -> calls s' = S (calls s) ->
    acts tr s owner (NextItem i) r s' owner.

Lemma step_acts tr s owner o r s' : inv tr s owner -> step s o = Some (r, s') ->
  exists owner', inv (tr ++ [(o, r)]) s' owner' /\ acts tr s owner o r s' owner'.
Proof.
  intros I E. pose proof I as (Lo & Lc & Ho & Hg & Hi & Hv & L2). destruct o as [|i]; cbn in E.
  - injection E as E. unfold next_chunk in E. destruct (going s) eqn:G.
    + destruct (input (calls s)) as [a| |e] eqn:Ei; injection E as <- <-.
      * exists (owner ++ [opened tr]). rewrite Lc. split; [|econstructor; eauto]. unfold inv. cbn [calls chunks going]. rewrite items_S, Ei, !app_length, opened_snoc, Lc. cbn [length].
        split; [lia|]. split; [lia|]. split.
        { intros o X. apply in_app_or in X. destruct X as [X|[<-|[]]]; [specialize (Ho o X)|]; lia. }
        split; [|split; [|split; [|exact L2]]].
        -- intros i c Hn. destruct (Nat.eq_dec i (opened tr)) as [->|Ne].
           ++ rewrite nth_error_app2, Lc, Nat.sub_diag in Hn by lia. injection Hn as <-. unfold good. cbn [head left opt]. rewrite given_snoc, owned_snoc by exact Lo.
              rewrite Nat.eqb_refl, (owned_none (opened tr) owner) by (intros X; specialize (Ho _ X); lia).
              assert (Gn : given (opened tr) tr = []) by (apply given_none; intros r X; specialize (Hi _ _ X); lia). rewrite Gn. cbn [app length].
              split; [reflexivity|]. split; [discriminate|]. split; [reflexivity|]. split; [lia|]. split; [left; lia|].
              intros X. apply over_snoc_inv in X. destruct X as [[X|[e X]]|[X _]]; [specialize (Hi _ _ X); lia|specialize (Hi _ _ X); lia|discriminate].
           ++ assert (Li : i < length (chunks s ++ [mkC (Some a) (N - 1)])) by (apply nth_error_Some; congruence). rewrite app_length in Li. cbn in Li.
              rewrite nth_error_app1 in Hn by lia. apply (good_other owner _ tr (items (calls s)) _ i c); [now apply Hg|discriminate|]. right. exists (opened tr), a. auto.
        -- intros i r X. apply in_app_or in X. destruct X as [X|[X|[]]]; [specialize (Hi _ _ X); lia|discriminate].
        -- split; [discriminate|]. intros X. apply over_snoc_inv in X. destruct X as [X|[_ [X|[e X]]]]; [apply Hv in X; congruence|discriminate|discriminate].
      * exists owner. split; [|apply act_close; auto]. apply (inv_same tr s); auto. cbn [calls]. now rewrite items_S, Ei, app_nil_r.
      * exists owner. split; [|apply act_close; eauto]. apply (inv_same tr s); eauto. cbn [calls]. now rewrite items_S, Ei, app_nil_r.
    + injection E as <- <-. exists owner. split; [|now constructor]. apply (inv_same tr s); auto.
  - unfold next_item in E. destruct (nth_error (chunks s) i) as [c|] eqn:Hn; [|discriminate].
    assert (Li : i < opened tr) by (rewrite <- Lc; apply nth_error_Some; congruence).
    destruct (Hg i c Hn) as (g1 & g2 & g3 & g4 & g5 & g6). destruct (head c) as [a|] eqn:Hd.
    + injection E as <- <-. exists owner. assert (Gn : given i tr = []) by (apply g3; discriminate). assert (Nv : ~ over (NextItem i) tr) by (intros X; now destruct (g6 X)).
      rewrite Gn in g1. cbn in g1. split; [|constructor; auto].
      apply (inv_item tr s owner i c _ _ owner (mkC None (left c))); auto. unfold good. cbn [calls head left opt]. rewrite given_snoc, Nat.eqb_refl, Gn, app_nil_r. cbn [app].
      split; [exact g1|]. split; [exact g2|]. split; [now intros []|]. split; [exact g4|]. split; [destruct g5 as [g5|[_ g5]]; [now left|contradiction]|].
      intros X. apply over_snoc_inv in X. destruct X as [X|[_ [X|[e X]]]]; [contradiction|discriminate|discriminate].
    + cbn [opt] in g1. rewrite app_nil_r in g1. rewrite <- g1 in g2. destruct (left c) as [|k] eqn:Lf.
      * injection E as <- <-. exists owner. split.
        -- apply (inv_item tr s owner i c _ _ owner c); auto; [now rewrite (same_upd _ _ _ Hn)|]. unfold good. rewrite Hd. cbn [opt]. rewrite given_snoc, !app_nil_r, g1, Lf.
           split; [reflexivity|]. split; [now rewrite <- g1|]. split; [now intros []|]. split; [exact g4|]. split; [right; split; [reflexivity|apply over_end]|auto].
        -- apply act_none; auto. rewrite g1. destruct g5 as [g5|[_ g5]]; [left; lia|now right].
      * assert (Nv : ~ over (NextItem i) tr) by (intros X; destruct (g6 X); discriminate). assert (Lg : length (given i tr) + S k = N). { rewrite g1. destruct g5 as [g5|[g5 _]]; [exact g5|discriminate]. }
        destruct (input (calls s)) as [a| |e] eqn:Ei; injection E as <- <-.
        -- exists (owner ++ [i]). split; [|apply act_item; auto; lia].
           apply (inv_item tr s owner i c _ _ (owner ++ [i]) (mkC None k)); auto; [right; exists a; split; [reflexivity|cbn [calls]; now rewrite items_S, Ei]|].
           unfold good. cbn [calls head left opt]. rewrite items_S, Ei, given_snoc, owned_snoc, Nat.eqb_refl, app_nil_r, g1, app_length by exact Lo. rewrite g1 in Lg. cbn [length].
           split; [reflexivity|]. split; [intros X; apply app_eq_nil in X; destruct X; discriminate|]. split; [now intros []|]. split; [lia|]. split; [left; lia|].
           intros X. apply over_snoc_inv in X. destruct X as [X|[_ [X|[e X]]]]; [contradiction|discriminate|discriminate].
        -- exists owner. split; [|apply act_over; auto; lia].
           apply (inv_item tr s owner i c _ _ owner (mkC None 0)); auto; [left; split; [reflexivity|cbn [calls]; now rewrite items_S, Ei, app_nil_r]|].
           unfold good. cbn [calls head left opt]. rewrite items_S, Ei, given_snoc, !app_nil_r, g1. rewrite g1 in Lg, g2.
           split; [reflexivity|]. split; [exact g2|]. split; [now intros []|]. split; [lia|]. split; [right; split; [reflexivity|apply over_end]|auto].
        -- exists owner. split; [|apply act_over; eauto; lia].
           apply (inv_item tr s owner i c _ _ owner (mkC None 0)); auto; [left; split; [reflexivity|cbn [calls]; now rewrite items_S, Ei, app_nil_r]|].
           unfold good. cbn [calls head left opt]. rewrite items_S, Ei, given_snoc, !app_nil_r, g1. rewrite g1 in Lg, g2.
           split; [reflexivity|]. split; [exact g2|]. split; [now intros []|]. split; [lia|]. split; [right; split; [reflexivity|apply over_exn]|auto].
Qed.
Lemma inv_start s : chunked n = Ok s -> inv [] s [].
Proof.
  intros E. unfold chunked in E. destruct (Z.ltb_spec n 2) as [|Hn]; [discriminate|]. injection E as <-. unfold inv. cbn.
  split; [reflexivity|]. split; [reflexivity|]. split; [intros ? []|]. split; [intros [|]; discriminate|]. split; [intros ? ? []|]. split; [|lia].
  split; [discriminate|]. intros [[]|[? []]].
Qed.
Lemma session_inv tr s : session tr s -> exists owner, inv tr s owner.
Proof.
  induction 1 as [s E|tr s o r s' H (owner & I) E]; [exists []; now apply inv_start|].
  destruct (step_acts _ _ _ _ _ _ I E) as (owner' & I' & _). now exists owner'.
Qed.

(** C132 *)
Lemma chunk_of tr s owner i : inv tr s owner -> i < opened tr -> exists c, nth_error (chunks s) i = Some c /\ good owner tr (items (calls s)) i c.
Proof.
  intros (Lo & Lc & Ho & Hg & Hi & Hv & L2) L. destruct (nth_error (chunks s) i) as [c|] eqn:E; [eauto|]. apply nth_error_None in E. lia.
Qed.
Lemma owns tr s : session tr s -> exists owner,
  length owner = length (items (calls s)) /\ (forall o, In o owner -> o < opened tr) /\
  forall i, i < opened tr ->
    owned i owner (items (calls s)) <> [] /\ length (owned i owner (items (calls s))) <= N /\
    (given i tr = owned i owner (items (calls s)) \/ given i tr = [] /\ length (owned i owner (items (calls s))) = 1).
Proof.
  intros H. destruct (session_inv _ _ H) as (owner & I). pose proof I as (Lo & Lc & Ho & Hg & Hi & Hv & L2). exists owner. split; [exact Lo|]. split; [exact Ho|].
  intros i L. destruct (chunk_of _ _ _ _ I L) as (c & _ & g1 & g2 & g3 & g4 & g5 & g6). split; [exact g2|]. split; [lia|].
  destruct (head c) as [a|]; cbn in g1; [right|left; now rewrite app_nil_r in g1]. assert (Gn : given i tr = []) by (apply g3; discriminate). split; [exact Gn|]. rewrite <- g1, Gn. reflexivity.
Qed.
Lemma next_chunk_reads tr s r s' : session tr s -> step s NextChunk = Some (r, s') ->
  (over NextChunk tr -> r = End /\ calls s' = calls s) /\
  (~ over NextChunk tr -> calls s' = S (calls s) /\
     match input (calls s) with Item _ => r = Chunk (opened tr) | Stop => r = End | Fail e => r = Exn e end).
Proof.
  intros H E. destruct (session_inv _ _ H) as (owner & I). pose proof I as (Lo & Lc & Ho & Hg & Hi & Hv & L2).
  destruct (step_acts _ _ _ _ _ _ I E) as (owner' & _ & Ac). inversion Ac; subst.
  - split; [intros X; apply Hv in X; congruence|]. intros _. split; [assumption|]. match goal with X : input _ = _ |- _ => now rewrite X end.
  - split; [intros X; apply Hv in X; congruence|]. intros _. split; [assumption|].
    match goal with X : _ \/ _ |- _ => destruct X as [[-> ->]|(e & -> & ->)] end; reflexivity.
  - split; [auto|]. intros X. destruct X. now apply Hv.
Qed.
Lemma next_item_reads tr s i r s' : session tr s -> step s (NextItem i) = Some (r, s') ->
  i < opened tr /\
  (given i tr = [] -> calls s' = calls s /\ exists a, r = Got a) /\
  (length (given i tr) = N \/ over (NextItem i) tr -> calls s' = calls s /\ r = End) /\
  (given i tr <> [] -> length (given i tr) <> N -> ~ over (NextItem i) tr ->
     calls s' = S (calls s) /\ match input (calls s) with Item a => r = Got a | Stop => r = End | Fail e => r = Exn e end).
Proof.
  intros H E. destruct (session_inv _ _ H) as (owner & I). pose proof I as (Lo & Lc & Ho & Hg & Hi & Hv & L2).
  destruct (step_acts _ _ _ _ _ _ I E) as (owner' & _ & Ac). inversion Ac; subst.
  - split; [assumption|]. split; [eauto|]. split; [|intros X; contradiction]. intros [X|X]; [|contradiction]. match goal with Y : given i tr = [] |- _ => rewrite Y in X end. cbn in X. lia.
  - split; [assumption|]. split; [intros X; contradiction|]. split; [auto|]. intros _ X Y. match goal with Z : _ \/ _ |- _ => destruct Z; contradiction end.
  - split; [assumption|]. split; [intros X; contradiction|]. split; [intros [X|X]; [lia|contradiction]|]. intros _ _ _. split; [assumption|]. match goal with X : input _ = _ |- _ => now rewrite X end.
  - split; [assumption|]. split; [intros X; contradiction|]. split; [intros [X|X]; [lia|contradiction]|]. intros _ _ _. split; [assumption|].
    match goal with X : _ \/ _ |- _ => destruct X as [[-> ->]|(e & -> & ->)] end; reflexivity.
Qed.
Lemma step_some tr s o : session tr s -> match o with NextChunk => True | NextItem i => i < opened tr end -> exists r s', step s o = Some (r, s').
Proof.
  intros H L. destruct (session_inv _ _ H) as (owner & I). destruct o as [|i]; cbn.
  - destruct (next_chunk input n s) as [r s']. eauto.
  - destruct (chunk_of _ _ _ _ I L) as (c & E & _). unfold next_item. rewrite E. destruct (head c); [eauto|]. destruct (left c); [eauto|]. destruct (input (calls s)); eauto.
Qed.
Lemma too_small : (n < 2)%Z -> forall tr s, ~ session tr s.
Proof. intros L tr s H. induction H; [|assumption]. unfold chunked in *. destruct (Z.ltb_spec n 2); [discriminate|lia]. Qed.

(** the first item of a chunk *)
Lemma grows tr1 : forall tr2 s, session (tr1 ++ tr2) s -> exists s1 owner1 owner, session tr1 s1 /\ inv tr1 s1 owner1 /\ inv (tr1 ++ tr2) s owner /\
  forall i, exists x, owned i owner (items (calls s)) = owned i owner1 (items (calls s1)) ++ x.
Proof.
  induction tr2 as [|[o r] tr2 IH] using rev_ind; intros s H.
  - rewrite app_nil_r in *. destruct (session_inv _ _ H) as (owner & I). exists s, owner, owner. split; [exact H|]. split; [exact I|]. split; [exact I|]. intros i. exists []. now rewrite app_nil_r.
  - rewrite app_assoc in H. inversion H as [s0 E0 E1|tr0 s0 o0 r0 s0' H0 St E1]; subst; [destruct (tr1 ++ tr2); discriminate|].
    apply app_inj_tail in E1. destruct E1 as [-> [= -> ->]]. destruct (IH _ H0) as (s1 & owner1 & owner & H1 & I1 & I & G).
    destruct (step_acts _ _ _ _ _ _ I St) as (owner' & I' & Ac). exists s1, owner1, owner'. split; [exact H1|]. split; [exact I1|]. split; [now rewrite app_assoc|].
    pose proof I as (Lo & _). intros i. destruct (G i) as [x Ex].
    inversion Ac; subst;
      try (exists x; match goal with C : calls _ = _ |- _ => rewrite C end; now rewrite ?items_S; rewrite <- Ex);
      try (exists x; exact Ex).
    all: match goal with C : calls _ = _ |- _ => rewrite C, items_S end.
    all: try match goal with X : input _ = Item _ |- _ => rewrite X; rewrite owned_snoc by exact Lo; rewrite Ex, <- app_assoc; eexists; reflexivity end.
    all: match goal with X : _ \/ _ |- _ => destruct X as [[-> _]|(e & -> & _)] end; rewrite app_nil_r; eauto.
Qed.
Lemma first_item tr1 j tr2 s : session (tr1 ++ (NextChunk, Chunk j) :: tr2) s -> exists s1 a,
  session tr1 s1 /\ input (calls s1) = Item a /\ j = opened tr1 /\
  (given j (tr1 ++ (NextChunk, Chunk j) :: tr2) = [] \/ hd_error (given j (tr1 ++ (NextChunk, Chunk j) :: tr2)) = Some a).
Proof.
  intros H. change ((NextChunk, Chunk j) :: tr2) with ([(NextChunk, @Chunk A j)] ++ tr2) in *. rewrite app_assoc in *.
  destruct (grows _ _ _ H) as (s2 & owner2 & owner & H2 & I2 & I & G).
  inversion H2 as [s0 E0 E1|tr0 s1 o0 r0 s0' H1 St E1]; subst; [destruct tr1; discriminate|]. apply app_inj_tail in E1. destruct E1 as [-> [= -> ->]].
  destruct (session_inv _ _ H1) as (owner1 & I1). destruct (next_chunk_reads _ _ _ _ H1 St) as [Ov Nv].
  assert (No : ~ over NextChunk tr1) by (intros X; now destruct (Ov X)). destruct (Nv No) as [C R]. destruct (input (calls s1)) as [a| |e] eqn:Ei; try discriminate. injection R as ->.
  exists s1, a. split; [exact H1|]. split; [exact Ei|]. split; [reflexivity|].
  assert (Lj : opened tr1 < opened (tr1 ++ [(NextChunk, @Chunk A (opened tr1))])) by (rewrite opened_snoc; lia).
  destruct (chunk_of _ _ _ _ I2 Lj) as (c2 & E2 & g1 & g2 & g3 & g4 & g5 & g6).
  assert (Ec : c2 = mkC (Some a) (N - 1)).
  { cbn in St. unfold next_chunk in St. destruct (going s1); [|discriminate]. rewrite Ei in St. injection St as Hl <-. cbn in E2. rewrite <- Hl, nth_error_app2, Nat.sub_diag in E2 by lia. now injection E2. }
  rewrite Ec in g1, g3. cbn in g1. rewrite g3 in g1 by discriminate. cbn in g1.
  assert (Lj' : opened tr1 < opened ((tr1 ++ [(NextChunk, @Chunk A (opened tr1))]) ++ tr2)). { unfold opened in *. rewrite filter_app, app_length. lia. }
  destruct (chunk_of _ _ _ _ I Lj') as (c & Ec' & k1 & k2 & k3 & _). destruct (G (opened tr1)) as [x Ex]. rewrite <- g1 in Ex. cbn in Ex.
  destruct (head c) as [b|]; [left; apply k3; discriminate|]. right. cbn in k1. rewrite app_nil_r in k1. now rewrite k1, Ex.
Qed.

(** read in turn *)
Lemma tidy_prefix k (tr : list (op * res A)) x : tidy k (tr ++ [x]) -> tidy k tr.
Proof. intros T tr1 r tr2 E i. apply (T tr1 r (tr2 ++ [x])). now rewrite E, <- app_assoc. Qed.
Lemma tidy_last k (tr : list (op * res A)) r : tidy k (tr ++ [(NextChunk, r)]) -> forall i, i < opened tr -> length (given i tr) = k \/ In (NextItem i, End) tr.
Proof. intros T. now apply (T tr r []). Qed.
Definition turn (tr : list (op * res A)) (s : state A) (owner : list nat) : Prop :=
  length (items (calls s)) <= opened tr * N /\ (opened tr - 1) * N <= length (items (calls s)) /\ (0 < opened tr -> (opened tr - 1) * N < length (items (calls s))) /\
  (forall i, i < opened tr -> owned i owner (items (calls s)) = firstn N (skipn (i * N) (items (calls s)))) /\
  (forall i, In (NextItem i, End) tr -> length (given i tr) = N \/ exists k, k < calls s /\ input k = Stop).
Lemma turn_inv : never_fails input -> stays_ended input -> forall tr s, session tr s -> tidy N tr -> exists owner, inv tr s owner /\ turn tr s owner.
Proof.
  intros Nf Se tr s H. induction H as [s E|tr s o r s' H IH E]; intros T.
  - exists []. split; [now apply inv_start|]. unfold chunked in E. destruct (n <? 2)%Z; [discriminate|]. injection E as <-. unfold turn. cbn. repeat split; try lia; intros i [].
  - destruct (IH (tidy_prefix _ _ _ T)) as (owner & I & L1 & L2 & L3 & L4 & L5). pose proof I as (Lo & Lc & Ho & Hg & Hi & Hv & L2N).
    destruct (step_acts _ _ _ _ _ _ I E) as (owner' & I' & Ac). exists owner'. split; [exact I'|].
    assert (Keep : items (calls s') = items (calls s) -> owner' = owner -> opened (tr ++ [(o, r)]) = opened tr -> calls s <= calls s' ->
              (forall i, (o, r) = (NextItem i, End) -> length (given i (tr ++ [(o, r)])) = N \/ exists k, k < calls s' /\ input k = Stop) -> (forall i a, (o, r) = (NextItem i, Got a) -> given i tr = []) -> turn (tr ++ [(o, r)]) s' owner').
    { intros Ei Eo Ep Lcs He Hgot. unfold turn. rewrite Ei, Eo, Ep. split; [exact L1|]. split; [exact L2|]. split; [exact L3|]. split; [exact L4|].
      intros i X. apply in_app_or in X. destruct X as [X|[X|[]]]; [|now apply He].
      destruct (L5 i X) as [Y|(k & Lk & Ek)]; [left|right; exists k; split; [lia|exact Ek]].
      rewrite given_snoc, app_length, Y. destruct o as [|j]; [cbn; lia|]. destruct r as [|a| |]; try (cbn; lia). destruct (Nat.eqb_spec j i) as [->|]; [|cbn; lia].
      rewrite (Hgot i a eq_refl) in Y. cbn in Y. lia. }
    inversion Ac; subst.
    + (* a new chunk *)
      match goal with C : calls _ = _ |- _ => rename C into Cs end. match goal with X : input _ = Item _ |- _ => rename X into Ei end. set (m := opened tr) in *.
      assert (Full : length (items (calls s)) = m * N).
      { destruct m as [|m'] eqn:Em; [lia|]. assert (Lm : m' < opened tr) by (unfold m in Em; lia). destruct (tidy_last _ _ _ T m' Lm) as [X|X].
        - destruct (chunk_of _ _ _ _ I Lm) as (c & _ & g1 & _ & _ & g4 & _). assert (Lw : N <= length (owned m' owner (items (calls s)))) by (rewrite <- g1, app_length; lia).
          rewrite (L4 m') in Lw by lia. rewrite firstn_length, skipn_length in Lw. cbn [Nat.mul] in *. lia.
        - destruct (L5 _ X) as [Y|(k & Lk & Ek)]; [|rewrite (Se k (calls s)) in Ei by (lia || exact Ek); discriminate].
          destruct (chunk_of _ _ _ _ I Lm) as (c & _ & g1 & _ & _ & g4 & _). assert (Lw : N <= length (owned m' owner (items (calls s)))) by (rewrite <- g1, app_length; lia).
          rewrite (L4 m') in Lw by lia. rewrite firstn_length, skipn_length in Lw. cbn [Nat.mul] in *. lia. }
      unfold turn. rewrite opened_snoc, Cs, items_S, Ei, app_length, Full. cbn [length]. fold m. replace (m + 1 - 1) with m by lia.
      split; [rewrite Nat.mul_add_distr_r; lia|]. split; [lia|]. split; [lia|]. split.
      * intros i Li. rewrite owned_snoc by exact Lo. destruct (Nat.eqb_spec m i) as [<-|Ne].
        -- rewrite (owned_none m) by (intros X; specialize (Ho _ X); unfold m in X; lia). rewrite skipn_app, skipn_all2, Full, Nat.sub_diag by lia. cbn [skipn app]. rewrite firstn_all2 by (cbn; lia). reflexivity.
        -- assert (Li' : i < m) by lia. rewrite app_nil_r, (L4 i Li'). assert (Lx : i * N + N <= length (items (calls s))) by (rewrite Full; pose proof (Nat.mul_le_mono_r (S i) m N Li'); cbn [Nat.mul] in *; lia).
           rewrite skipn_app. replace (i * N - length (items (calls s))) with 0 by lia. cbn [skipn]. rewrite firstn_app. replace (N - length (skipn (i * N) (items (calls s)))) with 0 by (rewrite skipn_length; lia). cbn [firstn]. now rewrite app_nil_r.
      * intros i X. apply in_app_or in X. destruct X as [X|[X|[]]]; [|discriminate]. rewrite given_snoc, app_nil_r.
        destruct (L5 i X) as [Y|(k & Lk & Ek)]; [now left|right; exists k; split; [lia|exact Ek]].
    + match goal with X : _ \/ _ |- _ => destruct X as [[Ei ->]|(e & Ei & ->)] end; [|now destruct (Nf _ _ Ei)].
      apply Keep; try reflexivity; try discriminate; [|now rewrite opened_snoc, Nat.add_0_r|lia]. match goal with C : calls _ = _ |- _ => now rewrite C, items_S, Ei, app_nil_r end.
    + apply Keep; try reflexivity; try discriminate; try lia. now rewrite opened_snoc, Nat.add_0_r.
    + apply Keep; try discriminate; try reflexivity; try lia; [now f_equal|now rewrite opened_snoc, Nat.add_0_r|]. intros j b [= <- <-]. assumption.
    + apply Keep; try discriminate; try reflexivity; try lia; [now rewrite opened_snoc, Nat.add_0_r|]. intros j [= <-]. rewrite given_snoc, app_nil_r.
      match goal with Q : _ \/ _ |- _ => destruct Q as [Z|[Z|[e Z]]] end; [now left|now apply L5|].
      exfalso. clear - H Nf Z. induction H as [|tr s o r s' H IH E]; [destruct Z|]. apply in_app_or in Z. destruct Z as [Z|[Z|[]]]; [now apply IH|]. injection Z as -> ->. cbn in E. unfold next_item in E.
      destruct (nth_error (chunks s) i) as [c|]; [|discriminate]. destruct (head c); [discriminate|]. destruct (left c); [discriminate|]. destruct (input (calls s)) as [| |f] eqn:Ei; try discriminate. now apply (Nf _ _ Ei).
    + (* one more item of a chunk: the newest *)
      match goal with C : calls _ = _ |- _ => rename C into Cs end. match goal with X : input _ = Item _ |- _ => rename X into Ei end.
      assert (Lt : i < opened tr) by assumption. destruct (chunk_of _ _ _ _ I Lt) as (c & _ & g1 & g2 & g3 & g4 & g5 & g6).
      assert (Gi : given i tr = owned i owner (items (calls s))). { destruct (head c); [exfalso; match goal with Y : given i tr <> [] |- _ => apply Y end; apply g3; discriminate|]. cbn in g1. now rewrite app_nil_r in g1. }
      assert (Lw : length (owned i owner (items (calls s))) < N) by (rewrite <- Gi; assumption). rewrite (L4 i Lt), firstn_length, skipn_length in Lw.
      assert (Em : opened tr = S i). { destruct (Nat.eq_dec (opened tr) (S i)) as [X|X]; [exact X|]. assert (Y : S i <= opened tr - 1) by lia. pose proof (Nat.mul_le_mono_r _ _ N Y). cbn [Nat.mul] in *. lia. }
      rewrite Em in *. cbn [Nat.mul] in *. replace (S i - 1) with i in * by lia. assert (Lh : i * N < length (items (calls s))) by (apply L3; lia).
      unfold turn. rewrite opened_snoc, Nat.add_0_r, Cs, items_S, Ei, app_length, Em. cbn [length Nat.mul]. replace (S i - 1) with i by lia. split; [lia|]. split; [lia|]. split; [lia|]. split.
      * intros j Lj. rewrite owned_snoc by exact Lo. rewrite (L4 j Lj). destruct (Nat.eqb_spec i j) as [<-|Ne].
        -- rewrite skipn_app. replace (i * N - length (items (calls s))) with 0 by lia. cbn [skipn]. rewrite !firstn_all2; [reflexivity| |]; rewrite ?app_length, skipn_length; cbn [length]; lia.
        -- assert (Lj' : j < i) by lia. pose proof (Nat.mul_le_mono_r (S j) i N Lj'). cbn [Nat.mul] in *. rewrite app_nil_r, skipn_app. replace (j * N - length (items (calls s))) with 0 by lia.
           cbn [skipn]. rewrite firstn_app. replace (N - length (skipn (j * N) (items (calls s)))) with 0 by (rewrite skipn_length; lia). cbn [firstn]. now rewrite app_nil_r.
      * intros j X. apply in_app_or in X. destruct X as [X|[X|[]]]; [|discriminate]. destruct (L5 j X) as [Y|(k & Lk & Ek)]; [|right; exists k; split; [lia|exact Ek]].
        left. rewrite given_snoc. destruct (Nat.eqb_spec i j) as [<-|]; [lia|now rewrite app_nil_r].
    + match goal with X : _ \/ _ |- _ => destruct X as [[Ei ->]|(e & Ei & ->)] end; [|now destruct (Nf _ _ Ei)].
      match goal with C : calls _ = _ |- _ => rename C into Cs end.
      apply Keep; try reflexivity; try discriminate; [now rewrite Cs, items_S, Ei, app_nil_r|now rewrite opened_snoc, Nat.add_0_r|lia|]. intros j _. right. exists (calls s). split; [lia|exact Ei].
Qed.
Lemma concat_chunks (l : list A) m : forall k, length l <= k * m -> concat (map (fun i => firstn m (skipn (i * m) l)) (seq 0 k)) = l.
Proof.
  intros k. revert l. induction k as [|k IH]; intros l L; [now destruct l|]. cbn [seq map concat]. cbn [Nat.mul skipn].
  rewrite <- seq_shift, map_map. transitivity (firstn m l ++ skipn m l); [f_equal|apply firstn_skipn]. rewrite <- (IH (skipn m l)) by (rewrite skipn_length; cbn in L; lia).
  f_equal. apply map_ext. intros i. f_equal. cbn [Nat.mul]. clear. revert l. generalize (i * m). induction m as [|m IHm]; intros q l; [reflexivity|]. destruct l as [|x l]; [now destruct q|]. cbn. apply IHm.
Qed.
Lemma in_turn tr s r : never_fails input -> stays_ended input -> session tr s -> tidy N (tr ++ [(NextChunk, r)]) ->
  (forall i, i < opened tr -> given i tr = firstn N (skipn (i * N) (items (calls s)))) /\
  concat (map (fun i => given i tr) (seq 0 (opened tr))) = items (calls s).
Proof.
  intros Nf Se H T. destruct (turn_inv Nf Se tr s H (tidy_prefix _ _ _ T)) as (owner & I & L1 & L2 & L3 & L4 & L5).
  assert (G : forall i, i < opened tr -> given i tr = firstn N (skipn (i * N) (items (calls s)))).
  { intros i Li. rewrite <- (L4 i Li). destruct (chunk_of _ _ _ _ I Li) as (c & _ & g1 & g2 & g3 & g4 & g5 & g6). pose proof I as (_ & _ & _ & _ & _ & _ & L2N).
    assert (Hd : head c = None).
    { destruct (tidy_last _ _ _ T i Li) as [X|X]; [destruct (head c); [rewrite g3 in X by discriminate; cbn in X; lia|reflexivity]|]. apply g6. now left. }
    rewrite Hd in g1. cbn in g1. now rewrite app_nil_r in g1. }
  split; [exact G|]. rewrite <- (concat_chunks (items (calls s)) N (opened tr) L1). f_equal. apply map_ext_in. intros i X. apply in_seq in X. apply G. lia.
Qed.
End P.

Lemma size_checked (A : Type) (input : nat -> ev A) n :
  ((n < 2)%Z -> @chunked A n = Raise ValueError /\ forall tr s, ~ session input n tr s) /\
  ((2 <= n)%Z -> exists s, @chunked A n = Ok s /\ calls s = 0 /\ session input n [] s).
Proof.
  split; intros L.
  - split; [|now apply too_small]. unfold chunked. now replace (n <? 2)%Z with true by (symmetry; apply Z.ltb_lt; lia).
  - exists (mkS 0 true []). assert (E : @chunked A n = Ok (mkS 0 true [])) by (unfold chunked; now replace (n <? 2)%Z with false by (symmetry; apply Z.ltb_ge; lia)).
    split; [exact E|]. split; [reflexivity|now constructor].
Qed.
(** running a list of uses *)
Fixpoint uses {A} (input : nat -> ev A) n (s : state A) (l : list op) : option (list (op * res A) * state A) :=
  match l with
  | [] => Some ([], s)
  | o :: l => match step input n s o with
              | None => None
              | Some (r, s) => match uses input n s l with None => None | Some (tr, s) => Some ((o, r) :: tr, s) end
              end
  end.
Lemma uses_session {A} (input : nat -> ev A) n l : forall tr s tr' s', session input n tr s -> uses input n s l = Some (tr', s') -> session input n (tr ++ tr') s'.
Proof.
  induction l as [|o l IH]; intros tr s tr' s' H E; cbn in E; [injection E as <- <-; now rewrite app_nil_r|].
  destruct (step input n s o) as [[r s1]|] eqn:St; [|discriminate]. destruct (uses input n s1 l) as [[tr1 s2]|] eqn:U; [|discriminate]. injection E as <- <-.
  change ((o, r) :: tr1) with ([(o, r)] ++ tr1). rewrite app_assoc. eapply IH; [|exact U]. eapply session_step; eauto.
Qed.
Lemma upto_ok m : never_fails (fun k => if k <? m then Item k else Stop) /\ stays_ended (fun k => if k <? m then Item k else Stop).
Proof.
  split; [intros k e; destruct (k <? m); discriminate|]. intros i j L E. destruct (i <? m) eqn:Ei; [discriminate|]. apply Nat.ltb_ge in Ei.
  now replace (j <? m) with false by (symmetry; apply Nat.ltb_ge; lia).
Qed.
Lemma any_order : exists (input : nat -> ev nat) n tr s,
  never_fails input /\ stays_ended input /\ session input n tr s /\ items input (calls s) = [0; 1; 2; 3] /\ n = 2%Z /\ opened tr = 4 /\
  In (NextChunk, End) tr /\ (forall i, i < 4 -> In (NextItem i, End) tr /\ given i tr = [i]).
Proof.
  set (inp := fun k => if k <? 4 then Item k else Stop). set (l := [NextChunk; NextChunk; NextChunk; NextChunk; NextChunk; NextItem 0; NextItem 0; NextItem 1; NextItem 1; NextItem 2; NextItem 2; NextItem 3; NextItem 3]).
  destruct (uses inp 2 (mkS 0 true []) l) as [[tr s]|] eqn:U; [|vm_compute in U; discriminate].
  exists inp, 2%Z, tr, s. split; [apply upto_ok|]. split; [apply upto_ok|].
  split; [eapply (uses_session inp 2 l [] _ tr s); [now constructor|exact U]|]. vm_compute in U. injection U as <- <-.
  split; [reflexivity|]. split; [reflexivity|]. split; [reflexivity|]. split; [cbn; tauto|].
  intros i L. destruct i as [|[|[|[|i]]]]; [| | | |lia]; (split; [cbn; tauto|reflexivity]).
Qed.
Lemma tidy_dec (k : nat) (tr : list (op * res nat)) :
  (forall m, m < length tr -> match nth_error tr m with Some (NextChunk, _) => forall i, i < opened (firstn m tr) -> length (given i (firstn m tr)) = k \/ In (NextItem i, End) (firstn m tr) | _ => True end) -> tidy k tr.
Proof.
  intros H tr1 r tr2 -> i L. specialize (H (length tr1)). rewrite app_length, nth_error_app2, Nat.sub_diag in H by lia. cbn in H.
  rewrite firstn_app, Nat.sub_diag, firstn_all, app_nil_r in H. apply H; [lia|exact L].
Qed.
Lemma ex_by_two : exists s, session (fun k => if k <? 3 then Item k else Stop) 2
  [(NextChunk, Chunk 0); (NextItem 0, Got 0); (NextItem 0, Got 1); (NextItem 0, End);
   (NextChunk, Chunk 1); (NextItem 1, Got 2); (NextItem 1, End)] s /\ calls s = 4 /\
  never_fails (fun k => if k <? 3 then Item k else Stop) /\ stays_ended (fun k => if k <? 3 then Item k else Stop) /\
  tidy 2 ([(NextChunk, Chunk 0); (NextItem 0, Got 0); (NextItem 0, Got 1); (NextItem 0, End);
   (NextChunk, Chunk 1); (NextItem 1, Got 2); (NextItem 1, End)] ++ [(NextChunk, End)]).
Proof.
  set (l := [NextChunk; NextItem 0; NextItem 0; NextItem 0; NextChunk; NextItem 1; NextItem 1]). eexists.
  split; [apply (uses_session (fun k => if k <? 3 then Item k else Stop) 2 l [] (mkS 0 true [])); [now constructor|reflexivity]|].
  split; [reflexivity|]. split; [apply upto_ok|]. split; [apply upto_ok|]. apply tidy_dec. intros m Lm. cbn in Lm.
  do 8 (destruct m as [|m]; [cbn; try exact Logic.I; intros i Li; (do 2 (destruct i as [|i]; [try lia; cbn; tauto|])); lia|]). lia.
Qed.
