From Coq Require Import List Bool Arith ZArith Lia.
From Verif Require Import Base CollModel CollProofs MemoModel MemoSpec.
Import ListNotations.
Open Scope nat_scope.

Lemma setf_eq {X} (f : nat -> X) i x : setf f i x i = x.
Proof. unfold setf. now rewrite Nat.eqb_refl. Qed.
Lemma setf_ne {X} (f : nat -> X) i x j : j <> i -> setf f i x j = f j.
Proof. unfold setf. intro H. destruct (Nat.eqb_spec j i); congruence. Qed.

Section GP.
Context {V G : Type}.
Variable resume : G -> gprog V G.
Variable own : nat -> bool.
Variable g0 : G.
Notation gst := (gst V G).

Definition agree (pos ip : nat -> nat) : Prop := forall i, own i = true -> pos i = ip i.
Definition outside (pos : nat -> nat) (fs : list (nframe V G)) : Prop :=
  match fs with
  | [] => True
  | [NStart i] => own i = false
  | [NHave i j] => own i = false /\ j = pos i
  | _ => False
  end.
Inductive top_ok (memo : list (outcome V)) (pos : nat -> nat) : gprog V G -> nat -> list (nframe V G) -> Prop :=
| T0 p : top_ok memo pos p 1 []
| T1 i k : top_ok memo pos (GNext i k) 1 [NStart i]
| T2 i k : top_ok memo pos (GNext i k) 1 [NHave i (pos i)]
| T3 i k : top_ok memo pos (GNext i k) 2 [NLocked i (pos i)]
| T4 i k r : nth_error memo (pos i) = Some r -> top_ok memo pos (GNext i k) 2 [NDone i (pos i) r].
Inductive hold (memo : list (outcome V)) (pos ip : nat -> nat) (gg : G) : nat -> bool -> list (nframe V G) -> Prop :=
| H1 i : own i = false -> agree pos ip -> hold memo pos ip gg 1 false [NLocked i (pos i)]
| H2 i r : own i = false -> agree pos ip -> nth_error memo (pos i) = Some r -> hold memo pos ip gg 1 false [NDone i (pos i) r]
| H3 i p ip' c top : own i = false -> pos i = length memo ->
    produce p memo ip' = produce (resume gg) memo ip -> uses_only own p -> agree pos ip' ->
    top_ok memo pos p c top -> hold memo pos ip gg c true (top ++ [NRun i (pos i) p]).
Record Inv (s : gst) : Prop := {
  I_seq : exists ip, sequence_of resume g0 (length (memo s)) = Some (memo s, gstate s, ip) /\
    match lock s with
    | None => running s = false /\ agree (pos s) ip
    | Some (t, c) => hold (memo s) (pos s) ip (gstate s) c (running s) (calls s t)
    end;
  I_out : forall t, (forall c, lock s <> Some (t, c)) -> outside (pos s) (calls s t);
  I_excl : forall t u f f', t <> u -> In f (calls s t) -> In f' (calls s u) -> own (inst f) = false -> inst f <> inst f';
  I_log : forall i, given s i = firstn (pos s i) (memo s) /\ pos s i <= length (memo s);
  I_adv : advanced s = length (memo s) + (if running s then 1 else 0);
  I_lazy : length (memo s) = 0 \/ (exists i, pos s i = length (memo s)) \/
           (exists t i j r, In (NDone i j r) (calls s t) /\ S j = length (memo s) /\ j = pos s i) }.

Lemma Inv0 : Inv (gst0 g0).
Proof.
  constructor; simpl; auto.
  - eexists. split; eauto. split; auto. intros i _; auto.
Qed.

Hypothesis Hprod : productive resume g0.
Hypothesis Huses : forall g, uses_only own (resume g).

Lemma step_excl_sub (s : gst) (cs' : nat -> list (nframe V G)) t : Inv s ->
  (forall u, u <> t -> cs' u = calls s u) ->
  (forall f, In f (cs' t) -> own (inst f) = true \/ exists f0, In f0 (calls s t) /\ inst f0 = inst f) ->
  (forall u f, u <> t -> In f (calls s u) -> own (inst f) = false) ->
  forall a b f f', a <> b -> In f (cs' a) -> In f' (cs' b) -> own (inst f) = false -> inst f <> inst f'.
Proof.
  intros HI Hu Ht Ho a b f f' Hab Hf Hf' Hown.
  destruct (Nat.eq_dec a t) as [->|Ha].
  - rewrite Hu in Hf' by auto. destruct (Ht f Hf) as [E|[f0 [Hf0 E]]]; [congruence|].
    rewrite <- E. apply (I_excl s HI t b); auto. congruence.
  - rewrite Hu in Hf by auto. destruct (Nat.eq_dec b t) as [->|Hb].
    + destruct (Ht f' Hf') as [E|[f0 [Hf0 E]]].
      * intro Q. rewrite Q in Hown. congruence.
      * rewrite <- E. apply (I_excl s HI a t); auto.
    + rewrite Hu in Hf' by auto. apply (I_excl s HI a b); auto.
Qed.
Lemma excl_set (s : gst) t fs' : Inv s ->
  (forall u f, u <> t -> In f (calls s u) -> own (inst f) = false) ->
  (forall f, In f fs' -> own (inst f) = true \/ exists f0, In f0 (calls s t) /\ inst f0 = inst f) ->
  forall a b f f', a <> b -> In f (setf (calls s) t fs' a) -> In f' (setf (calls s) t fs' b) -> own (inst f) = false -> inst f <> inst f'.
Proof.
  intros HI Ho Ht. apply (step_excl_sub s (setf (calls s) t fs') t); auto.
  - intros; now apply setf_ne.
  - now rewrite setf_eq.
Qed.
Lemma outside_in pos fs f : outside pos fs -> In f fs -> own (inst f) = false.
Proof. destruct fs as [|[] [|]]; simpl; try tauto; intros H [<-|[]]; simpl; tauto. Qed.
Lemma outside_pos pos pos' fs : (forall f, In f fs -> pos (inst f) = pos' (inst f)) -> outside pos fs -> outside pos' fs.
Proof.
  destruct fs as [|[] [|]]; simpl; auto. intros H [H1' ->]. split; auto. apply (H (NHave i (pos i))). auto.
Qed.
Lemma firstn_snoc {X} (l : list X) n x : nth_error l n = Some x -> firstn (S n) l = firstn n l ++ [x].
Proof.
  revert n. induction l as [|y l IH]; intros [|n]; simpl; try discriminate.
  - now intros [= ->].
  - intro H. now rewrite <- IH.
Qed.
Lemma firstn_app_le {X} (l : list X) n x : n <= length l -> firstn n (l ++ [x]) = firstn n l.
Proof. intro H. rewrite firstn_app. replace (n - length l) with 0 by lia. apply app_nil_r. Qed.

Lemma given_snoc (s : gst) i j r : map snd (filter (fun e => fst e =? i) (returned s ++ [(j, r)]))
  = given s i ++ (if j =? i then [r] else []).
Proof. unfold given. rewrite filter_app, map_app. simpl. destruct (j =? i); auto. Qed.

Lemma step_inv s a s' : Inv s -> begins_alone own s a -> gmstep resume s a = Some s' -> Inv s'.
Proof.
  intros HI Ha Hs. pose proof HI as [[ip [Hseq Hlock]] Hout Hexcl Hlog Hadv Hlazy].
  destruct a as [t i|t].
  - (* Begin *)
    simpl in Hs. destruct (calls s t) eqn:Ec; [|discriminate]. injection Hs as <-.
    destruct Ha as [Hown Hal]. constructor; simpl; auto.
    + exists ip. split; auto. destruct (lock s) as [[o c]|] eqn:El; auto.
      destruct (Nat.eq_dec o t) as [->|Hne]; [|now rewrite setf_ne by auto].
      rewrite Ec in Hlock. inversion Hlock. destruct top; discriminate.
    + intros u Hu. destruct (Nat.eq_dec u t) as [->|Hne].
      * now rewrite setf_eq.
      * rewrite setf_ne by auto. apply Hout. auto.
    + intros a b f f' Hab. destruct (Nat.eq_dec a t) as [->|Hat].
      * rewrite setf_eq, setf_ne by auto. intros [<-|[]] Hf' _. simpl. intro E. eapply Hal; eauto.
      * rewrite (setf_ne _ _ _ a) by auto. intros Hf. destruct (Nat.eq_dec b t) as [->|Hbt].
        -- rewrite setf_eq. intros [<-|[]] _. simpl. eapply Hal; eauto.
        -- rewrite setf_ne by auto. intros Hf' Ho'. apply (Hexcl a b); auto.
    + destruct Hlazy as [?|[?|(u & i' & j & r & H & H')]]; auto. right. right.
      exists u, i', j, r. split; auto. rewrite setf_ne; auto. intros ->. rewrite Ec in H. destruct H.
  - (* Go *)
    clear Ha. cbn [gmstep] in Hs.
    destruct (calls s t) as [|f fs] eqn:Ec; [discriminate|].
    assert (Hothers : (exists c, lock s = Some (t, c)) -> forall u f, u <> t -> In f (calls s u) -> own (inst f) = false).
    { intros [c El] u f' Hu Hf. eapply outside_in; [|exact Hf]. apply Hout. intros c'. rewrite El. congruence. }
    (* is t the holder? *)
    assert (Hcase : (exists c, lock s = Some (t, c)) \/ (forall c, lock s <> Some (t, c))).
    { destruct (lock s) as [[o c]|]; [|right; discriminate]. destruct (Nat.eq_dec o t) as [->|]; [left; eauto|right; congruence]. }
    destruct Hcase as [[c El]|Hno].
    + (* holder *)
      specialize (Hothers (ex_intro _ c El)). rewrite El in Hlock. rewrite Ec in Hlock.
      assert (Hout' : forall u, u <> t -> outside (pos s) (calls s u)).
      { intros u Hu. apply Hout. rewrite El. congruence. }
      inversion Hlock as [i Hown Hag Hc Hr Hfs | i r Hown Hag Hnth Hc Hr Hfs | i p ip' c' top Hown Hpos Hp Hu Hag Htop Hc Hr Hfs]; subst; clear Hlock.
      * (* NLocked *)
        destruct (nth_error (memo s) (pos s i)) as [r|] eqn:En.
        -- injection Hs as <-. constructor; simpl; auto.
           ++ exists ip. split; auto. rewrite El, setf_eq. rewrite <- Hr. constructor; auto.
           ++ intros u Hu. rewrite El in Hu. assert (u <> t) by (intros ->; eapply Hu; eauto). rewrite setf_ne by auto. auto.
           ++ apply excl_set; auto.
              intros f [<-|[]]. right. rewrite Ec. simpl. eexists. split; [left; reflexivity|reflexivity].
           ++ destruct Hlazy as [?|[?|(u & i' & j & r' & H & H')]]; auto. right. right.
              exists u, i', j, r'. split; auto. rewrite setf_ne; auto. intros ->. rewrite Ec in H. destruct H as [|[]]; discriminate.
        -- rewrite <- Hr in Hs. injection Hs as <-. destruct (Hlog i) as [_ Hle]. apply nth_error_None in En.
           constructor; simpl; auto.
           ++ exists ip. split; auto. rewrite El, setf_eq.
              apply (H3 _ _ _ _ i (resume (gstate s)) ip 1 []); auto; try lia. constructor.
           ++ intros u Hu. rewrite El in Hu. assert (u <> t) by (intros ->; eapply Hu; eauto). rewrite setf_ne by auto. auto.
           ++ apply excl_set; auto.
              intros f [<-|[]]. right. rewrite Ec. simpl. eexists. split; [left; reflexivity|reflexivity].
           ++ rewrite Hadv, <- Hr. lia.
           ++ destruct Hlazy as [?|[?|(u & i' & j & r' & H & H')]]; auto. right. right.
              exists u, i', j, r'. split; auto. rewrite setf_ne; auto. intros ->. rewrite Ec in H. destruct H as [|[]]; discriminate.
      * (* NDone, external *)
        injection Hs as <-.
        assert (Hle : S (pos s i) <= length (memo s)) by (apply nth_error_Some; congruence).
        assert (Hoth : forall u f, u <> t -> In f (calls s u) -> inst f <> i).
        { intros u f Hu Hf E. apply (Hexcl t u (NDone i (pos s i) r) f); auto. rewrite Ec. simpl; auto. }
        constructor; simpl; auto.
        -- exists ip. rewrite El. split; auto. split; auto. intros i' Hi'. rewrite setf_ne by congruence. auto.
        -- intros u _. destruct (Nat.eq_dec u t) as [->|Hu]; [rewrite setf_eq; exact I|].
           rewrite setf_ne by auto. apply (outside_pos (pos s)); auto.
           intros f Hf. rewrite setf_ne; auto. eapply Hoth; eauto.
        -- apply excl_set; auto.
        -- intros i'. unfold given. simpl. rewrite given_snoc. destruct (Hlog i') as [L1 L2].
           destruct (Nat.eqb_spec i i').
           ++ subst i'. rewrite setf_eq. split; auto. rewrite L1. symmetry. now apply firstn_snoc.
           ++ rewrite setf_ne by auto. rewrite app_nil_r. auto.
        -- destruct Hlazy as [?|[[i' H]|(u & i' & j & r' & H & H' & H'')]]; auto; right.
           ++ left. exists i'. destruct (Nat.eq_dec i' i); [subst; lia|now rewrite setf_ne].
           ++ destruct (Nat.eq_dec u t) as [->|Hu].
              ** rewrite Ec in H. destruct H as [H|[]]. injection H as <- <- <-. left. exists i. now rewrite setf_eq.
              ** right. exists u, i', j, r'. rewrite setf_ne by auto. split; auto. split; auto.
                 rewrite setf_ne; auto. specialize (Hoth u _ Hu H). auto.
      * (* running *)
        symmetry in Hr. rewrite Hr in *.
        assert (Hlz : forall fs' : list (nframe V G), (forall i j r, In (NDone i j r) (calls s t) -> In (NDone i j r) fs') ->
           length (memo s) = 0 \/ (exists i, pos s i = length (memo s)) \/
           (exists u i j r, In (NDone i j r) (setf (calls s) t fs' u) /\ S j = length (memo s) /\ j = pos s i)).
        { intros fs' Hsub. destruct Hlazy as [?|[?|(u & i' & j & r' & H & H')]]; auto. right. right. exists u, i', j, r'.
          split; auto. destruct (Nat.eq_dec u t) as [->|]; [rewrite setf_eq; auto|rewrite setf_ne; auto]. }
        assert (Hex : forall fs' : list (nframe V G), (forall f, In f fs' -> own (inst f) = true \/ inst f = i) ->
           forall a b' f f', a <> b' -> In f (setf (calls s) t fs' a) ->
             In f' (setf (calls s) t fs' b') -> own (inst f) = false -> inst f <> inst f').
        { intros fs' Hsub. apply excl_set; auto.
          intros f' Hf'. destruct (Hsub f' Hf') as [|E]; auto. right.
            exists (NRun i (pos s i) p). split; [|auto]. rewrite Ec, <- Hfs. apply in_or_app. right. simpl. auto. }
        assert (Ho : forall fs' u, (forall c', Some (t, c) <> Some (u, c')) -> outside (pos s) (setf (calls s) t fs' u)).
        { intros fs' u Hu'. assert (u <> t) by (intros ->; eapply Hu'; eauto). rewrite setf_ne by auto. auto. }
        inversion Htop as [p' Hp' Hc Ht | i' k Hp' Hc Ht | i' k Hp' Hc Ht | i' k Hp' Hc Ht | i' k r Hnth Hp' Hc Ht]; subst; simpl in Hfs;
          injection Hfs as <- <-; clear Htop.
        -- (* NRun on top *)
           destruct p as [o g|i' k].
           ++ injection Hs as <-. simpl in Hp. 
              assert (Hs1 : sequence_of resume g0 (S (length (memo s))) = Some (memo s ++ [o], g, ip')).
              { simpl. rewrite Hseq, <- Hp. auto. }
              assert (Hlast : nth_error (memo s ++ [o]) (pos s i) = Some o).
              { rewrite Hpos, nth_error_app2, Nat.sub_diag by lia. auto. }
              constructor; simpl.
              ** exists ip'. rewrite app_length, Nat.add_1_r. split; auto. rewrite El, setf_eq. constructor; auto.
              ** rewrite El. apply Ho.
              ** apply Hex. intros f [<-|[]]. auto.
              ** intros i'. destruct (Hlog i') as [L1 L2]. rewrite app_length, firstn_app_le by auto. split; auto. simpl. lia.
              ** rewrite Hadv, app_length. simpl. lia.
              ** right. right. exists t, i, (pos s i), o. rewrite setf_eq, app_length, Hpos. simpl. split; auto. split; [lia|auto].
           ++ injection Hs as <-. destruct Hu as [Hi' Hk].
              constructor; simpl; auto.
              ** exists ip. split; auto. rewrite El, setf_eq, Hr.
                 apply (H3 _ _ _ _ i (GNext i' k) ip' 1 [NStart i']); simpl; auto. constructor.
              ** rewrite El. apply Ho.
              ** apply Hex. intros f [<-|[<-|[]]]; auto.
              ** now rewrite Hr, Hadv.
              ** apply Hlz. rewrite Ec. intros a b r [H|[]]; discriminate.
        -- (* NStart *)
           injection Hs as <-. constructor; simpl; auto.
           ** exists ip. split; auto. rewrite El, setf_eq, Hr.
              apply (H3 _ _ _ _ i (GNext i' k) ip' 1 [NHave i' (pos s i')]); simpl; auto. constructor.
           ** rewrite El. apply Ho.
           ** apply Hex. destruct Hu. intros f [<-|[<-|[]]]; auto.
           ** now rewrite Hr, Hadv.
           ** apply Hlz. rewrite Ec. intros a b r [H|[H|[]]]; discriminate.
        -- (* NHave *)
           rewrite El, Nat.eqb_refl in Hs. injection Hs as <-. constructor; simpl; auto.
           ** exists ip. split; auto. rewrite setf_eq, Hr.
              apply (H3 _ _ _ _ i (GNext i' k) ip' 2 [NLocked i' (pos s i')]); simpl; auto. constructor.
           ** intros u Hu'. apply Ho. intros c' E. apply (Hu' 2). congruence.
           ** apply Hex. destruct Hu. intros f [<-|[<-|[]]]; auto.
           ** now rewrite Hr, Hadv.
           ** apply Hlz. rewrite Ec. intros a b r [H|[H|[]]]; discriminate.
        -- (* NLocked *)
           destruct Hu as [Hi' Hk]. specialize (Hprod (S (length (memo s)))). simpl in Hprod. rewrite Hseq in Hprod.
           rewrite <- Hp in Hprod. simpl in Hprod. rewrite <- (Hag i' Hi') in Hprod.
           destruct (nth_error (memo s) (pos s i')) as [r|] eqn:En; [|congruence].
           injection Hs as <-. constructor; simpl; auto.
           ** exists ip. split; auto. rewrite El, setf_eq, Hr.
              apply (H3 _ _ _ _ i (GNext i' k) ip' 2 [NDone i' (pos s i') r]); simpl; auto. constructor. auto.
           ** rewrite El. apply Ho.
           ** apply Hex. intros f [<-|[<-|[]]]; auto.
           ** now rewrite Hr, Hadv.
           ** apply Hlz. rewrite Ec. intros a b r' [H|[H|[]]]; discriminate.
        -- (* NDone, internal *)
           destruct Hu as [Hi' Hk]. rewrite El in Hs. injection Hs as <-.
           assert (Hii : i <> i') by congruence.
           assert (Hle : S (pos s i') <= length (memo s)) by (apply nth_error_Some; congruence).
           simpl in Hp. rewrite <- (Hag i' Hi') in Hp. rewrite Hnth in Hp.
           constructor; simpl; auto.
           ** exists ip. split; auto. rewrite setf_eq.
              replace [NRun i (pos s i) (k r)] with ([] ++ [NRun i (setf (pos s) i' (S (pos s i')) i) (k r)]) by (now rewrite setf_ne).
              apply H3 with (ip' := setf ip' i' (S (pos s i'))); auto.
              --- now rewrite setf_ne.
              --- intros i2 Hi2. unfold setf. destruct (i2 =? i'); auto.
              --- constructor.
           ** intros u Hu'. assert (u <> t) by (intros ->; eapply Hu'; eauto). rewrite setf_ne by auto.
              apply (outside_pos (pos s)); auto. intros f Hf. rewrite setf_ne; auto.
              intro E. specialize (Hothers u f H Hf). congruence.
           ** apply Hex. intros f [<-|[]]; auto.
           ** intros i2. unfold given. simpl. rewrite given_snoc. destruct (Hlog i2) as [L1 L2].
              destruct (Nat.eqb_spec i' i2).
              --- subst i2. rewrite setf_eq. split; auto. rewrite L1. symmetry. now apply firstn_snoc.
              --- rewrite setf_ne by auto. rewrite app_nil_r. auto.
           ** right. left. exists i. rewrite setf_ne by auto. auto.
    + (* not the holder *)
      pose proof (Hout t Hno) as Ho. rewrite Ec in Ho.
      assert (Hlz : forall fs' : list (nframe V G), 
           length (memo s) = 0 \/ (exists i, pos s i = length (memo s)) \/
           (exists u i j r, In (NDone i j r) (setf (calls s) t fs' u) /\ S j = length (memo s) /\ j = pos s i)).
      { intros fs'. destruct Hlazy as [?|[?|(u & i' & j & r' & H & H')]]; auto. right. right. exists u, i', j, r'.
        split; auto. destruct (Nat.eq_dec u t) as [->|]; [|rewrite setf_ne; auto].
        exfalso. rewrite Ec in H. clear - Ho H. destruct f; simpl in *; try tauto; destruct fs; destruct H as [|[]]; try tauto; discriminate. }
      assert (Hex : forall fs' : list (nframe V G), (forall f', In f' fs' -> inst f' = inst f) ->
           forall a b' f f', a <> b' -> In f (setf (calls s) t fs' a) ->
             In f' (setf (calls s) t fs' b') -> own (inst f) = false -> inst f <> inst f').
      { intros fs' Hsub x y f1 f2 Hxy. simpl. 
        assert (K : forall z f3, In f3 (setf (calls s) t fs' z) -> exists f4, In f4 (calls s z) /\ inst f4 = inst f3).
        { intros z f3. destruct (Nat.eq_dec z t) as [->|]; [|rewrite setf_ne; eauto].
          rewrite setf_eq. intro H. exists f. rewrite Ec. split; [simpl; auto|]. symmetry. auto. }
        intros Hf1 Hf2 Hown. destruct (K _ _ Hf1) as (f3 & A1 & A2), (K _ _ Hf2) as (f4 & B1 & B2).
        rewrite <- A2, <- B2. apply (Hexcl x y); auto. congruence. }
      destruct f as [i|i j|i j|i j p|i j r]; simpl in Ho; try tauto; destruct fs; try tauto.
      * injection Hs as <-. constructor; simpl; auto.
        -- exists ip. split; auto. destruct (lock s) as [[o c]|]; auto. rewrite setf_ne; auto. intros ->. eapply Hno; eauto.
        -- intros u Hu. destruct (Nat.eq_dec u t) as [->|]; [rewrite setf_eq; simpl; auto|rewrite setf_ne; auto].
        -- apply Hex. intros f' [<-|[]]. auto.
      * destruct Ho as [Hown ->]. destruct (lock s) as [[o c]|] eqn:El.
        -- destruct (Nat.eqb_spec o t) as [->|]; [exfalso; eapply Hno; eauto|discriminate].
        -- injection Hs as <-. destruct Hlock as [Hr Hag]. constructor; simpl; auto.
           ++ exists ip. split; auto. rewrite setf_eq, Hr. constructor; auto.
           ++ intros u Hu. assert (u <> t) by (intros ->; eapply Hu; eauto). rewrite setf_ne by auto. auto.
              apply Hout. discriminate.
           ++ apply Hex. intros f' [<-|[]]. auto.
Qed.

Lemma run_inv acts : forall s s', Inv s -> one_user resume own s acts -> gmrun resume s acts = Some s' -> Inv s'.
Proof.
  induction acts as [|a acts IH]; simpl; intros s s' HI Hu Hr. { congruence. }
  destruct (gmstep resume s a) as [s1|] eqn:E; [|discriminate].
  destruct Hu as [H1' H2']. apply (IH s1); auto. apply (step_inv s a); auto.
Qed.

Lemma seq_prefix n m items g ip items' g' ip' : n <= m -> sequence_of resume g0 n = Some (items, g, ip) ->
  sequence_of resume g0 m = Some (items', g', ip') -> length items = n /\ length items' = m /\ items = firstn n items'.
Proof.
  intros Hle Hn. revert items' g' ip'.
  assert (Hlen : forall n items g ip, sequence_of resume g0 n = Some (items, g, ip) -> length items = n).
  { induction n0; simpl; intros its gg ipp H. { now injection H as <- <- <-. }
    destruct (sequence_of resume g0 n0) as [[[a b] c]|]; [|discriminate].
    destruct (produce (resume b) a c) as [[[d e] f]|]; [|discriminate]. injection H as <- <- <-.
    rewrite app_length. erewrite IHn0; eauto. simpl. lia. }
  induction Hle as [|m Hle IH]; intros items' g' ip' Hm.
  - rewrite Hn in Hm. injection Hm as <- <- <-. rewrite <- (Hlen _ _ _ _ Hn). rewrite firstn_all. auto.
  - pose proof (Hlen _ _ _ _ Hm) as L. simpl in Hm. destruct (sequence_of resume g0 m) as [[[a b] c]|] eqn:E; [|discriminate].
    destruct (produce (resume b) a c) as [[[d e] f]|]; [|discriminate]. injection Hm as <- <- <-.
    destruct (IH _ _ _ eq_refl) as (A & B & C). repeat split; auto.
    rewrite firstn_app_le by lia. auto.
Qed.
Lemma nth_firstn {X} (l : list X) : forall n k, k < n -> nth_error (firstn n l) k = nth_error l k.
Proof. induction l as [|x l IH]; intros [|n] [|k] H; simpl; auto; try lia. apply IH. lia. Qed.
Lemma memo_items s : Inv s -> forall k r, nth_error (memo s) k = Some r -> item resume g0 k = Some r.
Proof.
  intros [[ip [Hseq _]] _ _ _ _ _] k r Hk. unfold item.
  assert (Hlt : k < length (memo s)) by (apply nth_error_Some; congruence).
  destruct (sequence_of resume g0 (S k)) as [[[its gg] ipp]|] eqn:E; [|exfalso; exact (Hprod (S k) E)].
  destruct (seq_prefix (S k) (length (memo s)) _ _ _ _ _ _ ltac:(lia) E Hseq) as (_ & _ & ->).
  rewrite <- Hk. apply nth_firstn. lia.
Qed.

(** The statements *)
Lemma every_instance acts s i k r : one_user resume own (gst0 g0) acts -> gmrun resume (gst0 g0) acts = Some s ->
  nth_error (given s i) k = Some r -> item resume g0 k = Some r.
Proof.
  intros Hu Hr Hk. pose proof (run_inv _ _ _ Inv0 Hu Hr) as HI.
  destruct (I_log s HI i) as [L1 L2]. rewrite L1 in Hk. apply memo_items with (s := s); auto.
  assert (Hlt : k < pos s i).
  { assert (k < length (firstn (pos s i) (memo s))) by (apply nth_error_Some; congruence). rewrite firstn_length in H. lia. }
  rewrite <- Hk. symmetry. now apply nth_firstn.
Qed.
Lemma once acts s : one_user resume own (gst0 g0) acts -> gmrun resume (gst0 g0) acts = Some s ->
  (forall t, calls s t = []) ->
  (forall i, length (given s i) <= advanced s) /\ (advanced s = 0 \/ exists i, length (given s i) = advanced s).
Proof.
  intros Hu Hr Hidle. pose proof (run_inv _ _ _ Inv0 Hu Hr) as HI.
  pose proof (I_adv s HI) as Ha. destruct (I_seq s HI) as [ip [_ Hl]].
  assert (Hrun : running s = false).
  { destruct (lock s) as [[t c]|]; [|tauto]. rewrite Hidle in Hl. inversion Hl. destruct top; discriminate. }
  rewrite Hrun in Ha.
  assert (Hg : forall i, length (given s i) = pos s i).
  { intro i. destruct (I_log s HI i) as [L1 L2]. rewrite L1, firstn_length. lia. }
  split.
  - intro i. rewrite Hg. destruct (I_log s HI i). lia.
  - destruct (I_lazy s HI) as [H|[[i H]|(t & i & j & r & H & _)]].
    + left. lia.
    + right. exists i. rewrite Hg. lia.
    + rewrite Hidle in H. destruct H.
Qed.
(** never stuck *)
Lemma progress acts s : one_user resume own (gst0 g0) acts -> gmrun resume (gst0 g0) acts = Some s ->
  (exists t, calls s t <> []) -> exists t s', calls s t <> [] /\ gmstep resume s (Go t) = Some s'.
Proof.
  intros Hu Hr [t Ht]. pose proof (run_inv _ _ _ Inv0 Hu Hr) as HI.
  destruct (I_seq s HI) as [ip [_ Hl]]. destruct (lock s) as [[o c]|] eqn:El.
  - assert (Hc : calls s o <> []). { inversion Hl as [i A B Hc Hrr Hfs|i r A B C Hc Hrr Hfs|i p ip' c' top A B C D E F Hc Hrr Hfs]; try discriminate. destruct top; discriminate. }
    exists o. cbn [gmstep]. destruct (calls s o) as [|f fs] eqn:Ec; [congruence|].
    destruct f as [i|i j|i j|i j p|i j r]; rewrite ?El, ?Nat.eqb_refl; eauto.
    + destruct (nth_error (memo s) j); eauto. destruct (running s); eauto.
    + destruct p; eauto.
  - exists t. pose proof (I_out s HI t ltac:(rewrite El; discriminate)) as Ho.
    cbn [gmstep]. destruct (calls s t) as [|f fs] eqn:Ec; [congruence|].
    destruct f as [i|i j|i j|i j p|i j r]; rewrite ?El; simpl in Ho; eauto; tauto.
Qed.
(** the memo, as a sequence *)
Lemma memo_len acts s : one_user resume own (gst0 g0) acts -> gmrun resume (gst0 g0) acts = Some s ->
  exists items gg ip, sequence_of resume g0 (length (memo s)) = Some (items, gg, ip) /\ items = memo s.
Proof.
  intros Hu Hr. destruct (I_seq s (run_inv _ _ _ Inv0 Hu Hr)) as [ip [H _]]. eauto.
Qed.
End GP.
