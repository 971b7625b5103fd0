From Coq Require Import String List Bool Arith Lia.
From Verif Require Import Base TmrModel TmrSpec.
Import ListNotations.
Open Scope string_scope.
Open Scope list_scope.
Open Scope nat_scope.

Lemma run_app a b : forall w, run w (a ++ b) = run (run w a) b.
Proof. induction a; cbn; auto. Qed.
Lemma step_now w a : now (fst (step w a)) = now w + elapsed [a].
Proof. destruct a as [d|o q|o|o|o]; cbn; try destruct (timers w o) as [x|]; cbn; try destruct (t0 x); cbn; lia. Qed.
Lemma elapsed_app a b : elapsed (a ++ b) = elapsed a + elapsed b.
Proof. induction a as [|[] a IH]; cbn; lia. Qed.
Lemma run_now l : forall w, now (run w l) = now w + elapsed l.
Proof.
  induction l as [|a l IH]; intros w; cbn [run]; [cbn; lia|]. rewrite IH, step_now. change (a :: l) with ([a] ++ l). rewrite elapsed_app. lia.
Qed.
Lemma put_same w o x : timers (put w o x) o = Some x.
Proof. cbn. now rewrite Nat.eqb_refl. Qed.
Lemma put_other w o o' x : o' <> o -> timers (put w o x) o' = timers w o'.
Proof. cbn. intros N. destruct (Nat.eqb_spec o' o); congruence. Qed.
(** What one step does to one timer *)
Lemma step_timer w a o x : timers w o = Some x -> (forall q, a <> New o q) ->
  exists x', timers (fst (step w a)) o = Some x' /\ p x' = p x /\ (a <> Enter o -> t0 x' = t0 x) /\ (a <> Exit o -> dt x' = dt x).
Proof.
  intros H N. assert (Same : exists x', timers w o = Some x' /\ p x' = p x /\ (a <> Enter o -> t0 x' = t0 x) /\ (a <> Exit o -> dt x' = dt x)) by (exists x; auto).
  destruct a as [d|o' q|o'|o'|o']; cbn [step fst]; auto.
  - destruct (Nat.eq_dec o o') as [<-|D]; [now destruct (N q)|]. rewrite put_other by auto. auto.
  - destruct (Nat.eq_dec o o') as [<-|D].
    + rewrite H. cbn [fst]. rewrite put_same. eexists. split; [reflexivity|]. cbn. repeat split; auto. intros C. now destruct C.
    + destruct (timers w o'); cbn [fst]; rewrite ?put_other by auto; auto.
  - destruct (Nat.eq_dec o o') as [<-|D].
    + rewrite H. destruct (t0 x) eqn:T; cbn [fst]; [|exists x; repeat split; auto]. rewrite put_same. eexists. split; [reflexivity|]. cbn. repeat split; auto. intros C. now destruct C.
    + destruct (timers w o') as [x'|]; cbn [fst]; [destruct (t0 x')|]; cbn [fst]; rewrite ?put_other by auto; auto.
  - destruct (timers w o'); auto.
Qed.
Lemma run_timer l o : (forall q, ~ In (New o q) l) -> forall w x, timers w o = Some x ->
  exists x', timers (run w l) o = Some x' /\ p x' = p x /\ (~ In (Enter o) l -> t0 x' = t0 x) /\ (~ In (Exit o) l -> dt x' = dt x).
Proof.
  induction l as [|a l IH]; intros N w x H; cbn [run]; [exists x; auto|].
  destruct (step_timer w a o x H) as (x1 & H1 & P1 & T1 & D1); [intros q ->; apply (N q); now left|].
  destruct (IH (fun q I => N q (or_intror I)) _ _ H1) as (x2 & H2 & P2 & T2 & D2). exists x2. cbn [In]. repeat split; [auto|congruence| |].
  - intros E. rewrite T2 by auto. apply T1. intros ->. apply E. now left.
  - intros E. rewrite D2 by auto. apply D1. intros ->. apply E. now left.
Qed.
Lemma made_there l o q w : made l o q -> exists x, timers (run w l) o = Some x /\ p x = q.
Proof.
  intros (a & b & -> & N). rewrite run_app. cbn [run step fst]. destruct (run_timer b o N _ _ (put_same (run w a) o (mktimer q None None))) as (x & H & P & _).
  exists x. auto.
Qed.
Lemma not_new_snoc l o q a : made l o q -> (forall q', a <> New o q') -> made (l ++ [a]) o q.
Proof.
  intros (x & y & -> & N) D. exists x, (y ++ [a]). split; [now rewrite <- app_assoc|]. intros q' I. apply in_app_or in I. destruct I as [I|[I|[]]]; [now apply (N q')|now apply (D q')].
Qed.
Lemma leaving n a b o q : made a o q -> (forall q', ~ In (New o q') b) -> ~ In (Enter o) b ->
  let w := run (start n) (a ++ Enter o :: b) in
  snd (step w (Exit o)) = (if q then Printed (elapsed b) else Nothing) /\
  exists x, timers (fst (step w (Exit o))) o = Some x /\ dt x = Some (elapsed b).
Proof.
  intros M N E w. unfold w. clear w. destruct (made_there a o q (start n) M) as (x & H & P). rewrite run_app. cbn [run step]. rewrite H. cbn [fst].
  destruct (run_timer b o N _ _ (put_same (run (start n) a) o (mktimer (p x) (Some (now (run (start n) a))) (dt x)))) as (x' & H' & P' & T & _).
  rewrite H', (T E), P'. cbn [t0 p fst snd]. rewrite P, run_now. cbn [put now]. replace (now (run (start n) a) + elapsed b - now (run (start n) a)) with (elapsed b) by lia.
  split; [reflexivity|]. eexists. split; [apply put_same|reflexivity].
Qed.
Theorem measures n a b c o q : made a o q -> (forall q', ~ In (New o q') (b ++ c)) -> ~ In (Enter o) b -> ~ In (Exit o) c ->
  snd (step (run (start n) (a ++ Enter o :: b)) (Exit o)) = (if q then Printed (elapsed b) else Nothing) /\
  snd (step (run (start n) (a ++ Enter o :: b ++ Exit o :: c)) (Read o)) = Value (elapsed b).
Proof.
  intros M N E X. destruct (leaving n a b o q M (fun q' I => N q' (in_or_app _ _ _ (or_introl I))) E) as (R & x & H & D). split; [exact R|].
  replace (a ++ Enter o :: b ++ Exit o :: c) with ((a ++ Enter o :: b) ++ Exit o :: c) by (rewrite <- app_assoc; reflexivity).
  rewrite run_app. cbn [run]. destruct (run_timer c o (fun q' I => N q' (in_or_app _ _ _ (or_intror I))) _ _ H) as (x' & H' & _ & _ & D').
  unfold step at 1. rewrite H'. cbn [snd]. rewrite (D' X), D. reflexivity.
Qed.
Theorem within n a b1 b2 b3 o i q q' : o <> i -> made a o q -> made a i q' -> (forall z z', ~ In (New z z') (b1 ++ b2 ++ b3)) ->
  (forall z, z = o \/ z = i -> ~ In (Enter z) (b1 ++ b2 ++ b3) /\ ~ In (Exit z) (b1 ++ b2 ++ b3)) ->
  exists outer inner, let w := run (start n) (a ++ Enter o :: b1 ++ Enter i :: b2 ++ Exit i :: b3 ++ [Exit o]) in
    snd (step w (Read o)) = Value outer /\ snd (step w (Read i)) = Value inner /\ outer = elapsed b1 + inner + elapsed b3.
Proof.
  intros D Mo Mi N E. destruct (E o (or_introl eq_refl)) as [Eo Xo]. destruct (E i (or_intror eq_refl)) as [Ei Xi]. rewrite !in_app_iff in Eo, Xo, Ei, Xi.
  exists (elapsed b1 + elapsed b2 + elapsed b3), (elapsed b2). split; [|split; [|reflexivity]].
  - destruct (measures n a (b1 ++ Enter i :: b2 ++ Exit i :: b3) [] o q Mo) as [_ R].
    + intros z I. apply (N o z). rewrite app_nil_r in I. rewrite !in_app_iff in *. cbn [In] in I. rewrite in_app_iff in I. cbn [In] in I. intuition discriminate.
    + rewrite !in_app_iff. cbn [In]. rewrite in_app_iff. cbn [In]. intuition congruence.
    + intros [].
    + rewrite elapsed_app in R. cbn [elapsed] in R. rewrite elapsed_app in R. cbn [elapsed] in R. rewrite <- !app_assoc in R. cbn [app] in R. rewrite <- !app_assoc in R. cbn [app] in R. rewrite R. f_equal. lia.
  - assert (Mi' : made (a ++ Enter o :: b1) i q').
    { destruct Mi as (x & y & -> & Ny). exists x, (y ++ Enter o :: b1). split; [now rewrite <- app_assoc|]. intros z I. rewrite in_app_iff in I. cbn [In] in I.
      destruct I as [I|[I|I]]; [now apply (Ny z)|discriminate|]. apply (N i z). rewrite in_app_iff. now left. }
    destruct (measures n (a ++ Enter o :: b1) b2 (b3 ++ [Exit o]) i q' Mi') as [_ R].
    + intros z I. apply (N i z). rewrite !in_app_iff in *. cbn [In] in I. intuition discriminate.
    + tauto.
    + rewrite in_app_iff. cbn [In]. intuition congruence.
    + rewrite <- app_assoc in R. cbn [app] in R. exact R.
Qed.
Theorem not_entered n x y o q : ~ In (Enter o) y -> (forall q', ~ In (New o q') y) -> let a := x ++ New o q :: y in
  snd (step (run (start n) a) (Exit o)) = Fails AttributeError /\ snd (step (run (start n) a) (Read o)) = Fails AttributeError.
Proof.
  intros E N a. unfold a. clear a. rewrite run_app. cbn [run]. set (w := fst (step (run (start n) x) (New o q))).
  assert (G : forall y w x0, (forall q', ~ In (New o q') y) -> ~ In (Enter o) y -> timers w o = Some x0 -> t0 x0 = None -> dt x0 = None ->
    exists x1, timers (run w y) o = Some x1 /\ t0 x1 = None /\ dt x1 = None).
  { clear. induction y as [|b y IH]; intros w x0 N E H T D; [exists x0; auto|]. cbn [run].
    destruct (step_timer w b o x0 H) as (x1 & H1 & _ & T1 & D1); [intros q' ->; apply (N q'); now left|].
    apply (IH _ x1); auto; [intros q' I; apply (N q'); now right|intros I; apply E; now right| |].
    - rewrite T1; [exact T|intros ->; apply E; now left].
    - destruct b as [d|o' q'|o'|o'|o']; try (rewrite D1; [exact D|discriminate]).
      destruct (Nat.eq_dec o' o) as [->|Z]; [|rewrite D1; [exact D|congruence]]. cbn [step] in H1. rewrite H, T in H1. cbn [fst] in H1. congruence. }
  destruct (G y w (mktimer q None None) N E (put_same _ _ _) eq_refl eq_refl) as (x1 & H & T & D). unfold step. rewrite H, T, D. auto.
Qed.
Lemma nested_same : exists a b, made a 0 false /\ elapsed b = 3 /\
  snd (step (run (start 0) (a ++ Enter 0 :: b ++ [Exit 0])) (Read 0)) = Value 2.
Proof. exists [New 0 false], [Wait 1; Enter 0; Wait 2; Exit 0]. split; [exists [], []; split; [reflexivity|intros ? []]|]. split; reflexivity. Qed.

Lemma helper_ok f : existsb (String.eqb f) helpers = true <-> helper f.
Proof.
  unfold helper, helpers. cbn [existsb]. rewrite !orb_true_iff, !String.eqb_eq. intuition discriminate.
Qed.
Theorem callsite self stack file : callsite_filename (self :: stack) = Ok file <->
  exists inner f outer, stack = inner ++ (f, file) :: outer /\ ~ helper f /\ forall g x, In (g, x) inner -> helper g.
Proof.
  unfold callsite_filename. cbn [tl]. induction stack as [|[g x] stack IH]; cbn [search].
  - split; [discriminate|]. intros ([|] & f & o & E & _); discriminate.
  - destruct (existsb (String.eqb g) helpers) eqn:H.
    + apply helper_ok in H. rewrite IH. split.
      * intros (i & f & o & -> & N & A). exists ((g, x) :: i), f, o. split; [reflexivity|split; [exact N|]]. intros g' x' [Q|I]; [injection Q as <- <-; exact H|eauto].
      * intros ([|y i] & f & o & E & N & A); cbn in E; injection E as E1 E2; [subst; contradiction|]. exists i, f, o. split; [exact E2|split; [exact N|]]. intros g' x' I. eapply A. right. exact I.
    + assert (~ helper g) by (intros C; apply helper_ok in C; congruence). split.
      * intros E. injection E as ->. exists [], g, stack. split; [reflexivity|split; [assumption|intros ? ? []]].
      * intros ([|y i] & f & o & E & N & A); cbn in E; injection E as E1 E2; [congruence|]. subst. destruct (H0 (A g x (or_introl eq_refl))).
Qed.
Theorem callsite_none self stack : callsite_filename (self :: stack) = Raise IndexError <-> forall g x, In (g, x) stack -> helper g.
Proof.
  unfold callsite_filename. cbn [tl]. induction stack as [|[g x] stack IH]; cbn [search].
  - split; [intros _ ? ? []|reflexivity].
  - destruct (existsb (String.eqb g) helpers) eqn:H.
    + apply helper_ok in H. rewrite IH. split; [intros A g' x' [Q|I]; [injection Q as <- <-; exact H|eauto]|intros A g' x' I; eapply A; right; exact I].
    + split; [discriminate|]. intros A. exfalso. assert (C : helper g) by (apply (A g x); now left). apply helper_ok in C. congruence.
Qed.
Lemma name_only mine theirs self outer : callsite_filename (self :: ("call", mine) :: ("<module>", theirs) :: outer) = Ok theirs.
Proof. reflexivity. Qed.
