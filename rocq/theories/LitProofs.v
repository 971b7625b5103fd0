(** Proofs for C130. *)
From Coq Require Import List ZArith Bool Arith Lia.
From Verif Require Import Base.
From Verif Require ItrModel.
From Verif Require Import LitModel LitSpec.
Import ListNotations.
Open Scope list_scope.
Open Scope nat_scope.

Section Principle.
Context {A B : Type}.
Variable P : promise A B.
Notation proc := (proc A B).

Inductive flush : proc -> list (ans B) -> option exn -> Prop :=
| fl_ret : flush PRet [] None
| fl_throw e : flush (PThrow e) [] (Some e)
| fl_out b k d e : flush k d e -> flush (POut b k) (b :: d) e.

Definition step (J : proc -> list A -> list (ans B) -> Prop) (p : proc) (l : list A) (d : list (ans B)) : Prop :=
  match p with
  | POut b k => exists d', d = b :: d' /\ J k l d'
  | PRead i k => d = [] /\ halt P l = None /\ i = which P l /\
      (forall a, exists d', out P (l ++ [a]) = out P l ++ d' /\ J (k (Item a)) (l ++ [a]) d') /\
      flush (k Stop) (fin P l) (err P l) /\ (forall e, k (Fail e) = PThrow e)
  | PRet => d = [] /\ halt P l = Some None
  | PThrow e => d = [] /\ halt P l = Some (Some e)
  end.
Lemma step_mono (J J' : proc -> list A -> list (ans B) -> Prop) : (forall p l d, J p l d -> J' p l d) ->
  forall p l d, step J p l d -> step J' p l d.
Proof.
  intros M p l d. destruct p; cbn; try tauto.
  - intros (d' & E & H). eauto.
  - intros (E & H & W & I & F & G). repeat (split; [assumption|]). split; [|split; assumption].
    intros a. destruct (I a) as (d' & X & Y). eauto.
Qed.
(** the largest relation that is closed under steps *)
Definition ok (p : proc) (l : list A) (d : list (ans B)) : Prop :=
  exists J : proc -> list A -> list (ans B) -> Prop, (forall p l d, J p l d -> step J p l d) /\ J p l d.
Lemma ok_step p l d : ok p l d -> step ok p l d.
Proof. intros (J & C & H). apply (step_mono J); [|now apply C]. intros p' l' d' X. exists J. auto. Qed.
Lemma ok_coind (J : proc -> list A -> list (ans B) -> Prop) :
  (forall p l d, J p l d -> step (fun p l d => J p l d \/ ok p l d) p l d) -> forall p l d, J p l d -> ok p l d.
Proof.
  intros C p l d H. exists (fun p l d => J p l d \/ ok p l d). split; [|now left].
  intros p' l' d' [X|X]; [now apply C|]. apply (step_mono ok); [now right|]. now apply ok_step.
Qed.
Lemma ok_fold p l d : step ok p l d -> ok p l d.
Proof.
  intros H. apply (ok_coind (fun p l d => step ok p l d)); [|assumption].
  intros p' l' d' X. apply (step_mono ok); [now right|assumption].
Qed.
Lemma ok_out b k l d : ok k l d -> ok (POut b k) l (b :: d).
Proof. intros H. apply ok_fold. cbn. eauto. Qed.
Lemma ok_ret l : halt P l = Some None -> ok PRet l [].
Proof. intros H. apply ok_fold. cbn. auto. Qed.
Lemma ok_throw e l : halt P l = Some (Some e) -> ok (PThrow e) l [].
Proof. intros H. apply ok_fold. cbn. auto. Qed.

(** loops, which may give something before they come back *)
Inductive up (J : proc -> list A -> Prop) : proc -> list A -> list (ans B) -> Prop :=
| up_loop p l : J p l -> up J p l []
| up_ok p l d : ok p l d -> up J p l d
| up_out b k l d : up J k l d -> up J (POut b k) l (b :: d).
Lemma ok_loop (J : proc -> list A -> Prop) :
  (forall p l, J p l -> step (up J) p l []) -> forall p l, J p l -> ok p l [].
Proof.
  intros C p l H. exists (up J). split; [|now constructor].
  intros p' l' d' X. destruct X as [p' l' X|p' l' d' X|b k l' d' X].
  - now apply C.
  - apply (step_mono ok); [|now apply ok_step]. now constructor.
  - cbn. eauto.
Qed.

Definition after (l : list A) (done : list (ans B)) (tr : list (label A B)) (q : proc) : Prop :=
  (forall tr1 i v tr2, tr = tr1 ++ LRead i v :: tr2 ->
     going_on tr1 /\ done ++ outs tr1 = out P (l ++ items tr1) /\ halt P (l ++ items tr1) = None /\ i = which P (l ++ items tr1)) /\
  (going_on tr ->
     prefix (done ++ outs tr) (out P (l ++ items tr)) /\
     (q = PRet -> done ++ outs tr = out P (l ++ items tr) /\ halt P (l ++ items tr) = Some None) /\
     (forall e, q = PThrow e -> done ++ outs tr = out P (l ++ items tr) /\ halt P (l ++ items tr) = Some (Some e))) /\
  (forall tr1 i tr2, tr = tr1 ++ LRead i Stop :: tr2 ->
     prefix (outs tr2) (fin P (l ++ items tr1)) /\
     (q = PRet -> outs tr2 = fin P (l ++ items tr1) /\ err P (l ++ items tr1) = None) /\
     (forall e, q = PThrow e -> outs tr2 = fin P (l ++ items tr1) /\ err P (l ++ items tr1) = Some e)) /\
  (forall tr1 i e tr2, tr = tr1 ++ LRead i (Fail e) :: tr2 -> tr2 = [] /\ q = PThrow e).

Lemma outs_cons b (tr : list (label A B)) : outs (LOut b :: tr) = b :: outs tr.
Proof. reflexivity. Qed.
Lemma flush_run p d e : flush p d e -> forall tr q, run p tr q ->
  (forall i v, ~ In (LRead i v) tr) /\ prefix (outs tr) d /\
  (q = PRet -> outs tr = d /\ e = None) /\ (forall x, q = PThrow x -> outs tr = d /\ e = Some x).
Proof.
  induction 1 as [|e|b k d e F IH]; intros tr q R.
  - inversion R; subst. repeat split; try discriminate; auto. now exists [].
  - inversion R; subst. split; [auto|]. split; [now exists []|]. split; [discriminate|]. intros x E. injection E as ->. auto.
  - inversion R; subst.
    + split; [auto|]. split; [now eexists|]. split; discriminate.
    + match goal with H : run k _ _ |- _ => destruct (IH _ _ H) as (N & (r & E) & U & V) end. split; [|split; [|split]].
      * intros i v [X|X]; [discriminate|exact (N i v X)].
      * exists r. rewrite outs_cons. cbn. now rewrite E.
      * intros X. destruct (U X) as [U1 U2]. rewrite outs_cons, U1. auto.
      * intros x X. destruct (V x X) as [U1 U2]. rewrite outs_cons, U1. auto.
Qed.

Lemma ok_run p tr q : run p tr q -> forall l done d, ok p l d -> done ++ d = out P l -> after l done tr q.
Proof.
  induction 1 as [p|b k tr q R IH|i k v tr q R IH]; intros l done d O E.
  - split; [|split; [|split]].
    + intros tr1 i v tr2 X. destruct tr1; discriminate.
    + intros _. cbn. rewrite !app_nil_r. split; [now exists d|]. apply ok_step in O. split; [intros ->|intros e ->]; cbn in O; destruct O as [-> H]; rewrite app_nil_r in E; auto.
    + intros tr1 i tr2 X. destruct tr1; discriminate.
    + intros tr1 i e tr2 X. destruct tr1; discriminate.
  - apply ok_step in O. cbn in O. destruct O as (d' & -> & O).
    assert (E' : (done ++ [b]) ++ d' = out P l) by (rewrite <- app_assoc; exact E).
    destruct (IH l (done ++ [b]) d' O E') as (H1 & H2 & H3 & H4). split; [|split; [|split]].
    + intros [|x tr1] i v tr2 X; [discriminate|]. injection X as <- X. destruct (H1 _ _ _ _ X) as (G & U & V & W).
      split; [|split; [|split; assumption]].
      * intros j w [Y|Y]; [discriminate|exact (G j w Y)].
      * cbn. rewrite <- app_assoc in U. exact U.
    + intros G. assert (G' : going_on tr) by (intros j w Y; apply (G j w); now right). specialize (H2 G'). rewrite <- app_assoc in H2. exact H2.
    + intros [|x tr1] i tr2 X; [discriminate|]. injection X as <- X. exact (H3 _ _ _ X).
    + intros [|x tr1] i e tr2 X; [discriminate|]. injection X as <- X. exact (H4 _ _ _ _ X).
  - apply ok_step in O. cbn in O. destruct O as (-> & Hh & Hw & Hi & Hs & Hf). rewrite app_nil_r in E.
    destruct v as [a| |e].
    + destruct (Hi a) as (d' & Eo & O).
      assert (E' : done ++ d' = out P (l ++ [a])) by (rewrite E; auto).
      destruct (IH (l ++ [a]) done d' O E') as (H1 & H2 & H3 & H4). split; [|split; [|split]].
      * intros [|x tr1] j w tr2 X.
        -- injection X as <- <- <-. cbn. rewrite !app_nil_r. split; [intros ? ? []|auto].
        -- injection X as <- X. destruct (H1 _ _ _ _ X) as (G & U & V & W). cbn. rewrite <- app_assoc in U, V, W.
           split; [|split; [|split; assumption]].
           ++ intros j' w' [Y|Y]; [injection Y as <- <-; now exists a|exact (G j' w' Y)].
           ++ exact U.
      * intros G. assert (G' : going_on tr) by (intros j w Y; apply (G j w); now right). specialize (H2 G'). rewrite <- app_assoc in H2. exact H2.
      * intros [|x tr1] j tr2 X; [discriminate|]. injection X as <- X. specialize (H3 _ _ _ X). rewrite <- app_assoc in H3. exact H3.
      * intros [|x tr1] j e tr2 X; [discriminate|]. injection X as <- X. exact (H4 _ _ _ _ X).
    + destruct (flush_run _ _ _ Hs _ _ R) as (N & F1 & F2 & F3). split; [|split; [|split]].
      * intros [|x tr1] j w tr2 X.
        -- injection X as <- <- <-. cbn. rewrite !app_nil_r. split; [intros ? ? []|auto].
        -- injection X as <- X. exfalso. apply (N j w). rewrite X. apply in_app_iff. right. now left.
      * intros G. destruct (G i Stop (or_introl eq_refl)) as [a X]. discriminate.
      * intros [|x tr1] j tr2 X.
        -- injection X as <- <-. cbn. rewrite app_nil_r. auto.
        -- injection X as <- X. exfalso. apply (N j Stop). rewrite X. apply in_app_iff. right. now left.
      * intros [|x tr1] j e tr2 X; [discriminate|]. injection X as <- X. exfalso. apply (N j (Fail e)). rewrite X. apply in_app_iff. right. now left.
    + rewrite Hf in R. inversion R; subst. split; [|split; [|split]].
      * intros [|x tr1] j w tr2 X; [|destruct tr1; discriminate]. injection X as <- <- <-. cbn. rewrite !app_nil_r. split; [intros ? ? []|auto].
      * intros G. destruct (G _ _ (or_introl eq_refl)) as [a X]. discriminate.
      * intros [|x tr1] j tr2 X; [discriminate|destruct tr1; discriminate].
      * intros [|x tr1] j e' tr2 X; [|destruct tr1; discriminate]. injection X as <- <- <-. auto.
Qed.
Lemma ok_keeps p : ok p [] (out P []) -> keeps P p.
Proof. intros O tr q R. exact (ok_run p tr q R [] [] (out P []) O eq_refl). Qed.
End Principle.
Arguments flush {A B}.

(** Reading some items first *)
Lemma ok_read_n {A B} (P : promise A B) full short pre :
  forall m xs, (forall ys, length xs <= length ys < length xs + m -> out P ys = pre /\ halt P ys = None /\ which P ys = 0 /\ flush (short ys) (fin P ys) (err P ys)) ->
  (forall ys, length ys = length xs + m -> exists d, out P ys = pre ++ d /\ ok P (full ys) ys d) ->
  exists d, out P xs = pre ++ d /\ ok P (read_n m xs full short) xs d.
Proof.
  induction m as [|m IH]; intros xs H F.
  - apply F. lia.
  - destruct (H xs ltac:(lia)) as (Eo & Eh & Ew & Es). exists []. split; [now rewrite app_nil_r|]. apply ok_fold. cbn [read_n step].
    split; [reflexivity|]. split; [exact Eh|]. split; [now symmetry|]. split; [|split; [exact Es|reflexivity]].
    intros a. destruct (IH (xs ++ [a])) as (d & E & O).
    + intros ys L. apply H. rewrite app_length in L. cbn in L. lia.
    + intros ys L. apply F. rewrite app_length in L. cbn in L. lia.
    + exists d. rewrite Eo. auto.
Qed.
Lemma flush_emit {A B} (l : list B) : @flush A B (emit l PRet) (map Given l) None.
Proof. induction l as [|b l IH]; constructor; exact IH. Qed.

Lemma last_snoc {A} (l : list A) a : last_of (l ++ [a]) = Some a.
Proof. unfold last_of. now rewrite rev_app_distr. Qed.
Lemma before_snoc {A} (l : list A) a : forall pre, with_before pre (l ++ [a]) = with_before pre l ++ [(pre ++ l, a)].
Proof.
  induction l as [|b l IH]; intros pre; cbn; [now rewrite app_nil_r|]. rewrite IH. now rewrite <- app_assoc.
Qed.
Lemma snoc_cases {A} (l : list A) : l = [] \/ exists l' a, l = l' ++ [a].
Proof. destruct l as [|x l] using rev_ind; eauto. Qed.

(** * The tools *)
Section Rest.
Context {A : Type}.
(** the iterator itself: [pre] has been given before, and [c] items left out *)
Lemma ok_rest {B} (P : promise A B) (p : proc A B) (g : A -> ans B) (fits : list A -> Prop) :
  p = PRead 0 (fun v => match v with Item a => POut (g a) p | Stop => PRet | Fail e => PThrow e end) ->
  (forall l, fits l -> halt P l = None /\ which P l = 0 /\ fin P l = [] /\ err P l = None /\ forall a, fits (l ++ [a]) /\ out P (l ++ [a]) = out P l ++ [g a]) ->
  forall l, fits l -> ok P p l [].
Proof.
  intros Ep H l F. set (J := fun q l => q = p /\ fits l). apply (ok_loop P J); [|split; auto]. clear l F. intros q l [-> F].
  rewrite Ep. cbn. destruct (H l F) as (Hh & Hw & Hf & He & Hn). split; [reflexivity|]. split; [exact Hh|]. split; [now symmetry|].
  split; [|split; [rewrite Hf, He; constructor|reflexivity]].
  intros a. exists [g a]. split; [apply Hn|]. apply up_out, up_loop. split; [reflexivity|apply Hn].
Qed.
Definition unf {B} (p : proc A B) : proc A B := match p with POut b k => POut b k | PRead i k => PRead i k | PRet => PRet | PThrow e => PThrow e end.
Lemma unf_eq {B} (p : proc A B) : p = unf p.
Proof. destruct p; reflexivity. Qed.
Lemma rest_eq : (rest : proc A A) = PRead 0 (fun v => match v with Item a => POut (Given a) rest | Stop => PRet | Fail e => PThrow e end).
Proof. exact (unf_eq rest). Qed.
Lemma tail_eq : (tail_from [] : proc A (part A)) = PRead 0 (fun v => match v with Item a => POut (Given (Tail a)) (tail_from []) | Stop => PRet | Fail e => PThrow e end).
Proof. exact (unf_eq (tail_from [])). Qed.
End Rest.

Section Tools.
Context {A B K : Type}.
Variable keq : K -> K -> bool.
Variable key : A -> outcome K.

Lemma uniqify_keeps : equivalence keq -> keeps (gives_until (uniqify_out keq key) (key_fails key (Some RuntimeError))) (uniqify keq key).
Proof.
  intros (Rf & Sy & Tr). apply ok_keeps. cbn. apply ok_out. set (P := gives_until _ _).
  apply (ok_loop P (fun p l => exists seen, p = uniqify_loop keq key seen /\ key_fails key (Some RuntimeError) l = None /\
     forall a k, key a = Ok k -> existsb (keq k) seen = existsb (same_key keq key a) l)).
  2:{ exists []. repeat split. }
  intros p l (seen & -> & N & I). rewrite (unf_eq (uniqify_loop keq key seen)). cbn. split; [reflexivity|]. split; [exact N|]. split; [reflexivity|].
  split; [|split; [constructor|reflexivity]]. intros a.
  assert (E : uniqify_out keq key (l ++ [a]) = uniqify_out keq key l ++ if has_key key a && negb (existsb (same_key keq key a) l) then [a] else []).
  { unfold uniqify_out. rewrite before_snoc, flat_map_app. cbn. now rewrite app_nil_r. }
  assert (Hl : key_fails key (Some RuntimeError) (l ++ [a]) = match key a with Ok _ => None | Raise e => Some (Some (in_generator e)) end).
  { unfold key_fails. rewrite last_snoc. destruct (key a) as [|[]]; reflexivity. }
  rewrite E, map_app. unfold has_key. destruct (key a) as [k|e] eqn:Ek.
  - rewrite (I a k Ek). cbn [andb]. destruct (existsb (same_key keq key a) l) eqn:X.
    + exists []. split; [reflexivity|]. apply up_loop. exists seen. split; [reflexivity|]. split; [exact Hl|].
      intros b kb Eb. rewrite existsb_app. cbn. rewrite orb_false_r. rewrite (I b kb Eb).
      unfold same_key at 3. rewrite Eb, Ek. destruct (keq kb k) eqn:Q; [|now rewrite orb_false_r].
      rewrite orb_true_r. rewrite <- (I b kb Eb). rewrite <- (I a k Ek) in X. apply existsb_exists in X. destruct X as (s & S1 & S2).
      apply existsb_exists. exists s. split; [exact S1|]. eapply Tr; eassumption.
    + exists [Given a]. split; [reflexivity|]. apply up_out, up_loop. exists (k :: seen). split; [reflexivity|]. split; [exact Hl|].
      intros b kb Eb. rewrite existsb_app. cbn. rewrite orb_false_r. rewrite (I b kb Eb). unfold same_key at 3. rewrite Eb, Ek. apply orb_comm.
  - exists []. split; [reflexivity|]. apply up_ok, ok_throw. exact Hl.
Qed.

Lemma uniq_keeps : equivalence keq -> keeps (gives_until (uniq_out keq key) (key_fails key None)) (uniq keq key).
Proof.
  intros (Rf & Sy & Tr). apply ok_keeps. cbn. apply ok_out. set (P := gives_until _ _).
  apply (ok_loop P (fun p l => exists cur, p = uniq_loop keq key cur /\ key_fails key None l = None /\
     match last_of l, cur with None, None => True | Some b, Some c => exists kb, key b = Ok kb /\ keq c kb = true | _, _ => False end)).
  2:{ exists None. repeat split. }
  intros p l (cur & -> & N & I). rewrite (unf_eq (uniq_loop keq key cur)). cbn. split; [reflexivity|]. split; [exact N|]. split; [reflexivity|].
  split; [|split; [constructor|reflexivity]]. intros a.
  assert (E : uniq_out keq key (l ++ [a]) = uniq_out keq key l ++
     if has_key key a && negb (match last_of l with Some b => same_key keq key b a | None => false end) then [a] else []).
  { unfold uniq_out. rewrite before_snoc, flat_map_app. cbn. now rewrite app_nil_r. }
  assert (Hl : key_fails key None (l ++ [a]) = match key a with Ok _ => None | Raise StopIterationE => Some None | Raise e => Some (Some e) end).
  { unfold key_fails. rewrite last_snoc. destruct (key a) as [|[]]; reflexivity. }
  rewrite E, map_app. unfold has_key. destruct (key a) as [k|e] eqn:Ek.
  - cbn [andb].
    assert (X : match cur with Some c => keq c k | None => false end = match last_of l with Some b => same_key keq key b a | None => false end).
    { destruct (last_of l) as [b|], cur as [c|]; try contradiction; [|reflexivity]. destruct I as (kb & Eb & Q). unfold same_key. rewrite Eb, Ek.
      destruct (keq kb k) eqn:Y; [eapply Tr; eassumption|]. destruct (keq c k) eqn:Z; [|reflexivity].
      rewrite <- Y. symmetry. apply (Tr kb c k); [now rewrite Sy|exact Z]. }
    rewrite <- X. destruct (match cur with Some c => keq c k | None => false end) eqn:Y.
    + exists []. split; [reflexivity|]. apply up_loop. exists cur. split; [reflexivity|]. split; [exact Hl|]. rewrite last_snoc.
      destruct cur as [c|]; [|discriminate]. eauto.
    + exists [Given a]. split; [reflexivity|]. apply up_out, up_loop. exists (Some k). split; [reflexivity|]. split; [exact Hl|]. rewrite last_snoc. eauto.
  - exists []. split; [reflexivity|]. apply up_ok. destruct e; cbn; try (apply ok_throw; exact Hl). apply ok_ret. exact Hl.
Qed.

Lemma up_emit (P : promise A B) (f : A -> outcome (list B)) (J : proc A B -> list A -> Prop) l : forall bs : list B, J (each f []) l -> up P J (each f bs) l (map Given bs).
Proof.
  induction bs as [|b bs IH]; intros H; [now apply up_loop|]. rewrite (unf_eq (each f (b :: bs))). cbn. apply up_out. auto.
Qed.
Lemma flatmap_keeps (f : A -> outcome (list B)) : keeps (gives_until (flat f) (key_fails f None)) (flatmap f).
Proof.
  apply ok_keeps. cbn. apply ok_out. set (P := gives_until _ _).
  set (J := fun p l => p = each f [] /\ key_fails f None l = None). apply (ok_loop P J); [|split; auto].
  intros p l (-> & N). rewrite (unf_eq (each f [])). cbn. split; [reflexivity|]. split; [exact N|]. split; [reflexivity|].
  split; [|split; [constructor|reflexivity]]. intros a.
  assert (Hl : key_fails f None (l ++ [a]) = match f a with Ok _ => None | Raise StopIterationE => Some None | Raise e => Some (Some e) end).
  { unfold key_fails. rewrite last_snoc. destruct (f a) as [|[]]; reflexivity. }
  unfold flat. rewrite flat_map_app, map_app. cbn. rewrite app_nil_r. destruct (f a) as [bs|e] eqn:Ek.
  - exists (map Given bs). split; [reflexivity|]. apply up_emit. split; auto.
  - exists []. split; [reflexivity|]. apply up_ok. destruct e; cbn; try (apply ok_throw; exact Hl). apply ok_ret. exact Hl.
Qed.
End Tools.

(** * Functions that read some items first *)
Lemma ltb_length {X} (l : list X) m : (length l <? m) = true <-> length l < m.
Proof. apply Nat.ltb_lt. Qed.
Lemma keeps_first {A B} m (f g : list A -> list (ans B)) full short :
  (forall ys, length ys < m -> flush (short ys) (g ys) None) ->
  (forall ys, length ys = m -> ok (reads_first m f g) (full ys) ys (f ys)) ->
  keeps (reads_first m f g) (read_n m [] full short).
Proof.
  intros S F. apply ok_keeps. destruct (ok_read_n (reads_first m f g) full short [] m []) as (d & E & O).
  - intros ys [_ L]. cbn [length Nat.add] in L. unfold reads_first. cbn [out halt which fin err]. rewrite (proj2 (Nat.ltb_lt _ _) L). split; [reflexivity|]. split; [reflexivity|]. split; [reflexivity|]. now apply S.
  - intros ys L. cbn [length Nat.add] in L. exists (f ys). split; [|now apply F]. unfold reads_first. cbn [out app]. now rewrite L, Nat.ltb_irrefl.
  - cbn [app] in E. rewrite E. exact O.
Qed.
Lemma skipn_snoc {X} n (l : list X) a : n <= length l -> skipn n (l ++ [a]) = skipn n l ++ [a].
Proof. intros L. rewrite skipn_app. replace (n - length l) with 0 by lia. reflexivity. Qed.
Lemma skipn_tl {X} : forall n (l : list X), skipn (S n) l = tl (skipn n l).
Proof. induction n as [|n IH]; intros [|x l]; try reflexivity. cbn [skipn]. rewrite <- IH. destruct l; reflexivity. Qed.
Lemma ge_ltb a b : b <= a -> (a <? b) = false.
Proof. intros L. apply Nat.ltb_ge. exact L. Qed.

Lemma refused {A B} e : keeps (refuses e) (PThrow e : proc A B).
Proof. apply ok_keeps. cbn. now apply ok_throw. Qed.

Section Same.
Context {A : Type}.
Lemma take_keeps (n : nat) : keeps (gives_until (fun l => l) (fun l => if length l =? n then Some None else None)) (take (Z.of_nat n) : proc A A).
Proof.
  apply ok_keeps. unfold take. rewrite (proj2 (Z.ltb_ge _ _)) by lia. rewrite Nat2Z.id. cbn. apply ok_out. set (P := gives_until _ _).
  enough (H : forall m l, length l + m = n -> ok P (islice m) l []) by (apply H; reflexivity).
  induction m as [|m IH]; intros l L.
  - apply ok_ret. cbn. now rewrite (proj2 (Nat.eqb_eq _ _)) by lia.
  - apply ok_fold. cbn. split; [reflexivity|]. split; [now rewrite (proj2 (Nat.eqb_neq _ _)) by lia|]. split; [reflexivity|].
    split; [|split; [constructor|reflexivity]]. intros a. exists [Given a]. split; [now rewrite map_app|]. apply ok_out, IH. rewrite app_length. cbn. lia.
Qed.
Lemma drop_keeps (n : nat) :
  keeps (reads_first n (fun l => Returned :: map Given (skipn n l)) (fun _ => [Returned])) (drop (Some (Z.of_nat n)) : proc A A).
Proof.
  unfold drop. rewrite (proj2 (Z.ltb_ge _ _)) by lia. rewrite Nat2Z.id. apply keeps_first.
  - intros ys _. repeat constructor.
  - intros ys L. rewrite <- L, skipn_all. cbn. apply ok_out. rewrite L.
    apply (ok_rest _ _ Given (fun l => n <= length l)); [exact rest_eq| |lia].
    intros l Ll. unfold reads_first, always, only, no_err. cbn [out halt which fin err]. rewrite (ge_ltb _ _ Ll).
    split; [reflexivity|]. split; [reflexivity|]. split; [reflexivity|]. split; [reflexivity|]. intros a. rewrite app_length. cbn [length]. split; [lia|].
    rewrite (ge_ltb (length l + 1) n) by lia. rewrite (skipn_snoc _ _ _ Ll), map_app. reflexivity.
Qed.
Lemma drop_all_keeps : keeps (mkP (fun _ => []) always (fun _ => [Returned]) no_err only) (drop None : proc A A).
Proof.
  apply ok_keeps. cbn. set (P := mkP _ _ _ _ _). set (k := POut Returned PRet).
  apply (ok_loop P (fun p _ => p = exhaust k)); [|auto]. intros p l ->. rewrite (unf_eq (exhaust k)) at 1. cbn.
  split; [reflexivity|]. split; [reflexivity|]. split; [reflexivity|]. split; [|split; [repeat constructor|reflexivity]].
  intros a. exists []. split; [reflexivity|]. now apply up_loop.
Qed.
Lemma butlastn_keeps (n : nat) : keeps (gives (fun l => firstn (length l - n) l)) (butlastn n : proc A A).
Proof.
  apply ok_keeps. cbn. apply ok_out. set (P := gives _).
  assert (X : exists d, out P [] = [Returned] ++ d /\ ok P (read_n (n + 1) [] butlastn_loop (fun _ => PRet)) [] d).
  2:{ destruct X as (d & E & O). cbn in E. injection E as E. rewrite <- E in O. exact O. }
  apply ok_read_n.
  - intros ys [_ L]. cbn in L. cbn. replace (length ys - n) with 0 by lia. repeat split. constructor.
  - intros ys L. cbn in L. destruct ys as [|x q]; [cbn in L; lia|]. exists [Given x]. split.
    + unfold P, gives. cbn [out]. cbn in L. cbn [length]. replace (S (length q) - n) with 1 by lia. reflexivity.
    + cbn in L. assert (Lq : length q = n) by lia. clear L.
      assert (Y : forall q l, length q = n -> skipn (length l - n) l = q -> n <= length l ->
        ok P (PRead 0 (fun v => match v with Item a => butlastn_loop (q ++ [a]) | Stop => PRet | Fail e => PThrow e end)) l []).
      { clear. intros q l L Sk N.
        apply (ok_loop P (fun p l => exists q, p = PRead 0 (fun v => match v with Item a => butlastn_loop (q ++ [a]) | Stop => PRet | Fail e => PThrow e end) /\
          length q = n /\ skipn (length l - n) l = q /\ n <= length l)); [|eauto].
        clear. intros p l (q & -> & L & Sk & N). unfold P, gives. cbn [step out halt which fin err]. split; [reflexivity|]. split; [reflexivity|]. split; [reflexivity|].
        split; [|split; [constructor|reflexivity]]. intros a. destruct (q ++ [a]) as [|y r] eqn:E; [destruct q; discriminate|].
        exists [Given y]. split.
        - rewrite app_length. cbn [length]. replace (length l + 1 - n) with (S (length l - n)) by lia.
          assert (Z : l ++ [a] = firstn (length l - n) l ++ y :: r) by (rewrite <- E, <- Sk, app_assoc, firstn_skipn; reflexivity).
          rewrite Z. rewrite firstn_app. rewrite firstn_all2 by (rewrite firstn_length; lia). rewrite firstn_length.
          replace (S (length l - n) - Nat.min (length l - n) (length l)) with 1 by lia. cbn [firstn]. rewrite map_app. reflexivity.
        - rewrite (unf_eq (butlastn_loop (y :: r))). cbn. apply up_out, up_loop. exists r.
          assert (Lr : length (q ++ [a]) = S (length r)) by (rewrite E; reflexivity). rewrite app_length in Lr. cbn in Lr.
          split; [reflexivity|]. split; [lia|]. rewrite app_length. cbn [length]. split; [|lia].
          replace (length l + 1 - n) with (S (length l - n)) by lia.
          assert (Z : l ++ [a] = firstn (length l - n) l ++ y :: r) by (rewrite <- E, <- Sk, app_assoc, firstn_skipn; reflexivity).
          rewrite Z. rewrite skipn_app. rewrite skipn_all2 by (rewrite firstn_length; lia). rewrite firstn_length.
          replace (S (length l - n) - Nat.min (length l - n) (length l)) with 1 by lia. reflexivity. }
      rewrite (unf_eq (butlastn_loop (x :: q))). cbn. apply ok_out. apply (Y q _ Lq); [|cbn; lia].
      cbn [length]. replace (S (length q) - n) with 1 by lia. reflexivity.
Qed.
Lemma scons_keeps (x : A) : keeps (gives (fun l => x :: l)) (scons x).
Proof.
  apply ok_keeps. cbn. apply ok_out, ok_out. apply (ok_rest _ _ Given (fun _ => True)); [exact rest_eq| |exact Logic.I].
  intros l _. cbn. repeat split. now rewrite map_app.
Qed.
Lemma pad_keeps n (x : A) : keeps (mkP (fun l => Returned :: map Given l) always (fun l => map Given (repeat x (n - length l))) no_err only) (pad n x).
Proof.
  apply ok_keeps. cbn. apply ok_out. set (P := mkP _ _ _ _ _).
  apply (ok_loop P (fun p l => p = pad_loop n x (length l))); [|reflexivity]. intros p l ->. rewrite (unf_eq (pad_loop n x (length l))) at 1. cbn.
  split; [reflexivity|]. split; [reflexivity|]. split; [reflexivity|]. split; [|split; [apply flush_emit|reflexivity]].
  intros a. exists [Given a]. split; [now rewrite map_app|]. apply up_out, up_loop. rewrite app_length. cbn. now rewrite Nat.add_1_r.
Qed.
Lemma deque_last n (l : list A) a : ItrModel.deque_push n (skipn (length l - n) l) a = skipn (length (l ++ [a]) - n) (l ++ [a]).
Proof.
  unfold ItrModel.deque_push. rewrite <- skipn_snoc by lia. rewrite skipn_length, app_length. cbn [length].
  destruct (Nat.ltb_spec n (length l + 1 - (length l - n))) as [L|L].
  - destruct (skipn (length l - n) (l ++ [a])) eqn:E.
    + exfalso. apply (f_equal (@length A)) in E. rewrite skipn_length, app_length in E. cbn in E. lia.
    + cbn. replace (length l + 1 - n) with (S (length l - n)) by lia. rewrite skipn_tl. now rewrite E.
  - f_equal. lia.
Qed.
Lemma deque_keeps (P : promise A A) n k : (forall l, halt P l = None /\ which P l = 0 /\ out P l = out P [] /\ flush (k (skipn (length l - n) l)) (fin P l) (err P l)) ->
  forall l, ok P (fill_deque n (skipn (length l - n) l) k) l [].
Proof.
  intros H l. apply (ok_loop P (fun p l => p = fill_deque n (skipn (length l - n) l) k)); [|reflexivity]. clear l. intros p l ->.
  rewrite (unf_eq (fill_deque n (skipn (length l - n) l) k)) at 1. cbn. destruct (H l) as (Hh & Hw & Ho & Hf).
  split; [reflexivity|]. split; [exact Hh|]. split; [now symmetry|]. split; [|split; [exact Hf|reflexivity]].
  intros a. exists []. split; [rewrite (proj1 (proj2 (proj2 (H (l ++ [a]))))), Ho; now rewrite app_nil_r|]. apply up_loop. now rewrite deque_last.
Qed.
Lemma lastn_keeps n : keeps (mkP (fun _ => [Returned]) always (fun l => map Given (skipn (length l - n) l)) no_err only) (lastn n : proc A A).
Proof.
  apply ok_keeps. cbn. apply ok_out. apply (deque_keeps _ n (fun d => emit d PRet)) with (l := []).
  intros l. repeat split. apply flush_emit.
Qed.
Lemma last_keeps (x : A) : keeps (answers (fun _ => None) (fun l => Ok (List.last l x))) (last_ x).
Proof.
  apply ok_keeps. cbn. apply (deque_keeps _ 1 (fun d => POut (Given (match rev d with x :: _ => x | [] => x end)) PRet)) with (l := []).
  intros l. repeat split. cbn.
  replace (match rev (skipn (length l - 1) l) with [] => x | y :: _ => y end) with (List.last l x); [repeat constructor|].
  destruct (snoc_cases l) as [->|(l' & a & ->)]; [reflexivity|]. rewrite last_last, app_length. cbn [length].
  replace (length l' + 1 - 1) with (length l') by lia. rewrite skipn_app, skipn_all, Nat.sub_diag. reflexivity.
Qed.
Lemma nth_keeps (n : nat) (x : A) : keeps (answers (fun l => option_map Ok (nth_error l n)) (fun _ => Ok x)) (nth_ (Z.of_nat n) x).
Proof.
  apply ok_keeps. unfold nth_. rewrite (proj2 (Z.ltb_ge _ _)) by lia. rewrite Nat2Z.id. set (P := answers _ _).
  assert (X : forall ys, length ys <= n -> out P ys = [] /\ halt P ys = None).
  { intros ys L. unfold P. cbn. rewrite (proj2 (nth_error_None _ _) L). auto. }
  match goal with |- ok P (read_n n [] ?f ?g) [] _ => destruct (ok_read_n P f g [] n []) as (d & E & O) end.
  - intros ys [_ L]. cbn in L. destruct (X ys) as [X1 X2]; [lia|]. repeat split; auto. repeat constructor.
  - intros ys L. cbn in L. destruct (X ys) as [X1 X2]; [lia|]. exists []. split; [exact X1|]. apply ok_fold. cbn [step].
    split; [reflexivity|]. split; [exact X2|]. split; [reflexivity|]. split; [|split; [repeat constructor|reflexivity]].
    intros a. exists [Given a]. rewrite X1. unfold P. cbn. rewrite nth_error_app2, L, Nat.sub_diag by lia. cbn. split; [reflexivity|].
    apply ok_out, ok_ret. cbn. rewrite nth_error_app2, L, Nat.sub_diag by lia. reflexivity.
  - cbn [app] in E. rewrite E. exact O.
Qed.
Lemma interleave_keeps m : keeps (mkP (fun l => Returned :: map Given l) always nothing no_err (fun l => length l mod (S m))) (interleave (S m) : proc A A).
Proof.
  apply ok_keeps. cbn [out]. apply ok_out. set (P := mkP _ _ _ _ _).
  apply (ok_loop P (fun p l => p = interleave_loop (S m) (length l mod (S m)))); [|now rewrite Nat.mod_0_l by lia]. intros p l ->.
  rewrite (unf_eq (interleave_loop (S m) (length l mod (S m)))) at 1. cbn [unf interleave_loop step].
  split; [reflexivity|]. split; [reflexivity|]. split; [reflexivity|]. split; [|split; [constructor|reflexivity]].
  intros a. exists [Given a]. split; [cbn; now rewrite map_app|]. apply up_out, up_loop. f_equal. rewrite app_length. cbn [length].
  pose proof (Nat.mod_upper_bound (length l) (S m) ltac:(lia)) as L.
  destruct (Nat.eqb_spec (S (length l mod S m)) (S m)) as [E|E].
  - rewrite Nat.add_mod by lia. destruct m as [|m]; [now rewrite !Nat.mod_1_r|]. rewrite (Nat.mod_small 1) by lia.
    replace (length l mod S (S m) + 1) with (S (S m)) by lia. now rewrite Nat.mod_same by lia.
  - rewrite Nat.add_mod by lia. destruct m as [|m]; [lia|]. rewrite (Nat.mod_small 1) by lia. rewrite (Nat.mod_small (length l mod S (S m) + 1)) by lia. lia.
Qed.
End Same.

(** * Functions that answer a question *)
Lemma answers_loop {A B} (f : list A -> option (outcome B)) g (J : proc A B -> list A -> Prop) :
  (forall p l, J p l -> f l = None /\ exists k, p = PRead 0 k /\
     (forall a, match f (l ++ [a]) with
                | None => J (k (Item a)) (l ++ [a])
                | Some (Ok b) => k (Item a) = POut (Given b) PRet
                | Some (Raise e) => k (Item a) = PThrow e
                end) /\
     match g l with Ok b => k Stop = POut (Given b) PRet | Raise e => k Stop = PThrow e end /\
     (forall e, k (Fail e) = PThrow e)) ->
  forall p, J p [] -> keeps (answers f g) p.
Proof.
  intros H p Hp. apply ok_keeps. set (P := answers f g).
  assert (E0 : out P [] = []). { unfold P, answers. cbn [out]. now rewrite (proj1 (H p [] Hp)). }
  rewrite E0. apply (ok_loop P J); [|exact Hp]. clear p Hp E0. intros p l Hp. destruct (H p l Hp) as (Ef & k & -> & Hk & Hs & Hf).
  cbn [step]. unfold P, answers. cbn [out halt which fin err]. rewrite Ef. split; [reflexivity|]. split; [reflexivity|]. split; [reflexivity|].
  split; [|split; [|exact Hf]].
  - intros a. specialize (Hk a). destruct (f (l ++ [a])) as [[b|e]|] eqn:Ea.
    + exists [Given b]. split; [reflexivity|]. rewrite Hk. apply up_ok, ok_out, ok_ret. cbn. now rewrite Ea.
    + exists []. split; [reflexivity|]. rewrite Hk. apply up_ok, ok_throw. cbn. now rewrite Ea.
    + exists []. split; [reflexivity|]. apply up_loop. exact Hk.
  - destruct (g l); rewrite Hs; repeat constructor.
Qed.
Lemma find_keeps {A} (pred : A -> outcome bool) (x : A) :
  keeps (answers (by_last (fun a _ => match pred a with
                                      | Ok true => Some (Ok a) | Ok false => None
                                      | Raise StopIterationE => Some (Ok x) | Raise e => Some (Raise e)
                                      end)) (fun _ => Ok x)) (find pred x).
Proof.
  set (f := by_last _). set (J := fun p l => p = find pred x /\ f l = None). apply (answers_loop f _ J); [|split; reflexivity].
  intros p l [-> N]. split; [exact N|]. eexists. split; [exact (unf_eq (find pred x))|]. split; [|split; reflexivity].
  intros a. unfold f at 1, by_last. rewrite last_snoc. destruct (pred a) as [[|]|e] eqn:E; try reflexivity.
  - split; [reflexivity|]. unfold f, by_last. now rewrite last_snoc, E.
  - destruct e; reflexivity.
Qed.
Lemma iindex_keeps {A} (eqb : A -> A -> bool) (x : A) :
  keeps (answers (by_last (fun a n => if eqb a x then Some (Ok (n - 1)) else None)) (fun _ => Raise ValueError)) (iindex eqb x).
Proof.
  set (f := by_last _). set (J := fun p l => p = iindex_loop eqb x (length l) /\ f l = None). apply (answers_loop f _ J); [|split; reflexivity].
  intros p l [-> N]. split; [exact N|]. eexists. split; [exact (unf_eq (iindex_loop eqb x (length l)))|]. split; [|split; reflexivity].
  intros a. unfold f at 1, by_last. rewrite last_snoc, app_length. cbn [length]. destruct (eqb a x) eqn:E; cbn [f].
  - now rewrite Nat.add_sub.
  - split; [|unfold f, by_last; now rewrite last_snoc, E]. rewrite app_length. cbn [length]. now rewrite Nat.add_1_r.
Qed.
Lemma subset_keeps {A} (eqb : A -> A -> bool) (whole : list A) :
  keeps (answers (by_last (fun a _ => if existsb (eqb a) whole then None else Some (Ok false))) (fun _ => Ok true)) (subset eqb whole).
Proof.
  set (f := by_last _). set (J := fun p l => p = subset eqb whole /\ f l = None). apply (answers_loop f _ J); [|split; reflexivity].
  intros p l [-> N]. split; [exact N|]. eexists. split; [exact (unf_eq (subset eqb whole))|]. split; [|split; reflexivity].
  intros a. unfold f at 1, by_last. rewrite last_snoc. destruct (existsb (eqb a) whole) eqn:E; [|reflexivity].
  split; [reflexivity|]. unfold f, by_last. now rewrite last_snoc, E.
Qed.
Lemma allsame_keeps {A} (eqb : A -> A -> bool) :
  keeps (answers (fun l => match l with [] => None | x0 :: r => by_last (fun a _ => if eqb a x0 then None else Some (Ok false)) r end) (fun _ => Ok true))
        (allsame eqb).
Proof.
  set (f := fun l : list A => match l with [] => None | _ => _ end).
  set (J := fun p l => f l = None /\ match l with [] => p = allsame eqb | x0 :: _ => p = allsame_loop eqb x0 end).
  apply (answers_loop f _ J); [|split; reflexivity].
  intros p [|x0 l] [N ->]; (split; [exact N|]).
  - eexists. split; [reflexivity|]. split; [|split; reflexivity]. intros a. split; reflexivity.
  - eexists. split; [exact (unf_eq (allsame_loop eqb x0))|]. split; [|split; reflexivity].
    intros a. unfold f at 1, by_last. cbn [app]. rewrite last_snoc. destruct (eqb a x0) eqn:E; [|reflexivity].
    split; [|reflexivity]. unfold f, by_last. now rewrite last_snoc, E.
Qed.
Lemma inn_snoc x l a : inn_answer x (l ++ [a]) =
  if (a =? x)%Z then Some (Ok true)
  else match l with
       | [] => None
       | y0 :: l => match List.find (fun y => negb (y =? y0)%Z) l with
                    | Some yj => if (if (y0 <? yj)%Z then (x <? a)%Z else (a <? x)%Z) then Some (Ok false) else None
                    | None => None
                    end
       end.
Proof. unfold inn_answer. rewrite rev_app_distr. cbn. now rewrite rev_involutive. Qed.
Lemma find_snoc {X} (p : X -> bool) l a : List.find p (l ++ [a]) = match List.find p l with Some b => Some b | None => if p a then Some a else None end.
Proof. induction l as [|b l IH]; cbn; [reflexivity|]. destruct (p b); auto. Qed.
Lemma inn_keeps x : keeps (answers (inn_answer x) (fun _ => Ok false)) (inn x).
Proof.
  set (J := fun p l => inn_answer x l = None /\ match l with
    | [] => p = inn x
    | y0 :: l => match List.find (fun y => negb (y =? y0)%Z) l with Some yj => p = inn_scan (0 <? yj - y0)%Z x | None => p = inn_skip x y0 end
    end).
  apply (answers_loop _ _ J); [|split; reflexivity]. intros p l [N Hp]. split; [exact N|]. destruct l as [|y0 l].
  - subst p. eexists. split; [reflexivity|]. split; [|split; reflexivity]. intros a. destruct (inn_answer x ([] ++ [a])) as [o|] eqn:E.
    + rewrite inn_snoc in E. destruct (a =? x)%Z; [|discriminate]. injection E as <-. reflexivity.
    + split; [exact E|]. rewrite inn_snoc in E. cbn. destruct (a =? x)%Z; [discriminate|]. reflexivity.
  - destruct (List.find (fun y => negb (y =? y0)%Z) l) as [yj|] eqn:Ef; subst p.
    + eexists. split; [exact (unf_eq (inn_scan (0 <? yj - y0)%Z x))|]. split; [|split; reflexivity]. intros a.
      destruct (inn_answer x ((y0 :: l) ++ [a])) as [o|] eqn:E; rewrite inn_snoc, Ef in E.
      * destruct (Z.eqb_spec a x) as [->|Na].
        -- injection E as <-. destruct (0 <? yj - y0)%Z; cbn; rewrite Z.leb_refl; cbn; reflexivity.
        -- destruct (Z.ltb_spec y0 yj), (Z.ltb_spec 0 (yj - y0)); try lia.
           ++ destruct (Z.ltb_spec x a); [|discriminate]. injection E as <-. cbn. now rewrite (proj2 (Z.leb_gt a x)) by lia.
           ++ destruct (Z.ltb_spec a x); [|discriminate]. injection E as <-. cbn. now rewrite (proj2 (Z.leb_gt x a)) by lia.
      * destruct (Z.eqb_spec a x) as [Ea|Na]; [discriminate|]. unfold J. cbn [app]. rewrite find_snoc, Ef. split.
        -- change (y0 :: l ++ [a]) with ((y0 :: l) ++ [a]). rewrite inn_snoc, Ef. destruct (Z.eqb_spec a x); [contradiction|exact E].
        -- destruct (Z.ltb_spec y0 yj), (Z.ltb_spec 0 (yj - y0)); try lia; cbn.
           ++ destruct (Z.ltb_spec x a); [discriminate|]. rewrite (proj2 (Z.leb_le a x)) by lia. cbn. destruct (Z.eqb_spec a x); [contradiction|reflexivity].
           ++ destruct (Z.ltb_spec a x); [discriminate|]. rewrite (proj2 (Z.leb_le x a)) by lia. cbn. destruct (Z.eqb_spec a x); [contradiction|reflexivity].
    + assert (Ny : (y0 =? x)%Z = false).
      { destruct (Z.eqb_spec y0 x) as [->|]; [|reflexivity]. exfalso. destruct (snoc_cases l) as [->|(l' & b & ->)].
        - change [x] with ([] ++ [x]) in N. rewrite inn_snoc, Z.eqb_refl in N. discriminate.
        - rewrite find_snoc in Ef. destruct (List.find _ l'); [discriminate|]. destruct (Z.eqb_spec b x) as [->|]; [|discriminate].
          change (x :: l' ++ [x]) with ((x :: l') ++ [x]) in N. rewrite inn_snoc, Z.eqb_refl in N. discriminate. }
      eexists. split; [exact (unf_eq (inn_skip x y0))|]. split; [|split; reflexivity]. intros a.
      destruct (inn_answer x ((y0 :: l) ++ [a])) as [o|] eqn:E; rewrite inn_snoc, Ef in E.
      * destruct (Z.eqb_spec a x) as [->|Na]; [|discriminate]. injection E as <-. cbn.
        destruct (Z.eqb_spec x y0) as [->|]; [rewrite Z.eqb_refl in Ny; discriminate|]. reflexivity.
      * destruct (Z.eqb_spec a x) as [Ea|Na]; [discriminate|]. unfold J. cbn [app]. rewrite find_snoc, Ef. split.
        -- change (y0 :: l ++ [a]) with ((y0 :: l) ++ [a]). rewrite inn_snoc, Ef. destruct (Z.eqb_spec a x); [contradiction|reflexivity].
        -- cbn. destruct (Z.eqb_spec a y0); cbn; [reflexivity|]. destruct (Z.eqb_spec a x); [contradiction|reflexivity].
Qed.

(** * The flatten family *)
Lemma keeps_ext {A B} (P Q : promise A B) p :
  (forall l, out P l = out Q l) -> (forall l, halt P l = halt Q l) -> (forall l, fin P l = fin Q l) -> (forall l, err P l = err Q l) -> (forall l, which P l = which Q l) ->
  keeps P p -> keeps Q p.
Proof.
  intros Eo Eh Ef Ee Ew K tr q R. destruct (K tr q R) as (H1 & H2 & H3 & H4). split; [|split; [|split; [|exact H4]]].
  - intros tr1 i v tr2 E. specialize (H1 _ _ _ _ E). now rewrite <- Eo, <- Eh, <- Ew.
  - intros G. specialize (H2 G). now rewrite <- Eo, <- Eh.
  - intros tr1 i tr2 E. specialize (H3 _ _ _ E). now rewrite <- Ef, <- Ee.
Qed.
Lemma never_fails {A B} (f : A -> B) l : key_fails (fun a => Ok (f a)) None l = None.
Proof. unfold key_fails. now destruct (last_of l). Qed.
Section Flat.
Context {A : Type} (pred : ItrModel.item A -> bool).
Lemma flatten_keeps : keeps (gives (ItrModel.flatten pred)) (flatten pred).
Proof. eapply keeps_ext; [..|exact (flatmap_keeps _)]; try reflexivity. apply never_fails. Qed.
Lemma flatten_in_keeps : keeps (gives (ItrModel.flatten_in pred)) (flatten_in pred).
Proof. eapply keeps_ext; [..|exact (flatmap_keeps _)]; try reflexivity. apply never_fails. Qed.
Lemma flatten1_keeps : keeps (gives (ItrModel.flatten1 pred)) (flatten1 (Some pred)).
Proof.
  eapply keeps_ext; [..|exact (flatmap_keeps _)]; try reflexivity.
  - intros l. cbn. f_equal. f_equal. unfold flat, ItrModel.flatten1. induction l as [|e l IH]; [reflexivity|]. cbn. rewrite IH. destruct e; reflexivity.
  - intros l. cbn. unfold key_fails. destruct (last_of l) as [[]|]; reflexivity.
Qed.
Lemma flatten1_bare_keeps :
  keeps (gives_until (flat_map (fun e => match e with ItrModel.Node _ es => es | ItrModel.Leaf _ => [] end))
           (fun l => match last_of l with Some (ItrModel.Leaf _) => Some (Some TypeError) | _ => None end)) (flatten1 (A := A) None).
Proof.
  eapply keeps_ext; [..|exact (flatmap_keeps _)]; try reflexivity.
  - intros l. cbn. f_equal. f_equal. unfold flat. induction l as [|e l IH]; [reflexivity|]. cbn. rewrite IH. destruct e; reflexivity.
  - intros l. cbn. unfold key_fails. destruct (last_of l) as [[]|]; reflexivity.
Qed.
End Flat.

(** * Windows *)
Lemma windows_first {A} n (l : list A) : 0 < n -> length l = n -> windows n l = [l].
Proof. intros Hn L. unfold windows. rewrite L. replace (n + 1 - n) with 1 by lia. cbn. rewrite <- L, firstn_all. reflexivity. Qed.
Lemma windows_snoc {A} n (l : list A) a : 0 < n -> n <= length l ->
  windows n (l ++ [a]) = windows n l ++ [skipn (length l + 1 - n) l ++ [a]].
Proof.
  intros Hn L. unfold windows. rewrite app_length. cbn [length]. replace (length l + 1 + 1 - n) with (S (length l + 1 - n)) by lia.
  rewrite seq_S, map_app. f_equal.
  - apply map_ext_in. intros i Hi. apply in_seq in Hi. rewrite skipn_app. rewrite firstn_app. rewrite skipn_length.
    replace (n - (length l - i)) with 0 by lia. cbn. now rewrite app_nil_r.
  - cbn [map]. f_equal. rewrite Nat.add_0_l. rewrite skipn_snoc by lia. apply firstn_all2. rewrite app_length, skipn_length. cbn. lia.
Qed.
Lemma window_keeps {A} (n : nat) : 2 <= n ->
  keeps (reads_first n (fun l => Returned :: map Given (windows n l)) (fun _ => [Returned])) (window (Z.of_nat n) : proc A (list A)).
Proof.
  intros Hn. unfold window. rewrite (proj2 (Z.ltb_ge _ _)) by lia. rewrite Nat2Z.id. apply keeps_first.
  - intros ys _. repeat constructor.
  - intros ys L. set (P := reads_first _ _ _). rewrite windows_first by lia. apply ok_out. rewrite (unf_eq (windowed ys)). cbn. apply ok_out.
    set (loop := fun xs : list A => PRead 0 (fun v => match v with Item a => windowed (tl xs ++ [a]) | Stop => PRet | Fail e => PThrow e end)).
    change (ok P (loop ys) ys []).
    set (J := fun p l => n <= length l /\ p = loop (skipn (length l - n) l)). apply (ok_loop P J).
    2:{ split; [lia|]. now rewrite L, Nat.sub_diag. }
    intros p l [Ll ->]. unfold loop at 1. cbn [step]. unfold P, reads_first, always, only, no_err. cbn [out halt which fin err].
    rewrite (ge_ltb _ _ Ll). split; [reflexivity|]. split; [reflexivity|]. split; [reflexivity|]. split; [|split; [constructor|reflexivity]].
    intros a. exists [Given (skipn (length l + 1 - n) l ++ [a])]. rewrite app_length. cbn [length]. rewrite (ge_ltb (length l + 1) n) by lia. split.
    + rewrite windows_snoc by lia. rewrite map_app. reflexivity.
    + rewrite (unf_eq (windowed _)). cbn. rewrite <- skipn_tl. replace (S (length l - n)) with (length l + 1 - n) by lia. apply up_out, up_loop.
      split; [rewrite app_length; lia|]. rewrite app_length. cbn [length]. rewrite skipn_snoc by lia. reflexivity.
Qed.
Lemma removelast_snoc {X} (l : list X) a : removelast (l ++ [a]) = l.
Proof. now rewrite removelast_app, app_nil_r by discriminate. Qed.
Lemma close_snoc tol l a b : close tol ((l ++ [a]) ++ [b]) = (Z.abs (a - b) <=? tol)%Z.
Proof. unfold close. rewrite !rev_app_distr. reflexivity. Qed.
Lemma within_keeps tol : keeps (gives_until (within_out tol) (fun l => if close tol l then Some None else None)) (within tol).
Proof.
  apply ok_keeps. set (P := gives_until _ _). change (out P []) with ([Returned] : list (ans Z)). apply ok_out.
  assert (X : forall l a b, close tol (l ++ [a]) = false ->
     ok P (within_loop tol a b) ((l ++ [a]) ++ [b]) (if (Z.abs (a - b) <=? tol)%Z then [Given a; Given b] else [Given a])).
  { intros l a b C.
    set (loop := fun a b => if (Z.abs (a - b) <=? tol)%Z then POut (Given b) PRet else
       PRead 0 (fun v => match v with Item c => within_loop tol b c | Stop => PRet | Fail e => PThrow e end)).
    assert (U : forall a b, within_loop tol a b = POut (Given a) (loop a b)) by (intros; exact (unf_eq (within_loop tol _ _))).
    rewrite U. destruct (Z.abs (a - b) <=? tol)%Z eqn:E.
    - apply ok_out. unfold loop. rewrite E. apply ok_out, ok_ret. cbn [halt P gives_until]. now rewrite close_snoc, E.
    - apply ok_out. clear C. set (J := fun p l => exists l' a b, l = (l' ++ [a]) ++ [b] /\ (Z.abs (a - b) <=? tol)%Z = false /\ p = loop a b).
      apply (ok_loop P J); [|exists l, a, b; auto]. clear l a b E. intros p l (l' & a & b & -> & E & ->). unfold loop. rewrite E. cbn [step].
      unfold P, gives_until. cbn [out halt which fin err]. rewrite close_snoc, E. split; [reflexivity|]. split; [reflexivity|]. split; [reflexivity|].
      split; [|split; [constructor|reflexivity]]. intros c. unfold within_out. rewrite (close_snoc tol (l' ++ [a]) b c), close_snoc, E. rewrite !removelast_snoc.
      rewrite U. destruct (Z.abs (b - c) <=? tol)%Z eqn:E'.
      + exists [Given b; Given c]. split; [rewrite !map_app, <- app_assoc; cbn; rewrite <- ?app_assoc; reflexivity|].
        apply up_out. unfold loop. rewrite E'. apply up_out, up_ok, ok_ret. cbn [halt P gives_until]. now rewrite close_snoc, E'.
      + exists [Given b]. split; [rewrite !map_app; reflexivity|]. apply up_out, up_loop. exists (l' ++ [a]), b, c. auto. }
  assert (Y : exists d, out P [] = [Returned] ++ d /\ ok P (read_n 2 [] (fun xs => match xs with [a; b] => within_loop tol a b | _ => PRet end) (fun _ => PRet)) [] d).
  2:{ destruct Y as (d & E & O). cbn in E. injection E as E. rewrite <- E in O. exact O. }
  apply ok_read_n.
  - intros ys [_ L]. destruct ys as [|a [|b ys]]; [| |cbn in L; lia]; repeat split; constructor.
  - intros ys L. destruct ys as [|a [|b [|? ?]]]; try discriminate. eexists. split; [|apply (X [] a b); reflexivity].
    unfold P, gives_until, within_out. cbn [out]. change [a; b] with (([] ++ [a]) ++ [b]). rewrite close_snoc.
    destruct (Z.abs (a - b) <=? tol)%Z; reflexivity.
Qed.

(** * Head and tail *)
Lemma ok_read_const {A B} (P : promise A B) full short pre :
  forall m xs l, (forall s, length s < m -> out P (l ++ s) = pre /\ halt P (l ++ s) = None /\ which P (l ++ s) = 0 /\ flush short (fin P (l ++ s)) (err P (l ++ s))) ->
  (forall s, length s = m -> exists d, out P (l ++ s) = pre ++ d /\ ok P full (l ++ s) d) ->
  exists d, out P l = pre ++ d /\ ok P (read_n m xs (fun _ => full) (fun _ => short)) l d.
Proof.
  induction m as [|m IH]; intros xs l H F.
  - specialize (F [] eq_refl). rewrite app_nil_r in F. exact F.
  - destruct (H [] ltac:(cbn; lia)) as (Eo & Eh & Ew & Es). rewrite app_nil_r in *. exists []. split; [now rewrite app_nil_r|]. apply ok_fold. cbn [read_n step].
    split; [reflexivity|]. split; [exact Eh|]. split; [now symmetry|]. split; [|split; [exact Es|reflexivity]].
    intros a. destruct (IH (xs ++ [a]) (l ++ [a])) as (d & E & O).
    + intros s L. rewrite <- app_assoc. apply H. cbn. lia.
    + intros s L. rewrite <- app_assoc. apply F. cbn. lia.
    + exists d. rewrite Eo. auto.
Qed.
Section Parts.
Context {A : Type}.
Lemma tail_ok (P : promise A (part A)) l : forall buf, ok P (tail_from []) l [] -> ok P (tail_from buf) l (map (fun a => Given (Tail a)) buf).
Proof. induction buf as [|a buf IH]; intros H; [exact H|]. rewrite (unf_eq (tail_from (a :: buf))). cbn. apply ok_out. auto. Qed.
Lemma tail_rest m n k g (l : list A) : m <= length l -> k <= m -> n <= m ->
  ok (reads_first m (fun l => Given (Head (firstn n l)) :: map (fun a => Given (Tail a)) (skipn k l)) g) (tail_from []) l [].
Proof.
  intros L Lk Ln. apply (ok_rest _ _ (fun a => Given (Tail a)) (fun l => m <= length l)); [exact tail_eq| |exact L]. clear l L.
  intros l Ll. unfold reads_first, always, only, no_err. cbn [out halt which fin err]. rewrite (ge_ltb _ _ Ll).
  split; [reflexivity|]. split; [reflexivity|]. split; [reflexivity|]. split; [reflexivity|]. intros a. rewrite app_length. cbn [length]. split; [lia|].
  rewrite (ge_ltb (length l + 1) m) by lia. rewrite skipn_snoc by lia. rewrite map_app. cbn. f_equal. f_equal. f_equal.
  rewrite firstn_app. replace (n - length l) with 0 by lia. cbn. now rewrite app_nil_r.
Qed.
Lemma split_at_keeps (n : nat) :
  keeps (reads_first n (fun l => Given (Head (firstn n l)) :: map (fun a => Given (Tail a)) (skipn n l)) (fun l => [Given (Head l)])) (split_at (Z.of_nat n) : proc A (part A)).
Proof.
  unfold split_at. rewrite (proj2 (Z.ltb_ge _ _)) by lia. rewrite Nat2Z.id. apply keeps_first.
  - intros ys _. repeat constructor.
  - intros ys L. rewrite <- L, skipn_all, firstn_all. cbn. apply ok_out. rewrite L. apply tail_rest; lia.
Qed.
Lemma unpack_keeps (n : nat) (k : option nat) (fill : A) :
  let k' := match k with Some k => k | None => n end in
  keeps (reads_first (Nat.max n k') (fun l => Given (Head (firstn n l)) :: map (fun a => Given (Tail a)) (skipn k' l))
           (fun l => [Given (Head (firstn n l ++ repeat fill (n - length l)))]))
        (unpack (Z.of_nat n) (option_map Z.of_nat k) fill).
Proof.
  intros k'. unfold unpack. rewrite (proj2 (Z.ltb_ge _ _)) by lia.
  replace (match option_map Z.of_nat k with Some k => k | None => Z.of_nat n end) with (Z.of_nat k') by (now destruct k). clearbody k'. clear k. rename k' into k.
  rewrite (proj2 (Z.ltb_ge _ _)) by lia. rewrite !Nat2Z.id. cbv zeta. set (P := reads_first _ _ _).
  assert (Out : forall l, length l < Nat.max n k -> out P l = [] /\ halt P l = None /\ which P l = 0 /\
     fin P l = [Given (Head (firstn n l ++ repeat fill (n - length l)))] /\ err P l = None).
  { intros l L. unfold P, reads_first, always, only, no_err. cbn [out halt which fin err]. rewrite (proj2 (Nat.ltb_lt _ _) L). repeat split. }
  assert (Full : forall l, Nat.max n k <= length l -> out P l = Given (Head (firstn n l)) :: map (fun a => Given (Tail a)) (skipn k l)).
  { intros l L. unfold P, reads_first. cbn [out]. now rewrite (ge_ltb _ _ L). }
  apply ok_keeps.
  match goal with |- ok P (read_n n [] ?f ?g) [] _ => destruct (ok_read_n P f g [] n []) as (d & E & O) end.
  - intros ys [_ L]. cbn [length Nat.add] in L. destruct (Out ys) as (X1 & X2 & X3 & X4 & X5); [lia|]. rewrite X4, X5. repeat (split; [assumption|]).
    rewrite firstn_all2 by lia. repeat constructor.
  - intros ys L. cbn [length Nat.add] in L. cbn [app]. destruct (Nat.ltb_spec k n) as [Lk|Lk].
    + exists (out P ys). split; [reflexivity|]. rewrite Full by lia. rewrite firstn_all2 by lia. apply ok_out, tail_ok. apply tail_rest; lia.
    + apply (ok_read_const P _ _ [] (k - n) [] ys).
      * intros s Ls. destruct (Out (ys ++ s)) as (X1 & X2 & X3 & X4 & X5); [rewrite app_length; lia|]. rewrite X4, X5. repeat (split; [assumption|]).
        rewrite firstn_app, L, Nat.sub_diag, (firstn_all2 ys) by lia. cbn [firstn]. rewrite app_nil_r.
        rewrite app_length. replace (n - (length ys + length s)) with 0 by lia. cbn. rewrite app_nil_r. repeat constructor.
      * intros s Ls. exists (out P (ys ++ s)). split; [reflexivity|]. rewrite Full by (rewrite app_length; lia).
        rewrite firstn_app, L, Nat.sub_diag, (firstn_all2 ys) by lia. cbn [firstn]. rewrite app_nil_r.
        rewrite (skipn_all2 (ys ++ s)) by (rewrite app_length; lia). cbn [map]. apply ok_out. apply tail_rest; [rewrite app_length| |]; lia.
  - cbn [app] in E. rewrite E. exact O.
Qed.
End Parts.

(** * Calls that are refused *)
Lemma refusals (A : Type) (n : Z) (k : option Z) (x : A) : (n < 0)%Z ->
  keeps (refuses ValueError) (take n : proc A A) /\ keeps (refuses ValueError) (drop (Some n) : proc A A) /\
  keeps (refuses ValueError) (nth_ n x) /\ keeps (refuses ValueError) (unpack n k x) /\
  keeps (refuses ValueError) (split_at n : proc A (part A)).
Proof.
  intros L. apply Z.ltb_lt in L. unfold take, drop, nth_, unpack, split_at. rewrite L.
  split; [|split; [|split; [|split]]]; apply refused.
Qed.
Lemma unpack_refuses (A : Type) (n k : Z) (x : A) : (k < 0)%Z -> keeps (refuses ValueError) (unpack n (Some k) x).
Proof. intros L. apply Z.ltb_lt in L. unfold unpack. rewrite L. destruct (n <? 0)%Z; apply refused. Qed.
Lemma window_refuses (A : Type) (n : Z) : (n < 2)%Z -> keeps (refuses ValueError) (window n : proc A (list A)).
Proof. intros L. apply Z.ltb_lt in L. unfold window. rewrite L. apply refused. Qed.
