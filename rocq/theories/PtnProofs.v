(** Proofs for C131. *)
From Coq Require Import List Bool Arith Lia Permutation.
From Verif Require Import Base PtnModel PtnSpec.
Import ListNotations.
Open Scope list_scope.
Open Scope nat_scope.

Section P.
Context {A : Type}.
Variable input : nat -> ev A.
Variable pred : A -> outcome bool.
Notation pull := (pull input).
Notation ask := (ask input pred).
Notation session := (session input pred).
Notation items := (items input).
Notation chosen := (chosen pred).

Lemma items_S n : items (S n) = items n ++ match input n with Item a => [a] | _ => [] end.
Proof. unfold PtnSpec.items. rewrite seq_S, flat_map_app. cbn. now rewrite app_nil_r. Qed.
Lemma chosen_app b l m : chosen b (l ++ m) = chosen b l ++ chosen b m.
Proof. apply filter_app. Qed.
Lemma given_app b (l m : list (bool * ev A)) : given b (l ++ m) = given b l ++ given b m.
Proof. apply flat_map_app. Qed.

(** the store holds the items read, and no copy is ahead of it *)
Definition inv (s : state A) : Prop :=
  read s = items (calls s) /\ at_f s <= length (read s) /\ at_t s <= length (read s) /\ Nat.max (at_f s) (at_t s) = length (read s).
Lemma inv_at b (s : state A) : inv s -> at_ b s <= length (read s).
Proof. intros (_ & F & T & _). now destruct b. Qed.
Lemma at_on b (s : state A) : at_ b (on b s) = S (at_ b s).
Proof. now destruct b. Qed.
Lemma at_on_other b (s : state A) : at_ (negb b) (on b s) = at_ (negb b) s.
Proof. now destruct b. Qed.
Lemma read_on b (s : state A) : read (on b s) = read s.
Proof. now destruct b. Qed.
Lemma calls_on b (s : state A) : calls (on b s) = calls s.
Proof. now destruct b. Qed.

(** next() on a copy *)
Lemma pull_spec b s v s' : inv s -> pull b s = (v, s') ->
  inv s' /\ at_ (negb b) s' = at_ (negb b) s /\
  (calls s' = calls s /\ read s' = read s /\ (exists a, v = Item a /\ at_ b s' = S (at_ b s) /\ nth_error (read s) (at_ b s) = Some a) \/
   calls s' = S (calls s) /\ at_ b s = length (read s) /\ v = input (calls s) /\
   match v with Item a => read s' = read s ++ [a] /\ at_ b s' = S (at_ b s) | _ => read s' = read s /\ at_ b s' = at_ b s end).
Proof.
  intros I E. pose proof (inv_at b s I) as La. destruct I as (Ir & F & T & M). unfold PtnModel.pull in E.
  destruct (nth_error (read s) (at_ b s)) as [a|] eqn:N.
  - injection E as <- <-. assert (L : at_ b s < length (read s)) by (apply nth_error_Some; congruence).
    split; [|split; [apply at_on_other|left]].
    + unfold inv. rewrite read_on, calls_on. split; [exact Ir|]. destruct b; cbn [at_ on at_f at_t read calls] in *; repeat split; lia.
    + rewrite calls_on, read_on. split; [reflexivity|]. split; [reflexivity|]. exists a. split; [reflexivity|]. split; [apply at_on|first [exact N|reflexivity]].
  - apply nth_error_None in N. assert (Ea : at_ b s = length (read s)) by lia.
    destruct (input (calls s)) as [a| |e] eqn:Ei; injection E as <- <-.
    + split; [|split].
      * unfold inv. rewrite read_on, calls_on. cbn [read calls]. rewrite items_S, Ei, <- Ir. split; [reflexivity|]. rewrite app_length. cbn [length].
        destruct b; cbn [at_ on at_f at_t read calls] in *; repeat split; lia.
      * now destruct b.
      * right. rewrite calls_on, read_on, at_on. cbn [calls read]. split; [reflexivity|]. split; [exact Ea|]. split; [try reflexivity; try (now symmetry)|split; [reflexivity|now destruct b]].
    + split; [|split; [now destruct b|right]].
      * unfold inv. cbn [read calls at_f at_t]. rewrite items_S, Ei, app_nil_r. auto.
      * cbn [calls read]. split; [reflexivity|]. split; [exact Ea|]. split; [try reflexivity; try (now symmetry)|split; [reflexivity|now destruct b]].
    + split; [|split; [now destruct b|right]].
      * unfold inv. cbn [read calls at_f at_t]. rewrite items_S, Ei, app_nil_r. auto.
      * cbn [calls read]. split; [reflexivity|]. split; [exact Ea|]. split; [try reflexivity; try (now symmetry)|split; [reflexivity|now destruct b]].
Qed.
Lemma firstn_next {X} (l : list X) k a : nth_error l k = Some a -> firstn (S k) l = firstn k l ++ [a].
Proof. revert k. induction l as [|x l IH]; intros [|k] H; try discriminate; cbn in *; [now injection H as ->|]. now rewrite (IH k H). Qed.
Lemma chosen_one b a : chosen b [a] = match pred a with Ok c => if Bool.eqb c b then [a] else [] | Raise _ => [] end.
Proof. cbn. destruct (pred a) as [c|e]; reflexivity. Qed.

(** what one pull adds to what a copy has given *)
Lemma pull_got b s v s' : inv s -> pull b s = (v, s') ->
  firstn (at_ b s') (read s') = firstn (at_ b s) (read s) ++ match v with Item a => [a] | _ => [] end.
Proof.
  intros I E. destruct (pull_spec _ _ _ _ I E) as (I' & _ & [(C & R & a & -> & Ea & N)|(C & Ea & Ev & H)]).
  - rewrite R, Ea. now apply firstn_next.
  - destruct v as [a| |e]; destruct H as [R E']; rewrite R, E'.
    + rewrite Ea. rewrite firstn_all2 by (rewrite app_length; cbn; lia). now rewrite firstn_all.
    + now rewrite app_nil_r.
    + now rewrite app_nil_r.
Qed.

(** nothing stored is left for [b]: the input is called *)
Lemma pull_item b s a s' : inv s -> pull b s = (Item a, s') ->
  calls s' = calls s /\ read s' = read s \/
  calls s' = S (calls s) /\ input (calls s) = Item a /\ at_ b s = length (read s) /\ at_ b s' = length (read s').
Proof.
  intros I E. destruct (pull_spec _ _ _ _ I E) as (_ & _ & [(C & R & _)|(C & Ea & Ev & R & Ea')]); [now left|]. right.
  split; [exact C|]. split; [now symmetry|]. split; [exact Ea|]. rewrite R, Ea', app_length, Ea. cbn. lia.
Qed.
Lemma pull_last b s v s' : inv s -> pull b s = (v, s') -> at_ b s = length (read s) -> calls s' = S (calls s).
Proof.
  intros I E Ea. destruct (pull_spec _ _ _ _ I E) as (_ & _ & [(_ & _ & a & _ & _ & N)|(C & _)]); [|exact C].
  assert (at_ b s < length (read s)) by (apply nth_error_Some; congruence). lia.
Qed.
Lemma pull_mono b s v s' : inv s -> pull b s = (v, s') -> calls s <= calls s'.
Proof. intros I E. destruct (pull_spec _ _ _ _ I E) as (_ & _ & [(C & _)|(C & _)]); lia. Qed.
Lemma pull_inv b s v s' : inv s -> pull b s = (v, s') -> inv s'.
Proof. intros I E. apply (pull_spec _ _ _ _ I E). Qed.
Lemma ask_inv b s r s' : ask b s r s' -> inv s -> inv s'.
Proof. induction 1; intros I; eauto using pull_inv. Qed.
Lemma ask_mono b s r s' : ask b s r s' -> inv s -> calls s <= calls s'.
Proof. induction 1; intros I; eauto using pull_mono, pull_inv, Nat.le_trans. Qed.
Lemma ask_last b s r s' : ask b s r s' -> inv s -> at_ b s = length (read s) -> calls s < calls s'.
Proof.
  destruct 1 as [s a s' E ?|s a s' r s'' E ? H|s a s' e E ? ?|s a s' E ?|s s' E|s e s' E]; intros I La; pose proof (pull_last _ _ _ _ I E La); try lia.
  pose proof (ask_mono _ _ _ _ H (pull_inv _ _ _ _ I E)). lia.
Qed.
Lemma ask_other_at b s r s' : ask b s r s' -> inv s -> at_ (negb b) s' = at_ (negb b) s.
Proof.
  induction 1 as [s a s' E ?|s a s' r s'' E ? H IH|s a s' e E ? ?|s a s' E ?|s s' E|s e s' E]; intros I; destruct (pull_spec _ _ _ _ I E) as (I' & Eo & _); try exact Eo.
  rewrite (IH I'). exact Eo.
Qed.
Lemma other_other b : Bool.eqb (negb b) b = false.
Proof. now destruct b. Qed.
Lemma ask_got b s r s' : ask b s r s' -> inv s ->
  chosen b (firstn (at_ b s') (read s')) = chosen b (firstn (at_ b s) (read s)) ++ match r with Item a => [a] | _ => [] end.
Proof.
  induction 1 as [s a s' E Pa|s a s' r s'' E Pa H IH|s a s' e E Pa Ne|s a s' E Pa|s s' E|s e s' E]; intros I;
    pose proof (pull_got _ _ _ _ I E) as G; cbn [app] in G; rewrite ?IH, G, chosen_app, ?chosen_one, ?Pa, ?other_other, ?eqb_reflx, ?app_nil_r by eauto using pull_inv; try reflexivity.
  all: cbn; now rewrite ?app_nil_r.
Qed.
(** the other copy's items do not change *)
Lemma firstn_grow b s r s' : ask b s r s' -> inv s -> exists l, read s' = read s ++ l.
Proof.
  assert (Q : forall s v s', inv s -> pull b s = (v, s') -> exists l, read s' = read s ++ l).
  { intros s0 v s0' I E. destruct (pull_spec _ _ _ _ I E) as (_ & _ & [(_ & R & _)|(_ & _ & _ & H)]); [exists []; now rewrite app_nil_r|].
    destruct v as [a| |e]; destruct H as [R _]; [now exists [a]|exists []; now rewrite app_nil_r|exists []; now rewrite app_nil_r]. }
  induction 1 as [s a s' E ?|s a s' r s'' E ? H IH|s a s' e E ? ?|s a s' E ?|s s' E|s e s' E]; intros I; try (now apply (Q _ _ _ I E)).
  destruct (Q _ _ _ I E) as [l R]. destruct (IH (pull_inv _ _ _ _ I E)) as [l' R']. exists (l ++ l'). now rewrite R', R, app_assoc.
Qed.
Lemma ask_got_other b s r s' : ask b s r s' -> inv s ->
  firstn (at_ (negb b) s') (read s') = firstn (at_ (negb b) s) (read s).
Proof.
  intros H I. rewrite (ask_other_at _ _ _ _ H I). destruct (firstn_grow _ _ _ _ H I) as [l ->].
  pose proof (inv_at (negb b) s I). rewrite firstn_app. replace (_ - _) with 0 by lia. cbn. now rewrite app_nil_r.
Qed.
(** the answer when the input was called *)
Definition result (b : bool) (v r : ev A) : Prop :=
  match v with
  | Item a => match pred a with Ok c => c = b /\ r = Item a | Raise StopIterationE => r = Stop | Raise e => r = Fail e end
  | Stop => r = Stop
  | Fail e => r = Fail e
  end.
Lemma ask_called b s r s' : ask b s r s' -> inv s -> calls s' <> calls s ->
  chosen b (firstn (at_ b s) (read s)) = chosen b (read s) /\
  (forall j, calls s <= j -> S j < calls s' -> exists x, input j = Item x /\ pred x = Ok (negb b)) /\
  result b (input (calls s' - 1)) r.
Proof.
  assert (One : forall s s' v r, inv s -> pull b s = (v, s') -> calls s' <> calls s -> result b v r ->
     chosen b (firstn (at_ b s) (read s)) = chosen b (read s) /\
     (forall j, calls s <= j -> S j < calls s' -> exists x, input j = Item x /\ pred x = Ok (negb b)) /\ result b (input (calls s' - 1)) r).
  { intros s0 s0' v r0 I E C R. destruct (pull_spec _ _ _ _ I E) as (_ & _ & [(C' & _)|(C' & Ea & Ev & _)]); [contradiction|].
    rewrite Ea, firstn_all. split; [reflexivity|]. split; [intros; lia|]. rewrite C'. replace (S (calls s0) - 1) with (calls s0) by lia. now rewrite <- Ev. }
  induction 1 as [s a s' E Pa|s a s' r s'' E Pa H IH|s a s' e E Pa Ne|s a s' E Pa|s s' E|s e s' E]; intros I C;
    try (apply (One s s' _ _ I E C); unfold result; rewrite ?Pa; try (split; reflexivity); try reflexivity; destruct e; try reflexivity; contradiction).
  pose proof (pull_inv _ _ _ _ I E) as I'. destruct (pull_item _ _ _ _ I E) as [(C1 & R1)|(C1 & Ei & Ea & Ea')].
  - destruct (IH I') as (G & J & R); [lia|]. split; [|split; [intros j L1 L2; apply J; lia|exact R]].
    pose proof (pull_got _ _ _ _ I E) as Pg. rewrite Pg, chosen_app, chosen_one, Pa, other_other, app_nil_r, R1 in G. exact G.
  - pose proof (ask_last _ _ _ _ H I' Ea') as L. destruct (IH I') as (G & J & R); [lia|]. rewrite Ea, firstn_all. split; [reflexivity|]. split; [|exact R].
    intros j L1 L2. destruct (Nat.eq_dec j (calls s)) as [->|Ne]; [eauto|]. apply J; lia.
Qed.
(** the answer when it was not: a stored item *)
Lemma ask_stored b s r s' : ask b s r s' -> inv s -> calls s' = calls s -> exists a, In a (read s) /\ result b (Item a) r.
Proof.
  assert (One : forall s s' a, inv s -> pull b s = (Item a, s') -> calls s' = calls s -> In a (read s)).
  { intros s0 s0' a I E C. destruct (pull_spec _ _ _ _ I E) as (_ & _ & [(_ & _ & x & Ev & _ & N)|(C' & _)]); [|lia]. injection Ev as ->. exact (nth_error_In _ _ N). }
  assert (Not : forall s v s', inv s -> pull b s = (v, s') -> calls s' = calls s -> exists a, v = Item a).
  { intros s0 v s0' I E C. destruct (pull_spec _ _ _ _ I E) as (_ & _ & [(_ & _ & x & Ev & _ & N)|(C' & _)]); [eauto|lia]. }
  induction 1 as [s a s' E Pa|s a s' r s'' E Pa H IH|s a s' e E Pa Ne|s a s' E Pa|s s' E|s e s' E]; intros I C.
  - exists a. split; [now apply (One s s')|]. unfold result. now rewrite Pa.
  - pose proof (pull_inv _ _ _ _ I E) as I'. pose proof (ask_mono _ _ _ _ H I'). pose proof (pull_mono _ _ _ _ I E).
    destruct (pull_item _ _ _ _ I E) as [(C1 & R1)|(C1 & _)]; [|lia]. rewrite <- R1. apply IH; [exact I'|lia].
  - exists a. split; [now apply (One s s')|]. unfold result. rewrite Pa. destruct e; try reflexivity. contradiction.
  - exists a. split; [now apply (One s s')|]. unfold result. now rewrite Pa.
  - destruct (Not _ _ _ I E C). discriminate.
  - destruct (Not _ _ _ I E C). discriminate.
Qed.

Lemma ask_end b s r s' : total pred -> ask b s r s' -> inv s -> (forall a, r <> Item a) -> at_ b s' = length (read s').
Proof.
  intros Tp. induction 1 as [s a s' E Pa|s a s' r s'' E Pa H IH|s a s' e E Pa Ne|s a s' E Pa|s s' E|s e s' E]; intros I Nr.
  - now destruct (Nr a).
  - eauto using pull_inv.
  - destruct (Tp a). congruence.
  - destruct (Tp a). congruence.
  - destruct (pull_spec _ _ _ _ I E) as (_ & _ & [(_ & _ & x & Ev & _)|(_ & Ea & _ & R & Ea')]); [discriminate|congruence].
  - destruct (pull_spec _ _ _ _ I E) as (_ & _ & [(_ & _ & x & Ev & _)|(_ & Ea & _ & R & Ea')]); [discriminate|congruence].
Qed.
Lemma exn_dec_stop (e : exn) : e = StopIterationE \/ e <> StopIterationE.
Proof. destruct e; auto; right; discriminate. Qed.

(** a session *)
Lemma inv_start : inv start.
Proof. unfold inv. cbn. auto. Qed.
Lemma session_gen s tr s' : session s tr s' -> inv s ->
  inv s' /\ forall b, chosen b (firstn (at_ b s') (read s')) = chosen b (firstn (at_ b s) (read s)) ++ given b tr.
Proof.
  induction 1 as [s|s b r s' tr s'' H HS IH]; intros I; [split; [exact I|intros b; cbn; now rewrite app_nil_r]|].
  destruct (IH (ask_inv _ _ _ _ H I)) as (I' & G). split; [exact I'|]. intros c. rewrite G.
  change ((b, r) :: tr) with ([(b, r)] ++ tr). rewrite given_app, app_assoc. f_equal.
  destruct (Bool.bool_dec c b) as [->|Ne].
  - rewrite (ask_got _ _ _ _ H I). f_equal. cbn. destruct r; rewrite ?eqb_reflx; reflexivity.
  - assert (Ec : c = negb b) by (clear - Ne; destruct c, b; try reflexivity; now destruct Ne). rewrite Ec. rewrite (ask_got_other _ _ _ _ H I).
    destruct r; cbn; rewrite ?app_nil_r; try reflexivity. destruct b; cbn; now rewrite app_nil_r.
Qed.
Lemma session_inv tr s : session start tr s -> inv s /\ forall b, given b tr = chosen b (firstn (at_ b s) (read s)).
Proof.
  intros H. destruct (session_gen _ _ _ H inv_start) as (I & G). split; [exact I|]. intros b. rewrite G. now destruct b.
Qed.
Lemma session_snoc s tr s1 b r s2 : session s tr s1 -> ask b s1 r s2 -> session s (tr ++ [(b, r)]) s2.
Proof. induction 1; intros; cbn; econstructor; eauto. constructor. Qed.

(** C131 *)
Lemma partition_gives tr s : session start tr s -> exists k : bool -> nat,
  Nat.max (k false) (k true) = length (items (calls s)) /\
  forall b, k b <= length (items (calls s)) /\ given b tr = chosen b (firstn (k b) (items (calls s))).
Proof.
  intros H. destruct (session_inv _ _ H) as (I & G). pose proof I as (R & F & T & M). exists (fun b => at_ b s). rewrite <- R. split; [exact M|].
  intros b. split; [now apply inv_at|apply G].
Qed.
Lemma partition_reads tr s b r s' : session start tr s -> ask b s r s' -> calls s <= calls s' /\
  (calls s' <> calls s ->
     given b tr = chosen b (items (calls s)) /\
     (forall j, calls s <= j -> S j < calls s' -> exists x, input j = Item x /\ pred x = Ok (negb b)) /\
     match input (calls s' - 1) with
     | Item a => pred a = Ok b /\ r = Item a \/ pred a = Raise StopIterationE /\ r = Stop \/ exists e, pred a = Raise e /\ e <> StopIterationE /\ r = Fail e
     | Stop => r = Stop
     | Fail e => r = Fail e
     end) /\
  (calls s' = calls s -> exists a, In a (items (calls s)) /\
     (pred a = Ok b /\ r = Item a \/ pred a = Raise StopIterationE /\ r = Stop \/ exists e, pred a = Raise e /\ e <> StopIterationE /\ r = Fail e)).
Proof.
  assert (Q : forall a, result b (Item a) r -> pred a = Ok b /\ r = Item a \/ pred a = Raise StopIterationE /\ r = Stop \/ exists e, pred a = Raise e /\ e <> StopIterationE /\ r = Fail e).
  { intros a R. unfold result in R. destruct (pred a) as [c|e]; [destruct R as [-> ->]; auto|].
    destruct e; try (right; left; split; [reflexivity|exact R]); right; right; eexists; (split; [reflexivity|]; split; [discriminate|exact R]). }
  intros H Ha. destruct (session_inv _ _ H) as (I & G). pose proof I as (R & _). split; [exact (ask_mono _ _ _ _ Ha I)|]. split.
  - intros C. destruct (ask_called _ _ _ _ Ha I C) as (A1 & A2 & A3). rewrite G, A1, R. split; [reflexivity|]. split; [exact A2|].
    destruct (input (calls s' - 1)) as [a| |e]; [apply Q; exact A3|exact A3|exact A3].
  - intros C. destruct (ask_stored _ _ _ _ Ha I C) as (a & Hi & Hr). exists a. rewrite <- R. auto.
Qed.
Lemma partition_end tr s b r s' : total pred -> session start tr s -> ask b s r s' -> (forall a, r <> Item a) ->
  calls s < calls s' /\ input (calls s' - 1) = r /\ given b tr = chosen b (items (calls s')).
Proof.
  intros Tp H Ha Nr. destruct (partition_reads _ _ _ _ _ H Ha) as (L & H1 & H2).
  assert (Q : forall a, ~ (pred a = Ok b /\ r = Item a \/ pred a = Raise StopIterationE /\ r = Stop \/ exists e, pred a = Raise e /\ e <> StopIterationE /\ r = Fail e)).
  { intros a. destruct (Tp a) as [c Ec]. intros [(_ & E)|[(E & _)|(e & E & _)]]; [now apply (Nr a)|congruence|congruence]. }
  destruct (Nat.eq_dec (calls s') (calls s)) as [C|C].
  { destruct (H2 C) as (a & _ & X). destruct (Q a X). }
  destruct (H1 C) as (_ & _ & X). split; [lia|].
  assert (Er : input (calls s' - 1) = r). { destruct (input (calls s' - 1)) as [a| |e]; [destruct (Q a X)|now symmetry|now symmetry]. }
  split; [exact Er|]. pose proof (session_snoc _ _ _ _ _ _ H Ha) as H'. destruct (session_inv _ _ H') as (I' & G').
  destruct (session_inv _ _ H) as (I & G).
  assert (Eg : given b (tr ++ [(b, r)]) = given b tr). { rewrite given_app. cbn. destruct r; rewrite ?app_nil_r; try reflexivity. now destruct (Nr a). }
  rewrite <- Eg, G'. pose proof I' as (R' & _). rewrite <- R'.
  now rewrite (ask_end _ _ _ _ Tp Ha I Nr), firstn_all.
Qed.
Lemma negb_ends tr s b s1 s2 : total pred -> stays_ended input -> session start tr s -> ask b s Stop s1 -> ask (negb b) s1 Stop s2 ->
  Permutation (given false tr ++ given true tr) (items (calls s2)).
Proof.
  intros Tp St H H1 H2. assert (Ns : forall a : A, Stop <> Item a) by discriminate.
  destruct (partition_end _ _ _ _ _ Tp H H1 Ns) as (L1 & E1 & G1). pose proof (session_snoc _ _ _ _ _ _ H H1) as HS.
  destruct (partition_end _ _ _ _ _ Tp HS H2 Ns) as (L2 & E2 & G2). rewrite given_app in G2. cbn in G2. rewrite app_nil_r in G2.
  assert (Es : items (calls s2) = items (calls s1)).
  { assert (Q : forall n, calls s1 <= n -> items n = items (calls s1)).
    { induction n as [|n IH]; intros Ln; [now replace (calls s1) with 0 by lia|]. destruct (Nat.eq_dec (S n) (calls s1)) as [->|Ne]; [reflexivity|].
      rewrite items_S, IH by lia. rewrite (St (calls s1 - 1) n) by (try lia; exact E1). now rewrite app_nil_r. }
    apply Q. lia. }
  rewrite <- Es in G1.
  assert (P : forall l, Permutation (chosen false l ++ chosen true l) l).
  { induction l as [|a l IH]; [constructor|]. destruct (Tp a) as [c Ec]. unfold PtnSpec.chosen in *. cbn [filter]. rewrite Ec. destruct c; cbn [Bool.eqb].
    - rewrite <- Permutation_middle. now constructor.
    - cbn [app]. now constructor. }
  destruct b; cbn [negb] in G2; rewrite G1, G2; apply P.
Qed.

(** every request with an answer in reach has one, and only one *)
Lemma pull_cases b s : inv s -> exists v s', pull b s = (v, s').
Proof. destruct (pull b s) as [v s'] eqn:E. eauto. Qed.
Lemma ask_det b s r s' : ask b s r s' -> forall r2 s2, ask b s r2 s2 -> r2 = r /\ s2 = s'.
Proof.
  assert (Nn : Ok (negb b) <> Ok b) by (destruct b; discriminate).
  induction 1 as [s a s' E Pa|s a s' r s'' E Pa H IH|s a s' e E Pa Ne|s a s' E Pa|s s' E|s e s' E]; intros r2 s2 H2; inversion H2; subst;
    match goal with X : PtnModel.pull _ _ _ = _ |- _ => rewrite E in X; injection X; intros; subst end; try discriminate; try congruence; try (split; congruence).
  auto.
Qed.
Lemma ask_exists b s : inv s -> (exists j, calls s <= j /\ forall x, input j = Item x -> pred x <> Ok (negb b)) -> exists r s', ask b s r s'.
Proof.
  intros I (j & Lj & Hj). remember (j - calls s + (length (read s) - at_ b s)) as n eqn:En.
  revert s I Lj En. induction n as [n IH] using lt_wf_ind. intros s I Lj En.
  destruct (pull b s) as [v s'] eqn:E. destruct (pull_spec _ _ _ _ I E) as (I' & _ & Hc).
  destruct v as [a| |e]; [|exists Stop, s'; now constructor|exists (Fail e), s'; now constructor].
  destruct (pred a) as [c|e] eqn:Pa.
  - destruct (Bool.bool_dec c b) as [->|Ne]; [exists (Item a), s'; now constructor|]. assert (Ec : c = negb b) by (clear - Ne; destruct c, b; try reflexivity; now destruct Ne). rewrite Ec in *.
    enough (exists r s'', ask b s' r s'') as (r & s'' & X) by (exists r, s''; eapply ask_other; eauto).
    destruct Hc as [(C & R & x & _ & Ea & N)|(C & Ea & Ev & R & Ea')].
    + assert (at_ b s < length (read s)) by (apply nth_error_Some; congruence). apply (IH (j - calls s' + (length (read s') - at_ b s'))); [rewrite C, R, Ea; lia|exact I'|rewrite C; lia|reflexivity].
    + assert (calls s <> j) by (intros X; apply (Hj a); [rewrite <- X; now symmetry|exact Pa]). apply (IH (j - calls s' + (length (read s') - at_ b s'))); [rewrite C, R, Ea', app_length, Ea; cbn [length]; lia|exact I'|rewrite C; lia|reflexivity].
  - destruct (exn_dec_stop e) as [->|Ne]; [exists Stop, s'; eapply ask_raise_stop; eauto|exists (Fail e), s'; eapply ask_raise; eauto].
Qed.
Lemma partition_answers tr s b : session start tr s ->
  (exists j, calls s <= j /\ forall x, input j = Item x -> pred x <> Ok (negb b)) ->
  exists r s', ask b s r s' /\ forall r2 s2, ask b s r2 s2 -> r2 = r /\ s2 = s'.
Proof.
  intros H Hj. destruct (session_inv _ _ H) as (I & _). destruct (ask_exists b s I Hj) as (r & s' & Ha). exists r, s'. split; [exact Ha|]. now apply ask_det.
Qed.
End P.
