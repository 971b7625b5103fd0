(** Proofs for C74-C77. *)
From Coq Require Import String List ZArith Arith Bool Lia.
From Verif Require Import Base CondModel CondSpec CondProofs TsetModel TsetSpec.
Import ListNotations.
Open Scope string_scope.
Open Scope nat_scope.
Open Scope list_scope.

Section TsetProofs.
Variable usub : nat -> nat -> bool.
Variable isexn : exn -> nat -> bool.
Variable callback : nat -> option exn.
Notation sub := (sub usub).
Notation runs := (runs TNone sub).
Notation offers := (offers TNone sub).
Notation prog := (prog tv tst).
Notation st := (st tv tst).
Notation offered := (offered usub).
Notation meaning := (meaning usub isexn callback).
Notation meaning_all := (meaning_all usub isexn callback).
Notation compile := (compile usub isexn callback).
Notation compile_all := (compile_all usub isexn callback).
Notation print_and_proceed := (print_and_proceed usub callback).
Notation intercept := (intercept usub).
Implicit Types (s : st) (p : prog) (u : tst).

(** * More rules of composition *)
Lemma runs_try p h s r s' : runs p s r s' -> (forall e, r <> RExc e) -> runs (Try p h) s r s'.
Proof. intros [f H] Hr. exists (S f). cbn. rewrite H. destruct r; auto. exfalso. eapply Hr. reflexivity. Qed.
Lemma runs_try_exc p h s e s1 r s' : runs p s (RExc e) s1 -> runs (h e) s1 r s' -> runs (Try p h) s r s'.
Proof.
  intros [f1 H1] [f2 H2]. exists (S (max f1 f2)). cbn. rewrite (exec_mono _ _ _ _ _ _ (max f1 f2) H1) by lia.
  eapply exec_mono; eauto. lia.
Qed.
Lemma runs_finally p q s r s1 v s' : runs p s r s1 -> runs q s1 (RVal v) s' -> runs (Finally p q) s r s'.
Proof.
  intros [f1 H1] [f2 H2]. exists (S (max f1 f2)). cbn. rewrite (exec_mono _ _ _ _ _ _ (max f1 f2) H1) by lia.
  now rewrite (exec_mono _ _ _ _ _ _ (max f1 f2) H2) by lia.
Qed.
Lemma runs_find n (k : option (nat * string) -> prog) s r s' : runs (k (find_restart n s)) s r s' -> runs (FindRestart n k) s r s'.
Proof. intros [f H]. exists (S f). exact H. Qed.
Lemma runs_bound b n a s : runs (InvokeBound b n a) s (RInvoke b n a) s.
Proof. exists 1. reflexivity. Qed.
Lemma runs_invoke n a s b : find_restart n s = Some (b, n) -> runs (Invoke n a) s (RInvoke b n a) s.
Proof. intros H. exists 1. cbn. now rewrite H. Qed.

Definition withu s u : st := mkSt (hs s) (hver s) (rs s) (blocks s) u.
Lemma withu_id s : withu s (usr s) = s.
Proof. now destruct s. Qed.
Lemma runs_upd f s : runs (upd f) s (RVal TNone) (withu s (f (usr s))).
Proof. exists 1. reflexivity. Qed.
Lemma runs_ask f s : runs (ask f) s (RVal (f (usr s))) s.
Proof. exists 1. cbn. f_equal. f_equal. now destruct s. Qed.

Lemma bind_upd f k s r s' : runs (k TNone) (withu s (f (usr s))) r s' -> runs (Bind (upd f) k) s r s'.
Proof. intros H. eapply runs_bind; [apply runs_upd|exact H]. Qed.
Lemma bind_ask f k s r s' : runs (k (f (usr s))) s r s' -> runs (Bind (ask f) k) s r s'.
Proof. intros H. eapply runs_bind; [apply runs_ask|exact H]. Qed.

Definition behaviour u : option exn :=
  match posts u with
  | i :: _ => callback i
  | [] => match gpost u with Some i => callback i | None => None end
  end.
Lemma post_ok s k r s' : behaviour (usr s) = None -> runs (k TNone) s r s' -> runs (Bind (run_postproc callback) k) s r s'.
Proof.
  intros Hb H. eapply runs_bind; [|exact H]. apply bind_ask. unfold behaviour in Hb.
  destruct (posts (usr s)) as [|i l]; [destruct (gpost (usr s)) as [i|]|]; try rewrite Hb; apply runs_ret.
Qed.
Lemma post_raises s k e : behaviour (usr s) = Some e -> runs (Bind (run_postproc callback) k) s (RExc e) s.
Proof.
  intros Hb. apply runs_bind_other; [|intros [v E]; discriminate]. apply bind_ask. unfold behaviour in Hb.
  destruct (posts (usr s)) as [|i l]; [destruct (gpost (usr s)) as [i|]; [|discriminate]|]; rewrite Hb; apply runs_raise.
Qed.
Lemma flag_ok s b l k r s' : flags (usr s) = b :: l -> runs (k (TBool b)) s r s' -> runs (Bind ask_flag k) s r s'.
Proof.
  intros Hf H. eapply runs_bind; [|exact H]. apply bind_ask. rewrite Hf. apply runs_ret.
Qed.

(** * Tallies *)
Lemma after_after n1 e1 n2 e2 u : after n2 e2 (after n1 e1 u) = after (plus n1 n2) (e1 ++ e2) u.
Proof. unfold after. cbn. rewrite app_assoc. f_equal; lia. Qed.
Lemma after_zero u : after zero [] u = u.
Proof. unfold after. destruct u; cbn. rewrite app_nil_r. f_equal; lia. Qed.
Lemma plus_zero_l n : plus zero n = n.
Proof. destruct n. reflexivity. Qed.
Lemma plus_zero_r n : plus n zero = n.
Proof. destruct n. unfold plus; cbn. f_equal; lia. Qed.
Lemma say_after x u : say x u = after zero [x] u.
Proof. unfold say, after. cbn. f_equal; lia. Qed.
Lemma count_after a b c d u : count a b c d u = after (mkC a b c d) [] u.
Proof. unfold count, after. cbn. now rewrite app_nil_r. Qed.

(** * A condition is offered to the framework's handlers *)
Definition handler (a : around) : cond -> prog :=
  match a with InSet l => print_and_proceed l | InTest => intercept end.
Definition blk (a : around) : hblock tv tst := [([ExceptionT], handler a)].
Lemma matching_blk c ctx : matching sub c (map blk ctx) = map handler ctx.
Proof. induction ctx as [|a ctx IH]; [reflexivity|]. cbn [map]. rewrite matching_cons, IH. reflexivity. Qed.

Definition target s : option (nat * string) :=
  match find_restart "proceed" s with Some x => Some x | None => find_restart "_proceed" s end.
Definition is_some {A} (o : option A) : bool := match o with Some _ => true | None => false end.
Lemma runs_proceed s : runs proceed s (match target s with Some (b, n) => RInvoke b n TNone | None => RVal TNone end) s.
Proof.
  apply runs_find. unfold target. destruct (find_restart "proceed" s) as [[b n]|]; [apply runs_bound|].
  apply runs_find. destruct (find_restart "_proceed" s) as [[b n]|]; [apply runs_bound|apply runs_ret].
Qed.
Lemma runs_report s f r :
  behaviour (f (usr s)) = r ->
  runs (Bind (upd f) (fun _ => Bind (run_postproc callback) (fun _ => proceed))) s
    (match r with Some e => RExc e | None => match target s with Some (b, n) => RInvoke b n TNone | None => RVal TNone end end)
    (withu s (f (usr s))).
Proof.
  intros H. apply bind_upd. destruct r as [e|].
  - now apply post_raises.
  - apply post_ok; [exact H|]. exact (runs_proceed (withu s (f (usr s)))).
Qed.

Definition answered s (b0 : nat) (c : cond) (a : answer) : res tv :=
  match a with
  | Declined => RVal TNone
  | Proceeds => match target s with Some (b, n) => RInvoke b n TNone | None => RVal TNone end
  | Taken => RInvoke b0 "_got_signal" (TCond c)
  | Failed e => RExc e
  end.

Lemma not_value_invoke (b : nat) (n : string) (a : tv) : ~ is_value (RInvoke b n a).
Proof. intros [v E]; discriminate. Qed.
Lemma not_value_exc (e : exn) : ~ is_value (V := tv) (RExc e).
Proof. intros [v E]; discriminate. Qed.
Hint Resolve not_value_invoke not_value_exc : core.

Lemma testing_sub c k : counted usub c = Some k -> sub (ctype c) TestingExceptionT = true.
Proof.
  destruct c as [t pr ca]. unfold counted. cbn [ctype].
  assert (Hx : forall t x, In x [3; 4; 5] -> sub t x = true -> t = x).
  { intros t0 x Hx. unfold sub, TsetModel.sub, ExceptionT, TestingExceptionT.
    destruct (x =? 1) eqn:E1; [apply Nat.eqb_eq in E1; subst; cbn in Hx; lia|].
    destruct (t0 =? x) eqn:E2; [now apply Nat.eqb_eq in E2|].
    destruct (x =? 2) eqn:E3; [apply Nat.eqb_eq in E3; subst; cbn in Hx; lia|].
    replace (x <=? 5) with true; [discriminate|]. symmetry. apply Nat.leb_le. cbn in Hx. lia. }
  intros H. assert (T : t = 3 \/ t = 4 \/ t = 5).
  { destruct (sub t TestFailureT) eqn:E1; [left; apply Hx; [cbn; auto|exact E1]|].
    destruct (sub t TestErrorT) eqn:E2; [right; left; apply Hx; [cbn; auto|exact E2]|].
    destruct (sub t TestWarningT) eqn:E3; [right; right; apply Hx; [cbn; auto|exact E3]|discriminate]. }
  destruct T as [->|[->| ->]]; reflexivity.
Qed.

Lemma offered_runs c pp fl b0 : forall ctx s n ev a l, offered ctx pp fl (is_some (target s)) c = (n, ev, a) ->
  flags (usr s) = fl :: l -> behaviour (usr s) = pp ->
  (In InTest ctx -> find_restart "_got_signal" s = Some (b0, "_got_signal")) ->
  offers c (map handler ctx) s (answered s b0 c a) (withu s (after n ev (usr s))).
Proof.
  induction ctx as [|[lvl|] ctx IH]; intros s n ev a l H Hf Hb Hg; cbn [map TsetSpec.offered handler] in H |- *.
  - injection H as <- <- <-. rewrite after_zero, withu_id. constructor.
  - assert (Step : forall k x (H0 : runs (print_and_proceed lvl c) s
              (match pp with Some e => RExc e | None => match target s with Some (b, n) => RInvoke b n TNone | None => RVal TNone end end)
              (withu s (after k [x] (usr s)))),
        match pp with
        | Some e => (k, [x], Failed e)
        | None => if is_some (target s) then (k, [x], Proceeds)
                  else let '(n', evs, a) := offered ctx pp fl (is_some (target s)) c in (plus k n', x :: evs, a)
        end = (n, ev, a) ->
        offers c (print_and_proceed lvl :: map handler ctx) s (answered s b0 c a) (withu s (after n ev (usr s)))).
    { intros k x H0 H1. destruct pp as [e|].
      - injection H1 as <- <- <-. cbn [answered]. apply OfTake; [exact H0|auto].
      - destruct (target s) as [[b nm]|] eqn:Et; cbn [is_some] in *.
        + injection H1 as <- <- <-. cbn [answered]. rewrite Et. apply OfTake; [exact H0|auto].
        + destruct (offered ctx None fl false c) as [[n' evs] a'] eqn:Eo. injection H1 as <- <- <-.
          eapply OfDecline; [exact H0|].
          set (s1 := withu s (after k [x] (usr s))) in *.
          replace (withu s (after (plus k n') (x :: evs) (usr s))) with (withu s1 (after n' evs (usr s1)))
            by (subst s1; unfold withu; cbn [hs hver rs blocks usr]; now rewrite after_after).
          change (answered s b0 c a') with (answered s1 b0 c a').
          apply (IH s1 n' evs a' l).
          * change (target s1) with (target s). rewrite Et. exact Eo.
          * exact Hf.
          * exact Hb.
          * intros Hi. apply Hg. now right. }
    destruct (counted usub c) as [k|] eqn:Ek.
    + apply (Step zero (Report k (lvl + 1))); [|exact H]. unfold TsetModel.print_and_proceed. change (TsetModel.testing_kind usub c) with (counted usub c). rewrite Ek.
      rewrite <- say_after. apply (runs_report s (say (Report k (lvl + 1)))). exact Hb.
    + destruct fl.
      * apply (Step one_error (Report KSignal (lvl + 1))); [|exact H]. unfold TsetModel.print_and_proceed. change (TsetModel.testing_kind usub c) with (counted usub c). rewrite Ek.
        eapply flag_ok; [exact Hf|]. cbn [truthy].
        assert (Eq : forall u, say (Report KSignal (lvl + 1)) (count 1 0 1 0 u) = after one_error [Report KSignal (lvl + 1)] u).
        { intros u. rewrite say_after, count_after, after_after. now rewrite plus_zero_r. }
        rewrite <- Eq. apply (runs_report s (fun u => say (Report KSignal (lvl + 1)) (count 1 0 1 0 u))). exact Hb.
      * eapply OfDecline with (v := TNone) (s1 := s).
        -- unfold TsetModel.print_and_proceed. change (TsetModel.testing_kind usub c) with (counted usub c). rewrite Ek. eapply flag_ok; [exact Hf|]. apply runs_ret.
        -- eapply IH; eauto. intros Hi. apply Hg. now right.
  - destruct (negb fl || sub (ctype c) TestingExceptionT) eqn:E.
    + eapply OfDecline with (v := TNone) (s1 := s).
      * eapply flag_ok; [exact Hf|]. destruct fl; cbn [truthy negb orb] in *; [rewrite E|]; apply runs_ret.
      * eapply IH; eauto. intros Hi. apply Hg. now right.
    + injection H as <- <- <-. rewrite after_zero, withu_id. cbn [answered]. apply OfTake; [|auto].
      apply orb_false_iff in E. destruct E as [E1 E2]. apply negb_false_iff in E1. subst fl.
      eapply flag_ok; [exact Hf|]. cbn [truthy]. rewrite E2. apply runs_invoke. apply Hg. now left.
Qed.

Lemma handler_steady a c : steady TNone sub c (handler a).
Proof.
  assert (Qf : quiet (V := tv) (St := tst) ask_flag).
  { repeat constructor. intros []; constructor. }
  assert (Qp : quiet (V := tv) (St := tst) (run_postproc callback)).
  { repeat constructor. intros []; try constructor. destruct i as [i|]; [destruct (callback i)|]; constructor. }
  assert (Qr : quiet (V := tv) (St := tst) proceed).
  { constructor. intros [[b n]|]; constructor. intros [[b n]|]; constructor. }
  destruct a as [lvl|].
  - apply quiet_steady. cbn. unfold TsetModel.print_and_proceed. change (TsetModel.testing_kind usub c) with (counted usub c). destruct (counted usub c).
    + repeat (constructor; auto; intros).
    + constructor; [exact Qf|]. intros v. destruct (truthy v); [|constructor]. repeat (constructor; auto; intros).
  - intros s v s1 H. cbn in H. unfold TsetModel.intercept in H. apply runs_bind_inv in H.
    destruct H as [(v1 & s2 & H1 & H2)|[H1 H2]]; [|exfalso; apply H2; eexists; reflexivity].
    assert (E : hver s2 = hver s) by (destruct H1 as [f H1]; eapply quiet_steady_exec; [exact Qf|exact H1]).
    rewrite <- E. destruct (truthy v1); [destruct (TsetModel.sub usub (ctype c) TestingExceptionT)|].
    + destruct (runs_det _ _ _ _ _ _ _ _ H2 (runs_ret TNone sub TNone s2)) as [_ ->]. reflexivity.
    + exfalso. destruct H2 as [[|f] H2]; [discriminate|]. cbn in H2. destruct (find_restart "_got_signal" s2) as [[b n]|].
      * discriminate.
      * assert (H3 : runs (error (mkCond ControlErrorType PError None)) s2 (RVal v) s1) by (exists f; exact H2).
        apply error_spec in H3. destruct H3 as [(v' & E' & _)|[_ H3]]; [discriminate|apply H3; eexists; reflexivity].
    + destruct (runs_det _ _ _ _ _ _ _ _ H2 (runs_ret TNone sub TNone s2)) as [_ ->]. reflexivity.
Qed.

Lemma signal_runs c ctx pp fl b0 s n ev a l : hs s = map blk ctx ->
  offered ctx pp fl (is_some (target s)) c = (n, ev, a) ->
  flags (usr s) = fl :: l -> behaviour (usr s) = pp ->
  (In InTest ctx -> find_restart "_got_signal" s = Some (b0, "_got_signal")) ->
  runs (Signal c) s (answered s b0 c a) (withu s (after n ev (usr s))).
Proof.
  intros Hh H Hf Hb Hg. apply signal_offers; rewrite Hh, matching_blk.
  - intros h Hi. apply in_map_iff in Hi. destruct Hi as (x & <- & _). apply handler_steady.
  - eapply offered_runs; eauto.
Qed.

(** * The state represents a point of the suite *)
Definition rep (ctx : list around) (pp : option exn) (fl : bool) s : Prop :=
  wf s /\ hs s = map blk ctx /\ target s = None /\
  (In InTest ctx -> exists b, find_restart "_got_signal" s = Some (b, "_got_signal")) /\
  level (usr s) = depth ctx /\ behaviour (usr s) = pp /\ exists l, flags (usr s) = fl :: l.

Definition ended (Q : tv -> Prop) s (r : ending) (x : res tv) : Prop :=
  match r with
  | Goes_on => exists v, Q v /\ x = RVal v
  | Raises e => x = RExc e
  | Caught c => exists b, find_restart "_got_signal" s = Some (b, "_got_signal") /\ x = RInvoke b "_got_signal" (TCond c)
  end.
Definition does (Q : tv -> Prop) (p : prog) s (o : tally * list event * ending) : Prop :=
  let '(n, ev, r) := o in exists x s', runs p s x s' /\ ended Q s r x /\ usr s' = after n ev (usr s).
Definition any (v : tv) : Prop := True.
Lemma any_intro v : any v. Proof. exact I. Qed.
Hint Resolve any_intro : core.

Lemma rep_step ctx pp fl s p x s' n ev : rep ctx pp fl s -> runs p s x s' -> usr s' = after n ev (usr s) -> rep ctx pp fl s'.
Proof.
  intros (Hw & Hh & Ht & Hg & Hl & Hb & Hf) H Hu.
  destruct (runs_balance _ _ _ _ _ _ H) as (B1 & B2 & l & B3).
  destruct (visible _ _ _ _ _ _ Hw H) as (Vf & _ & Vw).
  unfold rep, target. rewrite !Vf, B1, Hu.
  split; [exact Vw|]. split; [exact Hh|]. split; [exact Ht|]. split; [exact Hg|]. auto.
Qed.
Lemma ended_step Q ctx pp fl s p x s' r y : rep ctx pp fl s -> runs p s x s' -> ended Q s' r y -> ended Q s r y.
Proof.
  intros (Hw & _) H. destruct (visible _ _ _ _ _ _ Hw H) as (Vf & _ & _). destruct r; cbn; auto. now rewrite Vf.
Qed.

(** push a restart block *)
Lemma find_push n b s : (forall i, In i (rs s) -> i < length (blocks s)) ->
  find_restart n (push_r b s) = match assoc n b with Some _ => Some (length (blocks s), n) | None => find_restart n s end.
Proof.
  intros Hw. unfold find_restart. cbn [rs push_r find].
  assert (B : block (push_r b s) (length (blocks s)) = b).
  { unfold block. cbn. rewrite app_nth2 by lia. now rewrite Nat.sub_diag. }
  rewrite B. destruct (assoc n b); [reflexivity|].
  erewrite find_ext; [reflexivity|]. intros i Hi. cbv beta.
  rewrite (block_app s (push_r b s) [b] i); [reflexivity|reflexivity|auto].
Qed.
Lemma wf_push b s : wf s -> wf (push_r b s).
Proof. intros Hw i Hi. cbn in Hi |- *. rewrite app_length. cbn. destruct Hi as [<-|Hi]; [lia|]. specialize (Hw i Hi). lia. Qed.
Lemma find_lt n s b m : wf s -> find_restart n s = Some (b, m) -> b < length (blocks s).
Proof.
  intros Hw H. unfold find_restart in H. destruct (find _ (rs s)) as [i|] eqn:E; [|discriminate]. injection H as <- <-.
  apply find_some in E. now apply Hw.
Qed.

(** * Stray conditions *)
Lemma around_eq (x y : around) : {x = y} + {x <> y}.
Proof. decide equality. apply Z.eq_dec. Qed.
Lemma got_index ctx s : (In InTest ctx -> exists b, find_restart "_got_signal" s = Some (b, "_got_signal")) ->
  exists b0, In InTest ctx -> find_restart "_got_signal" s = Some (b0, "_got_signal").
Proof.
  intros Hg. destruct (In_dec around_eq InTest ctx) as [Hi|Hi].
  - destruct (Hg Hi) as [b E]. exists b. auto.
  - exists 0. intros Hi'. now destruct Hi.
Qed.
Lemma taken_in c pp fl rst : forall ctx n ev a, offered ctx pp fl rst c = (n, ev, a) -> a = Taken -> In InTest ctx.
Proof.
  induction ctx as [|[lvl|] ctx IH]; intros n ev a Ho E; cbn in Ho.
  - subst a. discriminate.
  - assert (D : forall n ev a, offered ctx pp fl rst c = (n, ev, a) -> a = Taken -> In InTest (InSet lvl :: ctx))
      by (intros; right; eapply IH; eauto).
    destruct (counted usub c), fl, pp, rst; try (eapply D; eassumption); try (subst a; discriminate);
      destruct (offered ctx None _ false c) as [[n' evs] a'] eqn:Eo; injection Ho as _ _ <-; eapply D; eauto.
  - now left.
Qed.

Lemma cerror_does ctx pp fl c s n ev a : rep ctx pp fl s ->
  offered ctx pp fl true c = (n, ev, a) ->
  does any (cerror TNone c) s (n, ev, match a with Proceeds => Goes_on | Declined => Raises ControlError | Taken => Caught c | Failed e => Raises e end).
Proof.
  intros (Hw & Hh & Ht & Hg & Hl & Hb & l & Hf) Ho.
  set (s0 := push_r (proceed_block (V := tv) (St := tst) TNone) s).
  destruct (got_index ctx s Hg) as [b0 Hb0].
  assert (Tg : target s0 = Some (length (blocks s), "proceed")).
  { unfold target, s0. now rewrite find_push by exact Hw. }
  assert (S : runs (Signal c) s0 (answered s0 b0 c a) (withu s0 (after n ev (usr s)))).
  { change (usr s) with (usr s0). apply (signal_runs c ctx pp fl b0 s0 n ev a l); auto.
    - rewrite Tg. exact Ho.
    - intros Hi. unfold s0. rewrite find_push by exact Hw. apply Hb0, Hi. }
  unfold answered in S. rewrite Tg in S.
  exists (match a with Proceeds => RVal TNone | Declined => RExc ControlError | Taken => RInvoke b0 "_got_signal" (TCond c) | Failed e => RExc e end).
  exists (pop_r (withu s0 (after n ev (usr s)))).
  assert (Tk : a = Taken -> In InTest ctx) by (eapply taken_in; exact Ho).
  split; [|split].
  - apply cerror_spec. exists (withu s0 (after n ev (usr s))). split; [reflexivity|]. destruct a as [| | |e].
    + right. left. eauto.
    + left. eauto.
    + right. right. split; [exact S|]. split; [auto|]. intros m x E. injection E as E _ _.
      specialize (Hb0 (Tk eq_refl)). apply (find_lt _ _ _ _ Hw) in Hb0. lia.
    + right. right. split; [exact S|]. split; [auto|discriminate].
  - destruct a as [| | |e]; cbn [ended]; eauto.
  - reflexivity.
Qed.

Lemma signal_does ctx pp fl c s n ev a : rep ctx pp fl s -> offered ctx pp fl false c = (n, ev, a) ->
  does any (Signal c) s (n, ev, match a with Taken => Caught c | Failed e => Raises e | _ => Goes_on end).
Proof.
  intros (Hw & Hh & Ht & Hg & Hl & Hb & l & Hf) Ho. destruct (got_index ctx s Hg) as [b0 Hb0].
  exists (answered s b0 c a), (withu s (after n ev (usr s))). split; [|split; [|reflexivity]].
  - eapply signal_runs; eauto. rewrite Ht. exact Ho.
  - pose proof (taken_in _ _ _ _ _ _ _ _ Ho) as Tk. destruct a; cbn; rewrite ?Ht; eauto.
Qed.
Lemma error_does ctx pp fl c s n ev a : rep ctx pp fl s -> offered ctx pp fl false c = (n, ev, a) ->
  does any (error c) s (n, ev, match a with Taken => Caught c | Failed e => Raises e | _ => Raises ControlError end).
Proof.
  intros R Ho. destruct (signal_does _ _ _ _ _ _ _ _ R Ho) as (x & s' & H & E & U).
  destruct a; cbn [ended] in E.
  - destruct E as (v & _ & ->). exists (RExc ControlError), s'. split; [apply error_spec; left; eauto|]. cbn. auto.
  - destruct E as (v & _ & ->). exists (RExc ControlError), s'. split; [apply error_spec; left; eauto|]. cbn. auto.
  - destruct E as (b & F & ->). eexists _, s'. split; [apply error_spec; right; split; [exact H|auto]|]. cbn. eauto.
  - subst x. eexists _, s'. split; [apply error_spec; right; split; [exact H|auto]|]. cbn. eauto.
Qed.
Lemma warn_does ctx pp fl c s n ev a : rep ctx pp fl s -> offered ctx pp fl true c = (n, ev, a) ->
  does any (warn TNone print_warning c) s (n, ev, match a with Taken => Caught c | Failed e => Raises e | _ => Goes_on end).
Proof.
  intros (Hw & Hh & Ht & Hg & Hl & Hb & l & Hf) Ho. destruct (got_index ctx s Hg) as [b0 Hb0].
  set (s0 := push_r (inner_block (V := tv) (St := tst) TNone) (push_r (muffle_block (V := tv) (St := tst) TNone) s)).
  assert (Ln : length (blocks (push_r (muffle_block (V := tv) (St := tst) TNone) s)) = S (length (blocks s)))
    by (cbn; rewrite app_length; cbn; lia).
  assert (Fd : forall m, find_restart m s0 = match assoc m (inner_block (V := tv) (St := tst) TNone) with
     | Some _ => Some (S (length (blocks s)), m)
     | None => match assoc m (muffle_block (V := tv) (St := tst) TNone) with Some _ => Some (length (blocks s), m) | None => find_restart m s end end).
  { intros m. unfold s0. rewrite find_push by (apply wf_push; exact Hw). rewrite Ln. now rewrite find_push by exact Hw. }
  assert (Tg : target s0 = Some (S (length (blocks s)), "_proceed")).
  { unfold target in Ht |- *. rewrite !Fd. cbn. destruct (find_restart "proceed" s); [discriminate|reflexivity]. }
  assert (Sg : runs (Signal c) s0 (answered s0 b0 c a) (withu s0 (after n ev (usr s)))).
  { change (usr s) with (usr s0). apply (signal_runs c ctx pp fl b0 s0 n ev a l); auto.
    - rewrite Tg. exact Ho.
    - intros Hi. rewrite Fd. apply Hb0, Hi. }
  unfold answered in Sg. rewrite Tg in Sg.
  exists (match a with Taken => RInvoke b0 "_got_signal" (TCond c) | Failed e => RExc e | _ => RVal TNone end).
  exists (pop_r (pop_r (withu s0 (after n ev (usr s))))).
  pose proof (taken_in _ _ _ _ _ _ _ _ Ho) as Tk.
  split; [|split; [|reflexivity]].
  - apply warn_spec. exists (withu s0 (after n ev (usr s))). destruct a as [| | |e].
    + left. split; [reflexivity|]. split; [reflexivity|]. left. eauto.
    + left. split; [reflexivity|]. split; [reflexivity|]. right. eauto.
    + right. right. split; [reflexivity|]. split; [exact Sg|]. split; [auto|].
      intros b m x E. injection E as <- _ _. specialize (Hb0 (Tk eq_refl)). apply (find_lt _ _ _ _ Hw) in Hb0. lia.
    + right. right. split; [reflexivity|]. split; [exact Sg|]. split; [auto|discriminate].
  - destruct a; cbn [ended]; eauto.
Qed.

(** * Tests *)
Definition got_block : rblock tv tst := [("_got_signal", fun exc => Ret (TObs Signaled exc))].
Definition in_test s : st := push_h (blk InTest) (push_r got_block s).
Lemma rep_in_test ctx pp fl s : rep ctx pp fl s -> rep (InTest :: ctx) pp fl (in_test s).
Proof.
  intros (Hw & Hh & Ht & Hg & Hl & Hb & Hf). unfold rep, in_test.
  assert (F : forall m, find_restart m (push_h (blk InTest) (push_r got_block s)) = find_restart m (push_r got_block s)) by reflexivity.
  split; [exact (wf_push _ _ Hw)|]. split; [cbn; now rewrite Hh|]. split; [|split; [|split; [exact Hl|split; [exact Hb|exact Hf]]]].
  - unfold target. rewrite !F, !find_push by exact Hw. exact Ht.
  - intros _. exists (length (blocks s)). rewrite F, find_push by exact Hw. reflexivity.
Qed.
Definition observed (v : tv) (r : ending) : tv :=
  match r with Goes_on => TObs Completed v | Raises e => TObs Raised (TExn e) | Caught c => TObs Signaled (TCond c) end.
Lemma observe_runs ctx pp fl s q v n ev r : rep ctx pp fl s -> does (eq v) q (in_test s) (n, ev, r) ->
  exists s', runs (observe usub q) s (RVal (observed v r)) s' /\ usr s' = after n ev (usr s).
Proof.
  intros R (x & s1 & H & E & U). pose proof R as (Hw & _). change (usr (in_test s)) with (usr s) in U.
  assert (Hh : runs (WithHandlers [([ExceptionT], intercept)] q) (push_r got_block s) x (pop_h s1)) by (apply runs_handlers; exact H).
  unfold observe. fold got_block. destruct r as [|e|c]; cbn [ended observed] in E |- *.
  - destruct E as (v' & <- & ->). exists (pop_r (pop_h s1)). split; [|exact U].
    apply runs_try; [|discriminate]. apply runs_restarts_other; [|discriminate]. eapply runs_bind; [exact Hh|apply runs_ret].
  - subst x. exists (pop_r (pop_h s1)). split; [|exact U].
    eapply runs_try_exc; [|apply runs_ret]. apply runs_restarts_other; [|discriminate].
    apply runs_bind_other; [exact Hh|auto].
  - destruct E as (b & F & ->). exists (pop_r (pop_h s1)). split; [|exact U].
    assert (b = length (blocks s)) as ->.
    { unfold in_test in F. change (find_restart "_got_signal" (push_r got_block s) = Some (b, "_got_signal")) in F.
      rewrite find_push in F by exact Hw. cbn in F. now injection F. }
    apply runs_try; [|discriminate]. eapply runs_restarts_val with (n := "_got_signal"); [|reflexivity|apply runs_ret].
    apply runs_bind_other; [exact Hh|auto].
Qed.

Lemma offered_testing c pp fl rst : sub (ctype c) TestingExceptionT = true -> forall ctx n ev a,
  offered ctx pp fl rst c = (n, ev, a) -> counted usub c <> None -> n = zero /\ a <> Taken.
Proof.
  intros Hs. induction ctx as [|[lvl|] ctx IH]; intros n ev a H Hk; cbn [TsetSpec.offered] in H.
  - injection H as <- <- <-. split; [reflexivity|discriminate].
  - destruct (counted usub c) as [k|] eqn:Ek; [|congruence].
    assert (D : forall n ev a, offered ctx pp fl rst c = (n, ev, a) -> n = zero /\ a <> Taken) by (intros; eapply IH; eauto).
    destruct pp as [e|]; [destruct fl; injection H as <- <- <-; (split; [reflexivity|discriminate])|].
    destruct rst; [destruct fl; injection H as <- <- <-; (split; [reflexivity|discriminate])|].
    destruct (offered ctx None fl false c) as [[n' evs] a'] eqn:Eo. destruct (D _ _ _ eq_refl) as [-> Ha].
    destruct fl; injection H as <- <- <-; auto.
  - change (TsetModel.sub usub (ctype c) TestingExceptionT) with (sub (ctype c) TestingExceptionT) in H.
    rewrite Hs, orb_true_r in H. eapply IH; eauto.
Qed.

Lemma fail_does ctx pp fl t k s dr df de dw : rep ctx pp fl s -> counted usub (mkCond t PCerror None) = Some k ->
  does any (fail_with t dr df de dw) s (let '(ev, r) := reported usub ctx pp fl t in (mkC dr df de dw, ev, r)).
Proof.
  intros R Hk. unfold reported. destruct (offered ctx pp fl true (mkCond t PCerror None)) as [[n evs] a] eqn:Eo.
  destruct (offered_testing _ _ _ _ (testing_sub _ _ Hk) _ _ _ _ Eo) as [-> Ha]; [rewrite Hk; discriminate|].
  set (s1 := withu s (count dr df de dw (usr s))).
  assert (R1 : rep ctx pp fl s1).
  { eapply rep_step; [exact R|apply runs_upd|]. cbn. apply count_after. }
  destruct (cerror_does _ _ _ _ _ _ _ _ R1 Eo) as (x & s2 & H & E & U).
  exists x, s2. split; [|split].
  - unfold fail_with. apply bind_upd. exact H.
  - destruct a; cbn [ended] in E |- *; auto. congruence.
  - rewrite U. subst s1. cbn [usr withu]. rewrite count_after, after_after. now rewrite plus_zero_r.
Qed.
Lemma pass_does ctx pp fl s : rep ctx pp fl s -> does any (Ret TNone) s (zero, [], Goes_on).
Proof. intros _. exists (RVal TNone), s. split; [apply runs_ret|]. split; [cbn; eauto|now rewrite after_zero]. Qed.

(** what is left to count once tests_run has been increased *)
Definition rest (x : finding) : tally :=
  match x with Pass => zero | Fail => mkC 0 1 0 0 | Error => mkC 0 0 1 0 | Warn => mkC (-1) 0 0 1 end.
Lemma assert_does ctx pp fl s q v n ev r (k : tv -> prog) (f : ending -> finding) :
  rep ctx pp fl s -> does (eq v) q (in_test s) (n, ev, r) ->
  (forall s, rep ctx pp fl s -> does any (k (observed v r)) s
     (let '(ev0, r0) := judged usub ctx pp fl (f r) in (rest (f r), ev0, r0))) ->
  does any (Bind (observe usub q) (fun o => Bind (upd (count 1 0 0 0)) (fun _ => k o))) s
    (assessed usub ctx pp fl f (n, ev, r)).
Proof.
  intros R H Hk. unfold assessed. destruct (observe_runs _ _ _ _ _ _ _ _ _ R H) as (s1 & H1 & U1).
  assert (R1 : rep ctx pp fl s1) by (eapply rep_step; eauto).
  set (s2 := withu s1 (count 1 0 0 0 (usr s1))).
  assert (R2 : rep ctx pp fl s2).
  { eapply rep_step; [exact R1|apply runs_upd|]. cbn. apply count_after. }
  specialize (Hk s2 R2). destruct (judged usub ctx pp fl (f r)) as [ev' r']. destruct Hk as (x & s3 & H3 & E & U3).
  exists x, s3. split; [|split].
  - eapply runs_bind; [exact H1|]. apply bind_upd. exact H3.
  - assert (H13 : runs (Bind (observe usub q) (fun _ => upd (count 1 0 0 0))) s (RVal TNone) s2).
    { eapply runs_bind; [exact H1|apply runs_upd]. }
    eapply ended_step; [exact R|exact H13|exact E].
  - rewrite U3. subst s2. cbn [usr withu]. rewrite count_after, U1, !after_after. rewrite ?app_nil_r. cbn [app]. f_equal.
    destruct n, (f r); unfold plus; cbn; f_equal; lia.
Qed.
Lemma judge_fail ctx pp fl s : rep ctx pp fl s -> does any (fail_with TestFailureT 0 1 0 0) s
  (let '(ev, r) := judged usub ctx pp fl Fail in (rest Fail, ev, r)).
Proof. intros R. eapply fail_does; [exact R|reflexivity]. Qed.
Lemma judge_error ctx pp fl s : rep ctx pp fl s -> does any (fail_with TestErrorT 0 0 1 0) s
  (let '(ev, r) := judged usub ctx pp fl Error in (rest Error, ev, r)).
Proof. intros R. eapply fail_does; [exact R|reflexivity]. Qed.
Lemma judge_warn ctx pp fl s : rep ctx pp fl s -> does any (fail_with TestWarningT (-1) 0 0 1) s
  (let '(ev, r) := judged usub ctx pp fl Warn in (rest Warn, ev, r)).
Proof. intros R. eapply fail_does; [exact R|reflexivity]. Qed.
Lemma judge_pass ctx pp fl s : rep ctx pp fl s -> does any (Ret TNone) s
  (let '(ev, r) := judged usub ctx pp fl Pass in (rest Pass, ev, r)).
Proof. intros R. eapply pass_does. exact R. Qed.
Hint Resolve judge_fail judge_error judge_warn judge_pass : core.

Lemma test_does ctx pp fl s q v o : rep ctx pp fl s -> does (eq v) q (in_test s) o ->
  does any (unpythonic_assert usub q) s (assessed usub ctx pp fl (test_finding v) o).
Proof.
  intros R H. destruct o as [[n ev] r]. eapply assert_does; [exact R|exact H|]. clear s R H. intros s R.
  destruct r as [|e|c]; cbn [observed test_finding]; [|auto|auto].
  destruct v as [|[|]| |[]| | | | |]; cbn [value_finding truthy]; auto.
Qed.
Lemma signals_does ctx pp fl s q v o t : rep ctx pp fl s -> does (eq v) q (in_test s) o ->
  does any (unpythonic_assert_signals usub isexn t q) s (assessed usub ctx pp fl (signals_finding usub t) o).
Proof.
  intros R H. destruct o as [[n ev] r]. eapply assert_does; [exact R|exact H|]. clear s R H. intros s R.
  destruct r as [|e|c]; cbn [observed signals_finding isinstance]; auto.
  destruct (TsetModel.sub usub (ctype c) t); auto.
Qed.
Lemma raises_does ctx pp fl s q v o t : rep ctx pp fl s -> does (eq v) q (in_test s) o ->
  does any (unpythonic_assert_raises usub isexn t q) s (assessed usub ctx pp fl (raises_finding isexn t) o).
Proof.
  intros R H. destruct o as [[n ev] r]. eapply assert_does; [exact R|exact H|]. clear s R H. intros s R.
  destruct r as [|e|c]; cbn [observed raises_finding isinstance]; auto.
  destruct (isexn e t); auto.
Qed.

(** * Testsets *)
Definition good (n : tally) : Prop := (0 <= c_run n /\ 0 <= c_fail n /\ 0 <= c_err n /\ 0 <= c_warn n /\ c_fail n + c_err n <= c_run n)%Z.
Definition in_set ctx post s : st := push_h (blk (InSet (depth ctx))) (withu s (enter_set post (usr s))).
Definition new_pp (post : option nat) (pp : option exn) : option exn := match post with Some i => callback i | None => pp end.
Lemma depth_set lvl ctx : depth (InSet lvl :: ctx) = (depth ctx + 1)%Z.
Proof. unfold depth. cbn [filter is_set length]. lia. Qed.
Lemma rep_in_set ctx pp fl s post : rep ctx pp fl s -> rep (InSet (depth ctx) :: ctx) (new_pp post pp) fl (in_set ctx post s).
Proof.
  intros (Hw & Hh & Ht & Hg & Hl & Hb & Hf). unfold rep, in_set. rewrite depth_set.
  split; [exact Hw|]. split; [cbn; now rewrite Hh|]. split; [exact Ht|]. split; [|split; [|split]].
  - intros [E|Hi]; [discriminate|]. exact (Hg Hi).
  - destruct post; cbn; now rewrite Hl.
  - destruct post as [i|]; cbn; [reflexivity|]. exact Hb.
  - destruct post; exact Hf.
Qed.

Lemma leave_runs lvl post r1 f1 e1 w1 s : (1 <= level (usr s))%Z ->
  (0 <= run (usr s) - r1 /\ 0 <= failed (usr s) - f1 /\ 0 <= errored (usr s) - e1 /\ 0 <= warned (usr s) - w1)%Z ->
  runs (leave_set lvl post r1 f1 e1 w1) s (RVal TNone)
    (withu s (let u := usr s in
              mkT (run u) (failed u) (errored u) (warned u) (level u - 1)
                (match post with Some _ => tl (posts u) | None => posts u end) (gpost u) (flags u)
                (log u ++ [SetEnd lvl (run u - r1) (failed u - f1) (errored u - e1) (warned u - w1)]))).
Proof.
  intros Hl (G1 & G2 & G3 & G4).
  unfold leave_set. apply bind_upd. apply bind_upd. apply bind_ask. cbn [usr withu setlevel level].
  replace (level match post with Some _ => setposts (tl (posts (usr s))) (usr s) | None => usr s end) with (level (usr s)) by now destruct post.
  replace (0 <=? level (usr s) - 1)%Z with true by (symmetry; apply Z.leb_le; lia). cbn [truthy].
  apply bind_ask. cbn [usr withu setlevel run failed errored warned].
  assert (E : forall (g : tst -> Z), (forall l u, g (setposts l u) = g u) ->
     g match post with Some _ => setposts (tl (posts (usr s))) (usr s) | None => usr s end = g (usr s)) by (intros; destruct post; auto).
  rewrite (E run), (E failed), (E errored), (E warned) by reflexivity.
  eapply runs_bind with (v := TNone).
  - unfold summarize. rewrite (proj2 (Z.leb_le _ _) G1), (proj2 (Z.leb_le _ _) G2), (proj2 (Z.leb_le _ _) G3), (proj2 (Z.leb_le _ _) G4). apply runs_ret.
  - destruct s as [h hv rs bl u]; destruct post; apply runs_upd.
Qed.

Lemma leave_after post n ev lvl s s1 : usr s1 = after n ev (enter_set post (usr s)) -> good n ->
  level (usr s) = lvl -> (0 <= lvl)%Z ->
  exists s2, runs (leave_set lvl post (run (usr s)) (failed (usr s)) (errored (usr s)) (warned (usr s))) s1 (RVal TNone) s2 /\
    usr s2 = after n (SetBegin lvl :: ev ++ [set_end lvl n]) (usr s).
Proof.
  intros U G Hl H0.
  assert (Ur : (run (usr s1) = run (usr s) + c_run n /\ failed (usr s1) = failed (usr s) + c_fail n /\
               errored (usr s1) = errored (usr s) + c_err n /\ warned (usr s1) = warned (usr s) + c_warn n /\
               level (usr s1) = lvl + 1 /\ gpost (usr s1) = gpost (usr s) /\ flags (usr s1) = flags (usr s))%Z)
    by (rewrite U; destruct post; cbn; rewrite Hl; repeat split).
  destruct Ur as (Ur & Uf & Ue & Uw & Ul & Ug & Uk).
  eexists. split.
  - apply leave_runs; [lia|]. rewrite Ur, Uf, Ue, Uw. destruct G as (G1 & G2 & G3 & G4). unfold good. cbn. lia.
  - cbn [usr withu]. unfold after. rewrite Ur, Uf, Ue, Uw, Ul, Ug, Uk. rewrite U. unfold set_end. subst lvl.
    replace (run (usr s) + c_run n - run (usr s))%Z with (c_run n) by lia.
    replace (failed (usr s) + c_fail n - failed (usr s))%Z with (c_fail n) by lia.
    replace (errored (usr s) + c_err n - errored (usr s))%Z with (c_err n) by lia.
    replace (warned (usr s) + c_warn n - warned (usr s))%Z with (c_warn n) by lia.
    destruct post; cbn; rewrite <- !app_assoc; cbn; f_equal; lia.
Qed.
Lemma good_plus a b : good a -> good b -> good (plus a b).
Proof. unfold good, plus. cbn. lia. Qed.
Lemma good_error : good one_error. Proof. unfold good. cbn. lia. Qed.
Lemma good_zero : good zero. Proof. unfold good. cbn. lia. Qed.

Lemma set_does ctx pp fl s post q o : rep ctx pp fl s -> good (fst (fst o)) -> does any q (in_set ctx post s) o ->
  does any (testset usub callback post q) s (closed (depth ctx) o).
Proof.
  intros R G H. destruct o as [[n ev] r]. cbn [fst] in G. destruct H as (x & s1 & H & E & U).
  change (usr (in_set ctx post s)) with (enter_set post (usr s)) in U.
  pose proof R as (_ & _ & _ & _ & Hl & _).
  assert (H0 : (0 <= depth ctx)%Z) by (unfold depth; lia).
  assert (Hh : runs (WithHandlers [([ExceptionT], print_and_proceed (depth ctx))] q) (withu s (enter_set post (usr s))) x (pop_h s1))
    by (apply runs_handlers; exact H).
  assert (Key : forall y n' ev' s2, usr s2 = after n' ev' (enter_set post (usr s)) -> good n' ->
    runs (Try (Bind (WithHandlers [([ExceptionT], print_and_proceed (depth ctx))] q) (fun _ => Ret TNone))
             (fun e => if session_exit e then Ret TNone
                       else upd (fun u => say (Report KExn (depth ctx + 1)) (count 1 0 1 0 u)))) (withu s (enter_set post (usr s))) y s2 ->
    exists s3, runs (testset usub callback post q) s y s3 /\ usr s3 = after n' (SetBegin (depth ctx) :: ev' ++ [set_end (depth ctx) n']) (usr s)).
  { intros y n' ev' s2 U2 G2 H2. destruct (leave_after post n' ev' (depth ctx) s s2 U2 G2 Hl H0) as (s3 & H3 & U3).
    exists s3. split; [|exact U3]. unfold testset. apply bind_ask. apply bind_ask. cbn beta iota. rewrite Hl.
    apply bind_upd. eapply runs_finally; [exact H2|exact H3]. }
  destruct r as [|e|c]; cbn [closed ended] in E |- *.
  - destruct E as (v & _ & ->).
    destruct (Key (RVal TNone) n ev (pop_h s1) U G) as (s3 & H3 & U3).
    { apply runs_try; [|discriminate]. eapply runs_bind; [exact Hh|apply runs_ret]. }
    exists (RVal TNone), s3. split; [exact H3|]. split; [cbn; eauto|exact U3].
  - subst x.
    assert (He : runs (Bind (WithHandlers [([ExceptionT], print_and_proceed (depth ctx))] q) (fun _ => Ret TNone))
                  (withu s (enter_set post (usr s))) (RExc e) (pop_h s1)) by (apply runs_bind_other; [exact Hh|auto]).
    destruct (session_exit e) eqn:Ex.
    + destruct (Key (RVal TNone) n ev (pop_h s1) U G) as (s3 & H3 & U3).
      { eapply runs_try_exc; [exact He|]. rewrite Ex. apply runs_ret. }
      exists (RVal TNone), s3. split; [exact H3|]. split; [cbn; eauto|exact U3].
    + destruct (Key (RVal TNone) (plus n one_error) (ev ++ [Report KExn (depth ctx + 1)])
                 (withu (pop_h s1) (say (Report KExn (depth ctx + 1)) (count 1 0 1 0 (usr (pop_h s1)))))) as (s3 & H3 & U3).
      * cbn [usr withu pop_h]. rewrite say_after, count_after, U, !after_after. cbn [app]. f_equal.
      * apply good_plus; [exact G|apply good_error].
      * eapply runs_try_exc; [exact He|]. rewrite Ex. apply (runs_upd (fun u => say (Report KExn (depth ctx + 1)) (count 1 0 1 0 u))).
      * exists (RVal TNone), s3. split; [exact H3|]. split; [cbn; eauto|]. rewrite U3. now rewrite <- !app_assoc.
  - destruct E as (b & F & ->).
    destruct (Key (RInvoke b "_got_signal" (TCond c)) n ev (pop_h s1) U G) as (s3 & H3 & U3).
    { apply runs_try; [|discriminate]. apply runs_bind_other; [exact Hh|auto]. }
    eexists _, s3. split; [exact H3|]. split; [cbn; exists b; split; [exact F|reflexivity]|exact U3].
Qed.

Definition in_catch b s : st := withu s (setflags (b :: flags (usr s)) (usr s)).
Lemma rep_in_catch ctx pp fl s b : rep ctx pp fl s -> rep ctx pp b (in_catch b s).
Proof.
  intros (Hw & Hh & Ht & Hg & Hl & Hb & Hf). unfold rep, in_catch. split; [exact Hw|]. repeat split; auto.
  exists (flags (usr s)). reflexivity.
Qed.
Lemma catch_does b q s o : does any q (in_catch b s) o -> does any (catch_signals b q) s o.
Proof.
  destruct o as [[n ev] r]. intros (x & s1 & H & E & U).
  exists x. eexists. split; [|split].
  - unfold catch_signals. apply bind_upd. eapply runs_finally; [exact H|apply runs_upd].
  - exact E.
  - cbn [usr withu]. rewrite U. reflexivity.
Qed.

(** * Suites *)
Section ItemInd.
Variable P : item -> Prop.
Hypothesis HTest : forall b v, Forall P b -> P (ITest b v).
Hypothesis HSignals : forall t b, Forall P b -> P (ISignals t b).
Hypothesis HRaises : forall t b, Forall P b -> P (IRaises t b).
Hypothesis HSet : forall po b, Forall P b -> P (ISet po b).
Hypothesis HCatch : forall f b, Forall P b -> P (ICatch f b).
Hypothesis HRaise : forall e, P (IRaise e).
Hypothesis HSignal : forall pr t, P (ISignal pr t).
Hypothesis HTerm : P ITerminate.
Fixpoint item_ind' (i : item) : P i :=
  let all := fix all (l : list item) : Forall P l :=
    match l with [] => Forall_nil P | i :: l => Forall_cons i (item_ind' i) (all l) end in
  match i with
  | ITest b v => HTest b v (all b)
  | ISignals t b => HSignals t b (all b)
  | IRaises t b => HRaises t b (all b)
  | ISet po b => HSet po b (all b)
  | ICatch f b => HCatch f b (all b)
  | IRaise e => HRaise e
  | ISignal pr t => HSignal pr t
  | ITerminate => HTerm
  end.
End ItemInd.

Definition all_of := fix all ctx pp fl (l : list item) : tally * list event * ending :=
    match l with
    | [] => (zero, [], Goes_on)
    | i :: l =>
        let '(n, ev, r) := meaning ctx pp fl i in
        match r with
        | Goes_on => let '(n', ev', r') := all ctx pp fl l in (plus n n', ev ++ ev', r')
        | _ => (n, ev, r)
        end
    end.
Lemma all_of_eq ctx pp fl l : all_of ctx pp fl l = meaning_all ctx pp fl l.
Proof. reflexivity. Qed.
Lemma meaning_test ctx pp fl b v : meaning ctx pp fl (ITest b v) =
  assessed usub ctx pp fl (test_finding v) (meaning_all (InTest :: ctx) pp fl b).
Proof. rewrite <- all_of_eq. reflexivity. Qed.
Lemma meaning_signals ctx pp fl t b : meaning ctx pp fl (ISignals t b) =
  assessed usub ctx pp fl (signals_finding usub t) (meaning_all (InTest :: ctx) pp fl b).
Proof. rewrite <- all_of_eq. reflexivity. Qed.
Lemma meaning_raises ctx pp fl t b : meaning ctx pp fl (IRaises t b) =
  assessed usub ctx pp fl (raises_finding isexn t) (meaning_all (InTest :: ctx) pp fl b).
Proof. rewrite <- all_of_eq. reflexivity. Qed.
Lemma meaning_set ctx pp fl post b : meaning ctx pp fl (ISet post b) =
  closed (depth ctx) (meaning_all (InSet (depth ctx) :: ctx) (new_pp post pp) fl b).
Proof. rewrite <- all_of_eq. reflexivity. Qed.
Lemma meaning_catch ctx pp fl c b : meaning ctx pp fl (ICatch c b) = meaning_all ctx pp c b.
Proof. rewrite <- all_of_eq. reflexivity. Qed.

Definition seq_of := fix seq (l : list item) (v : tv) : prog :=
    match l with [] => Ret v | i :: l => Bind (compile i) (fun _ => seq l v) end.
Lemma seq_of_eq l v : seq_of l v = compile_all l v.
Proof. reflexivity. Qed.
Lemma compile_test b v : compile (ITest b v) = unpythonic_assert usub (compile_all b v).
Proof. rewrite <- seq_of_eq. reflexivity. Qed.
Lemma compile_signals t b : compile (ISignals t b) = unpythonic_assert_signals usub isexn t (compile_all b TNone).
Proof. rewrite <- seq_of_eq. reflexivity. Qed.
Lemma compile_raises t b : compile (IRaises t b) = unpythonic_assert_raises usub isexn t (compile_all b TNone).
Proof. rewrite <- seq_of_eq. reflexivity. Qed.
Lemma compile_set post b : compile (ISet post b) = testset usub callback post (compile_all b TNone).
Proof. rewrite <- seq_of_eq. reflexivity. Qed.
Lemma compile_catch c b : compile (ICatch c b) = catch_signals c (compile_all b TNone).
Proof. rewrite <- seq_of_eq. reflexivity. Qed.

Lemma good_weight x : good (weight x).
Proof. destruct x; unfold good; cbn; lia. Qed.
Lemma good_offered c pp fl rst : forall ctx, good (fst (fst (offered ctx pp fl rst c))).
Proof.
  induction ctx as [|[lvl|] ctx IH]; cbn [TsetSpec.offered].
  - apply good_zero.
  - destruct (counted usub c); destruct fl; try destruct pp; try destruct rst; cbn [fst];
      try apply good_zero; try apply good_error; try exact IH;
      destruct (offered ctx None _ false c) as [[n' evs] a']; cbn [fst] in *;
      (apply good_plus; [apply good_zero || apply good_error|exact IH]).
  - destruct (_ || _); [exact IH|apply good_zero].
Qed.
Lemma good_assessed ctx pp fl f o : good (fst (fst o)) -> good (fst (fst (assessed usub ctx pp fl f o))).
Proof.
  destruct o as [[n ev] r]. cbn [fst assessed]. intros G. destruct (judged usub ctx pp fl (f r)). cbn [fst].
  apply good_plus; [exact G|apply good_weight].
Qed.
Lemma good_closed lvl o : good (fst (fst o)) -> good (fst (fst (closed lvl o))).
Proof.
  destruct o as [[n ev] r]. cbn [fst]. intros G. unfold closed. destruct r as [|e|c]; cbn [fst]; auto.
  destruct (session_exit e); cbn [fst]; auto. apply good_plus; [exact G|apply good_error].
Qed.
Lemma good_all l : Forall (fun i => forall ctx pp fl, good (fst (fst (meaning ctx pp fl i)))) l ->
  forall ctx pp fl, good (fst (fst (meaning_all ctx pp fl l))).
Proof.
  induction 1 as [|i l Hi Hl IH]; intros ctx pp fl; cbn [TsetSpec.meaning_all]; [apply good_zero|].
  specialize (Hi ctx pp fl). destruct (meaning ctx pp fl i) as [[n ev] r]. cbn [fst] in Hi.
  destruct r; cbn [fst]; auto. specialize (IH ctx pp fl).
  destruct (meaning_all ctx pp fl l) as [[n' ev'] r']. cbn [fst] in *. now apply good_plus.
Qed.
Lemma good_meaning : forall i ctx pp fl, good (fst (fst (meaning ctx pp fl i))).
Proof.
  apply (item_ind' (fun i => forall ctx pp fl, good (fst (fst (meaning ctx pp fl i))))).
  - intros b v Hb ctx pp fl. rewrite meaning_test. apply good_assessed, good_all, Hb.
  - intros t b Hb ctx pp fl. rewrite meaning_signals. apply good_assessed, good_all, Hb.
  - intros t b Hb ctx pp fl. rewrite meaning_raises. apply good_assessed, good_all, Hb.
  - intros post b Hb ctx pp fl. rewrite meaning_set. apply good_closed, good_all, Hb.
  - intros c b Hb ctx pp fl. rewrite meaning_catch. apply good_all, Hb.
  - intros e ctx pp fl. apply good_zero.
  - intros pr t ctx pp fl. cbn [TsetSpec.meaning]. pose proof (good_offered (mkCond t pr None) pp fl (can_proceed pr) ctx) as G.
    destruct (offered ctx pp fl (can_proceed pr) (mkCond t pr None)) as [[n ev] a]. exact G.
  - intros ctx pp fl. apply good_zero.
Qed.
Lemma good_meaning_all l ctx pp fl : good (fst (fst (meaning_all ctx pp fl l))).
Proof. apply good_all. apply Forall_forall. intros i _. apply good_meaning. Qed.

Lemma not_proceeds c pp fl : forall ctx n ev a, offered ctx pp fl false c = (n, ev, a) -> a = Proceeds -> False.
Proof.
  induction ctx as [|[lvl|] ctx IH]; intros n ev a Eo ->; cbn [TsetSpec.offered] in Eo.
  - discriminate.
  - assert (D : forall n ev k x, (let '(n', evs, a) := offered ctx pp fl false c in (plus k n', x :: evs, a)) = (n, ev, Proceeds) -> False).
    { intros n0 ev0 k x. destruct (offered ctx pp fl false c) as [[n' evs] a'] eqn:Eo'. intros E. injection E as _ _ Ea.
      eapply IH; [reflexivity|exact Ea]. }
    destruct (counted usub c) as [k|]; destruct fl; destruct pp as [e|]; try discriminate Eo;
      try (eapply D; exact Eo); eapply IH; [exact Eo|reflexivity|exact Eo|reflexivity].
  - destruct (_ || _); [eapply IH; [exact Eo|reflexivity]|discriminate].
Qed.
Definition item_ok (i : item) : Prop := forall ctx pp fl s, rep ctx pp fl s -> does any (compile i) s (meaning ctx pp fl i).
Lemma all_does l v : Forall item_ok l ->
  forall ctx pp fl s, rep ctx pp fl s -> does (eq v) (compile_all l v) s (meaning_all ctx pp fl l).
Proof.
  induction 1 as [|i l Hi Hl IH]; intros ctx pp fl s R; cbn [TsetSpec.meaning_all TsetModel.compile_all].
  - exists (RVal v), s. split; [apply runs_ret|]. split; [cbn; eauto|now rewrite after_zero].
  - specialize (Hi ctx pp fl s R). destruct (meaning ctx pp fl i) as [[n ev] r].
    destruct Hi as (x & s1 & H & E & U). destruct r as [|e|c].
    + destruct E as (v1 & _ & ->). assert (R1 : rep ctx pp fl s1) by (eapply rep_step; eauto).
      specialize (IH ctx pp fl s1 R1). destruct (meaning_all ctx pp fl l) as [[n' ev'] r'].
      destruct IH as (y & s2 & H2 & E2 & U2). exists y, s2. split; [|split].
      * eapply runs_bind; eauto.
      * eapply ended_step; eauto.
      * now rewrite U2, U, after_after.
    + cbn in E. subst x. exists (RExc e), s1. split; [apply runs_bind_other; auto|]. split; [reflexivity|exact U].
    + destruct E as (b & F & ->). eexists _, s1. split; [apply runs_bind_other; eauto|]. split; [cbn; eauto|exact U].
Qed.
Lemma does_any Q p s o : does Q p s o -> does any p s o.
Proof.
  destruct o as [[n ev] r]. intros (x & s' & H & E & U). exists x, s'. split; [exact H|]. split; [|exact U].
  destruct r; cbn in *; auto. destruct E as (v & _ & ->). eauto.
Qed.
Lemma item_does : forall i, item_ok i.
Proof.
  apply item_ind'.
  - intros b v Hb ctx pp fl s R. rewrite meaning_test, compile_test.
    apply test_does; [exact R|]. eapply all_does; [exact Hb|]. now apply rep_in_test.
  - intros t b Hb ctx pp fl s R. rewrite meaning_signals, compile_signals.
    eapply signals_does; [exact R|]. eapply all_does; [exact Hb|]. now apply rep_in_test.
  - intros t b Hb ctx pp fl s R. rewrite meaning_raises, compile_raises.
    eapply raises_does; [exact R|]. eapply all_does; [exact Hb|]. now apply rep_in_test.
  - intros post b Hb ctx pp fl s R. rewrite meaning_set, compile_set.
    eapply set_does; [exact R|apply good_meaning_all|]. eapply does_any. eapply all_does; [exact Hb|]. now apply rep_in_set.
  - intros c b Hb ctx pp fl s R. rewrite meaning_catch, compile_catch.
    apply catch_does. eapply does_any. eapply all_does; [exact Hb|]. eapply rep_in_catch; exact R.
  - intros e ctx pp fl s R. exists (RExc e), s. split; [apply runs_raise|]. split; [reflexivity|now rewrite after_zero].
  - intros pr t ctx pp fl s R. cbn [TsetSpec.meaning TsetModel.compile].
    destruct (offered ctx pp fl (can_proceed pr) (mkCond t pr None)) as [[n ev] a] eqn:Eo.
    destruct pr; cbn [can_proceed by_protocol] in *.
    + pose proof (signal_does _ _ _ _ _ _ _ _ R Eo) as D. destruct a; exact D.
    + pose proof (error_does _ _ _ _ _ _ _ _ R Eo) as D. destruct a; try exact D.
      exfalso. eapply not_proceeds; [exact Eo|reflexivity].
    + pose proof (cerror_does _ _ _ _ _ _ _ _ R Eo) as D. destruct a; exact D.
    + pose proof (warn_does _ _ _ _ _ _ _ _ R Eo) as D. destruct a; exact D.
  - intros ctx pp fl s R. exists (RExc TestSessionExit). eexists. split; [apply bind_upd; apply runs_raise|]. split; [reflexivity|].
    cbn [usr withu]. apply say_after.
Qed.
Lemma suite_does l v ctx pp fl s : rep ctx pp fl s -> does (eq v) (compile_all l v) s (meaning_all ctx pp fl l).
Proof. apply all_does. apply Forall_forall. intros i _. apply item_does. Qed.

(** * Sessions *)
Lemma caught_in_test : forall i ctx pp fl n ev c, meaning ctx pp fl i = (n, ev, Caught c) -> In InTest ctx.
Proof.
  assert (A : forall l, Forall (fun i => forall ctx pp fl n ev c, meaning ctx pp fl i = (n, ev, Caught c) -> In InTest ctx) l ->
    forall ctx pp fl n ev c, meaning_all ctx pp fl l = (n, ev, Caught c) -> In InTest ctx).
  { induction 1 as [|i l Hi Hl IH]; intros ctx pp fl n ev c E; cbn [TsetSpec.meaning_all] in E; [discriminate|].
    destruct (meaning ctx pp fl i) as [[n1 ev1] r1] eqn:E1. destruct r1.
    - destruct (meaning_all ctx pp fl l) as [[n2 ev2] r2] eqn:E2. injection E as _ _ ->. eapply IH; eassumption.
    - discriminate.
    - injection E as _ _ ->. eapply Hi; eassumption. }
  assert (B : forall ctx pp fl f o n ev c, assessed usub ctx pp fl f o = (n, ev, Caught c) -> False).
  { intros ctx pp fl f [[n1 ev1] r1] n ev c. cbn [assessed]. unfold judged, reported.
    destruct (f r1); [discriminate| | | ];
      match goal with |- context [TsetSpec.offered usub ctx pp fl true ?d] => destruct (TsetSpec.offered usub ctx pp fl true d) as [[? ?] []] end; discriminate. }
  apply (item_ind' (fun i => forall ctx pp fl n ev c, meaning ctx pp fl i = (n, ev, Caught c) -> In InTest ctx)).
  - intros b v _ ctx pp fl n ev c. rewrite meaning_test. intros E. now apply B in E.
  - intros t b _ ctx pp fl n ev c. rewrite meaning_signals. intros E. now apply B in E.
  - intros t b _ ctx pp fl n ev c. rewrite meaning_raises. intros E. now apply B in E.
  - intros po b Hb ctx pp fl n ev c. rewrite meaning_set.
    destruct (meaning_all (InSet (depth ctx) :: ctx) (new_pp po pp) fl b) as [[n1 ev1] r1] eqn:E1. intros E.
    destruct r1 as [|e|c1]; cbn in E; [discriminate|destruct (session_exit e); discriminate|].
    apply A in E1; [|exact Hb]. destruct E1 as [E1|E1]; [discriminate|exact E1].
  - intros f b Hb ctx pp fl n ev c. rewrite meaning_catch. intros E. eapply A; eassumption.
  - discriminate.
  - intros pr t ctx pp fl n ev c. cbn [TsetSpec.meaning].
    destruct (offered ctx pp fl (can_proceed pr) (mkCond t pr None)) as [[n1 ev1] a] eqn:E1. intros E.
    destruct a; [destruct pr; discriminate|discriminate| |discriminate]. eapply taken_in; eauto.
  - discriminate.
Qed.
Lemma session_top pp fl l : exists n ev, meaning [] pp fl (ISet None l) = (n, ev, Goes_on).
Proof.
  destruct (meaning [] pp fl (ISet None l)) as [[n ev] r] eqn:E. exists n, ev. destruct r as [|e|c]; [reflexivity| |].
  - rewrite meaning_set in E. destruct (meaning_all _ _ fl l) as [[n1 ev1] [|e1|c1]]; cbn in E; try discriminate.
    destruct (session_exit e1); discriminate.
  - apply caught_in_test in E. destruct E.
Qed.
Lemma session_does l u fl fs n ev r : level u = 0%Z -> flags u = fl :: fs ->
  meaning [] (raised_by callback u) fl (ISet None l) = (n, ev, r) ->
  exists s', runs (session usub callback (compile_all l TNone)) (start u) (RVal TNone) s' /\
    usr s' = after n (SessionBegin :: ev ++ [SessionEnd]) u.
Proof.
  intros Hl Hf E. destruct (session_top (raised_by callback u) fl l) as (n' & ev' & E'). rewrite E' in E. injection E as -> -> <-.
  set (s1 := withu (start u) (say SessionBegin u)).
  assert (R : rep [] (raised_by callback u) fl s1).
  { unfold rep. split; [intros b []|]. split; [reflexivity|]. split; [reflexivity|]. split; [intros []|]. split; [exact Hl|].
    split; [reflexivity|]. exists fs. exact Hf. }
  pose proof (item_does (ISet None l) _ _ _ _ R) as D. rewrite E' in D. destruct D as (x & s2 & H & X & U).
  destruct X as (v & _ & ->). eexists. split.
  - unfold session. apply bind_ask. cbn [usr start]. rewrite Hl. cbn [truthy Z.ltb Z.compare].
    apply bind_upd. eapply runs_bind; [|apply runs_upd]. apply runs_try; [|discriminate].
    rewrite compile_set in H. exact H.
  - cbn [usr withu]. rewrite U. rewrite say_after, after_after. unfold s1. cbn [usr withu start]. rewrite say_after, after_after.
    rewrite plus_zero_r. f_equal. destruct n; unfold plus; cbn; f_equal; lia.
Qed.
Lemma session_refuses q s : (0 < level (usr s))%Z -> exists s', runs (session usub callback q) s (RExc RuntimeError) s' /\ usr s' = usr s.
Proof.
  intros H. eexists. split.
  - unfold session. apply bind_ask. rewrite (proj2 (Z.ltb_lt _ _) H). cbn [truthy]. apply runs_raise.
  - reflexivity.
Qed.

(** * Counting plain tests *)
Lemma ordinary_kind t pr : ordinary t -> counted usub (mkCond t pr None) = None.
Proof.
  unfold ordinary. intros H. unfold counted, sub, ExceptionT, TestFailureT, TestErrorT, TestWarningT, TestingExceptionT. cbn [ctype].
  cbn [Nat.eqb]. rewrite !(proj2 (Nat.eqb_neq t _)) by lia. reflexivity.
Qed.
Lemma ordinary_sub t : ordinary t -> TsetModel.sub usub t TestingExceptionT = false.
Proof.
  unfold ordinary. intros H. unfold TsetModel.sub, ExceptionT, TestingExceptionT. cbn [Nat.eqb].
  rewrite (proj2 (Nat.eqb_neq t 2)) by lia. rewrite (proj2 (Nat.leb_gt t 5)) by lia. apply andb_false_r.
Qed.
Lemma code_means b ctx : ordinary_stmt b ->
  meaning_all (InTest :: ctx) None true (code b) =
  (zero, [], match b with SNothing => Goes_on | SRaise e => Raises e | SSignal pr t => Caught (mkCond t pr None) end).
Proof.
  intros H. destruct b as [|e|pr t]; cbn [code TsetSpec.meaning_all]; [reflexivity|reflexivity|].
  cbn [TsetSpec.meaning TsetSpec.offered ctype]. cbn in H. rewrite (ordinary_sub t H). reflexivity.
Qed.
Lemma judged_line ctx lvl x : judged usub (InSet lvl :: ctx) None true x = (line (lvl + 1) x, Goes_on).
Proof. destruct x; reflexivity. Qed.
Lemma plain_means ctx lvl x : ordinary_stmt (snd x) ->
  meaning (InSet lvl :: ctx) None true (as_item x) =
  (weight (verdict usub isexn x), line (lvl + 1) (verdict usub isexn x), Goes_on).
Proof.
  intros H. destruct x as [[v|t|t] b]; cbn [as_item snd] in *;
    rewrite ?meaning_test, ?meaning_signals, ?meaning_raises, code_means by exact H; cbn [assessed app];
    rewrite judged_line; rewrite plus_zero_l; destruct b; reflexivity.
Qed.
Definition tally_of (l : list finding) : tally :=
  mkC (how_many Pass l + how_many Fail l + how_many Error l) (how_many Fail l) (how_many Error l) (how_many Warn l).
Lemma tally_cons x l : plus (weight x) (tally_of l) = tally_of (x :: l).
Proof. unfold tally_of, how_many, plus. destruct x; cbn [weight c_run c_fail c_err c_warn filter finding_eqb length one_pass one_fail one_error one_warning]; f_equal; lia. Qed.
Lemma plain_all ctx lvl l : Forall (fun x => ordinary_stmt (snd x)) l ->
  meaning_all (InSet lvl :: ctx) None true (map as_item l) =
  (tally_of (map (verdict usub isexn) l), flat_map (fun x => line (lvl + 1) (verdict usub isexn x)) l, Goes_on).
Proof.
  induction 1 as [|x l Hx Hl IH]; cbn [map TsetSpec.meaning_all flat_map]; [reflexivity|].
  rewrite plain_means by exact Hx. rewrite IH. now rewrite tally_cons.
Qed.
Lemma plain_session l u fs : level u = 0%Z -> flags u = true :: fs -> raised_by callback u = None ->
  Forall (fun x => ordinary_stmt (snd x)) l ->
  exists s', runs (session usub callback (compile_all (map as_item l) TNone)) (start u) (RVal TNone) s' /\
    let vs := map (verdict usub isexn) l in
    run (usr s') = (run u + how_many Pass vs + how_many Fail vs + how_many Error vs)%Z /\
    failed (usr s') = (failed u + how_many Fail vs)%Z /\
    errored (usr s') = (errored u + how_many Error vs)%Z /\
    warned (usr s') = (warned u + how_many Warn vs)%Z /\
    log (usr s') = log u ++ SessionBegin :: SetBegin 0 :: flat_map (line 1) vs ++
      [SetEnd 0 (how_many Pass vs + how_many Fail vs + how_many Error vs) (how_many Fail vs) (how_many Error vs) (how_many Warn vs); SessionEnd].
Proof.
  intros Hl Hf Hp Ho.
  assert (E : meaning [] (raised_by callback u) true (ISet None (map as_item l)) =
     closed 0 (tally_of (map (verdict usub isexn) l), flat_map (fun x => line 1 (verdict usub isexn x)) l, Goes_on)).
  { rewrite Hp, meaning_set. cbn [new_pp]. now rewrite plain_all by exact Ho. }
  destruct (session_does _ _ _ _ _ _ _ Hl Hf E) as (s' & H & U). exists s'. split; [exact H|]. rewrite U.
  cbn [run failed errored warned log after tally_of c_run c_fail c_err c_warn]. repeat split; try lia.
  f_equal. cbn [app]. do 2 f_equal. rewrite <- app_assoc. cbn [app set_end tally_of c_run c_fail c_err c_warn]. f_equal.
  clear. induction l as [|x l IH]; cbn; [reflexivity|]. now rewrite IH.
Qed.

(** * The summaries agree with the lines *)
Lemma plus_assoc a b c : plus (plus a b) c = plus a (plus b c).
Proof. unfold plus. cbn. f_equal; lia. Qed.
Lemma faithful_app lvl a n : faithful lvl a n -> forall b m, faithful lvl b m -> faithful lvl (a ++ b) (plus n m).
Proof.
  induction 1 as [lvl|lvl k l ev n H IH|lvl ev n H IH|lvl r inner n ev m' Hi IHi Hr H IH]; intros b m Hb; cbn [app].
  - now rewrite plus_zero_l.
  - rewrite plus_assoc. constructor. auto.
  - constructor. auto.
  - rewrite <- app_assoc, plus_assoc. cbn [app]. constructor; auto.
Qed.
Definition same (a b : tally) : Prop := c_fail a = c_fail b /\ c_err a = c_err b /\ c_warn a = c_warn b.
Lemma same_plus a b a' b' : same a b -> same a' b' -> same (plus a a') (plus b b').
Proof. unfold same, plus. cbn. lia. Qed.
Definition accounted lvl (ev : list event) (n : tally) : Prop := exists m, faithful lvl ev m /\ same n m.
Lemma accounted_nil lvl : accounted lvl [] zero.
Proof. exists zero. split; [constructor|]. repeat split. Qed.
Lemma accounted_app lvl a b n m : accounted lvl a n -> accounted lvl b m -> accounted lvl (a ++ b) (plus n m).
Proof. intros (x & Hx & Sx) (y & Hy & Sy). exists (plus x y). split; [now apply faithful_app|now apply same_plus]. Qed.
Lemma accounted_same lvl ev n m : accounted lvl ev n -> same n m -> accounted lvl ev m.
Proof. intros (x & Hx & Sx) S. exists x. split; [exact Hx|]. unfold same in *. lia. Qed.
Lemma accounted_line lvl k l ev n : accounted lvl ev n -> accounted lvl (Report k l :: ev) (plus (line_weight k) n).
Proof. intros (x & Hx & Sx). exists (plus (line_weight k) x). split; [now constructor|]. apply same_plus; [repeat split|exact Sx]. Qed.

Lemma offered_accounted c pp fl rst lvl : counted usub c = None -> forall ctx,
  let '(n, ev, _) := offered ctx pp fl rst c in accounted lvl ev n.
Proof.
  intros Hk. assert (One : forall l, accounted lvl [Report KSignal l] one_error).
  { intros l. eapply accounted_same; [apply accounted_line, accounted_nil|]. repeat split. }
  induction ctx as [|[l|] ctx IH]; cbn [TsetSpec.offered].
  - apply accounted_nil.
  - rewrite Hk. destruct fl; [|exact IH]. destruct pp as [e|]; [apply One|]. destruct rst; [apply One|].
    destruct (offered ctx None true false c) as [[n' evs] a]. 
    change (Report KSignal (l + 1) :: evs) with ([Report KSignal (l + 1)] ++ evs). apply accounted_app; [apply One|exact IH].
  - destruct (_ || _); [exact IH|apply accounted_nil].
Qed.
Lemma reported_one ctx pp fl t k : (exists l, In (InSet l) ctx) -> counted usub (mkCond t PCerror None) = Some k ->
  exists l, fst (reported usub ctx pp fl t) = [Report k l].
Proof.
  intros [l Hin] Hk. unfold reported.
  assert (Hs : TsetModel.sub usub t TestingExceptionT = true) by (apply (testing_sub _ _ Hk)).
  induction ctx as [|[l'|] ctx IH]; [destruct Hin| |]; cbn [TsetSpec.offered].
  - rewrite Hk. exists (l' + 1)%Z. destruct fl, pp; reflexivity.
  - cbn [ctype]. rewrite Hs, orb_true_r. apply IH. destruct Hin as [E|Hin]; [discriminate|exact Hin].
Qed.
Lemma judged_accounted ctx pp fl x lvl : (exists l, In (InSet l) ctx) ->
  accounted lvl (fst (judged usub ctx pp fl x)) (weight x).
Proof.
  intros Hin. destruct x; cbn [judged].
  - eapply accounted_same; [apply accounted_nil|]. repeat split.
  - destruct (reported_one ctx pp fl TestFailureT KFail Hin eq_refl) as [l ->].
    eapply accounted_same; [apply accounted_line, accounted_nil|]. repeat split.
  - destruct (reported_one ctx pp fl TestErrorT KError Hin eq_refl) as [l ->].
    eapply accounted_same; [apply accounted_line, accounted_nil|]. repeat split.
  - destruct (reported_one ctx pp fl TestWarningT KWarn Hin eq_refl) as [l ->].
    eapply accounted_same; [apply accounted_line, accounted_nil|]. repeat split.
Qed.
Definition fine ctx (o : tally * list event * ending) : Prop := let '(n, ev, _) := o in accounted (depth ctx) ev n.
Lemma assessed_fine ctx pp fl f o : (exists l, In (InSet l) ctx) -> fine (InTest :: ctx) o -> fine ctx (assessed usub ctx pp fl f o).
Proof.
  intros Hin H. destruct o as [[n ev] r]. cbn [assessed]. pose proof (judged_accounted ctx pp fl (f r) (depth ctx) Hin) as J.
  destruct (judged usub ctx pp fl (f r)) as [ev' r']. cbn [fst] in J. unfold fine. apply accounted_app; [|exact J].
  change (depth ctx) with (depth (InTest :: ctx)). exact H.
Qed.
Lemma set_accounted lvl inner n : accounted (lvl + 1) inner n -> good n ->
  accounted lvl (SetBegin lvl :: inner ++ [set_end lvl n]) n.
Proof.
  intros (m & Hm & Sm) G. exists (plus m zero). split.
  - unfold set_end. destruct Sm as (S1 & S2 & S3). rewrite S1, S2, S3. constructor; [exact Hm| |constructor].
    unfold good in G. lia.
  - rewrite plus_zero_r. exact Sm.
Qed.
Lemma closed_fine ctx l o : good (fst (fst o)) -> fine (InSet l :: ctx) o -> fine ctx (closed (depth ctx) o).
Proof.
  destruct o as [[n ev] r]. cbn [fst]. intros G H. unfold fine in H. rewrite depth_set in H.
  assert (H1 : accounted (depth ctx + 1) (ev ++ [Report KExn (depth ctx + 1)]) (plus n one_error)).
  { apply accounted_app; [exact H|]. eapply accounted_same; [apply accounted_line, accounted_nil|]. repeat split. }
  unfold closed. destruct r as [|e|c]; cbn [fine]; try (apply set_accounted; assumption).
  destruct (session_exit e); cbn [fine]; [apply set_accounted; assumption|].
  apply set_accounted in H1; [|apply good_plus; [exact G|apply good_error]].
  rewrite <- app_assoc in H1. exact H1.
Qed.
Lemma all_fine l : Forall (fun i => ordinary_item i -> forall ctx pp fl, (exists l, In (InSet l) ctx) -> fine ctx (meaning ctx pp fl i)) l ->
  Forall ordinary_item l -> forall ctx pp fl, (exists l, In (InSet l) ctx) -> fine ctx (meaning_all ctx pp fl l).
Proof.
  induction 1 as [|i l Hi Hl IH]; intros Ho ctx pp fl Hin; cbn [TsetSpec.meaning_all]; [apply accounted_nil|].
  inversion Ho as [|? ? Oi Ol]; subst. specialize (Hi Oi ctx pp fl Hin). specialize (IH Ol ctx pp fl Hin).
  destruct (meaning ctx pp fl i) as [[n ev] r]. destruct r; try exact Hi.
  destruct (meaning_all ctx pp fl l) as [[n' ev'] r']. apply accounted_app; assumption.
Qed.
Lemma item_fine : forall i, ordinary_item i -> forall ctx pp fl, (exists l, In (InSet l) ctx) -> fine ctx (meaning ctx pp fl i).
Proof.
  apply (item_ind' (fun i => ordinary_item i -> forall ctx pp fl, (exists l, In (InSet l) ctx) -> fine ctx (meaning ctx pp fl i))).
  - intros b v Hb Ho ctx pp fl Hin. inversion Ho; subst. rewrite meaning_test. apply assessed_fine; [exact Hin|].
    apply all_fine; auto. destruct Hin as [l Hin]. exists l. now right.
  - intros t b Hb Ho ctx pp fl Hin. inversion Ho; subst. rewrite meaning_signals. apply assessed_fine; [exact Hin|].
    apply all_fine; auto. destruct Hin as [l Hin]. exists l. now right.
  - intros t b Hb Ho ctx pp fl Hin. inversion Ho; subst. rewrite meaning_raises. apply assessed_fine; [exact Hin|].
    apply all_fine; auto. destruct Hin as [l Hin]. exists l. now right.
  - intros po b Hb Ho ctx pp fl Hin. inversion Ho; subst. rewrite meaning_set.
    eapply closed_fine; [apply good_meaning_all|]. apply all_fine; auto. eexists. left. reflexivity.
  - intros c b Hb Ho ctx pp fl Hin. inversion Ho; subst. rewrite meaning_catch. apply all_fine; auto.
  - intros e Ho ctx pp fl Hin. apply accounted_nil.
  - intros pr t Ho ctx pp fl Hin. inversion Ho as [| | | | | |? ? Ot|]; subst. cbn [TsetSpec.meaning].
    pose proof (offered_accounted (mkCond t pr None) pp fl (can_proceed pr) (depth ctx) (ordinary_kind t pr Ot) ctx) as A.
    destruct (offered ctx pp fl (can_proceed pr) (mkCond t pr None)) as [[n ev] a]. exact A.
  - intros Ho ctx pp fl Hin. exists zero. split; [constructor; constructor|repeat split].
Qed.
Lemma session_faithful l u fl fs : level u = 0%Z -> flags u = fl :: fs -> Forall ordinary_item l ->
  exists s' ev n, runs (session usub callback (compile_all l TNone)) (start u) (RVal TNone) s' /\
    log (usr s') = log u ++ SessionBegin :: ev ++ [SessionEnd] /\ faithful 0 ev n /\
    (exists inner, ev = SetBegin 0 :: inner ++
       [SetEnd 0 (run (usr s') - run u) (failed (usr s') - failed u) (errored (usr s') - errored u) (warned (usr s') - warned u)]) /\
    (failed (usr s') - failed u + (errored (usr s') - errored u) <= run (usr s') - run u)%Z.
Proof.
  intros Hl Hf Ho. destruct (session_top (raised_by callback u) fl l) as (n & ev & E).
  pose proof (good_meaning (ISet None l) [] (raised_by callback u) fl) as G. rewrite E in G. cbn [fst] in G.
  destruct (session_does _ _ _ _ _ _ _ Hl Hf E) as (s' & H & U).
  rewrite meaning_set in E.
  assert (A : fine [] (closed (depth []) (meaning_all [InSet (depth [])] (new_pp None (raised_by callback u)) fl l))).
  { eapply closed_fine; [apply good_meaning_all|]. apply all_fine; auto.
    - apply Forall_forall. intros i _. apply item_fine.
    - eexists. left. reflexivity. }
  rewrite E in A. destruct A as (m & Hm & _). exists s', ev, m. split; [exact H|]. rewrite U. split; [reflexivity|]. split; [exact Hm|].
  cbn [after run failed errored warned].
  replace (run u + c_run n - run u)%Z with (c_run n) by lia.
  replace (failed u + c_fail n - failed u)%Z with (c_fail n) by lia.
  replace (errored u + c_err n - errored u)%Z with (c_err n) by lia.
  replace (warned u + c_warn n - warned u)%Z with (c_warn n) by lia. split.
  - destruct (meaning_all _ _ fl l) as [[n1 ev1] r1]. unfold closed in E. destruct r1 as [|e|c].
    + injection E as <- <-. exists ev1. reflexivity.
    + destruct (session_exit e); injection E as <- <-; [exists ev1; reflexivity|].
      exists (ev1 ++ [Report KExn (depth [] + 1)]). rewrite <- app_assoc. reflexivity.
    + discriminate.
  - unfold good in G. lia.
Qed.

(** * Stray conditions *)
Fixpoint sets (k : nat) (ctx : list around) : list around :=
  match k with 0 => ctx | Datatypes.S k => sets k (InSet (depth ctx) :: ctx) end.
Fixpoint only_sets (ctx : list around) : Prop := match ctx with [] => True | InSet _ :: ctx => only_sets ctx | InTest :: _ => False end.
Lemma offered_sets c : counted usub c = None -> forall ctx, only_sets ctx -> ctx <> [] -> forall rst,
  let '(n, ev, a) := offered ctx None true rst c in
  n = mkC (if rst then 1 else Z.of_nat (length ctx)) 0 (if rst then 1 else Z.of_nat (length ctx)) 0 /\ a = (if rst then Proceeds else Declined).
Proof.
  intros Hk. induction ctx as [|[l|] ctx IH]; intros Ho Hn rst; [congruence| |destruct Ho].
  cbn [TsetSpec.offered]. rewrite Hk. destruct rst; [split; reflexivity|].
  destruct ctx as [|a ctx].
  - cbn. split; reflexivity.
  - specialize (IH Ho ltac:(discriminate) false). destruct (offered (a :: ctx) None true false c) as [[n evs] a'].
    destruct IH as [-> ->]. split; [|reflexivity]. unfold plus, one_error. cbn [c_run c_fail c_err c_warn length].
    f_equal; lia.
Qed.
Definition stray_tally (k : nat) pr : tally := mkC (times_counted k pr) 0 (times_counted k pr) 0.
Lemma nest_means pr t k : ordinary t -> forall ctx, only_sets ctx ->
  let '(n, _, r) := closed (depth ctx) (meaning_all (InSet (depth ctx) :: ctx) None true (nest k [ISignal pr t])) in
  n = stray_tally (length ctx + 1 + k) pr /\ r = Goes_on.
Proof.
  intros Ht. induction k as [|k IH]; intros ctx Ho.
  - cbn [nest TsetSpec.meaning_all TsetSpec.meaning].
    pose proof (offered_sets (mkCond t pr None) (ordinary_kind t pr Ht) (InSet (depth ctx) :: ctx) Ho ltac:(discriminate) (can_proceed pr)) as A.
    destruct (offered (InSet (depth ctx) :: ctx) None true (can_proceed pr) (mkCond t pr None)) as [[n ev] a]. destruct A as [-> ->].
    unfold stray_tally. destruct pr; cbn [can_proceed closed session_exit]; split; try reflexivity; unfold plus, one_error; cbn [times_counted c_run c_fail c_err c_warn length zero]; f_equal; lia.
  - cbn [nest TsetSpec.meaning_all]. rewrite meaning_set. cbn [new_pp].
    specialize (IH (InSet (depth ctx) :: ctx) Ho).
    destruct (closed (depth (InSet (depth ctx) :: ctx)) _) as [[n ev] r]. destruct IH as [-> ->]. cbn [closed].
    rewrite plus_zero_r. split; [|reflexivity]. f_equal. cbn [length]. lia.
Qed.
Lemma stray_session pr t k u fs : level u = 0%Z -> flags u = true :: fs -> raised_by callback u = None -> ordinary t ->
  exists s', runs (session usub callback (compile_all (nest k [ISignal pr t]) TNone)) (start u) (RVal TNone) s' /\
    errored (usr s') = (errored u + times_counted (k + 1) pr)%Z /\ run (usr s') = (run u + times_counted (k + 1) pr)%Z /\
    failed (usr s') = failed u /\ warned (usr s') = warned u.
Proof.
  intros Hl Hf Hp Ht. destruct (session_top (raised_by callback u) true (nest k [ISignal pr t])) as (n & ev & E).
  destruct (session_does _ _ _ _ _ _ _ Hl Hf E) as (s' & H & U). exists s'. split; [exact H|]. rewrite U.
  rewrite Hp, meaning_set in E. pose proof (nest_means pr t k Ht [] I) as A. cbn [new_pp] in E. rewrite E in A.
  destruct A as [-> _]. cbn [after run failed errored warned stray_tally c_run c_fail c_err c_warn length].
  replace (0 + 1 + k) with (k + 1) by lia. lia.
Qed.
(** what follows a condition that can be continued is run *)
Lemma proceeds_then pr t lvl ctx l : can_proceed pr = true -> ordinary t ->
  meaning_all (InSet lvl :: ctx) None true (ISignal pr t :: l) =
  (let '(n, ev, r) := meaning_all (InSet lvl :: ctx) None true l in (plus one_error n, Report KSignal (lvl + 1) :: ev, r)).
Proof.
  intros Hc Ht. cbn [TsetSpec.meaning_all TsetSpec.meaning TsetSpec.offered]. rewrite (ordinary_kind t pr Ht), Hc. reflexivity.
Qed.

Lemma session_proceeds pr t l u fs : level u = 0%Z -> flags u = true :: fs -> raised_by callback u = None ->
  can_proceed pr = true -> ordinary t ->
  exists s1 s2,
    runs (session usub callback (compile_all (ISignal pr t :: l) TNone)) (start u) (RVal TNone) s1 /\
    runs (session usub callback (compile_all l TNone)) (start u) (RVal TNone) s2 /\
    run (usr s1) = (run (usr s2) + 1)%Z /\ errored (usr s1) = (errored (usr s2) + 1)%Z /\
    failed (usr s1) = failed (usr s2) /\ warned (usr s1) = warned (usr s2).
Proof.
  intros Hl Hf Hp Hc Ht.
  destruct (session_top (raised_by callback u) true (ISignal pr t :: l)) as (n1 & ev1 & E1).
  destruct (session_top (raised_by callback u) true l) as (n2 & ev2 & E2).
  destruct (session_does _ _ _ _ _ _ _ Hl Hf E1) as (s1 & H1 & U1). destruct (session_does _ _ _ _ _ _ _ Hl Hf E2) as (s2 & H2 & U2).
  exists s1, s2. split; [exact H1|]. split; [exact H2|]. rewrite U1, U2.
  assert (n1 = plus one_error n2) as ->.
  { rewrite Hp, meaning_set in E1, E2. cbn [new_pp] in E1, E2. rewrite proceeds_then in E1 by assumption.
    destruct (meaning_all [InSet (depth [])] None true l) as [[n ev] r]. unfold closed in E1, E2.
    destruct r as [|e|c]; [|destruct (session_exit e)|]; injection E1 as <- _; injection E2 as <- _; try reflexivity.
    now rewrite plus_assoc. }
  cbn [after run failed errored warned plus one_error c_run c_fail c_err c_warn]. lia.
Qed.

(** * Terminating *)
Lemma terminate_cuts ctx pp fl pre rest : meaning_all ctx pp fl (pre ++ ITerminate :: rest) = meaning_all ctx pp fl (pre ++ [ITerminate]).
Proof.
  induction pre as [|i pre IH]; cbn [app TsetSpec.meaning_all]; [reflexivity|].
  destruct (meaning ctx pp fl i) as [[n ev] r]. destruct r; try reflexivity. now rewrite IH.
Qed.
Lemma all_cong ctx pp fl i i' before later : meaning ctx pp fl i = meaning ctx pp fl i' ->
  meaning_all ctx pp fl (before ++ i :: later) = meaning_all ctx pp fl (before ++ i' :: later).
Proof.
  intros E. induction before as [|j before IH]; cbn [app TsetSpec.meaning_all]; [now rewrite E|].
  destruct (meaning ctx pp fl j) as [[n ev] r]. destruct r; try reflexivity. now rewrite IH.
Qed.
Lemma session_terminate before post pre rest later u fl fs : level u = 0%Z -> flags u = fl :: fs ->
  exists s1 s2,
    runs (session usub callback (compile_all (before ++ ISet post (pre ++ ITerminate :: rest) :: later) TNone)) (start u) (RVal TNone) s1 /\
    runs (session usub callback (compile_all (before ++ ISet post (pre ++ [ITerminate]) :: later) TNone)) (start u) (RVal TNone) s2 /\
    usr s1 = usr s2.
Proof.
  intros Hl Hf.
  destruct (session_top (raised_by callback u) fl (before ++ ISet post (pre ++ ITerminate :: rest) :: later)) as (n & ev & E).
  assert (E2 : meaning [] (raised_by callback u) fl (ISet None (before ++ ISet post (pre ++ [ITerminate]) :: later)) = (n, ev, Goes_on)).
  { rewrite meaning_set in *. rewrite <- E. f_equal. apply all_cong. rewrite !meaning_set. f_equal. symmetry. apply terminate_cuts. }
  destruct (session_does _ _ _ _ _ _ _ Hl Hf E) as (s1 & H1 & U1). destruct (session_does _ _ _ _ _ _ _ Hl Hf E2) as (s2 & H2 & U2).
  exists s1, s2. split; [exact H1|]. split; [exact H2|]. congruence.
Qed.
Lemma session_goes_on post later u fl fs : level u = 0%Z -> flags u = fl :: fs ->
  exists s1 s2,
    runs (session usub callback (compile_all (ISet post [ITerminate] :: later) TNone)) (start u) (RVal TNone) s1 /\
    runs (session usub callback (compile_all later TNone)) (start u) (RVal TNone) s2 /\
    run (usr s1) = run (usr s2) /\ failed (usr s1) = failed (usr s2) /\ errored (usr s1) = errored (usr s2) /\ warned (usr s1) = warned (usr s2).
Proof.
  intros Hl Hf. destruct (session_top (raised_by callback u) fl later) as (n & ev & E).
  destruct (session_top (raised_by callback u) fl (ISet post [ITerminate] :: later)) as (n2 & ev2 & E2).
  destruct (session_does _ _ _ _ _ _ _ Hl Hf E) as (s1 & H1 & U1). destruct (session_does _ _ _ _ _ _ _ Hl Hf E2) as (s2 & H2 & U2).
  exists s2, s1. split; [exact H2|]. split; [exact H1|].
  assert (n = n2) as <-.
  { rewrite meaning_set in E, E2. cbn [TsetSpec.meaning_all] in E2. rewrite meaning_set in E2.
    change (meaning_all (InSet (depth [InSet (depth [])]) :: [InSet (depth [])]) (new_pp post (new_pp None (raised_by callback u))) fl [ITerminate])
      with (zero, [Terminating], Raises TestSessionExit) in E2.
    cbn [closed session_exit TestSessionExit] in E2.
    destruct (meaning_all [InSet (depth [])] (new_pp None (raised_by callback u)) fl later) as [[n1 ev1] r1].
    rewrite plus_zero_l in E2. unfold closed in E, E2.
    destruct r1 as [|e|c]; [|destruct (session_exit e)|]; cbn in E, E2; congruence. }
  rewrite U1, U2. repeat split.
Qed.

(** * Testsets around arbitrary programs *)
Lemma bind_eff_inv g (k : tv -> prog) s r s' : runs (Bind (Eff g) k) s r s' ->
  runs (k (snd (g (usr s)))) (withu s (fst (g (usr s)))) r s'.
Proof.
  intros H. apply runs_bind_inv in H. destruct H as [(v & s1 & H1 & H2)|[H1 H2]].
  - apply runs_eff in H1. destruct H1 as [E ->]. injection E as ->. destruct s; exact H2.
  - apply runs_eff in H1. destruct H1 as [-> _]. exfalso. apply H2. eexists. reflexivity.
Qed.
Lemma finally_inv p q s r s' : runs (Finally p q) s r s' -> exists r1 s1, runs p s r1 s1.
Proof. intros [[|f] H]; [discriminate|]. cbn in H. destruct (exec _ _ f (Run p) s) as [[r1 s1]|] eqn:E; [|discriminate]. exists r1, s1, f. exact E. Qed.
Lemma try_inv p h s r s' : runs (Try p h) s r s' -> exists r1 s1, runs p s r1 s1.
Proof. intros [[|f] H]; [discriminate|]. cbn in H. destruct (exec _ _ f (Run p) s) as [[r1 s1]|] eqn:E; [|discriminate]. exists r1, s1, f. exact E. Qed.
Lemma bind_runs p k s r s' : runs (Bind p k) s r s' -> exists r1 s1, runs p s r1 s1.
Proof. intros H. apply runs_bind_inv in H. destruct H as [(v & s1 & H1 & H2)|[H1 H2]]; eauto. Qed.

Lemma testset_any post q s x s' :
  (forall r s1, runs (WithHandlers [([ExceptionT], print_and_proceed (level (usr s)))] q) (withu s (enter_set post (usr s))) r s1 ->
     orderly post (usr s) (usr s1)) ->
  (0 <= level (usr s))%Z -> runs (testset usub callback post q) s x s' ->
  (forall e, x <> RExc e) /\ level (usr s') = level (usr s) /\ posts (usr s') = posts (usr s) /\
  exists evs, log (usr s') = evs ++ [SetEnd (level (usr s)) (run (usr s') - run (usr s)) (failed (usr s') - failed (usr s))
                                       (errored (usr s') - errored (usr s)) (warned (usr s') - warned (usr s))].
Proof.
  intros Hq H0 H. pose proof H as Hi. unfold testset, ask, upd in Hi.
  apply bind_eff_inv in Hi. cbn [fst snd] in Hi. apply bind_eff_inv in Hi. cbn [fst snd] in Hi. apply bind_eff_inv in Hi. cbn [fst snd] in Hi.
  apply finally_inv in Hi. destruct Hi as (r1 & s1 & Hi). apply try_inv in Hi. destruct Hi as (r2 & s2 & Hi).
  apply bind_runs in Hi. destruct Hi as (r3 & s3 & Hi).
  change (withu (withu (withu s (usr s)) _) (enter_set post _)) with (withu s (enter_set post (usr s))) in Hi.
  cbn [usr withu] in Hi. specialize (Hq r3 s3 Hi).
  set (P := Try (Bind (WithHandlers [([ExceptionT], print_and_proceed (level (usr s)))] q) (fun _ => Ret TNone))
             (fun e => if session_exit e then Ret TNone
                       else upd (fun u => say (Report KExn (level (usr s) + 1)) (count 1 0 1 0 u)))).
  assert (K : exists y s4, runs P (withu s (enter_set post (usr s))) y s4 /\ (forall e, y <> RExc e) /\ orderly post (usr s) (usr s4)).
  { unfold P. destruct r3 as [v|e|b n a].
    - exists (RVal TNone), s3. split; [|split; [discriminate|exact Hq]]. apply runs_try; [|discriminate].
      eapply runs_bind; [exact Hi|apply runs_ret].
    - destruct (session_exit e) eqn:Ex.
      + exists (RVal TNone), s3. split; [|split; [discriminate|exact Hq]]. eapply runs_try_exc.
        * apply runs_bind_other; [exact Hi|]. intros [v E]; discriminate.
        * rewrite Ex. apply runs_ret.
      + exists (RVal TNone). eexists. split; [|split; [discriminate|]].
        * eapply runs_try_exc; [apply runs_bind_other; [exact Hi|intros [v E]; discriminate]|]. rewrite Ex. apply runs_upd.
        * cbn [usr withu]. unfold orderly in *. cbn. intuition lia.
    - exists (RInvoke b n a), s3. split; [|split; [discriminate|exact Hq]]. apply runs_try; [|discriminate].
      apply runs_bind_other; [exact Hi|]. intros [v E]; discriminate. }
  destruct K as (y & s4 & K & Hy & O).
  destruct O as (O1 & O2 & O3 & O4 & O5 & O6).
  assert (L : exists s5, runs (leave_set (level (usr s)) post (run (usr s)) (failed (usr s)) (errored (usr s)) (warned (usr s))) s4 (RVal TNone) s5 /\
     level (usr s5) = level (usr s) /\ posts (usr s5) = posts (usr s) /\
     exists evs, log (usr s5) = evs ++ [SetEnd (level (usr s)) (run (usr s5) - run (usr s)) (failed (usr s5) - failed (usr s))
                                       (errored (usr s5) - errored (usr s)) (warned (usr s5) - warned (usr s))]).
  { eexists. split; [apply leave_runs; cbn [c_run c_fail c_err c_warn]; lia|]. cbn [usr withu level posts log run failed errored warned].
    split; [lia|]. split; [rewrite O2; destruct post; reflexivity|]. eexists. reflexivity. }
  destruct L as (s5 & L & L1 & L2 & L3).
  assert (T : runs (testset usub callback post q) s y s5).
  { unfold testset. apply bind_ask. apply bind_ask. cbn beta iota. apply bind_upd. eapply runs_finally; [exact K|exact L]. }
  destruct (runs_det _ _ _ _ _ _ _ _ H T) as [-> ->]. auto.
Qed.
End TsetProofs.
