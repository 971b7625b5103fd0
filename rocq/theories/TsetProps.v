(** C74-C77: the test framework. *)
From Coq Require Import String List ZArith Arith Bool.
From Verif Require Import Base CondModel CondSpec TsetModel TsetSpec TsetProofs.
Import ListNotations.
Open Scope nat_scope.
Open Scope list_scope.

Definition eqt (a b : nat) : bool := a =? b.
Definition exq (e : exn) (t : nat) : bool := match e with UserExn n => n =? t | ValueError => t =? 9 | _ => false end.
Definition nocb (i : nat) : option exn := match i with 7 => Some TestSessionExit | 8 => Some ValueError | _ => None end.
Definition fresh : tst := mkT 0 0 0 0 0 [] None [true] [].

(** * C74 *)
(** A session that runs plain tests, at the top level of the session: every test is counted exactly
    once, in the category of its verdict, one line is printed for each one that does not pass, and the
    tests after a failing, erring or warning one are run. *)
Theorem C74_every_test_counted : forall usub isexn callback (l : list (form * stmt)) u fs,
  level u = 0%Z -> flags u = true :: fs -> raised_by callback u = None ->
  Forall (fun x => ordinary_stmt (snd x)) l ->
  exists s', runs TNone (sub usub) (session usub callback (compile_all usub isexn callback (map as_item l) TNone)) (start u) (RVal TNone) s' /\
    let vs := map (verdict usub isexn) l in
    run (usr s') = (run u + how_many Pass vs + how_many Fail vs + how_many Error vs)%Z /\
    failed (usr s') = (failed u + how_many Fail vs)%Z /\
    errored (usr s') = (errored u + how_many Error vs)%Z /\
    warned (usr s') = (warned u + how_many Warn vs)%Z /\
    log (usr s') = log u ++ SessionBegin :: SetBegin 0 :: flat_map (line 1) vs ++
      [SetEnd 0 (how_many Pass vs + how_many Fail vs + how_many Error vs) (how_many Fail vs) (how_many Error vs) (how_many Warn vs); SessionEnd].
Proof. exact plain_session. Qed.
Print Assumptions C74_every_test_counted.

(** Any suite, of any nesting of testsets, tests, catch_signals, with postprocs, exceptions,
    conditions: the session ends normally, and its counters and its report are what [meaning] says. *)
Theorem C74_session_means : forall usub isexn callback l u fl fs n ev r,
  level u = 0%Z -> flags u = fl :: fs ->
  meaning usub isexn callback [] (raised_by callback u) fl (ISet None l) = (n, ev, r) ->
  exists s', runs TNone (sub usub) (session usub callback (compile_all usub isexn callback l TNone)) (start u) (RVal TNone) s' /\
    usr s' = after n (SessionBegin :: ev ++ [SessionEnd]) u.
Proof. exact session_does. Qed.
Print Assumptions C74_session_means.

(** A session cannot be nested in a testset. *)
Theorem C74_session_not_nested : forall usub callback q s, (0 < level (usr s))%Z ->
  exists s', runs TNone (sub usub) (session usub callback q) s (RExc RuntimeError) s' /\ usr s' = usr s.
Proof. exact session_refuses. Qed.
Print Assumptions C74_session_not_nested.

Example C74_ex : level fresh = 0%Z /\ flags fresh = [true] /\ raised_by nocb fresh = None /\
  Forall (fun x => ordinary_stmt (snd x))
    [(FTest (TBool true), SNothing); (FTest TNone, SNothing); (FTest (TObj 3), SRaise ValueError); (FTest (TMark MWarn), SNothing);
     (FSignals 6, SSignal PCerror 6); (FSignals 6, SSignal PSignal 8); (FRaises 9, SRaise ValueError); (FRaises 9, SNothing)] /\
  map (verdict eqt exq)
    [(FTest (TBool true), SNothing); (FTest TNone, SNothing); (FTest (TObj 3), SRaise ValueError); (FTest (TMark MWarn), SNothing);
     (FSignals 6, SSignal PCerror 6); (FSignals 6, SSignal PSignal 8); (FRaises 9, SRaise ValueError); (FRaises 9, SNothing)]
  = [Pass; Fail; Error; Warn; Pass; Error; Pass; Fail].
Proof. repeat split; try (repeat constructor; unfold ordinary; cbn; auto with arith; fail). Qed.
Example C74_ex_nested : (* an exception in a nested testset, whose postproc also raises *)
  option_map (fun x => (fst x, log (usr (snd x))))
    (exec TNone (sub eqt) 200 (Run (session eqt nocb (compile_all eqt exq nocb
      [ISet (Some 8) [ITest [] (TBool false); ITest [] (TBool true)]; ITest [ISet None [IRaise KeyError]] (TBool true)] TNone))) (start fresh))
  = Some (RVal TNone, [SessionBegin; SetBegin 0; SetBegin 1; Report KFail 2; Report KExn 2; SetEnd 1 2 1 1 0;
                       SetBegin 1; Report KExn 2; SetEnd 1 1 0 1 0; SetEnd 0 4 1 2 0; SessionEnd])%Z.
Proof. vm_compute. reflexivity. Qed.

(** * C75 *)
(** The report of any suite that does not itself signal the framework's conditions: testsets nest
    properly, the numbers at the end of each testset are those of the failure, error and warning lines
    printed inside it, and the numbers of the outermost testset are the changes of the counters. *)
Theorem C75_report_faithful : forall usub isexn callback l u fl fs,
  level u = 0%Z -> flags u = fl :: fs -> Forall ordinary_item l ->
  exists s' ev n, runs TNone (sub usub) (session usub callback (compile_all usub isexn callback l TNone)) (start u) (RVal TNone) s' /\
    log (usr s') = log u ++ SessionBegin :: ev ++ [SessionEnd] /\ faithful 0 ev n /\
    (exists inner, ev = SetBegin 0 :: inner ++
       [SetEnd 0 (run (usr s') - run u) (failed (usr s') - failed u) (errored (usr s') - errored u) (warned (usr s') - warned u)]) /\
    (failed (usr s') - failed u + (errored (usr s') - errored u) <= run (usr s') - run u)%Z.
Proof. exact session_faithful. Qed.
Print Assumptions C75_report_faithful.

(** Any program at all as the body of a testset, if it leaves the level and the postprocs as it found
    them and does not decrease a counter: no exception leaves the testset, the level and the postprocs
    are as before it, and the last line it prints shows how much the counters have changed. *)
Theorem C75_testset : forall usub callback post q s x s',
  (forall r s1, runs TNone (sub usub) (WithHandlers [([ExceptionT], print_and_proceed usub callback (level (usr s)))] q)
                  (mkSt (hs s) (hver s) (rs s) (blocks s) (enter_set post (usr s))) r s1 -> orderly post (usr s) (usr s1)) ->
  (0 <= level (usr s))%Z -> runs TNone (sub usub) (testset usub callback post q) s x s' ->
  (forall e, x <> RExc e) /\ level (usr s') = level (usr s) /\ posts (usr s') = posts (usr s) /\
  exists evs, log (usr s') = evs ++ [SetEnd (level (usr s)) (run (usr s') - run (usr s)) (failed (usr s') - failed (usr s))
                                       (errored (usr s') - errored (usr s)) (warned (usr s') - warned (usr s))].
Proof. exact (fun usub => testset_any usub (fun _ _ => false)). Qed.
Print Assumptions C75_testset.

Example C75_ex : Forall ordinary_item
  [ISet (Some 3) [ITest [ISignal PWarn 6] TNone; ICatch false [ISignal PSignal 7]; IRaise KeyError]; ITest [] (TMark MError); ITerminate].
Proof. repeat constructor. Qed.
Example C75_ex_testset : orderly (Some 3) fresh (enter_set (Some 3) fresh) /\ orderly None fresh (count 1 0 1 0 (enter_set None fresh)).
Proof. unfold orderly. cbn. repeat split; discriminate. Qed.

(** * C76 *)
(** terminate() ends the testset it is called in: the rest of that testset is not run. *)
Theorem C76_terminate_ends_testset_partial : forall usub isexn callback before post pre rest later u fl fs,
  level u = 0%Z -> flags u = fl :: fs ->
  exists s1 s2,
    runs TNone (sub usub) (session usub callback (compile_all usub isexn callback (before ++ ISet post (pre ++ ITerminate :: rest) :: later) TNone)) (start u) (RVal TNone) s1 /\
    runs TNone (sub usub) (session usub callback (compile_all usub isexn callback (before ++ ISet post (pre ++ [ITerminate]) :: later) TNone)) (start u) (RVal TNone) s2 /\
    usr s1 = usr s2.
Proof. exact session_terminate. Qed.
Print Assumptions C76_terminate_ends_testset_partial.

(** It does not end the session: whatever comes later in the session is run and counted as if the
    testset that terminated had not been there. *)
Theorem C76_terminate_session_refuted : forall usub isexn callback post later u fl fs,
  level u = 0%Z -> flags u = fl :: fs ->
  exists s1 s2,
    runs TNone (sub usub) (session usub callback (compile_all usub isexn callback (ISet post [ITerminate] :: later) TNone)) (start u) (RVal TNone) s1 /\
    runs TNone (sub usub) (session usub callback (compile_all usub isexn callback later TNone)) (start u) (RVal TNone) s2 /\
    run (usr s1) = run (usr s2) /\ failed (usr s1) = failed (usr s2) /\ errored (usr s1) = errored (usr s2) /\ warned (usr s1) = warned (usr s2).
Proof. exact session_goes_on. Qed.
Print Assumptions C76_terminate_session_refuted.

(** terminate as the postproc of a testset, as session's documentation suggests: the first failure ends
    that testset, and the session goes on. *)
Theorem C76_terminate_postproc_refuted :
  option_map (fun x => log (usr (snd x)))
    (exec TNone (sub eqt) 200 (Run (session eqt nocb (compile_all eqt exq nocb
      [ISet (Some 7) [ITest [] (TBool false); ITest [] (TBool true)]; ITest [] (TBool true)] TNone))) (start fresh))
  = Some [SessionBegin; SetBegin 0; SetBegin 1; Report KFail 2; SetEnd 1 1 1 0 0; SetEnd 0 2 1 0 0; SessionEnd]%Z.
Proof. vm_compute. reflexivity. Qed.
Print Assumptions C76_terminate_postproc_refuted.

Example C76_ex : level fresh = 0%Z /\ flags fresh = [true].
Proof. split; reflexivity. Qed.

(** * C77 *)
(** A condition that nobody handles, signalled in the code of [k] nested testsets of a session: sent by
    cerror or warn it counts as one error, by signal as one error for each testset around it, and by
    error as one more than that. *)
Theorem C77_stray_condition : forall usub isexn callback pr t k u fs,
  level u = 0%Z -> flags u = true :: fs -> raised_by callback u = None -> ordinary t ->
  exists s', runs TNone (sub usub) (session usub callback (compile_all usub isexn callback (nest k [ISignal pr t]) TNone)) (start u) (RVal TNone) s' /\
    errored (usr s') = (errored u + times_counted (k + 1) pr)%Z /\ run (usr s') = (run u + times_counted (k + 1) pr)%Z /\
    failed (usr s') = failed u /\ warned (usr s') = warned u.
Proof. exact stray_session. Qed.
Print Assumptions C77_stray_condition.

(** So one stray signal is not always one error. *)
Theorem C77_counted_once_refuted : exists s',
  runs TNone (sub eqt) (session eqt nocb (compile_all eqt exq nocb (nest 1 [ISignal PSignal 6]) TNone)) (start fresh) (RVal TNone) s' /\
  errored (usr s') = 2%Z /\ run (usr s') = 2%Z.
Proof.
  destruct (stray_session eqt exq nocb PSignal 6 1 fresh [] eq_refl eq_refl eq_refl (le_n 6)) as (s' & H & E1 & E2 & _).
  exists s'. split; [exact H|]. rewrite E1, E2. split; reflexivity.
Qed.
Print Assumptions C77_counted_once_refuted.

(** After a stray condition that offers to proceed, the code goes on: the session does what it would do
    without it, and counts one more error. *)
Theorem C77_proceeds : forall usub isexn callback pr t l u fs,
  level u = 0%Z -> flags u = true :: fs -> raised_by callback u = None -> can_proceed pr = true -> ordinary t ->
  exists s1 s2,
    runs TNone (sub usub) (session usub callback (compile_all usub isexn callback (ISignal pr t :: l) TNone)) (start u) (RVal TNone) s1 /\
    runs TNone (sub usub) (session usub callback (compile_all usub isexn callback l TNone)) (start u) (RVal TNone) s2 /\
    run (usr s1) = (run (usr s2) + 1)%Z /\ errored (usr s1) = (errored (usr s2) + 1)%Z /\
    failed (usr s1) = failed (usr s2) /\ warned (usr s1) = warned (usr s2).
Proof. exact session_proceeds. Qed.
Print Assumptions C77_proceeds.

Example C77_ex : ordinary 6 /\ can_proceed PWarn = true /\ raised_by nocb fresh = None.
Proof. repeat split. unfold ordinary. auto. Qed.
