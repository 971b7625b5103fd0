(** Model of unpythonic/test/fixtures.py (testset, session, terminate, catch_signals, the counters and
    the report, lines 144-183, 405-720) and of the run-time part of unpythonic/syntax/testingtools.py
    (_observe, unpythonic_assert, unpythonic_assert_signals, unpythonic_assert_raises, lines 497-778),
    as programs of the condition system of [CondModel].  One thread: the counters are global, the rest
    of the state is thread-local (533-534, 567, 604). *)
From Coq Require Import String List ZArith Arith Bool.
From Verif Require Import Base CondModel.
Import ListNotations.
Open Scope string_scope.
Open Scope nat_scope.
Open Scope list_scope.

(** The types of conditions and exceptions: Exception and fixtures.py 203-302.  Types of user code are
    the numbers from 6 on; 0 is ControlError. *)
Definition ExceptionT : nat := 1.
(** TestingException: test/fixtures.py 203-281 *)
Definition TestingExceptionT : nat := 2.
(** TestFailure: test/fixtures.py 282-286 *)
Definition TestFailureT : nat := 3.
(** TestError: test/fixtures.py 287-295 *)
Definition TestErrorT : nat := 4.
(** TestWarning: test/fixtures.py 296-302 *)
Definition TestWarningT : nat := 5.
(** fixtures.py 504 *)
Definition TestSessionExit : exn := UserExn 0.

(** testingtools.py 499-501; fixtures.py 185-202 *)
Inductive mark := MFail | MError | MWarn.
(** How the test expression ended: testingtools.py 499-501 *)
Inductive mode := Completed | Signaled | Raised.
(** Values of test expressions, and what the functions below pass around *)
Inductive tv :=
| TNone | TBool (b : bool) | TObj (n : nat) | TMark (m : mark)
| TCond (c : cond) | TExn (e : exn) | TObs (m : mode) (v : tv)
| TCount (r f e w : Z) | TPost (i : option nat).
(** bool(v): symbols and other objects are true *)
Definition truthy (v : tv) : bool := match v with TNone => false | TBool b => b | _ => true end.

(** The lines printed by TestConfig.printer *)
Inductive kind := KFail | KError | KWarn | KSignal | KExn.
(** A line that is printed: test/fixtures.py 349-402 *)
Inductive event :=
| SessionBegin | SessionEnd | Terminating
| SetBegin (level : Z)
| SetEnd (level runs fails errors warns : Z)
| Report (k : kind) (level : Z).

(** fixtures.py 151-154; 534, 567, 604; TestConfig.postproc (400).  Callbacks are known by number. *)
Record tst := mkT {
  run : Z; failed : Z; errored : Z; warned : Z;
  level : Z; posts : list nat; gpost : option nat; flags : list bool; log : list event }.

(** A line of output (test/fixtures.py, printf). *)
Definition say (x : event) (u : tst) : tst :=
  mkT (run u) (failed u) (errored u) (warned u) (level u) (posts u) (gpost u) (flags u) (log u ++ [x]).
(** fixtures.py 167-175: _update *)
Definition count (dr df de dw : Z) (u : tst) : tst :=
  mkT (run u + dr) (failed u + df) (errored u + de) (warned u + dw) (level u) (posts u) (gpost u) (flags u) (log u).
(** The nesting level is assigned: test/fixtures.py 606-720 *)
Definition setlevel (l : Z) (u : tst) : tst :=
  mkT (run u) (failed u) (errored u) (warned u) l (posts u) (gpost u) (flags u) (log u).
(** The stack of postprocs is assigned: test/fixtures.py 606-720 *)
Definition setposts (l : list nat) (u : tst) : tst :=
  mkT (run u) (failed u) (errored u) (warned u) (level u) l (gpost u) (flags u) (log u).
(** The stack of the flags for uncaught signals is assigned: test/fixtures.py 536-565 *)
Definition setflags (l : list bool) (u : tst) : tst :=
  mkT (run u) (failed u) (errored u) (warned u) (level u) (posts u) (gpost u) l (log u).

Section Tset.
(** issubclass among user types *)
Variable usub : nat -> nat -> bool.
(** isinstance(exception, type) *)
Variable isexn : exn -> nat -> bool.
(** What the callback of a postproc does: return ([None]) or raise.  Its other effects, and callbacks
    that signal, are not modelled. *)
Variable callback : nat -> option exn.
(** warnings.warn does not touch the state of the framework *)
Definition print_warning (c : cond) (u : tst) : tst := u.

(** issubclass: every condition is an Exception *)
Definition sub (a b : nat) : bool :=
  if b =? ExceptionT then true else if a =? b then true
  else if b =? TestingExceptionT then (3 <=? a) && (a <=? 5)
  else if (b <=? 5) || (a <=? 5) then false else usub a b.

Notation prog := (prog tv tst).
(** An effect on the state of the session, and a question about it. *)
Definition upd (f : tst -> tst) : prog := Eff (fun u => (f u, TNone)).
(** See upd. *)
Definition ask (f : tst -> tv) : prog := Eff (fun u => (u, f u)).

(** 655, and testingtools.py 517: catch_uncaught_signals[0] *)
Definition ask_flag : prog :=
  Bind (ask (fun u => match flags u with [] => TNone | b :: _ => TBool b end))
       (fun v => match v with TNone => RaiseP IndexError | _ => Ret v end).
(** fixtures.py 644-652 *)
Definition testing_kind (c : cond) : option kind :=
  if sub (ctype c) TestFailureT then Some KFail
  else if sub (ctype c) TestErrorT then Some KError
  else if sub (ctype c) TestWarningT then Some KWarn
  else None.
(** fixtures.py 664-672 *)
Definition run_postproc : prog :=
  Bind (ask (fun u => TPost (match posts u with i :: _ => Some i | [] => gpost u end)))
       (fun v => match v with
                 | TPost (Some i) => match callback i with None => Ret TNone | Some e => RaiseP e end
                 | _ => Ret TNone
                 end).
(** fixtures.py 674-684 *)
Definition proceed : prog :=
  FindRestart "proceed" (fun p => match p with
    | Some (b, n) => InvokeBound b n TNone
    | None => FindRestart "_proceed" (fun p => match p with
        | Some (b, n) => InvokeBound b n TNone
        | None => Ret TNone
        end)
    end).
(** fixtures.py 640-684: print_and_proceed; [lvl] is the nesting level of its testset, whose messages are
    indented one level more *)
Definition print_and_proceed (lvl : Z) (c : cond) : prog :=
  match testing_kind c with
  | Some k => Bind (upd (say (Report k (lvl + 1)))) (fun _ => Bind run_postproc (fun _ => proceed))
  | None =>
      Bind ask_flag (fun v =>
        if truthy v
        then Bind (upd (fun u => say (Report KSignal (lvl + 1)) (count 1 0 1 0 u))) (fun _ => Bind run_postproc (fun _ => proceed))
        else Ret TNone)
  end.

(** fixtures.py 606-638, 686-687 *)
Definition enter_set (post : option nat) (u : tst) : tst :=
  let u := say (SetBegin (level u)) (setlevel (level u + 1) u) in
  match post with Some i => setposts (i :: posts u) u | None => u end.
(** fixtures.py 450-461: the assertions of summarize *)
Definition summarize (r f e w : Z) : prog :=
  if ((0 <=? r) && (0 <=? f) && (0 <=? e) && (0 <=? w))%Z then Ret TNone else RaiseP AssertionError.
(** fixtures.py 704-720 *)
Definition leave_set (lvl : Z) (post : option nat) (r1 f1 e1 w1 : Z) : prog :=
  Bind (upd (fun u => match post with Some _ => setposts (tl (posts u)) u | None => u end)) (fun _ =>
  Bind (upd (fun u => setlevel (level u - 1) u)) (fun _ =>
  Bind (ask (fun u => TBool (0 <=? level u)%Z)) (fun ok =>
  if truthy ok then
    Bind (ask (fun u => TCount (run u - r1) (failed u - f1) (errored u - e1) (warned u - w1))) (fun v =>
    match v with
    | TCount r f e w => Bind (summarize r f e w) (fun _ => upd (say (SetEnd lvl r f e w)))
    | _ => Ret TNone
    end)
  else RaiseP AssertionError))).
(** TestSessionExit: fixtures.py 694-695 *)
Definition is_exit (e : exn) : bool := match e with UserExn 0 => true | _ => false end.
(** fixtures.py 605-720: with testset(...): body *)
Definition testset (post : option nat) (body : prog) : prog :=
  Bind (ask (fun u => TCount (run u) (failed u) (errored u) (warned u))) (fun v =>
  Bind (ask (fun u => TCount (level u) 0 0 0)) (fun l =>
  match v, l with
  | TCount r1 f1 e1 w1, TCount lvl _ _ _ =>
      Bind (upd (enter_set post)) (fun _ =>
      Finally
        (Try (Bind (WithHandlers [([ExceptionT], print_and_proceed lvl)] body) (fun _ => Ret TNone))
             (fun e => if is_exit e then Ret TNone                                              (* 694-695 *)
                       else upd (fun u => say (Report KExn (lvl + 1)) (count 1 0 1 0 u))))      (* 696-703 *)
        (leave_set lvl post r1 f1 e1 w1))
  | _, _ => Ret TNone
  end)).
(** fixtures.py 506-514 *)
Definition terminate : prog := Bind (upd (say Terminating)) (fun _ => RaiseP TestSessionExit).
(** fixtures.py 535-565: with catch_signals(b): body *)
Definition catch_signals (b : bool) (body : prog) : prog :=
  Bind (upd (fun u => setflags (b :: flags u) u)) (fun _ =>
  Finally body (upd (fun u => setflags (tl (flags u)) u))).
(** fixtures.py 568-601: with session(): body *)
Definition session (body : prog) : prog :=
  Bind (ask (fun u => TBool (0 <? level u)%Z)) (fun v =>
  if truthy v then RaiseP RuntimeError
  else Bind (upd (say SessionBegin)) (fun _ =>
       Bind (Try (testset None body) (fun e => if is_exit e then Ret TNone else RaiseP e)) (fun _ =>
       upd (say SessionEnd)))).

(** testingtools.py 516-526 *)
Definition intercept (c : cond) : prog :=
  Bind ask_flag (fun v =>
    if truthy v then (if sub (ctype c) TestingExceptionT then Ret TNone else Invoke "_got_signal" (TCond c))
    else Ret TNone).
(** testingtools.py 503-539: the pair of the mode and the value; the restart's value is paired here with the mode that
    line 535 returns *)
Definition observe (thunk : prog) : prog :=
  Try (WithRestarts [("_got_signal", fun exc => Ret (TObs Signaled exc))]
         (Bind (WithHandlers [([ExceptionT], intercept)] thunk) (fun ret => Ret (TObs Completed ret))))
      (fun e => Ret (TObs Raised (TExn e))).
(** A failed, errored or warned test: the counters, and the condition that is signaled: testingtools.py 542-711 *)
Definition fail_with (t : nat) (dr df de dw : Z) : prog :=
  Bind (upd (count dr df de dw)) (fun _ => cerror TNone (mkCond t PCerror None)).
(** testingtools.py 542-711 (the messages, and the values captured by the[], are not modelled) *)
Definition unpythonic_assert (func : prog) : prog :=
  Bind (observe func) (fun o =>
  Bind (upd (count 1 0 0 0)) (fun _ =>                                            (* 632 *)
  match o with
  | TObs Completed (TMark MFail) => fail_with TestFailureT 0 1 0 0                (* 641-653 *)
  | TObs Completed (TMark MError) => fail_with TestErrorT 0 0 1 0                 (* 654-661 *)
  | TObs Completed (TMark MWarn) => fail_with TestWarningT (-1) 0 0 1             (* 662-671 *)
  | TObs Completed v => if truthy v then Ret TNone else fail_with TestFailureT 0 1 0 0   (* 680-685 *)
  | TObs Signaled _ => fail_with TestErrorT 0 0 1 0                               (* 686-690 *)
  | _ => fail_with TestErrorT 0 0 1 0                                             (* 691-695 *)
  end)).
(** isinstance(test_result, exctype) *)
Definition isinstance (v : tv) (t : nat) : bool :=
  match v with TCond c => sub (ctype c) t | TExn e => isexn e t | _ => false end.
(** testingtools.py 713-746 *)
Definition unpythonic_assert_signals (t : nat) (thunk : prog) : prog :=
  Bind (observe thunk) (fun o =>
  Bind (upd (count 1 0 0 0)) (fun _ =>
  match o with
  | TObs Completed _ => fail_with TestFailureT 0 1 0 0
  | TObs Signaled v => if isinstance v t then Ret TNone else fail_with TestErrorT 0 0 1 0
  | _ => fail_with TestErrorT 0 0 1 0
  end)).
(** testingtools.py 748-778 *)
Definition unpythonic_assert_raises (t : nat) (thunk : prog) : prog :=
  Bind (observe thunk) (fun o =>
  Bind (upd (count 1 0 0 0)) (fun _ =>
  match o with
  | TObs Completed _ => fail_with TestFailureT 0 1 0 0
  | TObs Signaled _ => fail_with TestErrorT 0 0 1 0
  | TObs Raised v => if isinstance v t then Ret TNone else fail_with TestErrorT 0 0 1 0
  | _ => fail_with TestErrorT 0 0 1 0
  end)).

(** Test suites: what a user writes with these constructs. *)
Inductive item :=
| ITest (body : list item) (v : tv)           (* with test: body; return v -- test[v] if body is empty; fail[], error[], warn[] by a mark *)
| ISignals (t : nat) (body : list item)       (* with test_signals[t] *)
| IRaises (t : nat) (body : list item)        (* with test_raises[t] *)
| ISet (post : option nat) (body : list item) (* with testset *)
| ICatch (b : bool) (body : list item)        (* with catch_signals(b) *)
| IRaise (e : exn)
| ISignal (pr : protocol) (t : nat)           (* signal, error, cerror or warn *)
| ITerminate.
(** An item of a suite as a program. *)
Fixpoint compile (i : item) : prog :=
  let seq := fix seq (l : list item) (v : tv) : prog :=
    match l with [] => Ret v | i :: l => Bind (compile i) (fun _ => seq l v) end in
  match i with
  | ITest body v => unpythonic_assert (seq body v)
  | ISignals t body => unpythonic_assert_signals t (seq body TNone)
  | IRaises t body => unpythonic_assert_raises t (seq body TNone)
  | ISet post body => testset post (seq body TNone)
  | ICatch b body => catch_signals b (seq body TNone)
  | IRaise e => RaiseP e
  | ISignal pr t => by_protocol TNone print_warning pr (mkCond t pr None)
  | ITerminate => terminate
  end.
(** The items one after the other. *)
Fixpoint compile_all (l : list item) (v : tv) : prog :=
  match l with [] => Ret v | i :: l => Bind (compile i) (fun _ => compile_all l v) end.
End Tset.
