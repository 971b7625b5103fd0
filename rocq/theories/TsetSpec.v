(** Specification vocabulary for C74-C77: what a test suite should count and print. *)
From Coq Require Import String List ZArith Arith Bool.
From Verif Require Import Base CondModel TsetModel.
Import ListNotations.
Open Scope list_scope.

(** Tests run, failures, errors, warnings *)
Record tally := mkC { c_run : Z; c_fail : Z; c_err : Z; c_warn : Z }.
Definition zero : tally := mkC 0 0 0 0.
Definition one_pass : tally := mkC 1 0 0 0.
Definition one_fail : tally := mkC 1 1 0 0.
Definition one_error : tally := mkC 1 0 1 0.
Definition one_warning : tally := mkC 0 0 0 1.
Definition plus (a b : tally) : tally :=
  mkC (c_run a + c_run b) (c_fail a + c_fail b) (c_err a + c_err b) (c_warn a + c_warn b).
Definition set_end (level : Z) (n : tally) : event := SetEnd level (c_run n) (c_fail n) (c_err n) (c_warn n).

(** What surrounds a point of the suite, innermost first: a testset of some nesting level, or a test *)
Inductive around := InSet (level : Z) | InTest.
Definition is_set (a : around) : bool := match a with InSet _ => true | InTest => false end.
Definition depth (ctx : list around) : Z := Z.of_nat (length (filter is_set ctx)).

(** How an item of the suite ends *)
Inductive ending :=
| Goes_on
| Raises (e : exn)
| Caught (c : cond)      (* the innermost test has caught the condition, and its code is abandoned *)
.
Inductive answer := Declined | Proceeds | Taken | Failed (e : exn).

Section Spec.
Variable usub : nat -> nat -> bool.
Variable isexn : exn -> nat -> bool.
Variable callback : nat -> option exn.
Notation sub := (sub usub).
(** What is counted, and as what. *)
Definition counted (c : cond) : option kind :=
  if sub (ctype c) TestFailureT then Some KFail
  else if sub (ctype c) TestErrorT then Some KError
  else if sub (ctype c) TestWarningT then Some KWarn
  else None.
(** terminate() has been called. *)
Definition session_exit (e : exn) : bool := match e with UserExn 0 => true | _ => false end.

(** A condition is offered to what surrounds it.  [pp]: the exception that the current postproc raises,
    if any.  [fl]: are uncaught signals caught here?  [restart]: does the signaller offer to proceed? *)
Fixpoint offered (ctx : list around) (pp : option exn) (fl restart : bool) (c : cond) : tally * list event * answer :=
  match ctx with
  | [] => (zero, [], Declined)
  | InTest :: ctx =>
      if negb fl || sub (ctype c) TestingExceptionT then offered ctx pp fl restart c else (zero, [], Taken)
  | InSet lvl :: ctx =>
      match counted c, fl with
      | None, false => offered ctx pp fl restart c
      | k, _ =>
          let '(n, ev) := match k with
                          | Some k => (zero, Report k (lvl + 1))
                          | None => (one_error, Report KSignal (lvl + 1))
                          end in
          match pp with
          | Some e => (n, [ev], Failed e)
          | None => if restart then (n, [ev], Proceeds)
                    else let '(n', evs, a) := offered ctx pp fl restart c in (plus n n', ev :: evs, a)
          end
      end
  end.
(** A test that ends with a failure, an error or a warning reports it *)
Definition reported (ctx : list around) (pp : option exn) (fl : bool) (t : nat) : list event * ending :=
  let '(_, evs, a) := offered ctx pp fl true (mkCond t PCerror None) in
  (evs, match a with Failed e => Raises e | Declined => Raises ControlError | _ => Goes_on end).

(** What a test finds *)
Inductive finding := Pass | Fail | Error | Warn.
Definition value_finding (v : tv) : finding :=
  match v with
  | TMark MFail => Fail | TMark MError => Error | TMark MWarn => Warn
  | TNone => Fail
  | TBool b => if b then Pass else Fail
  | _ => Pass
  end.
Definition test_finding (v : tv) (r : ending) : finding :=
  match r with Goes_on => value_finding v | _ => Error end.
Definition signals_finding (t : nat) (r : ending) : finding :=
  match r with Goes_on => Fail | Caught c => if sub (ctype c) t then Pass else Error | Raises _ => Error end.
Definition raises_finding (t : nat) (r : ending) : finding :=
  match r with Goes_on => Fail | Caught _ => Error | Raises e => if isexn e t then Pass else Error end.
Definition weight (x : finding) : tally :=
  match x with Pass => one_pass | Fail => one_fail | Error => one_error | Warn => one_warning end.
Definition judged (ctx : list around) (pp : option exn) (fl : bool) (x : finding) : list event * ending :=
  match x with
  | Pass => ([], Goes_on)
  | Fail => reported ctx pp fl TestFailureT
  | Error => reported ctx pp fl TestErrorT
  | Warn => reported ctx pp fl TestWarningT
  end.
(** The end of a testset, given what its body counted and printed and how it ended *)
Definition closed (lvl : Z) (x : tally * list event * ending) : tally * list event * ending :=
  let '(n, ev, r) := x in
  match r with
  | Goes_on => (n, SetBegin lvl :: ev ++ [set_end lvl n], Goes_on)
  | Raises e =>
      if session_exit e then (n, SetBegin lvl :: ev ++ [set_end lvl n], Goes_on)
      else let n := plus n one_error in (n, SetBegin lvl :: ev ++ [Report KExn (lvl + 1); set_end lvl n], Goes_on)
  | Caught c => (n, SetBegin lvl :: ev ++ [set_end lvl n], Caught c)
  end.
Definition can_proceed (pr : protocol) : bool := match pr with PCerror | PWarn => true | _ => false end.
(** A test: its code runs, and what it finds is counted and reported. *)
Definition assessed (ctx : list around) (pp : option exn) (fl : bool) (f : ending -> finding)
    (x : tally * list event * ending) : tally * list event * ending :=
  let '(n, ev, r) := x in let '(ev', r') := judged ctx pp fl (f r) in (plus n (weight (f r)), ev ++ ev', r').

(** What an item counts and prints, and how it ends *)
Fixpoint meaning (ctx : list around) (pp : option exn) (fl : bool) (i : item) : tally * list event * ending :=
  let all := fix all ctx pp fl (l : list item) : tally * list event * ending :=
    match l with
    | [] => (zero, [], Goes_on)
    | i :: l =>
        let '(n, ev, r) := meaning ctx pp fl i in
        match r with
        | Goes_on => let '(n', ev', r') := all ctx pp fl l in (plus n n', ev ++ ev', r')
        | _ => (n, ev, r)
        end
    end in
  match i with
  | ITest body v => assessed ctx pp fl (test_finding v) (all (InTest :: ctx) pp fl body)
  | ISignals t body => assessed ctx pp fl (signals_finding t) (all (InTest :: ctx) pp fl body)
  | IRaises t body => assessed ctx pp fl (raises_finding t) (all (InTest :: ctx) pp fl body)
  | ISet post body =>
      closed (depth ctx) (all (InSet (depth ctx) :: ctx) (match post with Some i => callback i | None => pp end) fl body)
  | ICatch b body => all ctx pp b body
  | IRaise e => (zero, [], Raises e)
  | ISignal pr t =>
      let c := mkCond t pr None in
      let '(n, ev, a) := offered ctx pp fl (can_proceed pr) c in
      (n, ev, match a with
              | Taken => Caught c
              | Failed e => Raises e
              | Proceeds => Goes_on
              | Declined => match pr with PSignal | PWarn => Goes_on | _ => Raises ControlError end
              end)
  | ITerminate => (zero, [Terminating], Raises TestSessionExit)
  end.
Fixpoint meaning_all (ctx : list around) (pp : option exn) (fl : bool) (l : list item) : tally * list event * ending :=
  match l with
  | [] => (zero, [], Goes_on)
  | i :: l =>
      let '(n, ev, r) := meaning ctx pp fl i in
      match r with
      | Goes_on => let '(n', ev', r') := meaning_all ctx pp fl l in (plus n n', ev ++ ev', r')
      | _ => (n, ev, r)
      end
  end.
End Spec.

(** The state of the framework after counting [n] and printing [ev] *)
Definition after (n : tally) (ev : list event) (u : tst) : tst :=
  mkT (run u + c_run n) (failed u + c_fail n) (errored u + c_err n) (warned u + c_warn n)
      (level u) (posts u) (gpost u) (flags u) (log u ++ ev).

(** A thread that has set up no handlers and no restarts *)
Definition start (u : tst) : st tv tst := mkSt [] 0 [] [] u.
(** What the current postproc raises *)
Definition raised_by (callback : nat -> option exn) (u : tst) : option exn :=
  match posts u with i :: _ => callback i | [] => match gpost u with Some i => callback i | None => None end end.

(** C74: tests whose code does one thing *)
Inductive stmt := SNothing | SRaise (e : exn) | SSignal (pr : protocol) (t : nat).
Inductive form := FTest (v : tv) | FSignals (t : nat) | FRaises (t : nat).
Definition code (x : stmt) : list item :=
  match x with SNothing => [] | SRaise e => [IRaise e] | SSignal pr t => [ISignal pr t] end.
Definition as_item (x : form * stmt) : item :=
  match x with
  | (FTest v, b) => ITest (code b) v
  | (FSignals t, b) => ISignals t (code b)
  | (FRaises t, b) => IRaises t (code b)
  end.
(** TestFailure, TestError, TestWarning and their base class belong to the framework *)
Definition ordinary (t : nat) : Prop := 6 <= t.
Definition ordinary_stmt (x : stmt) : Prop := match x with SSignal _ t => ordinary t | _ => True end.
Section Verdict.
Variable usub : nat -> nat -> bool.
Variable isexn : exn -> nat -> bool.
Definition verdict (x : form * stmt) : finding :=
  match x with
  | (FTest v, SNothing) => value_finding v
  | (FSignals t, SSignal _ t') => if sub usub t' t then Pass else Error
  | (FRaises t, SRaise e) => if isexn e t then Pass else Error
  | (FTest _, _) => Error
  | (_, SNothing) => Fail
  | _ => Error
  end.
End Verdict.
Definition finding_eqb (a b : finding) : bool :=
  match a, b with Pass, Pass | Fail, Fail | Error, Error | Warn, Warn => true | _, _ => false end.
Definition how_many (x : finding) (l : list finding) : Z := Z.of_nat (length (filter (finding_eqb x) l)).
(** The line printed for a finding, at the given level *)
Definition line (lvl : Z) (x : finding) : list event :=
  match x with Pass => [] | Fail => [Report KFail lvl] | Error => [Report KError lvl] | Warn => [Report KWarn lvl] end.

(** C75: the lines of a testset of the given level, with the numbers of failures, errors and warnings
    among them; the summary at the end of a testset inside agrees with its own lines. *)
Definition line_weight (k : kind) : tally :=
  match k with KFail => mkC 0 1 0 0 | KWarn => mkC 0 0 0 1 | _ => mkC 0 0 1 0 end.
Inductive faithful (lvl : Z) : list event -> tally -> Prop :=
| F_nil : faithful lvl [] zero
| F_line k l ev n : faithful lvl ev n -> faithful lvl (Report k l :: ev) (plus (line_weight k) n)
| F_term ev n : faithful lvl ev n -> faithful lvl (Terminating :: ev) n
| F_set r inner n ev m : faithful (lvl + 1) inner n -> (c_fail n + c_err n <= r)%Z -> faithful lvl ev m ->
    faithful lvl (SetBegin lvl :: inner ++ SetEnd lvl r (c_fail n) (c_err n) (c_warn n) :: ev) (plus n m).
(** Suites that do not signal the framework's own conditions *)
Inductive ordinary_item : item -> Prop :=
| O_test b v : Forall ordinary_item b -> ordinary_item (ITest b v)
| O_signals t b : Forall ordinary_item b -> ordinary_item (ISignals t b)
| O_raises t b : Forall ordinary_item b -> ordinary_item (IRaises t b)
| O_set po b : Forall ordinary_item b -> ordinary_item (ISet po b)
| O_catch c b : Forall ordinary_item b -> ordinary_item (ICatch c b)
| O_raise e : ordinary_item (IRaise e)
| O_signal pr t : ordinary t -> ordinary_item (ISignal pr t)
| O_term : ordinary_item ITerminate.

(** C77: a suite in [k] nested testsets *)
Fixpoint nest (k : nat) (l : list item) : list item := match k with 0 => l | Datatypes.S k => [ISet None (nest k l)] end.
Definition times_counted (k : nat) (pr : protocol) : Z :=
  match pr with PCerror | PWarn => 1 | PSignal => Z.of_nat k | PError => Z.of_nat k + 1 end.

(** C75: the counters, the level and the postprocs are as a body that plays by the rules leaves them *)
Definition orderly post (u u1 : tst) : Prop :=
  (level u1 = level u + 1 /\ posts u1 = match post with Some i => i :: posts u | None => posts u end /\
   run u <= run u1 /\ failed u <= failed u1 /\ errored u <= errored u1 /\ warned u <= warned u1)%Z.
