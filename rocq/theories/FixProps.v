(** C39, C40: fix and fixtco. *)
From Coq Require Import List Arith.
From Verif Require Import Base FixModel FixSpec FixProofs.
Import ListNotations.
Open Scope nat_scope.
Open Scope list_scope.

(** A call that is already in progress returns bottom (called with the function and its
    arguments), at once and without a change of state. *)
Theorem C39_revisit : forall (A V St : Type) eqA (body : nat -> A -> prog A V St) bottom tco memo i a s,
  In (KFix i a) (visited s) ->
  exec eqA body bottom tco memo 1 (CallFix i a) s = Some (result_of (bottom i i a), s).
Proof.
  intros A V St eqA body bottom tco memo i a s H. cbn.
  destruct (in_dec (key_dec eqA) (KFix i a) (visited s)) as [|n]; [reflexivity|exact (False_ind _ (n H))].
Qed.
Print Assumptions C39_revisit.

(** With the memo off, the result of an outermost call is the one of the specification: bottom for
    every revisiting call and jump, everything else as in the undecorated program. *)
Theorem C39_bottom : forall (A V St : Type) eqA (body : nat -> A -> prog A V St) bottom tco
  (Husable : usable body bottom tco) s fuel i a r s',
  reachable body bottom eqA tco false s ->
  exec eqA body bottom tco false fuel (CallFix i a) s = Some (r, s') ->
  exists o, r = result_of o /\ cycles body bottom [KFix i a] i a (body i a) (usr s) o (usr s').
Proof.
  intros A V St eqA body bottom tco Husable s fuel i a r s' Hr E.
  destruct (reachable_inv eqA body bottom tco false Husable s Hr) as (V1 & S1 & M1 & _).
  destruct (sound eqA body bottom tco false Husable eq_refl _ _ _ _ _ E M1) as (o & Er & [(Hin & _)|(_ & Hc)]).
  - rewrite V1 in Hin. destruct Hin.
  - rewrite V1 in Hc. exists o. split; assumption.
Qed.
Print Assumptions C39_bottom.

(** If the undecorated function ends with [o], so does the decorated one, memo on or off, after
    any earlier calls, whatever those computed. *)
Theorem C39_unchanged : forall (A V St : Type) eqA (body : nat -> A -> prog A V St) bottom tco memo
  (Husable : usable body bottom tco) s i a o,
  reachable body bottom eqA tco memo s -> computes body i a o ->
  exists fuel s', exec eqA body bottom tco memo fuel (CallFix i a) s = Some (result_of o, s').
Proof. exact @unchanged. Qed.
Print Assumptions C39_unchanged.

(** ... and it has no other result. *)
Theorem C39_deterministic : forall (A V St : Type) eqA (body : nat -> A -> prog A V St) bottom tco memo f1 f2 t s x y,
  exec eqA body bottom tco memo f1 t s = Some x -> exec eqA body bottom tco memo f2 t s = Some y -> x = y.
Proof. exact @exec_agree. Qed.
Print Assumptions C39_deterministic.

(** On a finite space of calls every call terminates, in every state and also when exceptions are
    raised. *)
Theorem C39_terminates : forall (A V St : Type) eqA (body : nat -> A -> prog A V St) bottom tco memo space
  (Hclosed : forall i a, In (i, a) space -> calls_in space (body i a))
  (Hjumps : tco = false -> forall i a, no_jump (body i a)) s i a,
  In (i, a) space -> exists fuel x, exec eqA body bottom tco memo fuel (CallFix i a) s = Some x.
Proof.
  intros A V St eqA body bottom tco memo space Hclosed Hjumps s i a Hi.
  exact (proj1 (finite_terminates eqA body bottom tco memo space Hclosed Hjumps _ s (le_n _)) i a Hi).
Qed.
Print Assumptions C39_terminates.

(** After an outermost call nothing is recorded as in progress, however the call ended. *)
Theorem C40_outermost : forall (A V St : Type) eqA (body : nat -> A -> prog A V St) bottom tco memo fuel i a s r s',
  visited s = [] -> exec eqA body bottom tco memo fuel (CallFix i a) s = Some (r, s') ->
  visited s' = [] /\ stack s' = stack s.
Proof.
  intros A V St eqA body bottom tco memo fuel i a s r s' V1 E.
  destruct (balance eqA body bottom tco memo _ _ _ _ _ E) as (S1 & _ & V2). split; [exact (V2 V1)|exact S1].
Qed.
Print Assumptions C40_outermost.

(** For fix, the record is as before after every call, also an inner one that raises. *)
Theorem C40_fix_nested : forall (A V St : Type) eqA (body : nat -> A -> prog A V St) bottom memo
  (Hjumps : forall i a, no_jump (body i a)) fuel i a s r s',
  exec eqA body bottom false memo fuel (CallFix i a) s = Some (r, s') ->
  visited s' = visited s /\ stack s' = stack s.
Proof.
  intros A V St eqA body bottom memo Hjumps fuel i a s r s' E.
  destruct (exact eqA body bottom false memo Hjumps _ _ _ _ _ E) as (_ & S1 & V1 & _); [discriminate|]. split; assumption.
Qed.
Print Assumptions C40_fix_nested.

(** For fixtco too, if the program raises no exceptions. *)
Theorem C40_fixtco_nested : forall (A V St : Type) eqA (body : nat -> A -> prog A V St) bottom memo
  (Hraise : forall i a, no_raise (body i a)) (Hbottom : forall ow j a, exists v, bottom ow j a = Ok v) fuel i a s r s',
  (forall c o, In (c, o) (memos s) -> exists v, o = Ok v) ->
  exec eqA body bottom true memo fuel (CallFix i a) s = Some (r, s') ->
  visited s' = visited s /\ stack s' = stack s.
Proof.
  intros A V St eqA body bottom memo Hraise Hbottom fuel i a s r s' Hm E.
  destruct (exact eqA body bottom true memo (conj Hraise Hbottom) _ _ _ _ _ E (fun _ => Hm)) as (_ & S1 & V1 & _). split; assumption.
Qed.
Print Assumptions C40_fixtco_nested.

(** * What does not hold *)
(** f(0) = 10 + f(1), f(1) = 20 + f(0) *)
Definition pingpong (i a : nat) : prog nat nat unit :=
  CallP 0 (1 - a) (fun o => match o with Ok v => Ret ((if a =? 0 then 10 else 20) + v) | Raise e => RaiseP e end).
Definition zero (_ _ _ : nat) : outcome nat := Ok 0.
Definition start : st nat nat unit := mkSt [] [] [] tt.
(** With the memo (the default), what a call that runs into a cycle returns depends on earlier
    calls: a result that was computed inside the cycle of another call is kept. *)
Theorem C39_memo_refuted : exists s1 s2 s3,
  exec Nat.eq_dec pingpong zero false true 20 (CallFix 0 1) start = Some (RVal 30, s1) /\
  exec Nat.eq_dec pingpong zero false true 20 (CallFix 0 0) start = Some (RVal 30, s2) /\
  exec Nat.eq_dec pingpong zero false true 20 (CallFix 0 1) s2 = Some (RVal 20, s3).
Proof. eexists _, _, _. split; [vm_compute; reflexivity|]. split; [vm_compute; reflexivity|]. vm_compute. reflexivity. Qed.
Print Assumptions C39_memo_refuted.

(** Function 0 calls f1(0), ignores the exception, and returns f1(1); f1 jumps to f2(5), which
    raises.  Undecorated, f0 raises; with fixtco it returns bottom, as the jump to f2(5) that
    raised is still recorded as in progress. *)
Definition leaky (i a : nat) : prog nat nat unit :=
  match i with
  | 0 => CallP 1 0 (fun _ => CallP 1 1 (fun o => match o with Ok v => Ret v | Raise e => RaiseP e end))
  | 1 => JumpTo 2 5
  | _ => RaiseP ValueError
  end.
Theorem C39_tco_exception_refuted : computes leaky 0 0 (Raise ValueError) /\
  exists s, exec Nat.eq_dec leaky zero true false 20 (CallFix 0 0) start = Some (RVal 0, s).
Proof.
  split.
  - unfold computes. eexists. eapply PCall; [eapply PJump; apply PRaise|]. eapply PCall; [eapply PJump; apply PRaise|]. apply PRaise.
  - eexists. vm_compute. reflexivity.
Qed.
Print Assumptions C39_tco_exception_refuted.

(** An inner fixtco call that raises leaves a jump recorded as in progress. *)
Theorem C40_leak_refuted : exists s', exec Nat.eq_dec leaky zero true false 20 (CallFix 1 0) (mkSt [KFix 0 0] [mkFrame 0 []] [] tt)
    = Some (RExc ValueError, s') /\ visited s' = [KEntry 2 5; KFix 0 0].
Proof. eexists. split; [vm_compute; reflexivity|]. reflexivity. Qed.
Print Assumptions C40_leak_refuted.

(** In fixtco, bottom gets the name of the function that would be revisited with the arguments of
    the function that jumps to it: a call that never occurs. *)
Definition jumpers (i a : nat) : prog nat (nat * nat) unit := match i with 0 => JumpTo 1 7 | _ => JumpTo 0 0 end.
Theorem C39_bottom_args_refuted :
  (forall i a, In (i, a) [(0, 0); (1, 7)] -> calls_in [(0, 0); (1, 7)] (jumpers i a)) /\
  exists s, exec Nat.eq_dec jumpers (fun _ j a => Ok (j, a)) true true 20 (CallFix 0 0) (mkSt [] [] [] tt) = Some (RVal (1, 0), s).
Proof.
  split.
  - intros i a [H|[H|[]]]; injection H as <- <-; cbn; constructor; cbn; auto.
  - eexists. vm_compute. reflexivity.
Qed.
Print Assumptions C39_bottom_args_refuted.

(** * Examples *)
Example pingpong_usable : usable pingpong zero false.
Proof. intros i a. constructor. intros [v|e]; constructor. Qed.
Example pingpong_closed : forall i a, In (i, a) [(0, 0); (0, 1)] -> calls_in [(0, 0); (0, 1)] (pingpong i a).
Proof. intros i a [H|[H|[]]]; injection H as <- <-; unfold pingpong; (constructor; [cbn; auto|]); intros [v|e]; constructor. Qed.
(** factorial by a call; its tail-recursive version by jumps with an accumulator coded in the argument *)
Definition fact (i a : nat) : prog nat nat unit :=
  match a with 0 => Ret 1 | S n => CallP 0 n (fun o => match o with Ok v => Ret (S n * v) | Raise e => RaiseP e end) end.
Example fact_usable : usable fact zero false.
Proof. intros i a. destruct a; constructor. intros [v|e]; constructor. Qed.
Example fact_computes : computes fact 0 3 (Ok 6).
Proof.
  eexists. cbn. eapply PCall.
  - eapply PCall.
    + eapply PCall; [apply PRet|]. cbn. apply PRet.
    + cbn. apply PRet.
  - cbn. apply PRet.
Qed.
Definition countdown (i a : nat) : prog nat nat unit :=
  match a with 0 => Ret i | S n => CallP 2 0 (fun _ => JumpTo (1 - i) n) end.
Example countdown_usable : usable countdown zero true.
Proof.
  split; [intros i a; destruct a; constructor; intros v; constructor|]. intros ow j a. exists 0. reflexivity.
Qed.
Example countdown_computes : computes countdown 0 3 (Ok 1).
Proof.
  eexists. cbn. do 3 (eapply PCall; [apply PRet|]; cbn; eapply PJump; cbn). apply PRet.
Qed.
Example countdown_run : exists s, exec Nat.eq_dec countdown zero true true 50 (CallFix 0 3) start = Some (RVal 1, s).
Proof. eexists. vm_compute. reflexivity. Qed.
Example start_reachable : forall tco memo, reachable fact zero Nat.eq_dec tco memo start.
Proof. intros. apply RInit. Qed.
Example pingpong_cycles : cycles pingpong zero [KFix 0 0] 0 0 (pingpong 0 0) tt (Ok 30) tt.
Proof.
  eapply CyCall; [intros [H|[]]; discriminate| |].
  - eapply CyCycle; [right; left; reflexivity|]. cbn. apply CyRet.
  - cbn. apply CyRet.
Qed.
