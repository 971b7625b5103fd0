(** C118: the tracebacks, causes and protocols of conditions. *)
From Verif Require Import Base TbkModel TbkSpec TbkProofs.
From Coq Require Import List Bool ZArith Lia.
Import ListNotations.
Open Scope nat_scope.

(** equip_with_traceback gives the same object back.  Its traceback, as printed, is the call stack
    from the root to [n] calls above equip_with_traceback itself, and nothing else changes. *)
Theorem C118_equip : forall st h r n, r < length h ->
  exists h', equip_with_traceback (mkframe EquipF 0 :: st) h (PExc r) (Z.of_nat n) = Done h' (PExc r) /\
    changed h h' r (fun x x' => cause x' = cause x /\ protocol x' = protocol x /\
                                entries (trace x') = rev (skipn n (mkframe EquipF 209 :: st))).
Proof. exact equip_ok. Qed.
Print Assumptions C118_equip.

(** signal: the handlers are called with the instance, which has the cause given, and whose
    traceback ends in the line of the caller that calls signal.  No other exception changes.
    If no handler raises, the instance is returned. *)
Theorem C118_signal : forall ctor run_handlers st h x y h1 r h2 q,
  instance ctor h x h1 r -> cause_of ctor h1 y h2 q ->
  exists h3, signal ctor run_handlers st h x y =
     match run_handlers h3 r with Done h _ => Done h (PExc r) | Fail h e => Fail h e end /\
  changed h2 h3 r (signaled q SignalF (rev st)).
Proof. exact signal_api. Qed.
Print Assumptions C118_signal.

(** error: likewise, with two frames of the library below that of the caller; if no handler
    raises, ControlError is raised from the condition. *)
Theorem C118_error : forall ctor run_handlers st h x y h1 r h2 q,
  instance ctor h x h1 r -> cause_of ctor h1 y h2 q ->
  exists h3, error ctor run_handlers st h x y = after_error run_handlers h3 r /\
  changed h2 h3 r (signaled q ErrorF (rev st ++ [mkframe ErrorF 746; mkframe RaiseErrorF 789])).
Proof. exact error_api. Qed.
Print Assumptions C118_error.

Theorem C118_cerror : forall ctor run_handlers st h x y h1 r h2 q,
  instance ctor h x h1 r -> cause_of ctor h1 y h2 q ->
  exists h3, cerror ctor run_handlers st h x y = after_error run_handlers h3 r /\
  changed h2 h3 r (signaled q CerrorF (rev st ++ [mkframe CerrorF 782; mkframe RaiseErrorF 789])).
Proof. exact cerror_api. Qed.
Print Assumptions C118_cerror.

(** warn: the warning is attributed to the caller's line.  It is the condition itself if that was
    given as an instance of a warning, else a generic warning with the text of what was given. *)
Theorem C118_warn : forall ctor run_handlers is_warning st h x y h1 r h2 q,
  instance ctor h x h1 r -> cause_of ctor h1 y h2 q ->
  exists h3, warn ctor run_handlers is_warning st h x y =
     match run_handlers h3 r with
     | Done h4 _ => Done h4 (if is_object x && match nth_error h4 r with Some e => is_warning (cls e) | None => false end
                             then EmitObject r else EmitText x, hd_error st)
     | Fail h e => Fail h e
     end /\
  changed h2 h3 r (signaled q WarnF (rev st ++ [mkframe WarnF 846])).
Proof. exact warn_api. Qed.
Print Assumptions C118_warn.

(** What is neither an exception nor a class that can be called makes a ControlError that
    mentions it.  This is itself signaled with error, and then raised from. *)
Theorem C118_invalid : forall ctor run_handlers st h x y, invalid ctor x ->
  exists h3, signal ctor run_handlers st h x y = after_error run_handlers h3 (length h) /\
  changed (h ++ [mkexc ControlErrorC (Some x) None None None]) h3 (length h)
    (signaled None ErrorF (rev st ++ [mkframe SignalF 182; mkframe PrepareF 222; mkframe CanonizeF 220; mkframe ErrorF 746; mkframe RaiseErrorF 789])).
Proof. exact invalid_api. Qed.
Print Assumptions C118_invalid.

(** So does an invalid cause. *)
Theorem C118_invalid_cause_partial : forall ctor run_handlers st h x y h1 r, instance ctor h x h1 r -> invalid ctor y ->
  exists h3, signal ctor run_handlers st h x y = after_error run_handlers h3 (length h1) /\
  changed (h1 ++ [mkexc ControlErrorC (Some (PExc r)) None None None]) h3 (length h1)
    (signaled None ErrorF (rev st ++ [mkframe SignalF 182; mkframe PrepareF 223; mkframe CanonizeF 220; mkframe ErrorF 746; mkframe RaiseErrorF 789])).
Proof. exact invalid_cause_api. Qed.
Print Assumptions C118_invalid_cause_partial.

(** Refuted: the message does not mention the invalid cause, but the (valid) condition. *)
Theorem C118_invalid_cause_refuted : exists ctor st h x y, invalid ctor y /\
  match signal ctor (fun h _ => Done h tt) st h x y with
  | Fail h' _ => exists e, nth_error h' (length h) = Some e /\ cls e = ControlErrorC /\ named e = Some x /\ x <> y
  | Done _ _ => False
  end.
Proof.
  exists (fun _ => None), [mkframe (User 0) 1], [mkexc 1 None None None None], (PExc 0), (POther 7).
  split; [exact Logic.I|]. eexists. repeat split. discriminate.
Qed.
Print Assumptions C118_invalid_cause_refuted.

(** Refuted: None as a condition is not a ControlError either, but an AttributeError. *)
Theorem C118_none_refuted : forall ctor run_handlers st h, signal ctor run_handlers st h PNone PNone = Fail h (RPy AttributeError).
Proof. exact none_api. Qed.
Print Assumptions C118_none_refuted.

(** Refuted: signaling an instance keeps its cause, as [raise] does.  Without a cause it is lost. *)
Theorem C118_cause_refuted : exists ctor st h r x, nth_error h r = Some x /\ cause x = Some 1 /\
  match signal ctor (fun h _ => Done h tt) st h (PExc r) PNone with
  | Done h' _ => exists x', nth_error h' r = Some x' /\ cause x' = None
  | Fail _ _ => False
  end.
Proof.
  exists (fun _ => None), [mkframe (User 0) 1], [mkexc 1 None (Some 1) None None; mkexc 2 None None None None], 0.
  eexists. repeat split. eexists. split; reflexivity.
Qed.
Print Assumptions C118_cause_refuted.

(** Refuted: a class of warnings is emitted as an instance of it. *)
Theorem C118_warn_class_refuted : exists ctor st h c, ctor c = None /\
  exists h' at_, warn ctor (fun h _ => Done h tt) (fun d => d =? c) st h (PClass c) PNone = Done h' (EmitText (PClass c), at_).
Proof. exists (fun _ => None), [mkframe (User 0) 1], [], 5. split; [reflexivity|]. eexists. eexists. reflexivity. Qed.
Print Assumptions C118_warn_class_refuted.

(** The other ways of calling equip_with_traceback wrongly. *)
Theorem C118_equip_invalid : forall st h n, (forall x, (forall r, x <> PExc r) -> equip_with_traceback st h x n = Fail h (RPy TypeError)) /\
  ((n < 0)%Z -> forall r, equip_with_traceback st h (PExc r) n = Fail h (RPy ValueError)).
Proof. exact equip_invalid. Qed.
Print Assumptions C118_equip_invalid.

(** The hypotheses can be met: user functions 1 (line 10), called by 2 (line 20); an object with
    the class 7, whose constructor takes no arguments, as the cause. *)
Example C118_ex_signal : let st := [mkframe (User 1) 10; mkframe (User 2) 20] in
  instance (fun _ => None) [mkexc 3 None None None None] (PExc 0) [mkexc 3 None None None None] 0 /\
  cause_of (fun _ => None) [mkexc 3 None None None None] (PClass 7) [mkexc 3 None None None None; mkexc 7 None None None None] (Some 1) /\
  match signal (fun _ => None) (fun h _ => Done h tt) st [mkexc 3 None None None None] (PExc 0) (PClass 7) with
  | Done h v => v = PExc 0 /\ map cause h = [Some 1; None] /\ map (fun e => entries (trace e)) h = [[mkframe (User 2) 20; mkframe (User 1) 10]; []]
  | Fail _ _ => False
  end.
Proof. repeat split. - constructor. cbn. lia. - constructor. apply (inst_class _ [_] 7). reflexivity. Qed.
Example C118_ex_error :
  match error (fun _ => None) (fun h _ => Done h tt) [mkframe (User 1) 10] [] (PClass 3) PNone with
  | Fail h (RExc r) => r = 1 /\ map cls h = [3; ControlErrorC] /\ map cause h = [None; Some 0] /\
      map (fun e => entries (trace e)) h = [[mkframe (User 1) 10; mkframe ErrorF 746; mkframe RaiseErrorF 789]; []]
  | _ => False
  end.
Proof. repeat split. Qed.
Example C118_ex_invalid : invalid (fun _ => Some TypeError) (PClass 4) /\
  match signal (fun _ => Some TypeError) (fun h _ => Done h tt) [mkframe (User 1) 10] [] (PClass 4) PNone with
  | Fail h (RExc r) => r = 1 /\ map cls h = [ControlErrorC; ControlErrorC] /\ map named h = [Some (PClass 4); None]
  | _ => False
  end.
Proof. repeat split. Qed.
Example C118_ex_warn :
  warn (fun _ => None) (fun h _ => Done h tt) (fun _ => true) [mkframe (User 1) 10] [mkexc 3 None None None None] (PExc 0) PNone =
  Done [mkexc 3 None None (Some WarnF) (Some (TB (Some (TB None (mkframe WarnF 846))) (mkframe (User 1) 10)))] (EmitObject 0, Some (mkframe (User 1) 10)).
Proof. reflexivity. Qed.
