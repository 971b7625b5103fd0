(** C41-C45, C72: the condition system. *)
From Coq Require Import String List Arith.
From Verif Require Import Base CondModel CondSpec CondProofs.
Import ListNotations.
Open Scope string_scope.
Open Scope nat_scope.
Open Scope list_scope.

(** C41.  signal() calls the matching handlers, innermost block first, each in the state and with
    the stacks of the signaller; it stops at the first that does not return, and returns if all of
    them return, provided that the handlers that return do not modify the handler stack (see C45). *)
Theorem C41_order : forall (V St : Type) none sub c (s : st V St) r s',
  (forall h, In h (matching sub c (hs s)) ->
     forall s0 v s1, runs none sub (h c) s0 (RVal v) s1 -> hver s1 = hver s0) ->
  (runs none sub (Signal c) s r s' <-> offers none sub c (matching sub c (hs s)) s r s').
Proof. exact @signal_offers. Qed.
Print Assumptions C41_order.

(** The first matching handler always gets the condition. *)
Theorem C41_first : forall (V St : Type) none sub c (s : st V St) h rest r s',
  matching sub c (hs s) = h :: rest -> runs none sub (h c) s r s' -> ~ is_value r ->
  runs none sub (Signal c) s r s'.
Proof. exact @signal_first. Qed.
Print Assumptions C41_first.

(** Without a matching handler signal() returns, and nothing happens. *)
Theorem C41_unmatched : forall (V St : Type) none sub c (s : st V St),
  matching sub c (hs s) = [] -> runs none sub (Signal c) s (RVal none) s.
Proof. exact @signal_unmatched. Qed.
Print Assumptions C41_unmatched.

(** A program has at most one result. *)
Theorem C41_deterministic : forall (V St : Type) none sub p (s : st V St) r1 s1 r2 s2,
  runs none sub p s r1 s1 -> runs none sub p s r2 s2 -> r1 = r2 /\ s1 = s2.
Proof. exact @runs_det. Qed.
Print Assumptions C41_deterministic.

(** States with a log of numbers; types are numbers, a subtype of the smaller ones. *)
Definition init : st nat (list nat) := mkSt [] 0 [] [] [].
Definition log (n : nat) : prog nat (list nat) := Eff (fun u => ((u ++ [n])%list, 0)).
Definition sb (a b : nat) : bool := b <=? a.
Definition sig (t : nat) : cond := mkCond t PSignal None.

Example C41_ex : (* two handlers of the inner block decline, the outer one takes; 3 does not match *)
  exec 0 sb 50 (Run (WithRestarts [("use", fun v => Ret v)]
    (WithHandlers [([5], fun _ => Bind (log 1) (fun _ => Invoke "use" 42)); ([1], fun _ => log 9)]
      (WithHandlers [([2; 4], fun _ => log 2); ([7], fun _ => log 3); ([1], fun _ => log 4)] (Signal (sig 5)))))) init
  = Some (RVal 42, mkSt [] 4 [] [[("use", fun v => Ret v)]] [2; 4; 1]).
Proof. vm_compute. reflexivity. Qed.

(** C42.  invoke(name) inside any blocks [k] that do not bind the name: everything inside is left,
    the handler stack is that of the restart's block, and the value of the restart's function is
    the result of the [restarts] block. *)
Theorem C42_invoke : forall (V St : Type) none sub k b n a (s : st V St) f,
  (forall i, In i (rs s) -> i < length (blocks s)) -> assoc n b = Some f ->
  (forall rb, In (FRestarts rb) k -> assoc n rb = None) ->
  exists s1, usr s1 = usr s /\ hs s1 = hs s /\ rs s1 = length (blocks s) :: rs s /\
    (exists l, blocks s1 = (blocks s ++ [b] ++ l)%list) /\
    forall r r' s', runs none sub (f a) s1 r s' -> restart_result r r' -> runs none sub (WithRestarts b (inside k (Invoke n a))) s r' (pop_r s').
Proof. exact @invoke_transfers. Qed.
Print Assumptions C42_invoke.

(** The same for any program, which may find the restart in a handler of a signal deeper inside. *)
Theorem C42_transfer : forall (V St : Type) none sub k b p (s : st V St) n a s1 f r r' s',
  runs none sub p (enter k (push_r b s)) (RInvoke (length (blocks s)) n a) s1 -> assoc n b = Some f ->
  runs none sub (f a) (mkSt (hs s) (hver s1 + handler_blocks k) (length (blocks s) :: rs s) (blocks s1) (usr s1)) r s' -> restart_result r r' ->
  runs none sub (WithRestarts b (inside k p)) s r' (pop_r s').
Proof. exact @transfer_result. Qed.
Print Assumptions C42_transfer.

(** Any other result of the body passes through a [restarts] block. *)
Theorem C42_foreign : forall (V St : Type) none sub b p (s : st V St) r s1,
  runs none sub p (push_r b s) r s1 -> (forall n a, r <> RInvoke (length (blocks s)) n a) ->
  runs none sub (WithRestarts b p) s r (pop_r s1).
Proof. exact @runs_restarts_other. Qed.
Print Assumptions C42_foreign.

(** available_restarts lists exactly what find_restart finds. *)
Theorem C42_available : forall (V St : Type) (s : st V St) n f,
  In (n, f) (available_restarts s) <-> exists b, find_restart n s = Some (b, n) /\ assoc n (block s b) = Some f.
Proof. exact @available_spec. Qed.
Print Assumptions C42_available.

(** A restart function runs with its own restarts still visible, so that one which invokes its own
    name, meaning the outer one, is not caught at all: an InvokeRestart escapes to the top level. *)
Theorem C42_same_name_refuted : exists (p q : prog nat (list nat)) s',
  p = WithRestarts [("use", fun v => Ret v)] q /\ q = WithRestarts [("use", fun v => Invoke "use" v)] (Invoke "use" 5) /\
  runs 0 sb p init (RInvoke 1 "use" 5) s'.
Proof. do 2 eexists; eexists. split; [reflexivity|]. split; [reflexivity|]. exists 20. vm_compute. reflexivity. Qed.
Print Assumptions C42_same_name_refuted.

(** A StopIteration from the restart's function comes out as RuntimeError. *)
Theorem C42_stopiteration_refuted : exists (p : prog nat (list nat)) s',
  p = WithRestarts [("use", fun v => RaiseP StopIterationE)] (Invoke "use" 5) /\ runs 0 sb p init (RExc RuntimeError) s'.
Proof. do 2 eexists. split; [reflexivity|]. exists 20. vm_compute. reflexivity. Qed.
Print Assumptions C42_stopiteration_refuted.

Example C42_ex : (* the inner block of the same name wins; a block of another name between does not matter *)
  exec 0 sb 50 (Run (Bind (WithRestarts [("use", fun v => Ret (v + 1)); ("no", fun v => Ret v)]
     (inside [FHandlers [([1], fun _ => Invoke "use" 10)]; FRestarts [("no", fun v => Ret 7)]; FTry (fun _ => Ret 0); FBind (fun _ => log 1)]
        (Signal (sig 5)))) (fun v => Ret (v + 100)))) init
  = Some (RVal 111, mkSt [] 2 [] [[("use", fun v => Ret (v + 1)); ("no", fun v => Ret v)]; [("no", fun v => Ret 7)]] []).
Proof. vm_compute. reflexivity. Qed.

(** C43.  error() never returns: it leaves as its signal leaves, or with ControlError if that returned. *)
Theorem C43_error : forall (V St : Type) none sub c (s : st V St) r s',
  runs none sub (error c) s r s' <->
  (exists v, r = RExc ControlError /\ runs none sub (Signal c) s (RVal v) s') \/
  (runs none sub (Signal c) s r s' /\ ~ is_value r).
Proof. exact @error_spec. Qed.
Print Assumptions C43_error.

(** cerror() returns exactly when its own restart [proceed] was invoked; ControlError if the
    signal returned; otherwise control goes where the handler sent it. *)
Theorem C43_cerror : forall (V St : Type) none sub c (s : st V St) r s',
  let s0 := push_r [("proceed", fun _ => Ret none)] s in let me := length (blocks s) in
  runs none sub (cerror none c) s r s' <->
  (exists s1, s' = pop_r s1 /\
   ((exists a, r = RVal none /\ runs none sub (Signal c) s0 (RInvoke me "proceed" a) s1) \/
    (exists v, r = RExc ControlError /\ runs none sub (Signal c) s0 (RVal v) s1) \/
    (runs none sub (Signal c) s0 r s1 /\ ~ is_value r /\ forall n a, r <> RInvoke me n a))).
Proof. exact @cerror_spec. Qed.
Print Assumptions C43_cerror.

(** warn(): the warning is printed, once and after the handlers, if the signal returned (or
    [_proceed] was invoked); not if its own [muffle] was invoked; and not if control goes elsewhere. *)
Theorem C43_warn : forall (V St : Type) none sub print_warning c (s : st V St) r s',
  let s0 := push_r [("_proceed", fun _ => Ret none)] (push_r [("muffle", fun _ => Ret none)] s) in
  let me := length (blocks s) in
  runs none sub (warn none print_warning c) s r s' <->
  (exists s1, let s2 := pop_r (pop_r s1) in
   (r = RVal none /\ s' = mkSt (hs s2) (hver s2) (rs s2) (blocks s2) (print_warning c (usr s2)) /\
    ((exists v, runs none sub (Signal c) s0 (RVal v) s1) \/ (exists a, runs none sub (Signal c) s0 (RInvoke (S me) "_proceed" a) s1))) \/
   (r = RVal none /\ s' = s2 /\ (exists a, runs none sub (Signal c) s0 (RInvoke me "muffle" a) s1)) \/
   (s' = s2 /\ runs none sub (Signal c) s0 r s1 /\ ~ is_value r /\
    forall b n a, r = RInvoke b n a -> b <> me /\ b <> S me)).
Proof. exact @warn_spec. Qed.
Print Assumptions C43_warn.

Definition pw (c : cond) (u : list nat) : list nat := (u ++ [ctype c])%list.
Example C43_ex_unhandled : option_map fst (exec 0 sb 50 (Run (cerror 0 (mkCond 3 PCerror None))) init) = Some (RExc ControlError).
Proof. vm_compute. reflexivity. Qed.
Example C43_ex_proceed :
  option_map fst (exec 0 sb 50 (Run (WithHandlers [([2], fun _ => Invoke "proceed" 1)] (cerror 0 (mkCond 3 PCerror None)))) init) = Some (RVal 0).
Proof. vm_compute. reflexivity. Qed.
Example C43_ex_warn :
  option_map (fun x => (fst x, usr (snd x))) (exec 0 sb 50 (Run (WithHandlers [([2], fun _ => log 77)] (warn 0 pw (mkCond 3 PWarn None)))) init) = Some (RVal 0, [77; 3]).
Proof. vm_compute. reflexivity. Qed.
Example C43_ex_muffle :
  option_map (fun x => (fst x, usr (snd x))) (exec 0 sb 50 (Run (WithHandlers [([2], fun _ => Invoke "muffle" 0)] (warn 0 pw (mkCond 3 PWarn None)))) init) = Some (RVal 0, []).
Proof. vm_compute. reflexivity. Qed.

(** C44.  However a program ends, both stacks are as before. *)
Theorem C44_balanced : forall (V St : Type) none sub p (s : st V St) r s',
  runs none sub p s r s' -> hs s' = hs s /\ rs s' = rs s /\ exists l, blocks s' = (blocks s ++ l)%list.
Proof. exact @runs_balance. Qed.
Print Assumptions C44_balanced.

(** ... and the same restarts are visible, bound to the same functions. *)
Theorem C44_visible : forall (V St : Type) none sub p (s : st V St) r s',
  (forall b, In b (rs s) -> b < length (blocks s)) -> runs none sub p s r s' ->
  (forall n, find_restart n s' = find_restart n s) /\ available_restarts s' = available_restarts s /\
  (forall b, In b (rs s') -> b < length (blocks s')).
Proof. exact @visible. Qed.
Print Assumptions C44_visible.

Example C44_ex : exists s', runs 0 sb (WithHandlers [([1], fun _ => RaiseP KeyError)] (WithRestarts [("a", fun _ => Ret 0)] (Signal (sig 3)))) init (RExc KeyError) s'
  /\ hs s' = [] /\ rs s' = [].
Proof. eexists. split; [exists 20; vm_compute; reflexivity|split; reflexivity]. Qed.

(** C45.  Handlers that decline without using [with handlers] or signalling (they may do anything
    else, and look for restarts): the guarantee of C41 holds.  The full property is refuted below. *)
Theorem C45_decline_partial : forall (V St : Type) none sub c (s : st V St) r s',
  (forall h, In h (matching sub c (hs s)) -> quiet (h c)) ->
  (runs none sub (Signal c) s r s' <-> offers none sub c (matching sub c (hs s)) s r s').
Proof. intros V St none sub c s r s' H. exact (signal_offers none sub c s r s' (fun h Hh => quiet_steady none sub c h (H h Hh))). Qed.
Print Assumptions C45_decline_partial.

(** A handler that uses a [with handlers] block of its own, properly closed, and declines: signal()
    raises RuntimeError instead of asking the outer handler, which would have taken the condition. *)
Theorem C45_decline_refuted : exists (h outer : cond -> prog nat (list nat)) s',
  (forall c s, exists s1, runs 0 sb (h c) s (RVal 0) s1) /\
  runs 0 sb (WithRestarts [("use", fun v => Ret v)] (WithHandlers [([1], outer)] (Signal (sig 3)))) init (RVal 42) s' /\
  exists s'', runs 0 sb (WithRestarts [("use", fun v => Ret v)]
     (WithHandlers [([1], outer)] (WithHandlers [([1], h)] (Signal (sig 3))))) init (RExc RuntimeError) s''.
Proof.
  exists (fun _ => WithHandlers [] (Ret 0)), (fun _ => Invoke "use" 42). eexists. split; [|split].
  - intros c s. eexists. exists 5. cbn. reflexivity.
  - exists 20. vm_compute. reflexivity.
  - eexists. exists 20. vm_compute. reflexivity.
Qed.
Print Assumptions C45_decline_refuted.

Example C45_ex : quiet (V := nat) (St := list nat) (Bind (log 2) (fun _ => FindRestart "use" (fun x => match x with Some _ => Ret 1 | None => log 3 end))).
Proof. constructor; [constructor|]. intros v. constructor. intros [x|]; constructor. Qed.

(** C72.  The first entry of the mapping that matches the library condition decides: if signalling
    its application condition, by the same protocol and with the original as its cause, leads to a
    transfer of control or an exception, that is what the handler installed by resignal() does. *)
Theorem C72_converts : forall (V St : Type) none sub print_warning m1 lib app m2 c (s : st V St) r s',
  (forall lib app, In (lib, app) m1 -> existsb (sub (ctype c)) lib = false) ->
  existsb (sub (ctype c)) lib = true ->
  runs none sub (by_protocol none print_warning (cproto c) (mkCond app (cproto c) (Some c))) s r s' -> ~ is_value r ->
  runs none sub (resignal_handler none sub print_warning (m1 ++ (lib, app) :: m2) c) s r s'.
Proof. exact @resignal_first. Qed.
Print Assumptions C72_converts.

(** Conditions that are not in the mapping are left alone. *)
Theorem C72_unmapped : forall (V St : Type) none sub print_warning m c (s : st V St),
  (forall lib app, In (lib, app) m -> existsb (sub (ctype c)) lib = false) ->
  runs none sub (resignal_handler none sub print_warning m c) s (RVal none) s.
Proof. exact @resignal_none. Qed.
Print Assumptions C72_unmapped.

(** cerror() of a mapped condition: an outer handler that invokes [proceed] for the application
    condition does not make the program proceed; ControlError for the original condition. *)
Definition eqt (a b : nat) : bool := (b =? 0) || (a =? b).
Theorem C72_cerror_proceed_refuted : exists s',
  runs 0 eqt (WithHandlers [([7], fun _ => Invoke "proceed" 0)]
     (resignal 0 eqt pw 0 [([5], 7)] (cerror 0 (mkCond 5 PCerror None)))) init (RExc ControlError) s' /\
  exists s'', runs 0 eqt (WithHandlers [([7], fun _ => Invoke "proceed" 0)] (cerror 0 (mkCond 7 PCerror None))) init (RVal 0) s''.
Proof. eexists. split; [exists 40; vm_compute; reflexivity|]. eexists. exists 40. vm_compute. reflexivity. Qed.
Print Assumptions C72_cerror_proceed_refuted.

(** warn() of a mapped condition: muffling the application's warning does not muffle the original. *)
Theorem C72_warn_muffle_refuted : exists s',
  runs 0 eqt (WithHandlers [([7], fun _ => Invoke "muffle" 0)]
     (resignal 0 eqt pw 0 [([5], 7)] (warn 0 pw (mkCond 5 PWarn None)))) init (RVal 0) s' /\ usr s' = [5].
Proof. eexists. split; [exists 40; vm_compute; reflexivity|]. vm_compute. reflexivity. Qed.
Print Assumptions C72_warn_muffle_refuted.

(** A mapping whose application type is a subtype of the library type, such as
    {Exception: MyApplicationError}: resignal() calls itself without end, by every protocol. *)
Theorem C72_subtype_refuted : forall (V St : Type) (none : V) sub print_warning any lib app c (s : st V St) fuel,
  existsb (sub app) lib = true -> sub app any = true -> sub (ctype c) any = true -> existsb (sub (ctype c)) lib = true ->
  exec none sub fuel (Run (resignal none sub print_warning any [(lib, app)] (Signal c))) s = None.
Proof.
  intros V St none sub pwn any lib app c s [|fuel] H1 H2 H3 H4; [reflexivity|]. cbn [exec resignal].
  unfold resignal. cbn [exec].
  rewrite (proj1 (resignal_loops none sub pwn lib app any (hs s) fuel H1 H2 c (push_h [([any], resignal_handler none sub pwn [(lib, app)])] s) 0 eq_refl H3 H4)).
  reflexivity.
Qed.
Print Assumptions C72_subtype_refuted.

Example C72_ex : (* the outer handler sees the application's condition and its cause *)
  option_map (fun x => (fst x, usr (snd x))) (exec 0 eqt 60 (Run (WithRestarts [("use", fun v => Ret v)]
    (WithHandlers [([7], fun c => Invoke "use" (match ccause c with Some c' => 100 * ctype c + ctype c' | None => 0 end))]
      (resignal 0 eqt pw 0 [([4], 6); ([3; 5], 7)] (error (mkCond 5 PError None)))))) init)
  = Some (RVal 705, []).
Proof. vm_compute. reflexivity. Qed.
