(** C142: handlers made by invoker *)
From Coq Require Import String List Arith Lia.
From Verif Require Import Base CondModel CondSpec IvkModel IvkProofs.
Import ListNotations.
Open Scope string_scope.
Open Scope list_scope.
Open Scope nat_scope.

(** A condition that is signalled at any depth [k] inside of a block of restarts, and whose innermost handler is invoker(n, a):
    the block is left with the result of its own function of that name on [a]; nothing else is run in between. *)
Theorem C142_strategy : forall (V St : Type) none sub k b n a c (s : st V St) f rest,
  (forall i, In i (rs s) -> i < length (blocks s)) ->
  matching sub c (hs s) = invoker n a :: rest -> assoc n b = Some f ->
  (forall rb, In (FRestarts rb) k -> assoc n rb = None) -> (forall hb, In (FHandlers hb) k -> matching sub c [hb] = []) ->
  exists s1, usr s1 = usr s /\ hs s1 = hs s /\ rs s1 = length (blocks s) :: rs s /\
    (exists l, blocks s1 = blocks s ++ [b] ++ l) /\
    forall r r' s', runs none sub (f a) s1 r s' -> restart_result r r' -> runs none sub (WithRestarts b (inside k (Signal c))) s r' (pop_r s').
Proof. exact @strategy. Qed.
Print Assumptions C142_strategy.

(** `with handlers((T, invoker(n, a)))` around `with restarts(n=lambda x: x)`: the value is [a], the stacks are as before *)
Theorem C142_constant : forall (V St : Type) none sub k ts n a c (s : st V St),
  (forall i, In i (rs s) -> i < length (blocks s)) -> existsb (sub (ctype c)) ts = true ->
  (forall rb, In (FRestarts rb) k -> assoc n rb = None) -> (forall hb, In (FHandlers hb) k -> matching sub c [hb] = []) ->
  exists s', usr s' = usr s /\ hs s' = hs s /\ rs s' = rs s /\
    runs none sub (WithHandlers [(ts, invoker n a)] (WithRestarts [(n, fun v => Ret v)] (inside k (Signal c)))) s (RVal a) s'.
Proof. exact @use_constant. Qed.
Print Assumptions C142_constant.

(** If there is no such restart: ControlError, if nobody handles that *)
Theorem C142_missing_partial : forall (V St : Type) none sub n a c (s : st V St) rest,
  matching sub c (hs s) = invoker n a :: rest -> find_restart n s = None ->
  matching sub (mkCond ControlErrorType PError None) (hs s) = [] -> runs none sub (Signal c) s (RExc ControlError) s.
Proof. exact @missing. Qed.
Print Assumptions C142_missing_partial.

(** If there is no such restart, and the same handler is for ControlError as well (as one for Exception is): the error is
    signalled to that handler again, without end *)
Theorem C142_loops_refuted : forall (V St : Type) none sub n a c (s : st V St) rest rest', find_restart n s = None ->
  matching sub c (hs s) = invoker n a :: rest -> matching sub (mkCond ControlErrorType PError None) (hs s) = invoker n a :: rest' ->
  forall r s', ~ runs none sub (Signal c) s r s'.
Proof. exact @signal_loops. Qed.
Print Assumptions C142_loops_refuted.

(** Type 9 is the base of all types *)
Definition base (a b : nat) : bool := Nat.eqb a b || Nat.eqb b 9.
Definition oops : cond := mkCond 3 PSignal None.
Definition start (t : nat) : st nat nat := mkSt [[([t], invoker "use_value" 42)]] 1 [] [] 7.
Example ex_strategy : let k := [FHandlers [([4], invoker "use_value" 1)]; FRestarts [("retry", fun v => Ret v)]; FTry (fun _ => Ret 5); FBind (fun _ => Ret 6)] in
  matching base oops (hs (start 3)) = [invoker "use_value" 42] /\
  (forall rb, In (FRestarts rb) k -> assoc "use_value" rb = None) /\ (forall hb, In (FHandlers hb) k -> matching base oops [hb] = []) /\
  exists s', runs 0 base (WithRestarts [("use_value", fun v => Ret (v + 1))] (inside k (Signal oops))) (start 3) (RVal 43) s'.
Proof.
  cbv zeta. split; [reflexivity|]. split; [intros rb [E|[E|[E|[E|[]]]]]; try discriminate; injection E as <-; reflexivity|].
  split; [intros hb [E|[E|[E|[E|[]]]]]; try discriminate; injection E as <-; reflexivity|]. eexists. exists 20. reflexivity.
Qed.
Example ex_missing : matching base oops (hs (start 3)) = [invoker "use_value" 42] /\ find_restart "use_value" (start 3) = None /\
  matching base (mkCond ControlErrorType PError None) (hs (start 3)) = [].
Proof. repeat split. Qed.
Example ex_loops : matching base oops (hs (start 9)) = [invoker "use_value" 42] /\ find_restart "use_value" (start 9) = None /\
  matching base (mkCond ControlErrorType PError None) (hs (start 9)) = [invoker "use_value" 42].
Proof. repeat split. Qed.
