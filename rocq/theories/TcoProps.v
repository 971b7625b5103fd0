(** C37: trampolines. *)
From Coq Require Import List Arith.
From Verif Require Import Base TcoModel TcoSpec TcoProofs.
Import ListNotations.
Open Scope nat_scope.
Open Scope list_scope.

(** A call of a trampolined function ends with some outcome and state exactly when the program
    in which every jump is a direct call does, with the same outcome and state. *)
Theorem C37_same_result : forall (D St : Type) (body : nat -> list (val D) -> cmd D St)
  (Hprog : forall i args, disciplined body (body i args)) i args s o s',
  (exists n, direct body (body i args) s o s' n) <->
  (exists fuel d, exec body fuel (CallTramp i args) s = Some (result_of o, s', d)).
Proof.
  intros D St body Hprog i args s o s'. split.
  - intros [n H]. destruct (direct_exec body Hprog _ _ _ _ _ _ H) as (fuel & d & E & _). exists fuel, d. exact E.
  - intros (fuel & d & E). destruct (exec_direct body Hprog _ _ _ _ _ _ _ E) as (o' & n & Eo & H & _).
    assert (o = o') by (destruct o, o'; cbn in Eo; congruence). subst o'. exists n. exact H.
Qed.
Print Assumptions C37_same_result.

(** The number of Python frames is at most twice the nesting depth of the calls that are not in
    tail position, and what comes out of a trampoline is never a jump. *)
Theorem C37_depth : forall (D St : Type) (body : nat -> list (val D) -> cmd D St)
  (Hprog : forall i args, disciplined body (body i args)) fuel i args s r s' d,
  exec body fuel (CallTramp i args) s = Some (r, s', d) ->
  exists o n, r = result_of o /\ direct body (body i args) s o s' n /\ d <= 2 * n.
Proof. exact @exec_direct. Qed.
Print Assumptions C37_depth.

(** When all calls are jumps, two frames suffice for any number of jumps. *)
Theorem C37_constant_stack : forall (D St : Type) (body : nat -> list (val D) -> cmd D St)
  (Htail : forall i args, no_call (body i args)) fuel i args s r s' d,
  exec body fuel (CallTramp i args) s = Some (r, s', d) -> d = 2.
Proof. intros D St body Htail fuel i args s r s' d. exact (proj2 (proj2 (no_call_depth body Htail fuel s r s' d)) i args). Qed.
Print Assumptions C37_constant_stack.

(** Jumping into data raises RuntimeError in the trampoline. *)
Theorem C37_jump_into_data : forall (D St : Type) (body : nat -> list (val D) -> cmd D St) fuel i args s d a s1 n,
  exec body fuel (Body (body i args)) s = Some (RJump (Data d) a, s1, n) ->
  exists fuel' m, exec body fuel' (CallTramp i args) s = Some (RExc RuntimeError, s1, m).
Proof. exact @jump_data. Qed.
Print Assumptions C37_jump_into_data.

(** @trampolined above a do-it-now decorator: a jump that was left behind is taken at once, any
    other value is passed through. *)
Theorem C37_inert : forall (D St : Type) (body : nat -> list (val D) -> cmd D St) fuel f args s r s' d,
  exec body fuel (Inert (make_jump (Fn f) args)) s = Some (r, s', d) <->
  exec body fuel (CallTramp (number f) args) s = Some (r, s', d).
Proof. intros. apply inert_exec. Qed.
Print Assumptions C37_inert.

(** even / odd by mutual jumps, [odd] jumping to the undecorated [even]; function 2 makes an
    ordinary call. *)
Definition evenodd (i : nat) (args : list (val nat)) : cmd nat nat :=
  match i, args with
  | 0, [Data 0] => Ret (Data 1)
  | 0, [Data (S n)] => Eff (fun s => (S s, Data n)) (fun v => Jump (Fn (Tramp 1)) [v])
  | 1, [Data 0] => Ret (Data 0)
  | 1, [Data (S n)] => Jump (Fn (Plain 0)) [Data n]
  | 2, [v] => Call (Fn (Tramp 0)) [v] (fun o => match o with Ok w => Jump (Fn (Tramp 1)) [w] | Raise e => RaiseExc e end)
  | _, _ => RaiseExc TypeError
  end.
Example evenodd_disciplined : forall i args, disciplined evenodd (evenodd i args).
Proof.
  intros [|[|[|i]]] args; destruct args as [|[[|d]|f] [|w args]]; cbn; repeat constructor;
    intros [|]; constructor.
Qed.
Example evenodd_run : exec evenodd 1000 (CallTramp 0 [Data 101]) 0 = Some (RVal (Data 0), 51, 2).
Proof. vm_compute. reflexivity. Qed.
Example evenodd_nested : exec evenodd 1000 (CallTramp 2 [Data 100]) 0 = Some (RVal (Data 1), 50, 4).
Proof. vm_compute. reflexivity. Qed.
Definition loop_only (i : nat) (args : list (val nat)) : cmd nat nat :=
  match args with [Data (S n)] => Jump (Fn (Tramp i)) [Data n] | [Data 0] => Jump (Data 7) [] | _ => Ret (Data i) end.
Example loop_only_tail : forall i args, no_call (loop_only i args).
Proof. intros i [|[[|d]|f] [|w args]]; constructor. Qed.
Example loop_only_run : exec loop_only 1000 (CallTramp 3 [Data 50]) 0 = Some (RExc RuntimeError, 0, 2).
Proof. vm_compute. reflexivity. Qed.
Example loop_only_data : exec loop_only 5 (Body (loop_only 3 [Data 0])) 0 = Some (RJump (Data 7) [], 0, 1).
Proof. reflexivity. Qed.
