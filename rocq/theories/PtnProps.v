(** C131: partition with its two outputs read in any order. *)
From Coq Require Import List Bool Arith Permutation.
From Verif Require Import Base PtnModel PtnSpec PtnProofs.
Import ListNotations.
Open Scope list_scope.
Open Scope nat_scope.

(** Whatever order the two outputs are read in, and however often: each output has given the items of its kind
    among a prefix of the items read, in the order of the input, nothing lost and nothing twice; and the longer of
    the two prefixes is all that has been read. *)
Theorem C131_given : forall (A : Type) (input : nat -> ev A) (pred : A -> outcome bool) tr s,
  session input pred start tr s ->
  exists k : bool -> nat,
    Nat.max (k false) (k true) = length (items input (calls s)) /\
    forall b, k b <= length (items input (calls s)) /\ given b tr = chosen pred b (firstn (k b) (items input (calls s))).
Proof. exact @partition_gives. Qed.
Print Assumptions C131_given.

(** A request calls the input only if every item of its kind that was read before has been given; all the calls but
    the last bring items of the other kind, and the last brings the answer.  A request that does not call the
    input is answered with an item read before. *)
Theorem C131_lazy : forall (A : Type) (input : nat -> ev A) (pred : A -> outcome bool) tr s b r s',
  session input pred start tr s -> ask input pred b s r s' ->
  calls s <= calls s' /\
  (calls s' <> calls s ->
     given b tr = chosen pred b (items input (calls s)) /\
     (forall j, calls s <= j -> S j < calls s' -> exists x, input j = Item x /\ pred x = Ok (negb b)) /\
     match input (calls s' - 1) with
     | Item a => pred a = Ok b /\ r = Item a \/ pred a = Raise StopIterationE /\ r = Stop \/
                 exists e, pred a = Raise e /\ e <> StopIterationE /\ r = Fail e
     | Stop => r = Stop
     | Fail e => r = Fail e
     end) /\
  (calls s' = calls s ->
     exists a, In a (items input (calls s)) /\
       (pred a = Ok b /\ r = Item a \/ pred a = Raise StopIterationE /\ r = Stop \/
        exists e, pred a = Raise e /\ e <> StopIterationE /\ r = Fail e)).
Proof. exact @partition_reads. Qed.
Print Assumptions C131_lazy.

(** With a predicate that does not raise: an output ends, or fails, only together with the input, and then it has
    given all the items of its kind. *)
Theorem C131_end : forall (A : Type) (input : nat -> ev A) (pred : A -> outcome bool) tr s b r s',
  total pred -> session input pred start tr s -> ask input pred b s r s' -> (forall a, r <> Item a) ->
  calls s < calls s' /\ input (calls s' - 1) = r /\ given b tr = chosen pred b (items input (calls s')).
Proof. exact @partition_end. Qed.
Print Assumptions C131_end.

(** When both outputs have ended, they have together given each item of the input exactly once. *)
Theorem C131_all : forall (A : Type) (input : nat -> ev A) (pred : A -> outcome bool) tr s b s1 s2,
  total pred -> stays_ended input -> session input pred start tr s ->
  ask input pred b s Stop s1 -> ask input pred (negb b) s1 Stop s2 ->
  Permutation (given false tr ++ given true tr) (items input (calls s2)).
Proof. exact @negb_ends. Qed.
Print Assumptions C131_all.

(** A request is answered, in one way, unless the input goes on forever with items of the other kind. *)
Theorem C131_answers : forall (A : Type) (input : nat -> ev A) (pred : A -> outcome bool) tr s b,
  session input pred start tr s ->
  (exists j, calls s <= j /\ forall x, input j = Item x -> pred x <> Ok (negb b)) ->
  exists r s', ask input pred b s r s' /\ forall r2 s2, ask input pred b s r2 s2 -> r2 = r /\ s2 = s'.
Proof. exact @partition_answers. Qed.
Print Assumptions C131_answers.

(** The numbers from 0 to 4: two even ones first, then an odd one from the store, then the rest. *)
Definition upto5 (k : nat) : ev nat := if k <? 5 then Item k else Stop.
Definition odd (n : nat) : outcome bool := Ok (Nat.odd n).
Example C131_ex : exists s s1 s2,
  session upto5 odd start [(false, Item 0); (false, Item 2); (true, Item 1); (false, Item 4); (true, Item 3)] s /\ calls s = 5 /\
  ask upto5 odd false s Stop s1 /\ ask upto5 odd true s1 Stop s2 /\ calls s1 = 6 /\ calls s2 = 7 /\ total odd /\ stays_ended upto5.
Proof.
  do 3 eexists.
  assert (St : stays_ended upto5).
  { intros i j L E. unfold upto5 in *. destruct (i <? 5) eqn:Ei; [discriminate|]. apply Nat.ltb_ge in Ei.
    now replace (j <? 5) with false by (symmetry; apply Nat.ltb_ge; eauto using Nat.le_trans). }
  split; [|split; [|split; [|split; [|split; [|split; [|split; [|exact St]]]]]]].
  - eapply session_ask; [apply ask_given; reflexivity|]. eapply session_ask; [eapply ask_other; [reflexivity|reflexivity|apply ask_given; reflexivity]|].
    eapply session_ask; [eapply ask_other; [reflexivity|reflexivity|apply ask_given; reflexivity]|].
    eapply session_ask; [eapply ask_other; [reflexivity|reflexivity|apply ask_given; reflexivity]|].
    eapply session_ask; [eapply ask_other; [reflexivity|reflexivity|apply ask_given; reflexivity]|]. apply session_none.
  - reflexivity.
  - eapply ask_stop. reflexivity.
  - eapply ask_other; [reflexivity|reflexivity|]. eapply ask_stop. reflexivity.
  - reflexivity.
  - reflexivity.
  - intros a. eexists. reflexivity.
Qed.
