(** C141: timers, and the place of a call *)
From Coq Require Import String List Bool Arith.
From Verif Require Import Base TmrModel TmrSpec TmrProofs.
Import ListNotations.
Open Scope string_scope.
Open Scope list_scope.
Open Scope nat_scope.

(** A timer measures the time that its block takes, at any time of the clock and with any use of other timers; it prints this
    if asked to, and keeps it until it is left again *)
Theorem C141_measures : forall n a b c o q, made a o q -> (forall q', ~ In (New o q') (b ++ c)) -> ~ In (Enter o) b -> ~ In (Exit o) c ->
  snd (step (run (start n) (a ++ Enter o :: b)) (Exit o)) = (if q then Printed (elapsed b) else Nothing) /\
  snd (step (run (start n) (a ++ Enter o :: b ++ Exit o :: c)) (Read o)) = Value (elapsed b).
Proof. exact measures. Qed.
Print Assumptions C141_measures.
Example ex_measures : let b := [Wait 2; New 7 false; Enter 7; Wait 3; Exit 7; Wait 1] in
  made [Wait 5; New 0 true; Wait 1] 0 true /\ (forall q', ~ In (New 0 q') (b ++ [Enter 0; Wait 9])) /\ ~ In (Enter 0) b /\ ~ In (Exit 0) [Enter 0; Wait 9] /\
  snd (step (run (start 100) ([Wait 5; New 0 true; Wait 1] ++ Enter 0 :: b)) (Exit 0)) = Printed 6.
Proof.
  cbn. split; [exists [Wait 5], [Wait 1]; split; [reflexivity|intros q' [E|[]]; discriminate]|]. repeat split; try intros q'; intuition discriminate.
Qed.

(** A block within a block: the outer time is the inner one and what comes before and after *)
Theorem C141_nested : forall n a b1 b2 b3 o i q q', o <> i -> made a o q -> made a i q' -> (forall z z', ~ In (New z z') (b1 ++ b2 ++ b3)) ->
  (forall z, z = o \/ z = i -> ~ In (Enter z) (b1 ++ b2 ++ b3) /\ ~ In (Exit z) (b1 ++ b2 ++ b3)) ->
  exists outer inner, let w := run (start n) (a ++ Enter o :: b1 ++ Enter i :: b2 ++ Exit i :: b3 ++ [Exit o]) in
    snd (step w (Read o)) = Value outer /\ snd (step w (Read i)) = Value inner /\ outer = elapsed b1 + inner + elapsed b3.
Proof. exact within. Qed.
Print Assumptions C141_nested.
Example ex_nested : let l := [New 0 false; New 1 false; Enter 0; Wait 1; Enter 1; Wait 2; Exit 1; Wait 3; Exit 0] in
  snd (step (run (start 0) l) (Read 0)) = Value 6 /\ snd (step (run (start 0) l) (Read 1)) = Value 2.
Proof. split; reflexivity. Qed.

(** There is no time to read, or to measure, before the timer is entered *)
Theorem C141_not_entered : forall n x y o q, ~ In (Enter o) y -> (forall q', ~ In (New o q') y) -> let a := x ++ New o q :: y in
  snd (step (run (start n) a) (Exit o)) = Fails AttributeError /\ snd (step (run (start n) a) (Read o)) = Fails AttributeError.
Proof. exact not_entered. Qed.
Print Assumptions C141_not_entered.

(** A timer that is entered again within its own block does not measure the outer block *)
Theorem C141_same_refuted : exists a b, made a 0 false /\ elapsed b = 3 /\
  snd (step (run (start 0) (a ++ Enter 0 :: b ++ [Exit 0])) (Read 0)) = Value 2.
Proof. exact nested_same. Qed.
Print Assumptions C141_same_refuted.

(** callsite_filename gives the file of the nearest caller that is not one of the helpers *)
Theorem C141_callsite : forall self stack file, callsite_filename (self :: stack) = Ok file <->
  exists inner f outer, stack = inner ++ (f, file) :: outer /\ ~ helper f /\ forall g x, In (g, x) inner -> helper g.
Proof. exact callsite. Qed.
Print Assumptions C141_callsite.

(** It fails just when there is no such caller *)
Theorem C141_callsite_none : forall self stack, callsite_filename (self :: stack) = Raise IndexError <-> forall g x, In (g, x) stack -> helper g.
Proof. exact callsite_none. Qed.
Print Assumptions C141_callsite_none.

(** Helpers are told by their names only: a caller whose function is called [call] is passed over, wherever it is from *)
Theorem C141_name_refuted : forall mine theirs self outer, callsite_filename (self :: ("call", mine) :: ("<module>", theirs) :: outer) = Ok theirs.
Proof. exact name_only. Qed.
Print Assumptions C141_name_refuted.
Example ex_callsite : callsite_filename [("callsite_filename", "misc.py"); ("curried", "fun.py"); ("maybe_force_args", "lazyutil.py"); ("f", "a.py"); ("<module>", "b.py")] = Ok "a.py".
Proof. reflexivity. Qed.
