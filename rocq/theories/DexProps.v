(** C140: the report of an exception by the test framework *)
From Coq Require Import String List Bool Arith.
From Verif Require Import DexModel DexSpec DexProofs.
Import ListNotations.
Open Scope string_scope.
Open Scope list_scope.
Open Scope nat_scope.

(** The report is the whole history that led to the exception, first things first, each exception with its own text and with
    the sentence that says how the next one came; there is a report just when this history has a beginning *)
Theorem C140_report : forall (colorize : string -> string) (h : heap) (e : nat) (text : string),
  (exists n, describe_exception colorize h n e = Some text) <->
  exists first rest, leads h first rest e /\ text = report colorize h first rest.
Proof. exact described. Qed.
Print Assumptions C140_report.

(** An exception has one history *)
Theorem C140_one_history : forall (h : heap) first rest e, leads h first rest e ->
  forall first' rest', leads h first' rest' e -> first = first' /\ rest = rest'.
Proof. exact leads_unique. Qed.
Print Assumptions C140_one_history.

(** The depth of the recursion is the length of the history *)
Theorem C140_depth : forall (colorize : string -> string) (h : heap) first rest e, leads h first rest e ->
  forall n, describe_exception colorize h n e <> None <-> length rest < n.
Proof. exact enough. Qed.
Print Assumptions C140_depth.

(** Python itself reports an exception that is its own cause (it remembers what it has seen); this report never comes *)
Theorem C140_circle_refuted : forall (colorize : string -> string) n e, describe_exception colorize circle n e = None.
Proof. exact circle_never. Qed.
Print Assumptions C140_circle_refuted.

(** Whatever the recursion limit, some history is too long for it *)
Theorem C140_limit_refuted : forall n, exists (h : heap) e first rest, leads h first rest e /\ describe_exception (fun s => s) h n e = None.
Proof. exact long_chain_limit. Qed.
Print Assumptions C140_limit_refuted.

Definition ex_heap : heap := fun i => match i with
  | 0 => mkexc true None None false (Some "  at f
") "zero" "<class 'ZeroDivisionError'>"
  | 1 => mkexc true None (Some 0) false None "" "<class 'KeyError'>"
  | 2 => mkexc true (Some 1) (Some 3) true None "no" "<class 'ValueError'>"
  | 3 => mkexc true None (Some 2) true None "alone" "<class 'OSError'>"
  | _ => mkexc false None None false None "<class 'RuntimeError'>" "<class 'type'>"
  end.
Example ex_report : describe_exception (fun s => s) ex_heap 9 2 = Some "
Traceback (most recent call last):
  at f
<class 'ZeroDivisionError'>: zero

During handling of the above exception, another exception occurred:
<class 'KeyError'>

The above exception was the direct cause of the following exception:
<class 'ValueError'>: no".
Proof. reflexivity. Qed.
Example ex_suppressed : describe_exception (fun s => s) ex_heap 9 3 = Some "<class 'OSError'>: alone".
Proof. reflexivity. Qed.
Example ex_class : describe_exception (fun s => s) ex_heap 9 4 = Some "<class 'RuntimeError'>".
Proof. reflexivity. Qed.
Example ex_leads : leads ex_heap 0 [(During, 1); (Caused, 2)] 2.
Proof.
  apply (l_next ex_heap 0 [(During, 1)] 1 Caused 2).
  - apply (l_next ex_heap 0 [] 0 During 1); [apply l_first; intros a w F; inversion F; cbn in *; congruence | apply f_context; reflexivity].
  - apply f_cause; reflexivity.
Qed.
