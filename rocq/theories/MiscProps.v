(** C66: Popper, CountingIterator, slurp. *)
From Coq Require Import List.
From Verif Require Import Base MiscModel MiscSpec MiscProofs.
Import ListNotations.
Open Scope nat_scope.
Open Scope list_scope.

(** Whatever has been done to the container, the Popper's next takes its leftmost item; StopIteration
    exactly when it is empty. *)
Theorem C66_popper : forall (X : Type) (l : list X) es, let (c, o) := popper_run l es in
  popper_run l (es ++ [PNext]) = (tl c, o ++ [hd_error c]).
Proof. exact @popper_each. Qed.
Print Assumptions C66_popper.

(** The iteration ends when the container is empty. *)
Theorem C66_popper_next : forall (X : Type) (x : X) l,
  popper_next (X := X) [] = Raise StopIterationE /\ popper_next (x :: l) = Ok (x, l).
Proof. split; reflexivity. Qed.
Print Assumptions C66_popper_next.
(** If the body only appends: nothing is lost, repeated or reordered. *)
Theorem C66_popper_fifo : forall (X : Type) (l : list X) es a, appends es a ->
  let (c, o) := popper_run l es in items o ++ c = l ++ a.
Proof. exact @popper_fifo. Qed.
Print Assumptions C66_popper_fifo.

(** CountingIterator gives what the iterator gives and counts the items, not the exceptions. *)
Theorem C66_counting : forall (X I : Type) (next : I -> outcome X * I) n c, let (rs, c') := counting_run next n c in
  plain_run next n (inner c) = (rs, inner c') /\ count c' = count c + length (yielded rs).
Proof. exact @counting_spec. Qed.
Print Assumptions C66_counting.

(** slurp, with other threads putting: its list and what is left are all the items in order ... *)
Theorem C66_slurp : forall (X : Type) (q : list X) es, only_slurp es -> out (qrun q es) ++ queue (qrun q es) = q ++ puts es.
Proof. exact @slurp_only. Qed.
Print Assumptions C66_slurp.

(** ... and when it returns, it has all that were there at the start. *)
Theorem C66_slurp_complete : forall (X : Type) (q : list X) es, only_slurp es -> finished (qrun q es) = true ->
  exists more, out (qrun q es) = q ++ more.
Proof. exact @slurp_complete. Qed.
Print Assumptions C66_slurp_complete.

(** With other consumers too, its list is in the order of the queue. *)
Theorem C66_slurp_order : forall (X : Type) (q : list X) es, subsequence (out (qrun q es)) (q ++ puts es).
Proof. exact @slurp_order. Qed.
Print Assumptions C66_slurp_order.

Example C66_ex : popper_run [0; 1; 2] [PNext; PChange (cons 10); PNext; PNext; PChange (fun c => c ++ [7]); PNext; PNext; PNext]
  = ([], [Some 0; Some 10; Some 1; Some 2; Some 7; None]).
Proof. reflexivity. Qed.
Example C66_ex2 : appends [PNext; PChange (fun c => c ++ [7]); PNext] [7] /\
  let s := qrun [1; 2] [QSlurp; QPut 3; QSlurp; QSlurp; QSlurp; QPut 4] in out s = [1; 2; 3] /\ finished s = true /\ queue s = [4].
Proof. split; [repeat constructor|repeat split]. Qed.
