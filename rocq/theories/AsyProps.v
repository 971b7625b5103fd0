(** C123: async_raise, in any interleaving of any number of threads and calls. *)
From Coq Require Import List Bool Arith.
From Verif Require Import Base AsyModel AsySpec AsyProofs.
Import ListNotations.

(** An exception that a thread gets was sent by a call that returned normally, to a thread object with the ident of that thread. *)
Theorem C123_source : forall supported h i t e, let w := run supported h in
  is_thread w i t -> gets t e ->
  exists c j u id, is_call w c (Thread j) e (Returned (Ok tt)) /\ is_thread w j u /\ ident (stat u) = Some id /\ ident (stat t) = Some id.
Proof. exact source. Qed.
Print Assumptions C123_source.

(** If the system never gives an ident twice: it was sent to that thread. *)
Theorem C123_target_partial : forall supported h i t e, NoDup (idents_given h) ->
  is_thread (run supported h) i t -> gets t e -> exists c, is_call (run supported h) c (Thread i) e (Returned (Ok tt)).
Proof. exact target. Qed.
Print Assumptions C123_target_partial.

(** But systems use idents again.  A call with the object of a thread that has ended can raise the exception in another thread. *)
Theorem C123_target_refuted : exists h0 h t1 t2, let w := run true (h0 ++ h) in
  (exists t0, is_thread (run true h0) 1 t0 /\ stat t0 = Gone 7) /\ h = [Call (Thread 1) 5; Check 0; Inject 0; Look 2] /\
  is_call w 0 (Thread 1) 5 (Returned (Ok tt)) /\ is_thread w 1 t1 /\ received t1 = [] /\ is_thread w 2 t2 /\ received t2 = [5].
Proof.
  exists [New; Start 1; Boot 1 7; Leave 1; Exit 1; New; Start 2; Boot 2 7], [Call (Thread 1) 5; Check 0; Inject 0; Look 2].
  do 2 eexists. cbn. repeat split; try reflexivity. eexists. split; reflexivity.
Qed.
Print Assumptions C123_target_refuted.

(** No exception is received more often than it was sent. *)
Theorem C123_once : forall supported h e, total_got e (run supported h) <= total_sent e (run supported h).
Proof. exact total. Qed.
Print Assumptions C123_once.

(** An exception that awaits a thread is raised when the thread next looks, if no call sends another first and it does not end;
    whatever else happens. *)
Theorem C123_delivered : forall supported h h' i t e,
  is_thread (run supported h) i t -> pending t = Some e -> forallb (leaves_alone i) h' = true ->
  exists t', is_thread (run supported (h ++ h' ++ [Look i])) i t' /\ received t' = received t ++ [e] /\ pending t' = None.
Proof. exact delivered. Qed.
Print Assumptions C123_delivered.

(** Normal return does not mean success: the thread may end before it looks, or a second call may replace the exception. *)
Theorem C123_delivered_refuted :
  (exists h t, is_call (run true h) 0 (Thread 1) 5 (Returned (Ok tt)) /\ is_thread (run true h) 1 t /\ stat t = Gone 7 /\ received t = []) /\
  (exists h t, is_call (run true h) 0 (Thread 1) 5 (Returned (Ok tt)) /\ is_call (run true h) 1 (Thread 1) 6 (Returned (Ok tt)) /\
     is_thread (run true h) 1 t /\ stat t = Running 7 /\ received t = [6] /\ pending t = None).
Proof.
  split.
  - exists [New; Start 1; Boot 1 7; Call (Thread 1) 5; Check 0; Inject 0; Leave 1; Exit 1; Look 1]. eexists. repeat split; reflexivity.
  - exists [New; Start 1; Boot 1 7; Call (Thread 1) 5; Check 0; Call (Thread 1) 6; Check 1; Inject 0; Inject 1; Look 1; Look 1]. eexists. repeat split; reflexivity.
Qed.
Print Assumptions C123_delivered_refuted.

(** The second step of a call: if there is a thread with the ident, the exception awaits it, and nothing else changes in any
    thread; if it has ended meanwhile, ValueError, and nothing changes. *)
Theorem C123_inject : forall supported h c a e id, is_call (run supported h) c a e (Found (Some id)) ->
  let w := run supported h in let w' := run supported (h ++ [Inject c]) in
  (forall i t, is_thread w i t -> exists_with t id -> is_call w' c a e (Returned (Ok tt)) /\ only_awaits w w' i e) /\
  ((forall i t, is_thread w i t -> ~ exists_with t id) -> is_call w' c a e (Returned (Raise ValueError)) /\ threads w' = threads w).
Proof. exact injected. Qed.
Print Assumptions C123_inject.

(** The first step: a thread object whose ident no active thread has is a ValueError, and so is one that was not started, unless
    some thread is just being started; an object that is no thread is a TypeError.  Nothing changes in any thread. *)
Theorem C123_check : forall h c i t e, is_call (run true h) c (Thread i) e Called -> is_thread (run true h) i t ->
  let w := run true h in let w' := run true (h ++ [Check c]) in
  threads w' = threads w /\
  ((exists j u, is_thread w j u /\ (stat u = Limbo \/ exists id, stat u = Running id) /\ ident (stat u) = ident (stat t)) ->
     is_call w' c (Thread i) e (Found (ident (stat t)))) /\
  ((forall j u, is_thread w j u -> stat u = Limbo \/ (exists id, stat u = Running id) -> ident (stat u) <> ident (stat t)) ->
     is_call w' c (Thread i) e (Returned (Raise ValueError))).
Proof. exact checked. Qed.
Print Assumptions C123_check.
Theorem C123_not_thread : forall h c e, is_call (run true h) c NotThread e Called ->
  is_call (run true (h ++ [Check c])) c NotThread e (Returned (Raise TypeError)) /\ threads (run true (h ++ [Check c])) = threads (run true h).
Proof. exact checked_not_thread. Qed.
Print Assumptions C123_not_thread.

(** A thread that was not started should be a ValueError; while another thread is being started, it is a TypeError. *)
Theorem C123_unstarted_refuted : exists h t,
  is_thread (run true h) 2 t /\ stat t = Fresh /\ is_call (run true h) 0 (Thread 2) 5 (Returned (Raise TypeError)).
Proof. exists [New; New; Start 1; Call (Thread 2) 5; Check 0; Inject 0]. eexists. repeat split; reflexivity. Qed.
Print Assumptions C123_unstarted_refuted.

(** A call returns normally, or raises ValueError, TypeError or NotImplementedError; never SystemError. *)
Theorem C123_outcomes : forall supported h c a e r, is_call (run supported h) c a e (Returned r) ->
  r = Ok tt \/ r = Raise ValueError \/ r = Raise TypeError \/ r = Raise NotImplementedError.
Proof. exact returns. Qed.
Print Assumptions C123_outcomes.

(** On interpreters without the C function, every call is a NotImplementedError, and no thread ever gets anything. *)
Theorem C123_unsupported : forall h,
  (forall c a e, is_call (run false h) c a e Called -> is_call (run false (h ++ [Check c])) c a e (Returned (Raise NotImplementedError))) /\
  (forall c a e r, is_call (run false h) c a e (Returned r) -> r = Raise NotImplementedError) /\
  (forall i t e, is_thread (run false h) i t -> ~ gets t e).
Proof. exact unsupported. Qed.
Print Assumptions C123_unsupported.

Example C123_ex : let h := [New; Start 1; Boot 1 7; Call (Thread 1) 5; Check 0] in
  is_call (run true h) 0 (Thread 1) 5 (Found (Some 7)) /\ NoDup (idents_given (h ++ [Inject 0])) /\
  (exists t, is_thread (run true (h ++ [Inject 0])) 1 t /\ pending t = Some 5 /\ exists_with t 7) /\
  forallb (leaves_alone 1) [New; Start 2; Boot 2 8; Look 0; Call (Thread 2) 4; Check 1; Leave 1] = true /\
  total_got 5 (run true (h ++ [Inject 0; Leave 1; Look 1])) = 1.
Proof.
  cbn. repeat split.
  - repeat constructor; cbn; intuition discriminate.
  - eexists. repeat split. left. reflexivity.
Qed.
Example C123_ex_check : let h := [New; Start 1; Boot 1 7; Leave 1; Call (Thread 1) 5; Call NotThread 6] in
  is_call (run true h) 0 (Thread 1) 5 Called /\ is_call (run true h) 1 NotThread 6 Called /\
  is_call (run true (h ++ [Check 0; Check 1])) 0 (Thread 1) 5 (Returned (Raise ValueError)) /\
  is_call (run false h) 0 (Thread 1) 5 Called.
Proof. repeat split; reflexivity. Qed.
Example C123_ex_race : let h := [New; Start 1; Boot 1 7; Call (Thread 1) 5; Check 0; Leave 1; Exit 1] in
  is_call (run true h) 0 (Thread 1) 5 (Found (Some 7)) /\ is_call (run true (h ++ [Inject 0])) 0 (Thread 1) 5 (Returned (Raise ValueError)).
Proof. repeat split; reflexivity. Qed.
