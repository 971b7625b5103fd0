(** C119: the proxy between a terminal and a socket. *)
From Verif Require Import Base PtyModel PtySpec PtyProofs.
From Coq Require Import List Bool Arith Lia.
Import ListNotations.

(** If send and write take all they are given, then at any time while the proxy runs, what the client
    has got and what is still in the terminal's buffer is what was written there, and likewise in the
    other direction.  When it has ended, at most a last piece is lost (of which the sending failed), and
    the terminal has at most the text of the callback in addition. *)
Theorem C119_carries : forall (B : Type) bufsize (on_sock : option (list B)) on_slave h, full bufsize h ->
  let p := run bufsize on_sock on_slave h in
  (exists lost, to_client p ++ lost ++ pty_in p = written h /\ (running p = Looping -> lost = [])) /\
  (exists forwarded, to_slave p = forwarded ++ extra on_sock p /\ forwarded ++ sock_in p = sent h /\ (running p = Looping -> extra on_sock p = [])).
Proof. exact @carries. Qed.
Print Assumptions C119_carries.

(** Nothing is reordered, repeated or made up, whatever the operating system does. *)
Theorem C119_order : forall (B : Type) bufsize (on_sock : option (list B)) on_slave h,
  let p := run bufsize on_sock on_slave h in
  subseq (to_client p) (written h) /\
  exists forwarded, to_slave p = forwarded ++ extra on_sock p /\ subseq forwarded (sent h).
Proof. exact @order. Qed.
Print Assumptions C119_order.

(** Whatever is pending arrives, if there are enough turns of the loop. *)
Theorem C119_arrives : forall (B : Type) bufsize (on_sock : option (list B)) on_slave k h, 0 < bufsize ->
  let p := run bufsize on_sock on_slave h in
  running p = Looping -> terminated p = false -> length (pty_in p) <= k * bufsize ->
  to_client (run bufsize on_sock on_slave (h ++ repeat (Round [FromMaster bufsize bufsize None]) k)) = to_client p ++ pty_in p.
Proof. exact @drain_client. Qed.
Print Assumptions C119_arrives.

(** The end of the connection is noticed: when all is received, or by a ConnectionResetError. *)
Theorem C119_disconnect : forall (B : Type) bufsize (on_sock : option (list B)) on_slave h w vs k size,
  let run := run bufsize on_sock on_slave in
  running (run h) = Looping -> terminated (run h) = false -> on_sock = Some w ->
  let noticed h' := running (run h') = Ended Returned /\ calls (run h') = [SocketGone] /\ to_slave (run h') = to_slave (run h) ++ w in
  (client_open (run h) = false -> sock_in (run h) = [] -> noticed (h ++ [Round (FromSocket size k None :: vs)])) /\
  noticed (h ++ [Round (FromSocket size k (Some ConnectionReset) :: vs)]) /\
  (pty_in (run h) <> [] -> noticed (h ++ [Round (FromMaster size k (Some ConnectionReset) :: vs)])).
Proof. exact @gone_socket. Qed.
Print Assumptions C119_disconnect.

(** At most one callback is ever called, and when the thread has ended nothing more is carried. *)
Theorem C119_once : forall (B : Type) bufsize (on_sock : option (list B)) on_slave h,
  let run := run bufsize on_sock on_slave in
  length (calls (run h)) <= 1 /\
  forall e h', running (run h) = Ended e ->
    to_client (run (h ++ h')) = to_client (run h) /\ to_slave (run (h ++ h')) = to_slave (run h) /\ calls (run (h ++ h')) = calls (run h).
Proof. exact (fun B bufsize on_sock on_slave h => conj (once bufsize on_sock on_slave h) (fun e h' => ended_over bufsize on_sock on_slave h h' e)). Qed.
Print Assumptions C119_once.

(** stop() of a running proxy ends the thread at its next turn, and closes the terminal. *)
Theorem C119_stop : forall (B : Type) bufsize (on_sock : option (list B)) on_slave h vs,
  let run := run bufsize on_sock on_slave in
  running (run h) = Looping -> let p := run (h ++ [Stop; Round vs; Join]) in
  running p = NoThread /\ fds_open p = false /\
  to_client p = to_client (run h) /\ to_slave p = to_slave (run h) /\ calls p = calls (run h).
Proof. exact @stops. Qed.
Print Assumptions C119_stop.

(** Refuted: without the condition on send, nothing is lost.  A send that takes only a part of its
    argument (its result is ignored) loses the rest, while the proxy goes on. *)
Theorem C119_short_send_refuted : exists h : list (event nat), let p := run 10 (Some []) true h in
  written h = [1; 2; 3; 4] /\ to_client p = [1; 2; 4] /\ pty_in p = [] /\ running p = Looping.
Proof. exists [Start; SlaveWrites [1; 2; 3]; Round [FromMaster 3 2 None]; SlaveWrites [4]; Round [FromMaster 1 10 None]]. repeat split. Qed.
Print Assumptions C119_short_send_refuted.

(** Refuted: what was written before stop() is called arrives.  The thread does not look again. *)
Theorem C119_stop_refuted : exists h : list (event nat), let p := run 10 (Some []) true h in
  full 10 h /\ written h = [1; 2; 3] /\ to_client p = [] /\ running p = NoThread /\ fds_open p = false.
Proof.
  exists [Start; SlaveWrites [1; 2; 3]; Stop; Round [FromMaster 3 10 None]; Join]. repeat split.
  intros vs v I J. cbn in I. repeat (destruct I as [I|I]; [try discriminate; injection I as <-; cbn in J; intuition; subst; cbn; lia|]). destruct I.
Qed.
Print Assumptions C119_stop_refuted.

(** Refuted: the callback is called whenever the connection is lost.  When send raises
    BrokenPipeError, the thread dies instead. *)
Theorem C119_broken_pipe_refuted : exists h : list (event nat), let p := run 10 (Some [9]) true h in
  running p = Ended (Died BrokenPipe) /\ calls p = [] /\ to_slave p = [].
Proof. exists [Start; ClientCloses; SlaveWrites [1]; Round [FromMaster 1 10 (Some BrokenPipe)]]. repeat split. Qed.
Print Assumptions C119_broken_pipe_refuted.

(** Refuted: the callbacks are optional.  Without them the thread dies of a TypeError. *)
Theorem C119_optional_refuted : exists h h' : list (event nat),
  running (run 10 None true h) = Ended DiedTypeError /\ running (run 10 (Some []) false h') = Ended DiedTypeError.
Proof. exists [Start; ClientCloses; Round [FromSocket 1 10 None]], [Start; SlaveCloses; Round [FromMaster 1 10 None]]. split; reflexivity. Qed.
Print Assumptions C119_optional_refuted.

(** Refuted: stop() closes the terminal.  Not if the proxy was never started. *)
Theorem C119_unstarted_refuted : fds_open (run 10 (Some [] : option (list nat)) true [Stop; Join]) = true.
Proof. reflexivity. Qed.
Print Assumptions C119_unstarted_refuted.

(** A session: both sides talk, in pieces of at most two bytes, and the client leaves. *)
Definition session : list (event nat) :=
  [Start; SlaveWrites [1; 2; 3]; ClientSends [7; 8]; Round [FromMaster 5 2 None; FromSocket 1 2 None]; SlaveWrites [4];
   Round [FromMaster 2 2 None]; ClientCloses; Round [FromSocket 2 2 None]; Round [FromSocket 2 2 None]].
Example C119_ex_session : full 2 session /\ written session = [1; 2; 3; 4] /\ sent session = [7; 8] /\
  let p := run 2 (Some [100]) true session in
  to_client p = [1; 2; 3; 4] /\ to_slave p = [7; 8; 100] /\ calls p = [SocketGone] /\ running p = Ended Returned.
Proof.
  repeat split.
  intros vs v I J. cbn in I. repeat (destruct I as [I|I]; [try discriminate; injection I as <-; cbn in J; intuition; subst; cbn; lia|]). destruct I.
Qed.
Example C119_ex_running : let p := run 2 (Some [100]) true (firstn 3 session) in
  running p = Looping /\ terminated p = false /\ pty_in p = [1; 2; 3] /\ length (pty_in p) <= 2 * 2.
Proof. cbn. repeat split. lia. Qed.
