(** C120: starting, stopping and halting the REPL server. *)
From Verif Require Import Base SrvModel SrvSpec SrvProofs.
From Coq Require Import List Bool Arith Lia.
Import ListNotations.

(** If the ports can be bound and nobody else changes sys, then at any time either all of the server is
    there, for the namespace of the start it comes from, or everything is as it was before. *)
Theorem C120_all_or_nothing_partial : forall o1 o2 h, (forall e, In e h -> plain e) ->
  let w := run o1 o2 h in
  match serving None h with
  | Some l => instance w = true /\ namespace w = Some l /\ stdin w = Shimmed /\ stdout w = Shimmed /\ stderr w = Shimmed /\
      ps1 w = Some Server /\ ps2 w = Some Server /\ registered w = true /\ repl_port w = true /\ control_port w = true
  | None => instance w = false /\ namespace w = None /\ stdin w = Original /\ stdout w = Original /\ stderr w = Original /\
      ps1 w = o1 /\ ps2 w = o2 /\ registered w = false /\ repl_port w = false /\ control_port w = false
  end.
Proof. exact serves. Qed.
Print Assumptions C120_all_or_nothing_partial.

(** A second start is refused and changes nothing; a second stop does nothing. *)
Theorem C120_again : forall o1 o2 w l a b,
  (instance w = true -> start w l a b = (w, Raised RuntimeError)) /\ (instance w = false -> stop o1 o2 w = (w, Returned)).
Proof. exact (fun o1 o2 w l a b => conj (start_running w l a b) (stop_stopped o1 o2 w)). Qed.
Print Assumptions C120_again.

(** The main loop is left exactly when the last call of halt asked for it and no session is open. *)
Theorem C120_halt : forall o1 o2 h, leaves_main (run o1 o2 h) = true <-> halted false h = true /\ forall n, ~ active h n.
Proof. exact main_loop. Qed.
Print Assumptions C120_halt.

(** Refuted: a start that fails leaves things as they were.  When the port of the control channel is
    taken, the REPL port is served and the streams are replaced; stop() does nothing about it, and a
    second start fails because the first port is now taken. *)
Theorem C120_failed_start_refuted : forall o1 o2,
  let w := run o1 o2 [Start 1 true false; Stop; Stop] in
  snd (start (fresh o1 o2) 1 true false) = Raised OSErrorE /\
  instance w = false /\ repl_port w = true /\ stdout w = Shimmed /\ ps1 w = Some Server /\ registered w = false /\
  snd (start w 1 true true) = Raised OSErrorE.
Proof. repeat split. Qed.
Print Assumptions C120_failed_start_refuted.

(** Refuted: stop() puts back what start replaced.  It puts back what was there at import. *)
Theorem C120_restore_refuted : forall o1 o2,
  stdout (run o1 o2 [Redirect 5]) = Users 5 /\ stdout (run o1 o2 [Redirect 5; Start 1 true true; Stop]) = Original.
Proof. intros [p|] [q|]; split; reflexivity. Qed.
Print Assumptions C120_restore_refuted.

Definition day : list event := [Start 7 true true; Open; Start 8 true true; Halt true; Open; Close 1; Stop; Close 2; Halt false; Halt true].
Example C120_ex : (forall e, In e day -> plain e) /\ serving None (firstn 4 day) = Some 7 /\ serving None day = None /\
  leaves_main (run None None day) = true /\ leaves_main (run None None (firstn 6 day)) = false.
Proof.
  repeat split. intros e I. cbn in I. repeat (destruct I as [<-|I]; [cbn; auto|]). destruct I.
Qed.
