(** C127: what a REPL session leaves behind, whatever goes wrong in it. *)
From Coq Require Import List Bool.
From Verif Require Import SesModel SesSpec SesProofs.
Import ListNotations.

(** Whatever goes wrong after the session was entered in the list of sessions, it is taken off it in the end. *)
Theorem C127_deregistered : forall faults, works faults [Count; Register; Deregister] -> active (fst (exec faults handle s0)) = false.
Proof. exact deregistered. Qed.
Print Assumptions C127_deregistered.

(** No error gets out to the server, provided the error can be printed. *)
Theorem C127_contained : forall faults, works faults [Count; Register; PrintError; Deregister] -> snd (exec faults handle s0) = None.
Proof. exact contained. Qed.
Print Assumptions C127_contained.

(** The two files are closed if they were opened. *)
Theorem C127_files : forall faults,
  (forall e, faults CloseW <> Some (Before e)) -> (forall e, faults OpenW <> Some (After e)) ->
  (forall e, faults CloseR <> Some (Before e)) -> (forall e, faults OpenR <> Some (After e)) ->
  wfile (fst (exec faults handle s0)) = false /\ rfile (fst (exec faults handle s0)) = false.
Proof. exact files_closed. Qed.
Print Assumptions C127_files.

(** The terminal is closed and its thread ended, whatever happens at the prompt or elsewhere, if setting up and cleaning up do not fail. *)
Theorem C127_terminal_partial : forall faults, works faults (setting_up ++ cleaning_up) -> (forall e, faults OpenPty <> Some (After e)) ->
  let s := fst (exec faults handle s0) in master s = false /\ slave s = false /\ forwarding s = false.
Proof. exact terminal_closed. Qed.
Print Assumptions C127_terminal_partial.
Example C127_ex : exists faults, faults Interact = Some (Before Other) /\ works faults [Count; Register; Deregister; PrintError] /\ works faults (setting_up ++ cleaning_up) /\
  served (fst (exec (fun _ => None) handle s0)) = true /\ exec faults handle s0 = (mkst true false false false false false false true false, None).
Proof.
  exists (fun a => match a with Interact => Some (Before Other) | _ => None end). split; [reflexivity|].
  split; [intros a I; cbn in I; repeat destruct I as [<-|I]; try reflexivity; destruct I|]. split; [intros a I; cbn in I; repeat destruct I as [<-|I]; try reflexivity; destruct I|].
  split; reflexivity.
Qed.

(** Every failure between the opening of the terminal and the prompt leaves the terminal open, with any error at any of the steps. *)
Theorem C127_terminal_refuted : forall faults, works faults [Count; Register; OpenPty] -> (exists a, In a setting_up /\ faults a <> None) ->
  let s := fst (exec faults handle s0) in master s = true /\ slave s = true.
Proof. exact leaks. Qed.
Print Assumptions C127_terminal_refuted.
Example C127_ex_leak : let faults a := match a with PrintGreeting => Some (Before Other) | _ => None end in
  works faults [Count; Register; OpenPty] /\ forwarding (fst (exec faults handle s0)) = true.
Proof. cbv zeta. split; [intros a I; cbn in I; repeat destruct I as [<-|I]; try reflexivity; destruct I|reflexivity]. Qed.

(** And so does a failure of the message before it is closed. *)
Theorem C127_message_refuted : forall e, exists faults, faults PrintClosing = Some (Before e) /\ (forall a, a <> PrintClosing -> faults a = None) /\
  let s := fst (exec faults handle s0) in master s = true /\ slave s = true /\ forwarding s = true.
Proof.
  intros e. exists (fun a => match a with PrintClosing => Some (Before e) | _ => None end). split; [reflexivity|]. split; [|repeat split].
  intros [] N; try reflexivity. congruence.
Qed.
Print Assumptions C127_message_refuted.
