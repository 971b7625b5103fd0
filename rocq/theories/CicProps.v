(** C135: the REPL client and Ctrl+C. *)
From Coq Require Import List Bool ZArith.
From Verif Require Import Base MsgModel CliModel CicModel CicSpec CicProofs.
Import ListNotations.
Open Scope nat_scope.
Open Scope list_scope.

(** Whatever else happens, if Ctrl+C is not pressed in the instants between showing the text and clearing the buffer,
    between that and showing the prompt, and between taking data from the socket and storing it: nothing is shown but
    what the server has sent, in order and once, and whenever the client waits, all of it has been shown. *)
Theorem C135_text_partial : forall (utf8 : bytes -> bool) (ps1 ps2 : bytes), ps1 <> [] -> ps2 <> [] ->
  forall v s ls es,
  let c := run utf8 ps1 ps2 (start v s ls) es in
  never_at utf8 ps1 ps2 (fun c => text_at_risk (at_ c)) (start v s ls) es ->
  exists taken rest, s = taken ++ src c /\ v ++ concat taken = shown (log c) ++ rest /\ (waits c -> rest = []).
Proof. exact text_shown. Qed.
Print Assumptions C135_text_partial.

(** If Ctrl+C is not pressed between the end of input() and the sending of the line: the lines that the user types are
    sent, each once and in order. *)
Theorem C135_lines_partial : forall (utf8 : bytes -> bool) (ps1 ps2 : bytes) v s ls es,
  let c := run utf8 ps1 ps2 (start v s ls) es in
  never_at utf8 ps1 ps2 (fun c => line_at_risk (at_ c)) (start v s ls) es ->
  exists used rest, ls = used ++ rest ++ typed c /\ sent (log c) = map (fun l => l ++ [newline]) used /\
    length rest <= 1 /\ (~ line_at_risk (at_ c) -> rest = []).
Proof. exact lines_sent. Qed.
Print Assumptions C135_lines_partial.

(** Each Ctrl+C in the loop makes the client send one empty line, no more and no less. *)
Theorem C135_answered : forall (utf8 : bytes -> bool) (ps1 ps2 : bytes) v s ls es,
  let c := run utf8 ps1 ps2 (start v s ls) es in
  at_ c <> Ended Interrupted -> at_ c <> InNotify -> at_ c <> InBlank ->
  blanks (log c) = presses utf8 ps1 ps2 (start v s ls) es.
Proof. exact answered. Qed.
Print Assumptions C135_answered.

(** Ctrl+C does not end the client, unless it is pressed while the client is busy with another one. *)
Theorem C135_survives_partial : forall (utf8 : bytes -> bool) (ps1 ps2 : bytes) v s ls es,
  never_at utf8 ps1 ps2 busy (start v s ls) es -> at_ (run utf8 ps1 ps2 (start v s ls) es) <> Ended Interrupted.
Proof. exact survives. Qed.
Print Assumptions C135_survives_partial.

(** In every run: if Ctrl+C is pressed while the client waits, and the server answers with some text and its prompt,
    the interrupt is passed on, the text is shown and the user is asked again. *)
Theorem C135_asks_again : forall (utf8 : bytes -> bool) (ps1 ps2 : bytes) v s ls es d src',
  let c := run utf8 ps1 ps2 (start v s ls) es in
  waits c -> src c = d :: src' -> utf8 d = true -> endswith d ps1 = true ->
  let c' := run utf8 ps1 ps2 c (CtrlC :: repeat (Go false) 9) in
  at_ c' = AtTyping /\ log c' = log c ++ [Notify; Blank; Cli (Write (strip d ps1)); Cli (Ask ps1)] /\
  src c' = src' /\ typed c' = typed c.
Proof. exact again. Qed.
Print Assumptions C135_asks_again.

(** Without Ctrl+C the client does what the theorems of C112 are about. *)
Theorem C135_without : forall (utf8 : bytes -> bool) (ps1 ps2 : bytes) v s ls,
  exists n, let c := run utf8 ps1 ps2 (start v s ls) (repeat (Go false) n) in
  has_ended c /\ log c = map Cli (loop utf8 ps1 ps2 v s ls).
Proof. exact without. Qed.
Print Assumptions C135_without.

(** ** Examples: the prompts are ">" and "."; the server sends "A>", then "B", "C>" *)
Definition ex_utf8 (b : bytes) : bool := true.
Definition ex_ps1 : bytes := [62%Z].
Definition ex_ps2 : bytes := [46%Z].
Definition ex_start : client := start [65; 62]%Z [[66]; [67; 62]]%Z [[120]]%Z.
Notation ex_run := (run ex_utf8 ex_ps1 ex_ps2).
(** The user types a line; while the client waits for the answer, Ctrl+C is pressed, and "B" and "C>" arrive. *)
Definition ex_events : list event :=
  repeat (Go false) 6 ++ [CtrlC] ++ repeat (Go false) 4 ++ [Go true] ++ repeat (Go false) 7.

Example C135_ex :
  never_at ex_utf8 ex_ps1 ex_ps2 (fun c => text_at_risk (at_ c)) ex_start ex_events /\
  never_at ex_utf8 ex_ps1 ex_ps2 (fun c => line_at_risk (at_ c)) ex_start ex_events /\
  never_at ex_utf8 ex_ps1 ex_ps2 busy ex_start ex_events /\
  waits (ex_run ex_start ex_events) /\ presses ex_utf8 ex_ps1 ex_ps2 ex_start ex_events = 1 /\
  log (ex_run ex_start ex_events) =
    [Cli (Write [65]); Cli (Ask ex_ps1); Cli (Send [120; 10]); Notify; Blank;
     Cli (Write [66; 67]); Cli (Ask ex_ps1)]%Z.
Proof.
  split; [|split; [|split; [|split; [|split]]]]; try reflexivity.
  1, 2, 3: vm_compute; repeat split; intros; try discriminate; auto.
  now left.
Qed.

Example C135_again_ex :
  let c := ex_run (start [65; 62]%Z [[67; 62]]%Z []) (repeat (Go false) 4) in
  waits c /\ src c = [[67; 62]%Z] /\ endswith [67; 62]%Z ex_ps1 = true.
Proof. vm_compute. repeat split. now left. Qed.

(** That nothing is shown twice is false: Ctrl+C between the writing and the clearing of the buffer. *)
Theorem C135_twice_refuted : exists es,
  let c := ex_run ex_start es in
  waits c /\ shown (log c) = [65; 65; 62; 66]%Z /\ src c = [[67; 62]%Z].
Proof.
  exists (repeat (Go false) 2 ++ [CtrlC] ++ repeat (Go false) 8). vm_compute. repeat split. now right.
Qed.
Print Assumptions C135_twice_refuted.

(** That nothing gets lost is false: Ctrl+C between taking "B" from the socket and storing it. *)
Theorem C135_lost_refuted : exists es,
  let c := ex_run ex_start es in
  waits c /\ shown (log c) = [65; 62; 67; 62]%Z /\ src c = [].
Proof.
  exists (repeat (Go false) 7 ++ [CtrlC] ++ repeat (Go false) 9). vm_compute. repeat split. now left.
Qed.
Print Assumptions C135_lost_refuted.

(** That every line that was typed is sent is false. *)
Theorem C135_line_refuted : exists es,
  let c := ex_run ex_start es in
  waits c /\ sent (log c) = [] /\ typed c = [] /\ typed ex_start = [[120%Z]].
Proof.
  exists (repeat (Go false) 5 ++ [CtrlC] ++ repeat (Go false) 4 ++ [Go true] ++ repeat (Go false) 7). vm_compute. repeat split. now left.
Qed.
Print Assumptions C135_line_refuted.

(** That Ctrl+C only ever interrupts the server is false: pressed again at once, it ends the client. *)
Theorem C135_end_refuted : exists es, at_ (ex_run ex_start es) = Ended Interrupted.
Proof. exists (repeat (Go false) 4 ++ [CtrlC; Go false; CtrlC]). reflexivity. Qed.
Print Assumptions C135_end_refuted.

(** ** The control channel *)

(** Every request that is sent is handled by the server, however the client is interrupted. *)
Theorem C135_served : forall (S Q R : Type) (serve : S -> Q -> S * R) (okay : R -> bool) (l : list (Q * moment)) (c : channel S R),
  server (fst (requests serve okay c l)) = served serve (server c) (sent_requests l).
Proof. exact @served_requests. Qed.
Print Assumptions C135_served.

(** If Ctrl+C is never pressed while the client waits for a reply: every request gives the reply to itself. *)
Theorem C135_replies_partial : forall (S Q R : Type) (serve : S -> Q -> S * R) (okay : R -> bool) s (l : list (Q * moment)) i q m,
  ~ In InSelect (map snd l) -> nth_error l i = Some (q, m) ->
  nth_error (snd (requests serve okay (mkchannel s [] true) l)) i = Some (gives serve okay s (firstn i l) q m).
Proof. exact @own_reply. Qed.
Print Assumptions C135_replies_partial.

Example C135_replies_ex :
  let l := [(1, Undisturbed); (2, AfterRead); (3, BeforeSend); (4, Undisturbed)] in
  ~ In InSelect (map snd l) /\
  snd (requests (fun s q => (s + q, s * q)) (fun _ => true) (mkchannel 10 [] true) l) = [Some 10; None; None; Some 52].
Proof. split; [cbn; intuition discriminate|reflexivity]. Qed.

(** Otherwise this is false for good: the interrupt ends the generator that reads from the socket, and every later request
    (tab completion, for example) gives None, although the server handles it and replies. *)
Theorem C135_replies_refuted : forall (S Q R : Type) (serve : S -> Q -> S * R) (okay : R -> bool) (c : channel S R) q l,
  Forall (fun r => r = None) (snd (requests serve okay c ((q, InSelect) :: l))).
Proof. exact @dead_channel. Qed.
Print Assumptions C135_replies_refuted.
