(** The REPL client shows the dialogue (C112). *)
From Coq Require Import List Bool ZArith.
From Verif Require Import Base MsgModel CliModel CliSpec CliProofs.
Import ListNotations.
Open Scope Z_scope.

(** A dialogue, in each round of which the server sends its output and a prompt: the client pairs with the session that
    the first line announces, shows every output, asks for input exactly at the prompts, sends what is typed, and stops
    when the server does.  The way the stream is cut into pieces does not matter as long as no piece ends within a
    character or a prompt, or with a prompt that is not one. *)
Theorem C112_dialogue_partial : forall utf8 session_ids ps1 ps2, ps1 <> [] -> ps2 <> [] ->
  forall rounds pieces last chunks val rest id,
  Forall2 (round_ok utf8 ps1 ps2) rounds pieces -> Forall (plain utf8 ps1 ps2) last ->
  concat pieces ++ last = val :: rest -> gathered chunks (val :: rest) -> utf8 val = true -> session_ids (first_line val) = [id] ->
  see (connect utf8 session_ids ps1 ps2 chunks (map line rounds)) =
  Event (Pair id) :: flat_map shown rounds ++ map Byte (concat last) ++ [Event Disconnected].
Proof. exact @shows. Qed.
Print Assumptions C112_dialogue_partial.
(** Ctrl+D at a prompt asks the server to quit; whatever the server sends then is not read. *)
Theorem C112_quit_partial : forall utf8 session_ids ps1 ps2, ps1 <> [] -> ps2 <> [] ->
  forall rounds pieces chunks val rest id c p src,
  Forall2 (round_ok utf8 ps1 ps2) rounds pieces -> utf8 (c ++ p) = true -> p = ps1 \/ (p = ps2 /\ ~ ends_with (c ++ ps2) ps1) ->
  concat pieces ++ (c ++ p) :: src = val :: rest -> gathered chunks (val :: rest) -> utf8 val = true -> session_ids (first_line val) = [id] ->
  see (connect utf8 session_ids ps1 ps2 chunks (map line rounds)) =
  Event (Pair id) :: flat_map shown rounds ++ map Byte c ++ [Event (Ask p); Event Quit].
Proof. exact @quit_shows. Qed.
Print Assumptions C112_quit_partial.
(** However the stream is cut, what is shown is what was sent, in order, up to some point ... *)
Theorem C112_faithful : forall utf8 session_ids ps1 ps2, ps1 <> [] -> ps2 <> [] ->
  forall chunks inputs, exists unseen, concat chunks = text_of (connect utf8 session_ids ps1 ps2 chunks inputs) ++ unseen.
Proof. exact @connect_text. Qed.
Print Assumptions C112_faithful.
(** ... and all of it if a session began and the client goes on until the server disconnects. *)
Theorem C112_all_shown : forall utf8 session_ids ps1 ps2, ps1 <> [] -> ps2 <> [] ->
  forall chunks inputs id, In (Pair id) (connect utf8 session_ids ps1 ps2 chunks inputs) -> In Disconnected (connect utf8 session_ids ps1 ps2 chunks inputs) ->
  text_of (connect utf8 session_ids ps1 ps2 chunks inputs) = concat chunks.
Proof. exact @connect_all. Qed.
Print Assumptions C112_all_shown.
(** The client pairs only with the session announced, alone, on the first line. *)
Theorem C112_announced : forall utf8 session_ids ps1 ps2 chunks inputs id,
  In (Pair id) (connect utf8 session_ids ps1 ps2 chunks inputs) -> session_ids (first_line (concat chunks)) = [id] /\ In 10 (concat chunks).
Proof. exact @connect_pair. Qed.
Print Assumptions C112_announced.

(** The prompts of the server, ">>>> " and ".... "; every string of bytes is a text but for a byte 195 alone at the end
    (the first of two of a character); a line of one byte 48+n announces session n. *)
Definition p1 : bytes := [62; 62; 62; 62; 32].
Definition p2 : bytes := [46; 46; 46; 46; 32].
Definition text (b : bytes) : bool := negb (last b 0 =? 195).
Definition ids (b : bytes) : list Z := match b with [d] => [d - 48] | _ => [] end.
(** "7\nab" ">>>> "; "c" ".... "; then "d" *)
Definition dialogue : list round := [mkR [55; 10; 97; 98] p1 [120]; mkR [99] p2 [121; 122]].
Definition arrive : list (list bytes) := [[[55; 10; 97]; 98 :: p1]; [99 :: p2]].
Ltac nosuffix := let a := fresh in let E := fresh in intros [a E]; repeat (destruct a as [|? a]; try discriminate E).
Example C112_hypotheses : Forall2 (round_ok text p1 p2) dialogue arrive /\ Forall (plain text p1 p2) [[100]] /\
  gathered [[55]; [10; 97]; 98 :: p1; 99 :: p2; [100]] (concat arrive ++ [[100]]).
Proof.
  split; [|split].
  - unfold dialogue, arrive. constructor; [|constructor; [|constructor]].
    + exists [[55; 10; 97]], [98]. repeat split; auto. constructor; [|constructor]. split; [reflexivity|]. split; nosuffix.
    + exists [], [99]. repeat split; auto. right. split; [reflexivity|]. nosuffix.
  - constructor; [|constructor]. split; [reflexivity|]. split; nosuffix.
  - apply (Gathered [[55]; [10; 97]] [98 :: p1; 99 :: p2; [100]]); [cbn; auto|].
    intros a b E N. destruct a as [|x a]; [intros []|]. injection E as <- E. destruct a as [|y a]; [cbn; intuition discriminate|].
    injection E as <- E. destruct a, b; try discriminate. congruence.
Qed.
Example C112_example : connect text ids p1 p2 [[55]; [10; 97]; 98 :: p1; 99 :: p2; [100]] [[120]; [121; 122]] =
  [Pair 7; Write [55; 10; 97]; Write [98]; Ask p1; Send [120; 10]; Write [99]; Ask p2; Send [121; 122; 10]; Write [100]; Disconnected].
Proof. reflexivity. Qed.
(** A prompt that arrives in two pieces is not recognised: the client shows it but does not ask for input. *)
Theorem C112_cut_prompt_refuted : ~ (forall r pieces id, concat pieces = out r ++ prompt r -> prompt r = p1 -> ids (first_line (out r)) = [id] -> Forall (fun c => text c = true) pieces ->
  In (Send (line r ++ [10])) (connect text ids p1 p2 pieces [line r])).
Proof.
  intros H. specialize (H (mkR [55; 10] p1 [120]) [[55; 10; 62; 62]; [62; 62; 32]] 7 eq_refl eq_refl eq_refl).
  cbn in H. destruct H as [H|[H|[H|[H|[]]]]]; try discriminate. repeat constructor.
Qed.
Print Assumptions C112_cut_prompt_refuted.
(** Output a piece of which happens to end with a prompt makes it ask (and send) too early. *)
Theorem C112_false_prompt_refuted : ~ (forall o id inputs, ids (first_line o) = [id] -> text o = true -> forall a b, o = a ++ b -> In 10 a -> text a = true ->
  forall p, In (Ask p) (connect text ids p1 p2 [a; b] inputs) -> exists c, b = c ++ p).
Proof.
  intros H. destruct (H ([55; 10] ++ p1 ++ [33]) 7 [[120]] eq_refl eq_refl ([55; 10] ++ p1) [33] eq_refl (or_intror (or_introl eq_refl)) eq_refl p1) as [c E].
  - cbn. auto.
  - repeat (destruct c as [|? c]; try discriminate E).
Qed.
Print Assumptions C112_false_prompt_refuted.
(** A piece that ends within a character crashes the client, although the stream as a whole is a text. *)
Theorem C112_cut_character_refuted : ~ (forall chunks inputs, text (concat chunks) = true -> ~ In (Crash UnicodeDecodeError) (connect text ids p1 p2 chunks inputs)).
Proof. intros H. apply (H [[55; 10]; [195]; [169]] [] eq_refl). cbn. auto. Qed.
Print Assumptions C112_cut_character_refuted.
