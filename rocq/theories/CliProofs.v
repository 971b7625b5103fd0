(** Proofs for the REPL client (C112). *)
From Coq Require Import List Bool ZArith Lia.
From Verif Require Import Base MsgModel CliModel CliSpec.
Import ListNotations.
Open Scope Z_scope.

Lemma beqb_iff a b : beqb a b = true <-> a = b.
Proof. unfold beqb. destruct (list_eq_dec Z.eq_dec a b); split; congruence. Qed.
Lemma endswith_iff b s : endswith b s = true <-> ends_with b s.
Proof.
  unfold endswith, ends_with. rewrite beqb_iff. split.
  - intros H. exists (firstn (length b - length s) b). rewrite <- H at 2. symmetry. apply firstn_skipn.
  - intros [a ->]. rewrite app_length. replace (length a + length s - length s)%nat with (length a) by lia.
    rewrite skipn_app, skipn_all, Nat.sub_diag. reflexivity.
Qed.
Lemma endswith_no b s : ~ ends_with b s -> endswith b s = false.
Proof. intros H. destruct (endswith b s) eqn:E; auto. apply endswith_iff in E. contradiction. Qed.
Lemma strip_app c p : p <> [] -> strip (c ++ p) p = c.
Proof.
  intros N. unfold strip. destruct p as [|x p]; [congruence|]. rewrite app_length. replace (length c + length (x :: p) - length (x :: p))%nat with (length c) by lia.
  rewrite firstn_app, firstn_all, Nat.sub_diag. cbn. apply app_nil_r.
Qed.
Section Proofs.
Variable utf8 : bytes -> bool.
Variable session_ids : bytes -> list Z.
Variable ps1 ps2 : bytes.
Hypothesis N1 : ps1 <> [].
Hypothesis N2 : ps2 <> [].
Let loop := loop utf8 ps1 ps2.
Definition more (src inputs : list bytes) : list action := match src with [] => [Disconnected] | c :: src => loop c src inputs end.
Lemma see_app a b : see (a ++ b) = see a ++ see b.
Proof. apply flat_map_app. Qed.
Lemma loop_plain c src inputs : plain utf8 ps1 ps2 c -> loop c src inputs = Write c :: more src inputs.
Proof.
  intros (U & E1 & E2). unfold loop, more. destruct src; cbn [CliModel.loop]; now rewrite (endswith_no _ _ E1), (endswith_no _ _ E2), U.
Qed.
Lemma loop_prompt c p src i inputs : utf8 (c ++ p) = true -> p = ps1 \/ (p = ps2 /\ ~ ends_with (c ++ ps2) ps1) ->
  loop (c ++ p) src (i :: inputs) = [Write c; Ask p; Send (i ++ [10])] ++ more src inputs.
Proof.
  intros U P.
  assert (A : (endswith (c ++ p) ps1 || endswith (c ++ p) ps2 = true) /\ (if endswith (c ++ p) ps1 then ps1 else ps2) = p /\ p <> []).
  { destruct P as [->|[-> NE]].
    - assert (E : endswith (c ++ ps1) ps1 = true) by (apply endswith_iff; now exists c). rewrite E. auto.
    - rewrite (endswith_no _ _ NE). assert (E : endswith (c ++ ps2) ps2 = true) by (apply endswith_iff; now exists c). rewrite E. auto. }
  destruct A as (A & B & C). unfold loop, more. destruct src; cbn [CliModel.loop]; rewrite A, U, B, strip_app by auto; reflexivity.
Qed.
(** pieces that are plain, then more *)
Lemma plains init : forall rest inputs, Forall (plain utf8 ps1 ps2) init -> see (more (init ++ rest) inputs) = map Byte (concat init) ++ see (more rest inputs).
Proof.
  induction init as [|c init IH]; intros rest inputs F; [reflexivity|]. inversion F; subst. cbn [app more]. rewrite loop_plain by auto.
  cbn [concat]. rewrite map_app, <- app_assoc, <- IH by auto. reflexivity.
Qed.
Lemma round_more r pieces rest inputs : round_ok utf8 ps1 ps2 r pieces ->
  see (more (pieces ++ rest) (line r :: inputs)) = shown r ++ see (more rest inputs).
Proof.
  intros (init & c & -> & O & F & U & P). rewrite <- app_assoc, plains by auto. unfold shown. rewrite <- O, map_app, <- !app_assoc. f_equal.
  cbn [app more]. rewrite loop_prompt by auto. rewrite see_app. cbn [see flat_map]. rewrite <- !app_assoc. reflexivity.
Qed.
Lemma rounds_more rs : forall pieces rest inputs, Forall2 (round_ok utf8 ps1 ps2) rs pieces ->
  see (more (concat pieces ++ rest) (map line rs ++ inputs)) = flat_map shown rs ++ see (more rest inputs).
Proof.
  induction rs as [|r rs IH]; intros pieces rest inputs F; inversion F; subst; [reflexivity|]. cbn [concat map app flat_map].
  rewrite <- app_assoc, round_more by auto. rewrite IH by auto. apply app_assoc.
Qed.
Lemma has_newline b : existsb (fun x => x =? newline) b = true <-> In 10 b.
Proof. rewrite existsb_exists. unfold newline. split; [intros (x & I & E); apply Z.eqb_eq in E; now subst|]. intros H. exists 10. auto. Qed.
(** reading on until the newline *)
Lemma handshake_gather first : forall acc rest inputs, In 10 (acc ++ concat first) -> (forall a b, first = a ++ b -> b <> [] -> ~ In 10 (acc ++ concat a)) ->
  handshake utf8 session_ids ps1 ps2 acc (first ++ rest) inputs = handshake utf8 session_ids ps1 ps2 (acc ++ concat first) rest inputs.
Proof.
  induction first as [|c first IH]; intros acc rest inputs H N; [cbn; now rewrite app_nil_r|].
  assert (NA : existsb (fun x => x =? newline) acc = false).
  { destruct (existsb _ acc) eqn:E; auto. apply has_newline in E. exfalso. apply (N [] (c :: first)); [reflexivity|discriminate|]. cbn. now rewrite app_nil_r. }
  cbn [app handshake]. rewrite NA. cbn [concat] in *. rewrite app_assoc. apply IH.
  - now rewrite <- app_assoc.
  - intros a b E NB. rewrite <- app_assoc. apply (N (c :: a) b); [now rewrite E|auto].
Qed.
Lemma connects chunks val rest inputs id : gathered chunks (val :: rest) -> utf8 val = true -> session_ids (first_line val) = [id] ->
  connect utf8 session_ids ps1 ps2 chunks inputs = Pair id :: loop val rest inputs.
Proof.
  intros G U S1. inversion G; subst. unfold connect. rewrite handshake_gather by auto. cbn [app].
  assert (E : existsb (fun x => x =? newline) (concat first) = true) by now apply has_newline.
  destruct rest; cbn [handshake]; rewrite E, U, S1; reflexivity.
Qed.
Lemma shows rs pieces last chunks val rest id :
  Forall2 (round_ok utf8 ps1 ps2) rs pieces -> Forall (plain utf8 ps1 ps2) last ->
  concat pieces ++ last = val :: rest -> gathered chunks (val :: rest) -> utf8 val = true -> session_ids (first_line val) = [id] ->
  see (connect utf8 session_ids ps1 ps2 chunks (map line rs)) =
  Event (Pair id) :: flat_map shown rs ++ map Byte (concat last) ++ [Event Disconnected].
Proof.
  intros F L E G U S1. rewrite (connects _ _ _ _ _ G U S1). change (see (Pair id :: loop val rest (map line rs))) with (Event (Pair id) :: see (more (val :: rest) (map line rs))).
  f_equal. rewrite <- E. rewrite <- (app_nil_r (map line rs)). rewrite rounds_more by auto. f_equal.
  rewrite <- (app_nil_r last) at 1. rewrite plains by auto. reflexivity.
Qed.
(** Ctrl+D at a prompt: the server is asked to quit, and nothing more is read. *)
Lemma quits c p src : utf8 (c ++ p) = true -> p = ps1 \/ (p = ps2 /\ ~ ends_with (c ++ ps2) ps1) ->
  loop (c ++ p) src [] = [Write c; Ask p; Quit].
Proof.
  intros U P.
  assert (A : (endswith (c ++ p) ps1 || endswith (c ++ p) ps2 = true) /\ (if endswith (c ++ p) ps1 then ps1 else ps2) = p /\ p <> []).
  { destruct P as [->|[-> NE]].
    - assert (E : endswith (c ++ ps1) ps1 = true) by (apply endswith_iff; now exists c). rewrite E. auto.
    - rewrite (endswith_no _ _ NE). assert (E : endswith (c ++ ps2) ps2 = true) by (apply endswith_iff; now exists c). rewrite E. auto. }
  destruct A as (A & B & C). unfold loop. destruct src; cbn [CliModel.loop]; rewrite A, U, B, strip_app by auto; reflexivity.
Qed.
Lemma quit_shows rs pieces chunks val rest id c p src :
  Forall2 (round_ok utf8 ps1 ps2) rs pieces -> utf8 (c ++ p) = true -> p = ps1 \/ (p = ps2 /\ ~ ends_with (c ++ ps2) ps1) ->
  concat pieces ++ (c ++ p) :: src = val :: rest -> gathered chunks (val :: rest) -> utf8 val = true -> session_ids (first_line val) = [id] ->
  see (connect utf8 session_ids ps1 ps2 chunks (map line rs)) =
  Event (Pair id) :: flat_map shown rs ++ map Byte c ++ [Event (Ask p); Event Quit].
Proof.
  intros F U0 P E G U S1. rewrite (connects _ _ _ _ _ G U S1). change (see (Pair id :: loop val rest (map line rs))) with (Event (Pair id) :: see (more (val :: rest) (map line rs))).
  f_equal. rewrite <- E. rewrite <- (app_nil_r (map line rs)). rewrite rounds_more by auto. f_equal. cbn [more]. rewrite quits by auto. reflexivity.
Qed.
(** Whatever comes, the client never shows anything that was not sent: no text is repeated or made up. *)
Lemma strip_ends val p : endswith val p = true -> p <> [] -> strip val p ++ p = val.
Proof. intros E N. apply endswith_iff in E as [a ->]. now rewrite strip_app. Qed.
Lemma loop_text src : forall val inputs, exists rest, val ++ concat src = text_of (loop val src inputs) ++ rest.
Proof.
  induction src as [|c src IH]; intros val inputs; unfold loop; cbn [CliModel.loop]; fold loop.
  - destruct (endswith val ps1) eqn:E1; [|destruct (endswith val ps2) eqn:E2]; cbn [orb]; (destruct (utf8 val); [|now exists (val ++ [])]).
    + destruct inputs; exists []; cbn; rewrite !app_nil_r, ?app_nil_r; symmetry; now apply strip_ends.
    + destruct inputs; exists []; cbn; rewrite !app_nil_r, ?app_nil_r; symmetry; now apply strip_ends.
    + exists []. cbn. now rewrite !app_nil_r.
  - destruct (endswith val ps1) eqn:E1; [|destruct (endswith val ps2) eqn:E2]; cbn [orb]; (destruct (utf8 val); [|now exists (val ++ concat (c :: src))]).
    + destruct inputs as [|i inputs]; cbn.
      * exists (c ++ concat src). rewrite app_nil_r, strip_ends by auto. reflexivity.
      * destruct (IH c inputs) as [rest R]. exists rest. fold loop. rewrite R. rewrite app_assoc, <- (app_assoc (strip val ps1)). cbn. rewrite <- (strip_ends val ps1) at 1 by auto. now rewrite <- !app_assoc.
    + destruct inputs as [|i inputs]; cbn.
      * exists (c ++ concat src). rewrite app_nil_r, strip_ends by auto. reflexivity.
      * destruct (IH c inputs) as [rest R]. exists rest. fold loop. rewrite R. rewrite <- (strip_ends val ps2) at 1 by auto. now rewrite <- !app_assoc.
    + destruct (IH c inputs) as [rest R]. exists rest. cbn. fold loop. rewrite R. now rewrite app_assoc.
Qed.
Lemma connect_text src inputs : exists rest, concat src = text_of (connect utf8 session_ids ps1 ps2 src inputs) ++ rest.
Proof.
  unfold connect. assert (G : forall src acc, exists rest, acc ++ concat src = text_of (handshake utf8 session_ids ps1 ps2 acc src inputs) ++ rest).
  { clear src. induction src as [|c src IH]; intros acc; cbn [handshake].
    - destruct (existsb _ acc); [|now exists (acc ++ [])]. destruct (utf8 acc); [|now exists (acc ++ [])].
      destruct (session_ids (first_line acc)) as [|id [|]]; try now exists (acc ++ []). exact (loop_text [] acc inputs).
    - destruct (existsb _ acc).
      + destruct (utf8 acc); [|now exists (acc ++ concat (c :: src))].
        destruct (session_ids (first_line acc)) as [|id [|]]; try now exists (acc ++ concat (c :: src)). exact (loop_text (c :: src) acc inputs).
      + cbn [concat]. rewrite app_assoc. apply IH. }
  exact (G src []).
Qed.
(** If it goes on until the server ends, everything has been shown. *)
Lemma text_cons a l : text_of (a :: l) = match a with Write t => t | Ask p => p | _ => [] end ++ text_of l.
Proof. reflexivity. Qed.
Lemma loop_all src : forall val inputs, In Disconnected (loop val src inputs) -> text_of (loop val src inputs) = val ++ concat src.
Proof.
  assert (P : forall val p q, endswith val ps1 || endswith val ps2 = true -> p = (if endswith val ps1 then ps1 else ps2) -> strip val p ++ p ++ q = val ++ q).
  { intros val p q E ->. rewrite app_assoc. f_equal. destruct (endswith val ps1) eqn:E1; apply strip_ends; auto. }
  induction src as [|c src IH]; intros val inputs; unfold loop; cbn [CliModel.loop].
  - destruct (endswith val ps1 || endswith val ps2) eqn:E; (destruct (utf8 val); [|intros [H|[]]; discriminate]).
    + destruct inputs; cbn [app In]; intros H; [intuition discriminate|]. rewrite !text_cons. cbn [text_of flat_map app concat]. now apply P.
    + reflexivity.
  - fold loop. destruct (endswith val ps1 || endswith val ps2) eqn:E; (destruct (utf8 val); [|intros [H|[]]; discriminate]).
    + destruct inputs; cbn [app In]; intros H; [intuition discriminate|]. rewrite !text_cons. cbn [app concat]. rewrite IH by intuition discriminate. now apply P.
    + cbn [app In]. intros [H|H]; [discriminate|]. rewrite text_cons, IH by auto. reflexivity.
Qed.
Lemma connect_all src inputs id : In (Pair id) (connect utf8 session_ids ps1 ps2 src inputs) -> In Disconnected (connect utf8 session_ids ps1 ps2 src inputs) ->
  text_of (connect utf8 session_ids ps1 ps2 src inputs) = concat src.
Proof.
  unfold connect. assert (G : forall src acc, In (Pair id) (handshake utf8 session_ids ps1 ps2 acc src inputs) -> In Disconnected (handshake utf8 session_ids ps1 ps2 acc src inputs) ->
    text_of (handshake utf8 session_ids ps1 ps2 acc src inputs) = acc ++ concat src).
  { clear src. assert (X : forall acc src k, In (Pair id) (if utf8 acc then match session_ids (first_line acc) with [id] => Pair id :: loop acc src inputs | _ => [Crash AssertionError] end else [Crash UnicodeDecodeError]) ->
      In Disconnected (if utf8 acc then match session_ids (first_line acc) with [id] => Pair id :: loop acc src inputs | _ => [Crash AssertionError] end else [Crash UnicodeDecodeError]) ->
      k = concat src -> text_of (if utf8 acc then match session_ids (first_line acc) with [id] => Pair id :: loop acc src inputs | _ => [Crash AssertionError] end else [Crash UnicodeDecodeError]) = acc ++ k).
    { intros acc src k A B ->. destruct (utf8 acc); [|cbn in B; intuition discriminate]. destruct (session_ids (first_line acc)) as [|i [|]]; try (cbn in B; intuition discriminate).
      rewrite text_cons. cbn [app]. apply loop_all. destruct B as [B|B]; [discriminate|exact B]. }
    induction src as [|c src IH]; intros acc; cbn [handshake].
    - destruct (existsb _ acc); [intros; now apply X|]. cbn. intuition discriminate.
    - destruct (existsb _ acc); [intros; now apply (X acc (c :: src))|]. cbn [concat]. rewrite app_assoc. apply IH. }
  exact (G src []).
Qed.
(** Only the session that the first line announces is paired with. *)
Lemma loop_nopair src : forall val inputs id, ~ In (Pair id) (loop val src inputs).
Proof.
  induction src as [|c src IH]; intros val inputs id; unfold loop; cbn [CliModel.loop]; fold loop.
  - destruct (endswith val ps1 || endswith val ps2); destruct (utf8 val); try destruct inputs; cbn; intuition discriminate.
  - destruct (endswith val ps1 || endswith val ps2); destruct (utf8 val); try destruct inputs; cbn; try (intuition discriminate); intros H;
      repeat (destruct H as [H|H]; [discriminate|]); exact (IH _ _ _ H).
Qed.
Lemma first_line_app a b : In 10 a -> first_line (a ++ b) = first_line a.
Proof.
  induction a as [|x a IH]; intros H; [contradiction|]. cbn. unfold newline in *. destruct (x =? 10) eqn:E; auto. f_equal. apply IH.
  destruct H as [->|H]; [discriminate|exact H].
Qed.
Lemma connect_pair src inputs id : In (Pair id) (connect utf8 session_ids ps1 ps2 src inputs) -> session_ids (first_line (concat src)) = [id] /\ In 10 (concat src).
Proof.
  enough (G : forall acc, In (Pair id) (handshake utf8 session_ids ps1 ps2 acc src inputs) -> session_ids (first_line (acc ++ concat src)) = [id] /\ In 10 (acc ++ concat src)) by exact (G []).
  assert (X : forall acc src t, In 10 acc -> In (Pair id) (if utf8 acc then match session_ids (first_line acc) with [id] => Pair id :: loop acc src inputs | _ => [Crash AssertionError] end else [Crash UnicodeDecodeError]) ->
    session_ids (first_line (acc ++ t)) = [id] /\ In 10 (acc ++ t)).
  { intros acc src0 t N H. split; [|apply in_or_app; auto]. rewrite first_line_app by auto. destruct (utf8 acc); [|cbn in H; intuition discriminate].
    destruct (session_ids (first_line acc)) as [|i [|]]; try (cbn in H; intuition discriminate). destruct H as [H|H]; [congruence|]. now apply loop_nopair in H. }
  induction src as [|c src IH]; intros acc; cbn [handshake].
  - destruct (existsb _ acc) eqn:E; [|intros [H|[]]; discriminate]. apply has_newline in E. now apply (X acc []).
  - destruct (existsb _ acc) eqn:E.
    + apply has_newline in E. now apply (X acc (c :: src)).
    + cbn [concat]. rewrite app_assoc. apply IH.
Qed.
End Proofs.
