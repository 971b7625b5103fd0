(** C01-C03, C69: the message protocol and byte sources.

    [uni] is the unmodelled part of [int()] (non-ASCII input); every statement holds whatever
    it does.  [decode uni buf src] is one call of [decode()] on a decoder with buffered data
    [buf], whose source will still yield the chunks [src]; it returns the result, the new
    buffer and the remaining chunks. *)
From Verif Require Import Base MsgModel MsgSpec MsgProofs MsgLen.
From Coq Require Import List Bool ZArith Lia.
Import ListNotations.
Open Scope Z_scope.

(** C01.  The full claim ("for every payload and every chunking") is false: a message is
    lost as soon as 4096 bytes have been buffered before the end of the header is seen.  What holds:
    every payload survives every chunking into chunks that, with the header, fit into 4096
    bytes; nothing of the stream is left over. *)
Theorem C01_round_trip_partial : forall uni m src,
  concat src = encodemsg m -> fits src m ->
  exists buf' src', decode uni [] src = (Ok (Some m), buf', src') /\ buf' ++ concat src' = [].
Proof. exact round_trip. Qed.
Print Assumptions C01_round_trip_partial.

(** Counterexample to the full claim: with the default chunk size (or a larger one), decoding
    any message of 4096 bytes or more (with header) raises UnboundLocalError. *)
Theorem C01_round_trip_refuted : forall uni m chunksize,
  4096 <= chunksize -> 4096 <= zlen (encodemsg m) ->
  exists buf' src', decode uni [] (bytessource (encodemsg m) chunksize) = (Raise UnboundLocalError, buf', src').
Proof. exact default_source_fails. Qed.
Print Assumptions C01_round_trip_refuted.

(** The bound on the chunks cannot be relaxed by even one byte: the header minus its last
    byte, then a chunk of 4097 - header_len m bytes or more, and the message is lost
    without an error. *)
Theorem C01_chunk_bound_tight : forall uni m,
  ~ In 255 m -> 4096 <= zlen (encodemsg m) -> header_len m <= 4096 ->
  let n := Z.to_nat (header_len m - 1) in
  decode uni [] [firstn n (encodemsg m); skipn n (encodemsg m)] = (Ok None, [], []).
Proof. exact tight_chunks. Qed.
Print Assumptions C01_chunk_bound_tight.

Example C01_hypotheses_met : forall m, zlen m = 3 -> fits [firstn 2 (encodemsg m); skipn 2 (encodemsg m)] m /\
  concat [firstn 2 (encodemsg m); skipn 2 (encodemsg m)] = encodemsg m.
Proof.
  intros m H. destruct m as [|a [|b [|c [|d m]]]]; try (unfold zlen in H; simpl in H; lia).
  split; [|reflexivity]. split; [vm_compute; congruence|]. intros x [<-|[<-|[]]]; vm_compute; congruence.
Qed.

(** C02.  Messages separated by junk in which no message seems to start come out in order,
    and [None] from then on, for every chunking within the bound. *)
Theorem C02_sequence_partial : forall uni parts last src k,
  (forall junk m, In (junk, m) parts -> fits src m) -> fits src [] ->
  concat src = stream_of parts last -> all_clean parts last -> clean last [] ->
  decodes uni (length parts + k) [] src = map (fun p => Ok (Some (snd p))) parts ++ repeat (Ok None) k.
Proof. exact decode_sequence. Qed.
Print Assumptions C02_sequence_partial.

(** Junk without a sync byte is such junk. *)
Theorem C02_sync_free_junk_is_clean : forall junk next, ~ In 255 junk -> clean junk next.
Proof. exact sync_free_clean. Qed.
Print Assumptions C02_sync_free_junk_is_clean.

(** A message that the stream cuts off, anywhere, is not delivered: the call returns [None]. *)
Theorem C02_truncated_partial : forall uni parts junk p m src,
  (forall junk m, In (junk, m) parts -> fits src m) -> fits src m ->
  truncated p m -> concat src = stream_of parts (junk ++ p) -> all_clean parts (junk ++ p) -> clean junk p ->
  decodes uni (length parts + 1) [] src = map (fun p => Ok (Some (snd p))) parts ++ [Ok None].
Proof. exact decode_truncated. Qed.
Print Assumptions C02_truncated_partial.

(** The sequence claim fails in the same way as C01 does: leftover data of one message can
    break the next even though every chunk is shorter than 4096 bytes. *)
Theorem C02_sequence_refuted : forall uni m,
  4096 <= zlen m ->
  decodes uni 2 [] [encodemsg [] ++ firstn 4 (encodemsg m); firstn 4095 (skipn 4 (encodemsg m)); skipn 4099 (encodemsg m)]
  = [Ok (Some []); Raise UnboundLocalError].
Proof. exact leftover_breaks_next. Qed.
Print Assumptions C02_sequence_refuted.

(** The length in a header is read as Python's [int] reads it, whoever wrote the header: a header with any
    such text for the length of [m], and then [m], is a message. *)
Theorem C02_length_field : forall uni field src m rest, ascii field -> ~ In 59 field -> int_text field (zlen m) ->
  concat src = header_with field ++ m ++ rest -> fits_header src field ->
  exists buf src', decode uni [] src = (Ok (Some m), buf, src') /\ buf ++ concat src' = rest.
Proof. exact length_field. Qed.
Print Assumptions C02_length_field.
Example C02_length_ex : let field := [32; 43; 48; 95; 50; 9] in
  int_text field 2 /\ fits_header [header_with field ++ [7; 8; 9]] field /\
  (forall uni, decode uni [] [header_with field ++ [7; 8; 9]] = (Ok (Some [7; 8]), [9], [])).
Proof.
  split; [|split; [split; [vm_compute; congruence|intros c [<-|[]]; vm_compute; congruence]|reflexivity]].
  exists [32], [43], [48; 95; 50], [48; 50], [9]. repeat split; [repeat constructor; cbv; auto; intuition congruence..| |left; auto].
  apply dt_under; [|apply dt_last]; cbv; intuition congruence.
Qed.
(** But with a text that is no number there, the decoder does not skip the header: each of the calls, however
    many there are, raises [ValueError], and what comes after the header is never reached. *)
Theorem C02_malformed_refuted : forall uni field src rest k, ascii field -> ~ In 59 field -> (forall n, ~ int_text field n) ->
  concat src = header_with field ++ rest -> fits_header src field ->
  attempts uni k [] src = repeat (Raise ValueError) k.
Proof. exact malformed. Qed.
Print Assumptions C02_malformed_refuted.
Example C02_malformed_ex : let field := [50; 95; 95; 53] in
  ascii field /\ ~ In 59 field /\ (forall n, ~ int_text field n) /\ fits_header [header_with field ++ encodemsg [7]] field /\
  (forall uni, attempts uni 3 [] [header_with field ++ encodemsg [7]] = [Raise ValueError; Raise ValueError; Raise ValueError]).
Proof.
  split; [repeat constructor|]. split; [cbn; intuition congruence|]. split; [exact two_underscores|].
  split; [split; [vm_compute; congruence|intros c [<-|[]]; vm_compute; congruence]|reflexivity].
Qed.
(** And a negative length is taken as a place counted from the end of what has arrived by then. *)
Theorem C02_negative_refuted : forall uni data d, zlen data <= 4000 ->
  decode uni [] [header_with [45; 49] ++ data ++ [d]] = (Ok (Some data), [d], []).
Proof. exact negative. Qed.
Print Assumptions C02_negative_refuted.

Example C02_hypotheses_met :
  let parts := [([1; 255; 118], [7; 255]); ([], []); ([255; 118; 48; 49; 255], [59; 59])] in
  let last := [255; 118; 48] in
  let src := [[1]; [255; 118; 255; 118; 48]; skipn 6 (stream_of parts last)] in
  (forall junk m, In (junk, m) parts -> fits src m) /\ fits src [] /\
  concat src = stream_of parts last /\ all_clean parts last /\ clean last [].
Proof.
  cbv zeta. split; [|split; [|split; [|split]]].
  - intros junk m [E|[E|[E|[]]]]; inversion E; (split; [vm_compute; congruence|]);
      intros c [<-|[<-|[<-|[]]]]; vm_compute; congruence.
  - split; [vm_compute; congruence|]. intros c [<-|[<-|[<-|[]]]]; vm_compute; congruence.
  - reflexivity.
  - repeat split; intros i Hi; do 5 (destruct i as [|i]; [first [vm_compute; congruence | simpl in Hi; lia]|]); simpl in Hi; lia.
  - intros i Hi; do 3 (destruct i as [|i]; [vm_compute; congruence|]); simpl in Hi; lia.
Qed.

(** C03 *)
Theorem C03_bytessource : forall data chunksize, 1 <= chunksize ->
  concat (bytessource data chunksize) = data /\
  Forall (fun c => 1 <= zlen c <= chunksize) (bytessource data chunksize).
Proof. exact bytessource_spec. Qed.
Print Assumptions C03_bytessource.
(** [recvall] gets exactly the next n bytes and leaves the rest in the stream, whatever the
    fragment sizes; [None] if the stream ends before. *)
Theorem C03_recvall : forall sizes n stream, 0 <= n ->
  recvall n [] stream sizes =
  if zlen stream <? n then (None, []) else (Some (firstn (Z.to_nat n) stream), skipn (Z.to_nat n) stream).
Proof. exact recvall_all. Qed.
Print Assumptions C03_recvall.
(** [netstringify]: a reader that takes the decimal digits up to the first colon as the
    length, then that many bytes, then a comma, gets the data back. *)
Theorem C03_netstringify : forall data rest, exists ds,
  netstringify data ++ rest = ds ++ 58 :: data ++ 44 :: rest /\
  ds <> [] /\ (forall d, In d ds -> 48 <= d <= 57) /\
  fold_left (fun v d => 10 * v + (d - 48)) ds 0 = zlen data /\
  ((2 <= length ds)%nat -> hd 0 ds <> 48).
Proof. exact netstringify_spec. Qed.
Print Assumptions C03_netstringify.
Example C03_ex : bytessource [1; 2; 3; 4; 5] 2 = [[1; 2]; [3; 4]; [5]] /\
  recvall 4 [] [1; 2; 3; 4; 5] [1; 7]%nat = (Some [1; 2; 3; 4], [5]) /\
  recvall 4 [] [1; 2; 3] [2]%nat = (None, []) /\ netstringify [1; 2] = [50; 58; 1; 2; 44].
Proof. vm_compute. auto. Qed.

(** C69.  A stream source preserves the data for every pattern of short reads ... *)
Theorem C69_streamsource_partial : forall chunksize contents sizes,
  concat (streamsource contents sizes chunksize) = contents /\
  Forall (fun c => 1 <= zlen c <= 4096) (streamsource contents sizes chunksize).
Proof. exact streamsource_spec. Qed.
Print Assumptions C69_streamsource_partial.
(** ... but not the documented bound on the chunks: the requested size is ignored. *)
Theorem C69_streamsource_refuted : forall chunksize contents, 1 <= chunksize < 4096 -> chunksize < zlen contents ->
  exists c, In c (streamsource contents [] chunksize) /\ chunksize < zlen c.
Proof. exact streamsource_too_big. Qed.
Print Assumptions C69_streamsource_refuted.
Example C69_ex : streamsource [1; 2; 3] [] 1 = [[1; 2; 3]] /\ streamsource [1; 2; 3] [2]%nat 1 = [[1; 2]; [3]].
Proof. vm_compute. auto. Qed.
