(** C132: chunked with its chunks read in any order. *)
From Coq Require Import ZArith List Bool Arith.
From Verif Require Import Base ChkModel ChkSpec ChkProofs.
Import ListNotations.
Open Scope list_scope.
Open Scope nat_scope.

(** In whatever order the chunks are requested and read, each item that was read belongs to exactly one of the chunks
    handed out; a chunk has at least one and at most [n], and has given them in the order of the input (or nothing
    so far, if only its first item was read). *)
Theorem C132_owned : forall (A : Type) (input : nat -> ev A) n tr s, session input n tr s ->
  exists owner,
    length owner = length (items input (calls s)) /\ (forall o, In o owner -> o < opened tr) /\
    forall i, i < opened tr ->
      owned i owner (items input (calls s)) <> [] /\ length (owned i owner (items input (calls s))) <= Z.to_nat n /\
      (given i tr = owned i owner (items input (calls s)) \/ given i tr = [] /\ length (owned i owner (items input (calls s))) = 1).
Proof. exact @owns. Qed.
Print Assumptions C132_owned.

(** A request for a chunk reads exactly one item, which is the first of that chunk; once the generator has ended or
    failed it reads nothing. *)
Theorem C132_next_chunk : forall (A : Type) (input : nat -> ev A) n tr s r s', session input n tr s ->
  step input n s NextChunk = Some (r, s') ->
  (over NextChunk tr -> r = End /\ calls s' = calls s) /\
  (~ over NextChunk tr -> calls s' = S (calls s) /\
     match input (calls s) with Item _ => r = Chunk (opened tr) | Stop => r = End | Fail e => r = Exn e end).
Proof. exact @next_chunk_reads. Qed.
Print Assumptions C132_next_chunk.
Theorem C132_first_item : forall (A : Type) (input : nat -> ev A) n tr1 j tr2 s,
  session input n (tr1 ++ (NextChunk, Chunk j) :: tr2) s ->
  exists s1 a, session input n tr1 s1 /\ input (calls s1) = Item a /\ j = opened tr1 /\
    (given j (tr1 ++ (NextChunk, Chunk j) :: tr2) = [] \/ hd_error (given j (tr1 ++ (NextChunk, Chunk j) :: tr2)) = Some a).
Proof. exact @first_item. Qed.
Print Assumptions C132_first_item.

(** A request for an item of a chunk reads nothing for the first item, exactly one item for each of the others up to
    [n], and nothing once the chunk is complete or has seen the end of the input or a failure. *)
Theorem C132_next_item : forall (A : Type) (input : nat -> ev A) n tr s i r s', session input n tr s ->
  step input n s (NextItem i) = Some (r, s') ->
  i < opened tr /\
  (given i tr = [] -> calls s' = calls s /\ exists a, r = Got a) /\
  (length (given i tr) = Z.to_nat n \/ over (NextItem i) tr -> calls s' = calls s /\ r = End) /\
  (given i tr <> [] -> length (given i tr) <> Z.to_nat n -> ~ over (NextItem i) tr ->
     calls s' = S (calls s) /\ match input (calls s) with Item a => r = Got a | Stop => r = End | Fail e => r = Exn e end).
Proof. exact @next_item_reads. Qed.
Print Assumptions C132_next_item.
Theorem C132_possible : forall (A : Type) (input : nat -> ev A) n tr s o, session input n tr s ->
  match o with NextChunk => True | NextItem i => i < opened tr end -> exists r s', step input n s o = Some (r, s').
Proof. exact @step_some. Qed.
Print Assumptions C132_possible.
(** A size below 2 is refused at the call. *)
Theorem C132_size : forall (A : Type) (input : nat -> ev A) n,
  ((n < 2)%Z -> @chunked A n = Raise ValueError /\ forall tr s, ~ session input n tr s) /\
  ((2 <= n)%Z -> exists s, @chunked A n = Ok s /\ calls s = 0 /\ session input n [] s).
Proof. exact @size_checked. Qed.
Print Assumptions C132_size.

(** If each chunk is read to its end before the next one is requested, the chunk number [i] has given the items from
    [i * n] on, [n] of them or all that were left, and the chunks together have given exactly what was read. *)
Theorem C132_in_turn : forall (A : Type) (input : nat -> ev A) n tr s r,
  never_fails input -> stays_ended input -> session input n tr s -> tidy (Z.to_nat n) (tr ++ [(NextChunk, r)]) ->
  (forall i, i < opened tr -> given i tr = firstn (Z.to_nat n) (skipn (i * Z.to_nat n) (items input (calls s)))) /\
  concat (map (fun i => given i tr) (seq 0 (opened tr))) = items input (calls s).
Proof. exact @in_turn. Qed.
Print Assumptions C132_in_turn.

(** Without that discipline the chunks are not what chunked promises: with all the chunks requested first, as
    [list(chunked(2, range(4)))] does, there are four chunks of one item each. *)
Theorem C132_any_order_refuted : exists (input : nat -> ev nat) n tr s,
  never_fails input /\ stays_ended input /\ session input n tr s /\ items input (calls s) = [0; 1; 2; 3] /\ n = 2%Z /\ opened tr = 4 /\
  In (NextChunk, End) tr /\ (forall i, i < 4 -> In (NextItem i, End) tr /\ given i tr = [i]).
Proof. exact @any_order. Qed.
Print Assumptions C132_any_order_refuted.

(** Three items in chunks of two, in turn. *)
Definition three (k : nat) : ev nat := if k <? 3 then Item k else Stop.
Definition by_two : list (op * res nat) :=
  [(NextChunk, Chunk 0); (NextItem 0, Got 0); (NextItem 0, Got 1); (NextItem 0, End);
   (NextChunk, Chunk 1); (NextItem 1, Got 2); (NextItem 1, End)].
Example C132_ex : exists s, session three 2 by_two s /\ calls s = 4 /\ never_fails three /\ stays_ended three /\ tidy 2 (by_two ++ [(NextChunk, End)]).
Proof. exact ex_by_two. Qed.
