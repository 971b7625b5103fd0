(** Specification vocabulary for the message protocol (C01-C03). *)
From Verif Require Import Base MsgModel.
From Coq Require Import List Bool ZArith.
Import ListNotations.
Open Scope Z_scope.

(** Number of bytes of the header of the message with body [m]: everything before the body. *)
Definition header_len (m : bytes) : Z := zlen (encodemsg m) - zlen m.
(** In [junk] followed by [next], no position inside [junk] looks like the start of a message. *)
Definition clean (junk next : bytes) : Prop :=
  forall i, (i < length junk)%nat -> firstn 5 (skipn i (junk ++ next)) <> [255; 118; 48; 49; 108].
(** A stream of messages, each preceded by some junk, then some last bytes. *)
Fixpoint stream_of (parts : list (bytes * bytes)) (last : bytes) : bytes :=
  match parts with
  | [] => last
  | (junk, m) :: parts' => junk ++ encodemsg m ++ stream_of parts' last
  end.
Fixpoint all_clean (parts : list (bytes * bytes)) (last : bytes) : Prop :=
  match parts with
  | [] => True
  | (junk, m) :: parts' => clean junk (encodemsg m ++ stream_of parts' last) /\ all_clean parts' last
  end.
(** [p] is the beginning of an encoded message that is cut off before its end. *)
Definition truncated (p m : bytes) : Prop := exists q, q <> [] /\ p ++ q = encodemsg m.
(** The chunk sizes the decoder can cope with: the header of [m] alone, and every chunk
    together with the header of [m], fit into 4096 bytes. *)
Definition fits (src : list bytes) (m : bytes) : Prop :=
  header_len m <= 4096 /\ forall c, In c src -> zlen c + header_len m <= 4096.

(** The length field of a header.  Python's int() on ASCII text: white space, a sign, digits with single
    underscores between them, white space. *)
Definition digit (b : Z) : Prop := 48 <= b <= 57.
Definition space (b : Z) : Prop := 9 <= b <= 13 \/ 28 <= b <= 32.
(** [digit_text l ds]: [l] is the digits [ds], with or without underscores between them *)
Inductive digit_text : bytes -> bytes -> Prop :=
| dt_last d : digit d -> digit_text [d] [d]
| dt_next d l ds : digit d -> digit_text l ds -> digit_text (d :: l) (d :: ds)
| dt_under d l ds : digit d -> digit_text l ds -> digit_text (d :: 95 :: l) (d :: ds).
Definition decimal (ds : bytes) : Z := fold_left (fun v d => 10 * v + (d - 48)) ds 0.
Definition int_text (text : bytes) (n : Z) : Prop :=
  exists before sign l ds after, text = before ++ sign ++ l ++ after /\
    Forall space before /\ Forall space after /\ digit_text l ds /\
    ((sign = [] \/ sign = [43]) /\ n = decimal ds \/ sign = [45] /\ n = - decimal ds).
Definition ascii (l : bytes) : Prop := Forall (fun b => b < 128) l.
(** A header with any text in the place of the length *)
Definition header_with (field : bytes) : bytes := [255; 118; 48; 49; 108] ++ field ++ [59].
Definition fits_header (src : list bytes) (field : bytes) : Prop :=
  zlen (header_with field) <= 4096 /\ forall c, In c src -> zlen c + zlen (header_with field) <= 4096.
(** [n] successive calls of [decode], also after exceptions *)
Fixpoint attempts (uni : bytes -> outcome Z) (n : nat) (buf : bytes) (src : list bytes) : list (outcome (option bytes)) :=
  match n with
  | O => []
  | S n => let '(r, buf, src) := decode uni buf src in r :: attempts uni n buf src
  end.
