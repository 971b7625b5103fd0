(** Model of unpythonic/net/msg.py and the byte sources and helpers of
    unpythonic/net/util.py.

    A byte is a Z (0..255), a [bytes] object a list of them.  A message source is the
    list of chunks it will yield before StopIteration (reads that block are not
    modelled: the source is what it yields in the end; the source is an iterator, so that
    [iter(source)], msg.py 151, is the source itself).  The receive buffer
    (util.py 29-80) is its contents. *)
From Verif Require Import Base.
From Coq Require Import List Bool ZArith.
Import ListNotations.
Open Scope Z_scope.

(** Python's bytes (no code in /repo). *)
Definition bytes : Type := list Z.
(** Equality of bytes (no code in /repo). *)
Definition beqb (a b : bytes) : bool := if list_eq_dec Z.eq_dec a b then true else false.

(** [str(n).encode("utf-8")] for n >= 0: decimal digits.  [fuel] is at least the
    number of digits. *)
Fixpoint digits (fuel : nat) (n : Z) : bytes :=
  match fuel with
  | O => []
  | S f => if n <? 10 then [48 + n] else digits f (n / 10) ++ [48 + n mod 10]
  end.
(** [str(n).encode()] for n >= 0, used in msg.py 50-73 *)
Definition str_int (n : Z) : bytes := digits (S (Z.to_nat (Z.log2 n))) n.

(** "\xff", "v01", "l" *)
Definition magic : bytes := [255; 118; 48; 49; 108].
(** The byte ";" that ends the header: msg.py 50-73 *)
Definition semicolon : Z := 59.
(** msg.py 62-73 *)
Definition encodemsg (data : bytes) : bytes :=
  magic ++ str_int (zlen data) ++ [semicolon] ++ data.

(** [bytes.find(b)] for a single byte; -1 when absent *)
Fixpoint find_from (b : Z) (i : Z) (l : bytes) : Z :=
  match l with
  | [] => -1
  | x :: l' => if x =? b then i else find_from b (i + 1) l'
  end.
(** [bytes.find], used in msg.py 267-312 *)
Definition find (b : Z) (l : bytes) : Z := find_from b 0 l.

(** [int(bs.decode("utf-8"))]: the ASCII part of the grammar of [int] (surrounding
    whitespace, sign, digits with single underscores between them).  Anything with a
    non-ASCII byte is left to [uni], an arbitrary function (it may be any exception or
    the value of Unicode digits). *)
Section Decoder.
Context (uni : bytes -> outcome Z).

(** The bytes that int() ignores around a number (Python's own). *)
Definition is_space (b : Z) : bool := ((9 <=? b) && (b <=? 13)) || ((28 <=? b) && (b <=? 32)).
(** The ASCII digits (Python's own). *)
Definition is_digit (b : Z) : bool := (48 <=? b) && (b <=? 57).
(** int() ignores leading spaces (Python's own). *)
Fixpoint lstrip (l : bytes) : bytes :=
  match l with b :: l' => if is_space b then lstrip l' else l | [] => [] end.
(** digits after the first, accumulating the value *)
Fixpoint more_digits (acc : Z) (l : bytes) : outcome Z :=
  match l with
  | [] => Ok acc
  | b :: l' =>
      if is_digit b then more_digits (10 * acc + (b - 48)) l'
      else if b =? 95 (* "_" *) then
        match l' with
        | d :: l'' => if is_digit d then more_digits (10 * acc + (d - 48)) l'' else Raise ValueError
        | [] => Raise ValueError
        end
      else Raise ValueError
  end.
(** [int(text)] without a sign (Python's own). *)
Definition unsigned (l : bytes) : outcome Z :=
  match l with
  | b :: l' => if is_digit b then more_digits (b - 48) l' else Raise ValueError
  | [] => Raise ValueError
  end.
(** [int(text)], used in msg.py 267-312 *)
Definition parse_int (l : bytes) : outcome Z :=
  if existsb (fun b => 128 <=? b) l then uni l
  else
    let l := rev (lstrip (rev (lstrip l))) in
    match l with
    | 43 (* "+" *) :: l' => unsigned l'
    | 45 (* "-" *) :: l' => omap Z.opp (unsigned l')
    | _ => unsigned l
    end.

(** What can come out of the inner functions of [decodemsg]: a result, an
    exception that [decodemsg] handles, or one that it does not. *)
Inductive step (A : Type) : Type :=
| Val (a : A) (buf : bytes) (src : list bytes)
| EOF (buf : bytes)
| ParseError (buf : bytes) (src : list bytes)
| Exc (e : exn) (buf : bytes) (src : list bytes).
Arguments Val {A} a buf src.
Arguments EOF {A} buf.
Arguments ParseError {A} buf src.
Arguments Exc {A} e buf src.

(** [while len(val) < n: val = read_more_input()] (msg.py 156-169, 211-212, 244-245) *)
Fixpoint read_until (n : Z) (val : bytes) (src : list bytes) : step unit :=
  if n <=? zlen val then Val tt val src
  else match src with
       | [] => EOF val
       | c :: src' => read_until n (val ++ c) src'
       end.

(** msg.py 171-201 [synchronize] *)
Fixpoint synchronize (val : bytes) (src : list bytes) : step unit :=
  let j := find 255 val in
  if 0 <=? j then Val tt (skipn (Z.to_nat j) val) src
  else match src with
       | [] => EOF []
       | c :: src' => synchronize c src'
       end.

(** msg.py 223-227: the search for the terminator; [j] is unbound ([None]) if the loop
    body never runs. *)
Fixpoint find_terminator (j : option Z) (val : bytes) (src : list bytes) : step (option Z) :=
  if zlen val <? 4096 then
    let j := find semicolon val in
    if negb (j =? -1) then Val (Some j) val src
    else match src with
         | [] => EOF val
         | c :: src' => find_terminator (Some j) (val ++ c) src'
         end
  else Val j val src.
(** msg.py 203-233 [read_header] *)
Definition read_header (val : bytes) (src : list bytes) : step Z :=
  match read_until 5 val src with
  | EOF buf => EOF buf
  | ParseError buf src => ParseError buf src
  | Exc e buf src => Exc e buf src
  | Val _ val src =>
      if negb (beqb (firstn 5 val) magic) then ParseError val src
      else match find_terminator None val src with
           | EOF buf => EOF buf
           | ParseError buf src => ParseError buf src
           | Exc e buf src => Exc e buf src
           | Val None val src => Exc UnboundLocalError val src
           | Val (Some j) val src =>
               if j =? -1 then ParseError val src
               else
                 let j := Z.to_nat (find semicolon val) in
                 match parse_int (skipn 5 (firstn j val)) with
                 | Raise e => Exc e val src
                 | Ok n => Val n (skipn (S j) val) src
                 end
           end
  end.

(** [val[:n]] and [val[n:]] *)
Definition cut_at (n : Z) (val : bytes) : nat :=
  if n <? 0 then Z.to_nat (Z.max 0 (zlen val + n)) else Z.to_nat n.
(** msg.py 235-249 [read_body] *)
Definition read_body (n : Z) (val : bytes) (src : list bytes) : step bytes :=
  match read_until n val src with
  | Val _ val src => Val (firstn (cut_at n val) val) (skipn (cut_at n val) val) src
  | EOF buf => EOF buf
  | ParseError buf src => ParseError buf src
  | Exc e buf src => Exc e buf src
  end.

(** msg.py 252-265, the loop of [decodemsg].  Returns the message (None at end of
    input) with the new buffer and source.  Each round that does not return drops a
    byte, so [fuel] = bytes in the buffer and the source suffices; running out is
    [RuntimeError], which the code does not raise. *)
Fixpoint decode_loop (fuel : nat) (buf : bytes) (src : list bytes) : outcome (option bytes) * bytes * list bytes :=
  match fuel with
  | O => (Raise RuntimeError, buf, src)
  | S f =>
      match synchronize buf src with
      | EOF buf => (Ok None, buf, [])
      | ParseError buf src => decode_loop f (skipn 1 buf) src
      | Exc e buf src => (Raise e, buf, src)
      | Val _ buf src =>
          match read_header buf src with
          | EOF buf => (Ok None, buf, [])
          | ParseError buf src => decode_loop f (skipn 1 buf) src
          | Exc e buf src => (Raise e, buf, src)
          | Val n buf src =>
              match read_body n buf src with
              | EOF buf => (Ok None, buf, [])
              | ParseError buf src => decode_loop f (skipn 1 buf) src
              | Exc e buf src => (Raise e, buf, src)
              | Val body buf src => (Ok (Some body), buf, src)
              end
          end
      end
  end.
(** msg.py 78-265, 297-299 [MessageDecoder.decode] *)
Definition decode (buf : bytes) (src : list bytes) : outcome (option bytes) * bytes * list bytes :=
  decode_loop (S (length buf + length (concat src))) buf src.
(** [n] successive calls of [decode]; stops at an exception. *)
Fixpoint decodes (n : nat) (buf : bytes) (src : list bytes) : list (outcome (option bytes)) :=
  match n with
  | O => []
  | S n' =>
      let '(r, buf', src') := decode buf src in
      r :: match r with Ok _ => decodes n' buf' src' | Raise _ => [] end
  end.
End Decoder.
Arguments Val {A} a buf src.
Arguments EOF {A} buf.
Arguments ParseError {A} buf src.
Arguments Exc {A} e buf src.

(** util.py 83-106 [bytessource]; [fuel] is at least the number of chunks *)
Fixpoint bytessource_loop (fuel : nat) (j : Z) (chunksize : Z) (data : bytes) : list bytes :=
  match fuel with
  | O => []
  | S f =>
      if zlen data <=? j * chunksize then []
      else firstn (Z.to_nat chunksize) (skipn (Z.to_nat (j * chunksize)) data)
           :: bytessource_loop f (j + 1) chunksize data
  end.
(** for chunksize >= 1 *)
Definition bytessource (data : bytes) (chunksize : Z) : list bytes :=
  bytessource_loop (S (length data)) 0 chunksize data.

(** util.py 108-135 [streamsource]: [stream.read(4096)] until it returns no data.  The
    [chunksize] argument is not used by the code.  [read(n)] returns between 1 and n bytes,
    or none at end of file; [sizes] is how many bytes the stream has available at each read
    (a file or a [BytesIO] always has all of them: [sizes] = []).  [fuel] is at least
    the number of chunks. *)
Fixpoint streamsource_loop (fuel : nat) (chunksize : Z) (contents : bytes) (sizes : list nat) : list bytes :=
  match fuel with
  | O => []
  | S f =>
      match contents with
      | [] => []
      | _ =>
          let avail := match sizes with [] => length contents | k :: _ => Nat.max 1 k end in
          let k := Nat.min avail (Z.to_nat 4096) in
          firstn k contents :: streamsource_loop f chunksize (skipn k contents) (List.tl sizes)
      end
  end.
(** streamsource: net/util.py 108-135 *)
Definition streamsource (contents : bytes) (sizes : list nat) (chunksize : Z) : list bytes :=
  streamsource_loop (S (length contents)) chunksize contents sizes.

(** util.py 166-184 [recvall].  [sock.recv(n)] returns the next fragment of the
    stream, of between 1 and n bytes, or b"" at the end; [sizes] is the peer's and the
    network's choice of fragment sizes.  Returns the bytes, and the rest of the stream. *)
Fixpoint recvall (n : Z) (acc : bytes) (stream : bytes) (sizes : list nat) : option bytes * bytes :=
  if n =? 0 then (Some acc, stream)
  else
    match stream with
    | [] => (None, [])
    | _ =>
        match sizes with
        | [] => (* the rest comes in one piece *)
            if zlen stream <? n then (None, [])
            else (Some (acc ++ firstn (Z.to_nat n) stream), skipn (Z.to_nat n) stream)
        | k :: sizes' =>
            let k := Nat.min (Nat.max 1 k) (Nat.min (Z.to_nat n) (length stream)) in
            recvall (n - Z.of_nat k) (acc ++ firstn k stream) (skipn k stream) sizes'
        end
    end.
(** util.py 186-197 [netstringify] *)
Definition netstringify (data : bytes) : bytes := str_int (zlen data) ++ [58] ++ data ++ [44].
