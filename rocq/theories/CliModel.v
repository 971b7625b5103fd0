(** Model of the loop of the REPL client: net/client.py 145-274 (connect), without Ctrl+C (276-338).

    What the server sends is the list of the chunks in which it arrives, then the end of the stream (reads that block are
    not modelled: the source is what it yields in the end).  Text is bytes; [utf8 b] says whether b can be decoded.  What
    the user types is a list of lines, then Ctrl+D. *)
From Coq Require Import List Bool ZArith.
From Verif Require Import Base MsgModel.
Import ListNotations.
Open Scope Z_scope.

(** What the client does, in order *)
Inductive action :=
| Pair (id : Z)                 (* pair_with_session *)
| Write (text : bytes)          (* sys.stdout.write *)
| Ask (prompt : bytes)          (* input(prompt) *)
| Send (line : bytes)           (* sock.sendall *)
| Disconnected                  (* by the server: 338-339 *)
| Quit                          (* Ctrl+D: 248-256 *)
| Crash (x : exn).
Section Client.
Variable utf8 : bytes -> bool.
(** re.findall of "session (\d+) connected" in a line, as integers *)
Variable session_ids : bytes -> list Z.
Variable ps1 ps2 : bytes.
(** [val.endswith(s)] *)
Definition endswith (val s : bytes) : bool := beqb (skipn (length val - length s) val) s.
(** [text[:-len(prompt)]]; len is not 0 here, see [strip] below *)
Definition strip (text prompt : bytes) : bytes :=
  match prompt with
  | [] => []                                        (* text[:-0] *)
  | _ => firstn (length text - length prompt) text
  end.
(** The byte of a newline, which client.py appends to each line of input. *)
Definition newline : Z := 10.
(** [text.split("\n")[0]] *)
Fixpoint first_line (text : bytes) : bytes :=
  match text with [] => [] | b :: t => if b =? newline then [] else b :: first_line t end.
(** client.py 224-274; [val] is what the buffer holds *)
Fixpoint loop (val : bytes) (src : list bytes) (inputs : list bytes) : list action :=
  let more inputs := match src with [] => [Disconnected] | c :: src => loop c src inputs end in   (* 274, 184-190 *)
  if endswith val ps1 || endswith val ps2 then                                                    (* 243 *)
    if utf8 val then
      let prompt := if endswith val ps1 then ps1 else ps2 in
      [Write (strip val prompt); Ask prompt] ++
      match inputs with
      | [] => [Quit]
      | i :: inputs => Send (i ++ [newline]) :: more inputs
      end
    else [Crash UnicodeDecodeError]
  else if utf8 val then [Write val] ++ more inputs                                                (* 269-272 *)
  else [Crash UnicodeDecodeError].
(** client.py 195-211 *)
Fixpoint handshake (val : bytes) (src : list bytes) (inputs : list bytes) : list action :=
  if existsb (fun b => b =? newline) val then
    if utf8 val then
      match session_ids (first_line val) with
      | [id] => Pair id :: loop val src inputs
      | _ => [Crash AssertionError]
      end
    else [Crash UnicodeDecodeError]
  else match src with [] => [Disconnected] | c :: src => handshake (val ++ c) src inputs end.
(** client.py 195-211 and the loop that follows it, from the beginning. *)
Definition connect (src inputs : list bytes) : list action := handshake [] src inputs.
End Client.
