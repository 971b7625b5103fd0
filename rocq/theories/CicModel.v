(** Model of the loop of the REPL client with Ctrl+C: net/client.py 223-343 (connect), one step for each place where
    KeyboardInterrupt makes a difference.  The handshake before it (158-207) and the text are as in CliModel.v.
    BrokenPipeError is not modelled; a read that blocks is a step that has not been made. *)
From Coq Require Import List Bool ZArith.
From Verif Require Import Base MsgModel CliModel.
Import ListNotations.
Open Scope list_scope.

(** What the client does, in order: as in CliModel.v, and the handling of Ctrl+C (client.py 279-285) *)
Inductive caction :=
| Cli (a : action)
| Notify                        (* send_kbinterrupt: 280 *)
| Swallowed                     (* Ctrl+C while it waits for the reply: 112-114 *)
| Blank.                        (* sock.sendall of a newline: 285 *)
(** How connect ends (client.py 264, 339-343): SessionExit, EOFError, or an exception that is passed on *)
Inductive ending := ByUser | ByServer | WithError (x : exn) | Interrupted.
(** Where the client is.  The prompt is the one found at the end of [val], if any. *)
Inductive point :=
| AtTest                        (* 243 *)
| AtWrite (p : option bytes)    (* 248, 271 *)
| AtClear (p : option bytes)    (* 249, 272 *)
| AtAsk (p : bytes)             (* 253, before the prompt is shown *)
| AtTyping                      (* 253, in input() *)
| AtSend (line : bytes)         (* 254 *)
| AtBye                         (* 256-257 *)
| AtRead                        (* 274, waiting in line 184 *)
| AtAppend (data : bytes)       (* 274, line 187 *)
| AtReturn                      (* 274, line 188 *)
| InNotify                      (* 280 *)
| InBlank                       (* 285-307 *)
| InRead                        (* 332, 337, waiting in line 184 *)
| InAppend (data : bytes)       (* 332, 337, line 187 *)
| InPause                       (* 334-335 *)
| Ended (r : ending).
(** The client: [val] and [buf]; what will arrive on the socket, and what the user will type (no code in /repo). *)
Record client := mkclient { at_ : point; val : bytes; buf : bytes; src : list bytes; typed : list bytes; log : list caction }.
(** What happens next: the client does one thing, where [ready] says what select would tell it (330-331), or the
    user presses Ctrl+C. *)
Inductive event := Go (ready : bool) | CtrlC.

Section Cic.
Variable utf8 : bytes -> bool.
Variable ps1 ps2 : bytes.

(** The client goes to another point (no code in /repo) *)
Definition goto (c : client) (p : point) : client := mkclient p (val c) (buf c) (src c) (typed c) (log c).
(** The client does something that can be seen (no code in /repo) *)
Definition say (c : client) (a : caction) : client := mkclient (at_ c) (val c) (buf c) (src c) (typed c) (log c ++ [a]).
(** [next(src)] in read_more_input (184-186): data, or EOFError, which is caught in line 342 *)
Definition read (c : client) (k : bytes -> point) : client :=
  match src c with
  | [] => goto (say c (Cli Disconnected)) (Ended ByServer)
  | d :: s => mkclient (k d) (val c) (buf c) s (typed c) (log c)
  end.

(** One step: client.py 223-274, 280-337 *)
Definition go (ready : bool) (c : client) : client :=
  match at_ c with
  | AtTest =>
      if endswith (val c) ps1 || endswith (val c) ps2 then
        if utf8 (val c) then goto c (AtWrite (Some (if endswith (val c) ps1 then ps1 else ps2)))
        else goto (say c (Cli (Crash UnicodeDecodeError))) (Ended (WithError UnicodeDecodeError))
      else if utf8 (val c) then goto c (AtWrite None)
      else goto (say c (Cli (Crash UnicodeDecodeError))) (Ended (WithError UnicodeDecodeError))
  | AtWrite p => goto (say c (Cli (Write (match p with Some p => strip (val c) p | None => val c end)))) (AtClear p)
  | AtClear p =>
      mkclient (match p with Some p => AtAsk p | None => AtRead end) (val c) [] (src c) (typed c) (log c)
  | AtAsk p => goto (say c (Cli (Ask p))) AtTyping
  | AtTyping =>
      match typed c with
      | [] => goto c AtBye
      | l :: ls => mkclient (AtSend l) (val c) (buf c) (src c) ls (log c)
      end
  | AtSend l => goto (say c (Cli (Send (l ++ [newline])))) AtRead
  | AtBye => goto (say c (Cli Quit)) (Ended ByUser)
  | AtRead => read c AtAppend
  | AtAppend d => mkclient AtReturn (val c) (buf c ++ d) (src c) (typed c) (log c)
  | AtReturn => mkclient AtTest (buf c) (buf c) (src c) (typed c) (log c)
  | InNotify => goto (say c Notify) InBlank
  | InBlank => goto (say c Blank) InRead
  | InRead => read c InAppend
  | InAppend d => mkclient InPause (buf c ++ d) (buf c ++ d) (src c) (typed c) (log c)
  | InPause => goto c (if ready then InRead else AtTest)
  | Ended _ => c
  end.
(** KeyboardInterrupt: in the loop, 279; in send_kbinterrupt, 112-114; in the rest of the handler nothing catches it.
    When the client has ended there is nothing to interrupt. *)
Definition ctrl_c (c : client) : client :=
  match at_ c with
  | InNotify => goto (say c Swallowed) InBlank
  | InBlank | InRead | InAppend _ | InPause => goto c (Ended Interrupted)
  | Ended _ => c
  | _ => goto c InNotify
  end.
(** What the user and the server see: client.py 223-343 *)
Definition step (c : client) (e : event) : client := match e with Go r => go r c | CtrlC => ctrl_c c end.
(** client.py 223-343, as far as the events go *)
Definition run (c : client) (es : list event) : client := fold_left step es c.
(** client.py 222-223: after the handshake *)
Definition start (v : bytes) (s ls : list bytes) : client := mkclient AtTest v v s ls [].
End Cic.

(** ** The control channel: client.py 76-142.  The server handles one request after the other and replies to each; a reply
    arrives in one piece (see C109 for the rest). *)
Section Channel.
Context {S Q R : Type}.
Variable serve : S -> Q -> S * R.
Variable okay : R -> bool.                (* reply["status"] == "ok" *)
(** [queue]: replies that have been sent and not read.  [open]: the generator of socketsource (util.py 155-163) has not
    ended. *)
Record channel := mkchannel { server : S; queue : list R; open : bool }.
(** When Ctrl+C is pressed during a request: not; before it is sent (client.py 102); while waiting for the reply, in the
    select of socketsource (util.py 157), which ends the generator; after the reply has been read (client.py 104-111) *)
Inductive moment := Undisturbed | BeforeSend | InSelect | AfterRead.
(** client.py 93-114.  Without a reply (104-106), and after any exception (112-114), the result is None. *)
Definition remote_execute (c : channel) (q : Q) (m : moment) : channel * option R :=
  match m with
  | BeforeSend => (c, None)
  | _ =>
      let (s, r) := serve (server c) q in
      let queue := queue c ++ [r] in
      if open c then
        match m with
        | InSelect => (mkchannel s queue false, None)
        | _ => match queue with
               | [] => (mkchannel s [] true, None)
               | r :: rs => (mkchannel s rs true, match m with AfterRead => None | _ => if okay r then Some r else None end)
               end
        end
      else (mkchannel s queue false, None)
  end.
(** Several requests, one after the other (client.py 116-142) *)
Fixpoint requests (c : channel) (l : list (Q * moment)) : channel * list (option R) :=
  match l with
  | [] => (c, [])
  | (q, m) :: l => let (c, r) := remote_execute c q m in let (c, rs) := requests c l in (c, r :: rs)
  end.
End Channel.
Arguments channel : clear implicits.
