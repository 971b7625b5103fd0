(** Specification for C135: what is shown and sent when Ctrl+C is pressed. *)
From Coq Require Import List Bool ZArith.
From Verif Require Import Base MsgModel CliModel CicModel.
Import ListNotations.
Open Scope nat_scope.
Open Scope list_scope.

(** The text on the screen that came from the server. *)
Definition shown1 (a : caction) : bytes :=
  match a with Cli (Write t) => t | Cli (Ask p) => p | _ => [] end.
Definition shown (l : list caction) : bytes := flat_map shown1 l.
(** The lines of the user that were sent. *)
Definition sent1 (a : caction) : list bytes := match a with Cli (Send l) => [l] | _ => [] end.
Definition sent (l : list caction) : list bytes := flat_map sent1 l.
(** How often an empty line was sent because of Ctrl+C. *)
Definition blanks (l : list caction) : nat := length (filter (fun a => match a with Blank => true | _ => false end) l).

(** The client waits for the user, or for the server, and is not busy with a Ctrl+C. *)
Definition waits (c : client) : Prop := at_ c = AtTyping \/ at_ c = AtRead.
(** The client is busy with a Ctrl+C. *)
Definition busy (c : client) : Prop :=
  match at_ c with InNotify | InBlank | InRead | InAppend _ | InPause => True | _ => False end.
Definition has_ended (c : client) : Prop := exists r, at_ c = Ended r.
(** The places where text can be shown twice, get lost, or where a typed line can get lost. *)
Definition text_at_risk (p : point) : Prop :=
  match p with AtClear _ | AtAsk _ | AtAppend _ => True | _ => False end.
Definition line_at_risk (p : point) : Prop := match p with AtSend _ => True | _ => False end.

Section S.
Variable utf8 : bytes -> bool.
Variable ps1 ps2 : bytes.
(** In the run of [es] from [c], Ctrl+C is never pressed at a place in [P]. *)
Fixpoint never_at (P : client -> Prop) (c : client) (es : list event) : Prop :=
  match es with
  | [] => True
  | e :: es => (e = CtrlC -> ~ P c) /\ never_at P (step utf8 ps1 ps2 c e) es
  end.
(** How often Ctrl+C is pressed in the loop, that is, neither while the client is busy with another one nor after the
    end. *)
Fixpoint presses (c : client) (es : list event) : nat :=
  match es with
  | [] => 0
  | e :: es =>
      match e, at_ c with
      | Go _, _ | _, (InNotify | InBlank | InRead | InAppend _ | InPause | Ended _) => 0
      | _, _ => 1
      end + presses (step utf8 ps1 ps2 c e) es
  end.
End S.

(** ** The control channel *)
Section Channel.
Context {S Q R : Type}.
Variable serve : S -> Q -> S * R.
Variable okay : R -> bool.
(** The requests that are sent. *)
Definition is_sent (m : moment) : bool := match m with BeforeSend => false | _ => true end.
Definition sent_requests (l : list (Q * moment)) : list Q := map fst (filter (fun x => is_sent (snd x)) l).
(** The state of the server after some requests. *)
Definition served (s : S) (qs : list Q) : S := fold_left (fun s q => fst (serve s q)) qs s.
(** The reply to the request that comes after the history [h]. *)
Definition reply_to (s : S) (h : list (Q * moment)) (q : Q) : R := snd (serve (served s (sent_requests h)) q).
(** What a request gives: the reply to it, if it was not disturbed and succeeded. *)
Definition gives (s : S) (h : list (Q * moment)) (q : Q) (m : moment) : option R :=
  match m with
  | Undisturbed => let r := reply_to s h q in if okay r then Some r else None
  | _ => None
  end.
End Channel.
