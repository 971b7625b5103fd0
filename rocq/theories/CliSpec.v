(** Specification vocabulary for the REPL client (C112). *)
From Coq Require Import List Bool ZArith.
From Verif Require Import Base MsgModel CliModel.
Import ListNotations.
Open Scope Z_scope.

(** What one sees: characters shown, in order, and where input was asked for *)
Inductive seen := Byte (b : Z) | Event (a : action).
Definition see (l : list action) : list seen :=
  flat_map (fun a => match a with Write t => map Byte t | a => [Event a] end) l.
(** A round of the dialogue: the server's output, then a prompt, then what the user types *)
Record round := mkR { out : bytes; prompt : bytes; line : bytes }.
Definition shown (r : round) : list seen := map Byte (out r) ++ [Event (Ask (prompt r)); Event (Send (line r ++ [10]))].
Definition ends_with (b s : bytes) : Prop := exists a, b = a ++ s.
(** All the text on the screen that came from the server, with the prompts *)
Definition text_of (l : list action) : bytes := flat_map (fun a => match a with Write t => t | Ask p => p | _ => [] end) l.
Section Spec.
Variable utf8 : bytes -> bool.
Variable ps1 ps2 : bytes.
(** A chunk that ends with neither prompt, and is a text *)
Definition plain (c : bytes) : Prop := utf8 c = true /\ ~ ends_with c ps1 /\ ~ ends_with c ps2.
(** The pieces in which the output of a round and the prompt arrive: nothing is cut within a character; the prompt is
    whole, in the last one; and no other one happens to end with a prompt. *)
Definition round_ok (r : round) (pieces : list bytes) : Prop :=
  exists init c, pieces = init ++ [c ++ prompt r] /\ concat init ++ c = out r /\
    Forall plain init /\ utf8 (c ++ prompt r) = true /\
    (prompt r = ps1 \/ (prompt r = ps2 /\ ~ ends_with (c ++ ps2) ps1)).
(** The first pieces come together until there is a newline. *)
Inductive gathered : list bytes -> list bytes -> Prop :=
| Gathered first rest : In 10 (concat first) -> (forall a b, first = a ++ b -> b <> [] -> ~ In 10 (concat a)) ->
    gathered (first ++ rest) (concat first :: rest).
End Spec.
