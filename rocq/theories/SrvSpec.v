(** What has happened to the REPL server, from the history of events (C120). *)
From Verif Require Import Base SrvModel.
From Coq Require Import List Bool Arith.
Import ListNotations.

(** No port is taken, and the user leaves sys alone. *)
Definition plain (e : event) : Prop :=
  match e with Start _ a b => a = true /\ b = true | Redirect _ | SetPs1 _ => False | _ => True end.
(** The namespace given to the start that is not yet followed by a stop; a second start is refused. *)
Fixpoint serving (now : option nat) (h : list event) : option nat :=
  match h with
  | [] => now
  | Start l _ _ :: h' => serving (match now with Some k => Some k | None => Some l end) h'
  | Stop :: h' => serving None h'
  | _ :: h' => serving now h'
  end.
(** The last word on halting *)
Fixpoint halted (now : bool) (h : list event) : bool :=
  match h with [] => now | Halt d :: h' => halted d h' | _ :: h' => halted now h' end.
(** Session [n] has begun and not ended: sessions are numbered from 1. *)
Fixpoint opened (h : list event) : nat := match h with [] => 0 | Open :: h' => S (opened h') | _ :: h' => opened h' end.
Definition active (h : list event) (n : nat) : Prop :=
  exists before after, h = before ++ Open :: after /\ n = S (opened before) /\ ~ In (Close n) after.
