(** What the two ends of a PTYSocketProxy say, from the history of events (C119). *)
From Verif Require Import Base PtyModel.
From Coq Require Import List Bool Arith.
Import ListNotations.

Section Spec.
Context {B : Type}.
(** All that the program in the terminal has written, until it closed it. *)
Fixpoint written (h : list (event B)) : list B :=
  match h with
  | [] => []
  | SlaveWrites l :: h' => l ++ written h'
  | SlaveCloses :: _ => []
  | _ :: h' => written h'
  end.
(** All that the client has sent, until it closed the connection. *)
Fixpoint sent (h : list (event B)) : list B :=
  match h with
  | [] => []
  | ClientSends l :: h' => l ++ sent h'
  | ClientCloses :: _ => []
  | _ :: h' => sent h'
  end.
(** send and write take all they are given *)
Definition full_visit (bufsize : nat) (v : visit) : Prop :=
  match v with FromMaster _ k _ | FromSocket _ k _ => bufsize <= k end.
Definition full (bufsize : nat) (h : list (event B)) : Prop :=
  forall vs v, In (Round vs) h -> In v vs -> full_visit bufsize v.
(** some of the items, in the same order *)
Inductive subseq : list B -> list B -> Prop :=
| sub_nil : subseq [] []
| sub_take x l m : subseq l m -> subseq (x :: l) (x :: m)
| sub_skip x l m : subseq l m -> subseq l (x :: m).
(** What the callback for a lost connection has written into the terminal. *)
Definition extra (on_sock : option (list B)) (p : proxy B) : list B :=
  match on_sock with Some w => if existsb (fun c => match c with SocketGone => true | _ => false end) (calls p) then w else [] | None => [] end.
End Spec.
