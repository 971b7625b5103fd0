(** Tracebacks, and what a signal does to exception objects (C118). *)
From Verif Require Import Base TbkModel.
From Coq Require Import List.
Import ListNotations.

(** What is printed for a traceback: the outermost frame first. *)
Fixpoint shown (tb : tback) : list frame :=
  match tb with TB nxt f => f :: match nxt with Some tb' => shown tb' | None => [] end end.
Definition entries (tb : option tback) : list frame := match tb with Some tb => shown tb | None => [] end.

(** [h'] is [h] but for the object [r], of which the class, and what it mentions, are the same. *)
Definition changed (h h' : heap) (r : nat) (new : exc -> exc -> Prop) : Prop :=
  length h' = length h /\ (forall q, q <> r -> nth_error h' q = nth_error h q) /\
  exists x x', nth_error h r = Some x /\ nth_error h' r = Some x' /\ cls x' = cls x /\ named x' = named x /\ new x x'.
(** The condition as it is seen by the handlers: with this cause, protocol and traceback. *)
Definition signaled (c : option nat) (p : code) (frames : list frame) (_ x' : exc) : Prop :=
  cause x' = c /\ protocol x' = Some p /\ entries (trace x') = frames.

(** Python's [raise]: an instance is used as such, a class is called without arguments. *)
Inductive instance (ctor : nat -> option exn) (h : heap) : pyval -> heap -> nat -> Prop :=
| inst_object r : r < length h -> instance ctor h (PExc r) h r
| inst_class c : ctor c = None -> instance ctor h (PClass c) (h ++ [mkexc c None None None None]) (length h).
(** ... from an exception or from None *)
Inductive cause_of (ctor : nat -> option exn) (h : heap) : pyval -> heap -> option nat -> Prop :=
| cause_none : cause_of ctor h PNone h None
| cause_some y h' q : instance ctor h y h' q -> cause_of ctor h y h' (Some q).
(** Not an exception, or a class that cannot be called without arguments. *)
Definition invalid (ctor : nat -> option exn) (x : pyval) : Prop :=
  match x with POther _ => True | PClass c => ctor c = Some TypeError | _ => False end.
(** A new ControlError whose cause is [r]. *)
Definition unhandled (r : nat) : exc := mkexc ControlErrorC None (Some r) None None.
(** What error and cerror do after the handlers for [r] are called: if these return, raise that. *)
Definition after_error (run_handlers : heap -> nat -> res unit) (h3 : heap) (r : nat) : res pyval :=
  match run_handlers h3 r with
  | Done h _ => Fail (h ++ [unhandled r]) (RExc (length h))
  | Fail h e => Fail h e
  end.
Definition is_object (x : pyval) : bool := match x with PExc _ => true | _ => false end.
