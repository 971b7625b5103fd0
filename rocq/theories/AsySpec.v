(** What async_raise should do, in terms of what threads receive. *)
From Coq Require Import List Bool Arith.
From Verif Require Import Base AsyModel.
Import ListNotations.

(** Thread [i] of [w] is [t] *)
Definition is_thread (w : world) (i : nat) (t : thread) : Prop := nth_error (threads w) i = Some t.
(** Call [c] is a call async_raise(a, e) that is at [p] *)
Definition is_call (w : world) (c : nat) (a : argument) (e : nat) (p : phase) : Prop := nth_error (calls w) c = Some (mkcall a e p).
(** The interpreter has a thread with that ident *)
Definition exists_with (t : thread) (id : nat) : Prop := stat t = Running id \/ stat t = Ending id.
(** Exception [e] has been raised in the thread, or will be when it next looks *)
Definition gets (t : thread) (e : nat) : Prop := In e (received t) \/ pending t = Some e.
(** [w'] has the threads of [w], but for the exception that awaits thread [i], which is [e] *)
Definition only_awaits (w w' : world) (i e : nat) : Prop :=
  length (threads w') = length (threads w) /\
  forall j t, is_thread w j t ->
    if Nat.eq_dec j i then exists t', is_thread w' j t' /\ stat t' = stat t /\ received t' = received t /\ pending t' = Some e
    else is_thread w' j t.
(** How often a thread got or will get [e]; over all threads *)
Definition times_got (e : nat) (t : thread) : nat :=
  count_occ Nat.eq_dec (received t) e + match pending t with Some e' => if Nat.eq_dec e' e then 1 else 0 | None => 0 end.
Definition total_got (e : nat) (w : world) : nat := list_sum (map (times_got e) (threads w)).
(** The calls with [e] that returned normally *)
Definition succeeded (e : nat) (c : call) : bool :=
  match at_ c with Returned (Ok _) => exc c =? e | _ => false end.
Definition total_sent (e : nat) (w : world) : nat := length (filter (succeeded e) (calls w)).
(** The idents that the system gave to threads, with that of the main thread *)
Definition idents_given (h : list event) : list nat :=
  0 :: flat_map (fun ev => match ev with Boot _ id => [id] | _ => [] end) h.
(** Events that neither send nor receive an exception, and do not end thread [i] *)
Definition leaves_alone (i : nat) (ev : event) : bool :=
  match ev with Inject _ => false | Look j | Exit j => negb (j =? i) | _ => true end.
