(** Model of Popper (232-248), CountingIterator (251-267) and slurp (269-287) of unpythonic/misc.py. *)
From Coq Require Import List.
From Verif Require Import Base.
Import ListNotations.
Open Scope list_scope.

Section Misc.
Context {X : Type}.

(** seq.pop(0) of a list; popleft of a deque: the first item goes *)
Definition pop_left (l : list X) : outcome (X * list X) := match l with x :: l => Ok (x, l) | [] => Raise IndexError end.
(** misc.py 245-248 *)
Definition popper_next (l : list X) : outcome (X * list X) := match l with [] => Raise StopIterationE | _ => pop_left l end.
(** What happens to the container: the Popper's next, or any change by the loop body *)
Inductive pevent := PNext | PChange (f : list X -> list X).
(** The container and what the Popper has given ([None]: StopIteration) *)
Definition popper_step (s : list X * list (option X)) (e : pevent) : list X * list (option X) :=
  let (l, out) := s in
  match e with
  | PChange f => (f l, out)
  | PNext => match popper_next l with
             | Ok (x, l') => (l', out ++ [Some x])
             | Raise _ => (l, out ++ [None])
             end
  end.
(** A whole loop over a Popper: misc.py 181-247 *)
Definition popper_run (l : list X) (es : list pevent) : list X * list (option X) := fold_left popper_step es (l, []).

(** An iterator: its state and what next(it) does *)
Context {I : Type}.
Variable next : I -> outcome X * I.
Record counting := mkC { inner : I; count : nat }.
(** misc.py 262-267 *)
Definition counting_next (c : counting) : outcome X * counting :=
  match next (inner c) with
  | (Ok x, it) => (Ok x, mkC it (S (count c)))
  | (Raise e, it) => (Raise e, mkC it (count c))
  end.
(** n calls of next on a CountingIterator: misc.py 250-266 *)
Fixpoint counting_run (n : nat) (c : counting) : list (outcome X) * counting :=
  match n with
  | O => ([], c)
  | S n => let (r, c) := counting_next c in let (rs, c) := counting_run n c in (r :: rs, c)
  end.
(** The same calls on the iterator itself *)
Fixpoint plain_run (n : nat) (it : I) : list (outcome X) * I :=
  match n with
  | O => ([], it)
  | S n => let (r, it) := next it in let (rs, it) := plain_run n it in (r :: rs, it)
  end.

(** slurp in one thread, other threads putting and getting meanwhile.  queue.Queue is first in, first
    out, and put and get are atomic. *)
Inductive qevent := QPut (x : X) | QOther | QSlurp.
(** The queue, what slurp has taken, whether it has ended, and what other threads have taken. *)
Record qst := mkQ {
  queue : list X;
  out : list X;          (* slurp's list *)
  finished : bool;       (* slurp has met Empty and returned *)
  taken : list X }.      (* what anybody has got, in order *)
Definition qstep (s : qst) (e : qevent) : qst :=
  match e with
  | QPut x => mkQ (queue s ++ [x]) (out s) (finished s) (taken s)
  | QOther => match queue s with
              | x :: q => mkQ q (out s) (finished s) (taken s ++ [x])
              | [] => s
              end
  | QSlurp => if finished s then s
              else match queue s with
                   | x :: q => mkQ q (out s ++ [x]) false (taken s ++ [x])
                   | [] => mkQ [] (out s) true (taken s)
                   end
  end.
(** A whole history of slurp and the other threads: misc.py 268-285 *)
Definition qrun (q : list X) (es : list qevent) : qst := fold_left qstep es (mkQ q [] false []).
End Misc.
Arguments pevent : clear implicits.
Arguments qevent : clear implicits.
