(** Model of [timer] and [callsite_filename] of unpythonic/misc.py (125-153, 287-304).
    Simplified: the clock counts in whole units, where Python has seconds as floating point numbers; of a frame on the
    call stack, only the names of its function and of its file. *)
From Coq Require Import String List Bool Arith.
From Verif Require Import Base.
Import ListNotations.
Open Scope string_scope.
Open Scope list_scope.
Open Scope nat_scope.

(** The attributes of a timer: misc.py 141-153 *)
Record timer := mktimer { p : bool; t0 : option nat; dt : option nat }.
(** What a program does with timers, and the time that other things take *)
Inductive op :=
| Wait (d : nat)          (* anything else, which takes some time *)
| New (o : nat) (p : bool)
| Enter (o : nat)
| Exit (o : nat)          (* however the block ends: with an exception or not *)
| Read (o : nat).         (* o.dt *)
Inductive result := Nothing | Fails (e : exn) | Printed (n : nat) | Value (n : nat).
(** The clock (time.monotonic), and the timers that there are *)
Record world := mkworld { now : nat; timers : nat -> option timer }.
(** The world with one timer changed *)
Definition put (w : world) (o : nat) (x : timer) : world :=
  mkworld (now w) (fun o' => if Nat.eqb o' o then Some x else timers w o').
(** misc.py 141-153 *)
Definition step (w : world) (a : op) : world * result :=
  match a with
  | Wait d => (mkworld (now w + d) (timers w), Nothing)
  | New o q => (put w o (mktimer q None None), Nothing)
  | Enter o => match timers w o with
               | Some x => (put w o (mktimer (p x) (Some (now w)) (dt x)), Nothing)
               | None => (w, Fails NameError)
               end
  | Exit o => match timers w o with
              | Some x => match t0 x with
                          | Some t => (put w o (mktimer (p x) (t0 x) (Some (now w - t))), if p x then Printed (now w - t) else Nothing)
                          | None => (w, Fails AttributeError)
                          end
              | None => (w, Fails NameError)
              end
  | Read o => match timers w o with
              | Some x => (w, match dt x with Some n => Value n | None => Fails AttributeError end)
              | None => (w, Fails NameError)
              end
  end.
(** A whole program *)
Fixpoint run (w : world) (l : list op) : world := match l with [] => w | a :: l => run (fst (step w a)) l end.
(** At the start, at any time of the clock *)
Definition start (n : nat) : world := mkworld n (fun _ => None).

(** A frame of the call stack: its function, its file *)
Definition frame : Type := string * string.
(** misc.py 299-301 *)
Definition helpers : list string := ["maybe_force_args"; "curried"; "curry"; "_currycall"; "call"; "callwith"].
(** The loop of callsite_filename, from index [k] on: misc.py 296-304 *)
Fixpoint search (stack : list frame) : outcome string :=
  match stack with
  | [] => Raise IndexError                                     (* stack[k] *)
  | (f, file) :: outer => if existsb (String.eqb f) helpers then search outer else Ok file
  end.
(** callsite_filename: misc.py 287-304.  The first frame is its own. *)
Definition callsite_filename (stack : list frame) : outcome string := search (tl stack).
