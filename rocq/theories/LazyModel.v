(** Model of unpythonic/lazyutil.py: Lazy (33-71). *)
From Coq Require Import List Arith Bool.
From Verif Require Import Base MemoModel.
Import ListNotations.
Open Scope nat_scope.
Open Scope list_scope.

Section Lazy.
(** Values, exceptions and the program's own state.  An exception is also an object, so there is a
    value for it. *)
Context {V E St : Type}.
Variable exc_object : E -> V.
(** x is _uninitialized.  It is an interned symbol, so a program can make it too. *)
Variable is_uninit : V -> bool.
Variable uninit : V.

(** How a piece of code ends: returns, raises an Exception, raises another BaseException *)
Inductive result := RVal (v : V) | RExc (e : E) | RBase (e : E).
(** Code: computes, and forces promises (numbered) *)
Inductive cmd :=
| Done (r : result)
| Eff (g : St -> St * V) (k : V -> cmd)
| Force (i : nat) (k : result -> cmd).
(** The thunks given to the promises (lazyutil.py 48) *)
Variable thunk : nat -> cmd.

(** self.value: a value, or an exception that was caught; self.thunk_returned_normally *)
Inductive slot := SVal (v : V) | SErr (e : E).
(** The attribute that tells whether the thunk returned normally: lazyutil.py 33-76 *)
Inductive flag := FUninit | FTrue | FFalse.
(** The user's state, and for each promise its two attributes and how often its thunk was run. *)
Record st := mkst {
  user : St;
  value : nat -> slot;
  normally : nat -> flag;
  runs : nat -> nat }.        (* how often a thunk has been called *)
(** lazyutil.py 50-51 *)
Definition fresh (u : St) : st := mkst u (fun _ => SVal uninit) (fun _ => FUninit) (fun _ => 0).
(** [self.value is _uninitialized]: lazyutil.py 53-71 *)
Definition uninitialized (x : slot) : bool := match x with SVal v => is_uninit v | SErr _ => false end.
(** The attributes of a promise are assigned: lazyutil.py 53-71 *)
Definition store (s : st) (i : nat) (x : slot) (f : flag) : st :=
  mkst (user s) (setf (value s) i x) (setf (normally s) i f) (runs s).
(** The thunk of a promise is run: lazyutil.py 53-71 *)
Definition count_run (s : st) (i : nat) : st := mkst (user s) (value s) (normally s) (setf (runs s) i (S (runs s i))).
(** lazyutil.py 68-71; the symbol _uninitialized is true *)
Definition answer (x : slot) (f : flag) (type_error : E) : result :=
  match f, x with
  | FFalse, SErr e => RExc e
  | FFalse, SVal _ => RExc type_error
  | _, SVal v => RVal v
  | _, SErr e => RVal (exc_object e)
  end.
Variable type_error : E.

(** [None]: out of fuel *)
Fixpoint exec (fuel : nat) (c : cmd) (s : st) : option (result * st) :=
  match fuel with
  | O => None
  | S fuel =>
      match c with
      | Done r => Some (r, s)
      | Eff g k => let (u, v) := g (user s) in exec fuel (k v) (mkst u (value s) (normally s) (runs s))
      | Force i k =>
          if uninitialized (value s i) then
            match exec fuel (thunk i) (count_run s i) with
            | None => None
            | Some (RBase e, s) => exec fuel (k (RBase e)) s                 (* not caught (65) *)
            | Some (RVal v, s) =>
                let s := store s i (SVal v) FTrue in exec fuel (k (answer (value s i) (normally s i) type_error)) s
            | Some (RExc e, s) =>
                let s := store s i (SErr e) FFalse in exec fuel (k (answer (value s i) (normally s i) type_error)) s
            end
          else exec fuel (k (answer (value s i) (normally s i) type_error)) s
      end
  end.

(** One promise forced by many threads; one step per line.  [outs n] is how the thunk's n-th run ends. *)
Inductive pc :=
| PIdle (last : option result)
| PTest                            (* 61 *)
| PRunning (n : nat)               (* 63: inside self.thunk() *)
| PFlag (f : flag)                 (* 64, 67: value is set, thunk_returned_normally is not *)
| PTestFlag                        (* 68 *)
| PRead (normal : bool).           (* 69, 71 *)
Record tst := mktst { tvalue : slot; tflag : flag; truns : nat; tpcs : nat -> pc }.
(** A new promise, which no thread has forced: lazyutil.py 36-51 *)
Definition tfresh : tst := mktst (SVal uninit) FUninit 0 (fun _ => PIdle None).
Variable outs : nat -> result.
(** A thread goes on. *)
Definition tset (s : tst) (t : nat) (p : pc) : tst := mktst (tvalue s) (tflag s) (truns s) (setf (tpcs s) t p).
(** One line of force in one thread: lazyutil.py 53-71 *)
Definition tstep (s : tst) (t : nat) : tst :=
  match tpcs s t with
  | PIdle _ => tset s t PTest
  | PTest => if uninitialized (tvalue s) then mktst (tvalue s) (tflag s) (S (truns s)) (setf (tpcs s) t (PRunning (truns s)))
             else tset s t PTestFlag
  | PRunning n =>
      match outs n with
      | RVal v => mktst (SVal v) (tflag s) (truns s) (setf (tpcs s) t (PFlag FTrue))
      | RExc e => mktst (SErr e) (tflag s) (truns s) (setf (tpcs s) t (PFlag FFalse))
      | RBase e => tset s t (PIdle (Some (RBase e)))
      end
  | PFlag f => mktst (tvalue s) f (truns s) (setf (tpcs s) t PTestFlag)
  | PTestFlag => tset s t (PRead (match tflag s with FFalse => false | _ => true end))
  | PRead true => tset s t (PIdle (Some (match tvalue s with SVal v => RVal v | SErr e => RVal (exc_object e) end)))
  | PRead false => tset s t (PIdle (Some (match tvalue s with SErr e => RExc e | SVal _ => RExc type_error end)))
  end.
(** A schedule of the threads. *)
Definition trun (sched : list nat) : tst := fold_left tstep sched tfresh.
End Lazy.
Arguments result : clear implicits.
Arguments cmd : clear implicits.
Arguments slot : clear implicits.
Arguments st : clear implicits.
Arguments pc : clear implicits.
Arguments tst : clear implicits.
