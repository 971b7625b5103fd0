(** Model of unpythonic/excutil.py async_raise (223-317), with the threads of CPython (Lib/threading.py; Python/pystate.c
    PyThreadState_SetAsyncExc).  Any number of calls run at once, in any threads; a step of a call is a piece of its code that
    nothing interrupts. *)
From Coq Require Import List Bool Arith.
From Verif Require Import Base.
Import ListNotations.
Open Scope nat_scope.

(** SystemError and the exceptions to be raised in another thread *)
Definition SystemError : exn := UserExn 0.
(** The life of a threading.Thread: made; start() called, but the new thread has not set its ident yet (threading._limbo);
    running (threading._active), with its ident; after its function, no longer in threading._active, but the interpreter still
    has its state; gone.  Thread.ident stays when the thread is gone. *)
Inductive status := Fresh | Limbo | Running (id : nat) | Ending (id : nat) | Gone (id : nat).
(** A thread as the system sees it: its ident, its state, and the exception that is waiting for it. *)
Record thread := mkthread {
  stat : status;
  pending : option nat;         (* tstate->async_exc *)
  received : list nat }.        (* the asynchronous exceptions raised in the thread so far *)
(** A call async_raise(arg, exc).  [NotThread]: an object without an attribute [ident]. *)
Inductive argument := NotThread | Thread (i : nat).
(** Where a call of async_raise is: before the lookup, after it (excutil.py 296-304), or at its end. *)
Inductive phase := Called | Found (tid : option nat) | Returned (r : outcome unit).
(** A call of async_raise: what it was given, the exception, and where it is. *)
Record call := mkcall { arg : argument; exc : nat; at_ : phase }.
(** All threads, and all calls of async_raise. *)
Record world := mkworld { threads : list thread; calls : list call }.

(** Thread.ident *)
Definition ident (s : status) : option nat :=
  match s with Fresh | Limbo => None | Running id | Ending id | Gone id => Some id end.
(** Is it in threading.enumerate()? *)
Definition enumerated (s : status) : bool := match s with Limbo | Running _ => true | _ => false end.
(** tstate->thread_id, if the interpreter has a state for the thread *)
Definition tstate_id (s : status) : option nat := match s with Running id | Ending id => Some id | _ => None end.
(** Equality of idents. *)
Definition opt_eqb (a b : option nat) : bool :=
  match a, b with Some x, Some y => x =? y | None, None => true | _, _ => false end.

(** pystate.c PyThreadState_SetAsyncExc: sets (or, with [None], clears) the exception of the first thread with that id; how
    many threads it found *)
Fixpoint set_async_exc (ts : list thread) (id : nat) (e : option nat) : list thread * nat :=
  match ts with
  | [] => ([], 0)
  | t :: ts =>
      if opt_eqb (tstate_id (stat t)) (Some id) then (mkthread (stat t) e (received t) :: ts, 1)
      else let (ts, n) := set_async_exc ts id e in (t :: ts, n)
  end.

Section Platform.
Variable supported : bool.      (* 296: has ctypes.pythonapi.PyThreadState_SetAsyncExc *)

(** excutil.py 296-304 *)
Definition check (ts : list thread) (a : argument) : phase :=
  if negb supported then Returned (Raise NotImplementedError)
  else match a with
  | NotThread => Returned (Raise TypeError)
  | Thread i =>
      match nth_error ts i with
      | None => Returned (Raise TypeError)
      | Some t =>
          let tid := ident (stat t) in
          if existsb (opt_eqb tid) (map (fun t => ident (stat t)) (filter (fun t => enumerated (stat t)) ts)) then Found tid
          else Returned (Raise ValueError)
      end
  end.
(** excutil.py 306-317.  ctypes.c_long(None) is a TypeError. *)
Definition inject (ts : list thread) (tid : option nat) (e : nat) : list thread * outcome unit :=
  match tid with
  | None => (ts, Raise TypeError)
  | Some id =>
      let (ts', n) := set_async_exc ts id (Some e) in
      if n =? 0 then (ts', Raise ValueError)
      else if 1 <? n then (fst (set_async_exc ts' id None), Raise SystemError)
      else (ts', Ok tt)
  end.

(** What happens: threads are made, start and end, and run; async_raise is called and goes on (excutil.py 223-317). *)
Inductive event :=
| New                            (* a thread object is made *)
| Start (i : nat)                (* its start() is called *)
| Boot (i id : nat)              (* it begins to run, with an ident the system gives it *)
| Leave (i : nat)                (* it leaves threading._active *)
| Exit (i : nat)                 (* the interpreter deletes its state *)
| Look (i : nat)                 (* its evaluation loop looks for an asynchronous exception, and raises it *)
| Call (a : argument) (e : nat)  (* async_raise(a, e) is called *)
| Check (c : nat)                (* call c runs lines 296-304 *)
| Inject (c : nat).              (* call c runs lines 306-317 *)

(** Update of one thread (no code in /repo). *)
Definition set_thread (w : world) (i : nat) (t : thread) : world := mkworld (upd (threads w) i t) (calls w).
(** An event that cannot happen changes nothing.  The system gives no thread the ident of another that exists. *)
Definition step (w : world) (ev : event) : world :=
  match ev with
  | New => mkworld (threads w ++ [mkthread Fresh None []]) (calls w)
  | Start i => match nth_error (threads w) i with
      | Some (mkthread Fresh p r) => set_thread w i (mkthread Limbo p r) | _ => w end
  | Boot i id => match nth_error (threads w) i with
      | Some (mkthread Limbo p r) =>
          if existsb (fun t => opt_eqb (tstate_id (stat t)) (Some id)) (threads w) then w
          else set_thread w i (mkthread (Running id) None r)
      | _ => w end
  | Leave i => match nth_error (threads w) i with
      | Some (mkthread (Running id) p r) => set_thread w i (mkthread (Ending id) p r) | _ => w end
  | Exit i => match nth_error (threads w) i with
      | Some (mkthread (Ending id) p r) => set_thread w i (mkthread (Gone id) None r) | _ => w end
  | Look i => match nth_error (threads w) i with
      | Some (mkthread s (Some e) r) =>
          match tstate_id s with Some _ => set_thread w i (mkthread s None (r ++ [e])) | None => w end
      | _ => w end
  | Call a e => mkworld (threads w) (calls w ++ [mkcall a e Called])
  | Check c => match nth_error (calls w) c with
      | Some (mkcall a e Called) => mkworld (threads w) (upd (calls w) c (mkcall a e (check (threads w) a)))
      | _ => w end
  | Inject c => match nth_error (calls w) c with
      | Some (mkcall a e (Found tid)) =>
          let (ts, r) := inject (threads w) tid e in
          mkworld ts (upd (calls w) c (mkcall a e (Returned r)))
      | _ => w end
  end.
(** The main thread, with ident 0, and no other *)
Definition start : world := mkworld [mkthread (Running 0) None []] [].
(** A whole history. *)
Definition run (h : list event) : world := fold_left step h start.
End Platform.
