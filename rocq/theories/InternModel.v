(** Model of the interning in unpythonic/symbol.py (sym.__new__ 61-80, gsym.__new__ 113-125) and
    unpythonic/singleton.py (ThereCanBeOnlyOne.__call__ 127-147, Singleton.__new__ 169-188), run by
    any number of threads.  Objects are numbered in the order of their creation; the key of an object
    is the name, uid or class it is registered under.  An object with no strong reference is destroyed
    at once (reference counting), which also empties its entry in the WeakValueDictionary.
    Simplification: one step per line of the code; the attribute writes of __init__ are not modelled. *)
From Coq Require Import List Arith Bool.
From Verif Require Import Base MemoModel.
Import ListNotations.
Open Scope nat_scope.
Open Scope list_scope.

(** What a call or step can end with (no code in /repo). *)
Inductive result := Obj (i : nat) | RKeyError | RTypeError | RInitError.
(** Where a thread is.  [outer]: inside __call__ of the metaclass. *)
Inductive pc :=
| Idle (last : option (nat * result))         (* how the last call, for a key, ended *)
| Look (k : nat) (outer : bool)               (* 69, 177: return _instances[cls] *)
| Acquire (k : nat) (outer : bool)            (* 72, 180: with lock *)
| Check (k : nat) (outer : bool)              (* 73, 181: if cls not in _instances *)
| Create (k : nat) (outer : bool)             (* 76, 184: super().__new__(cls) *)
| Register (k : nat) (i : nat) (outer : bool) (* 76, 184: instance = _instances[cls] = ... *)
| Fetch (k : nat) (outer : bool)              (* 79, 187: instance = _instances[cls] *)
| Leave (k : nat) (r : result) (outer : bool) (* end of the with block *)
| CallLock (k : nat)                          (* 136: with lock *)
| CallCheck (k : nat)                         (* 139: if cls in _instances: raise TypeError *)
| Init (k : nat) (i : nat).                   (* 146-147: cls.__init__(instance); return instance *)

Record st := mkst {
  made : nat;                         (* how many objects have been created *)
  keyof : nat -> nat;
  registry : nat -> option nat;       (* the WeakValueDictionary: the weak reference stored under a key *)
  refs : list (nat * nat);            (* strong references: thread, object *)
  lock : option (nat * nat);          (* owner and depth *)
  pcs : nat -> pc;
  suspended : nat -> list pc }.       (* what a signal handler or finalizer has interrupted *)

(** No object, no reference, the lock free. *)
Definition init : st := mkst 0 (fun _ => 0) (fun _ => None) [] None (fun _ => Idle None) (fun _ => []).

(** Equality of references (no code in /repo). *)
Definition ref_dec : forall x y : nat * nat, {x = y} + {x <> y}.
Proof. decide equality; apply Nat.eq_dec. Defined.
(** Whether some thread has a reference to the object (Python's reference counting, no code in /repo). *)
Definition liveb (s : st) (i : nat) : bool := existsb (fun r => snd r =? i) (refs s).
(** Whether the thread has a reference to the object (no code in /repo). *)
Definition has_ref (s : st) (t i : nat) : bool := existsb (fun r => (fst r =? t) && (snd r =? i)) (refs s).
(** One reference less (no code in /repo). *)
Fixpoint drop1 (r : nat * nat) (l : list (nat * nat)) : list (nat * nat) :=
  match l with [] => [] | x :: l => if ref_dec x r then l else x :: drop1 r l end.
(** WeakValueDictionary.__getitem__, __contains__: a dead reference counts as absent *)
Definition lookup (s : st) (k : nat) : option nat :=
  match registry s k with Some i => if liveb s i then Some i else None | None => None end.

(** Updates of one component of the state (no code in /repo). *)
Definition set_pc (s : st) (t : nat) (p : pc) : st :=
  mkst (made s) (keyof s) (registry s) (refs s) (lock s) (setf (pcs s) t p) (suspended s).
(** See set_pc. *)
Definition set_refs (s : st) (r : list (nat * nat)) : st :=
  mkst (made s) (keyof s) (registry s) r (lock s) (pcs s) (suspended s).
(** See set_pc. *)
Definition set_lock (s : st) (l : option (nat * nat)) : st :=
  mkst (made s) (keyof s) (registry s) (refs s) l (pcs s) (suspended s).

(** threading.Lock, or RLock if [reentrant] *)
Definition acquire (reentrant : bool) (s : st) (t : nat) : option st :=
  match lock s with
  | None => Some (set_lock s (Some (t, 1)))
  | Some (t', n) => if reentrant && (t' =? t) then Some (set_lock s (Some (t, S n))) else None
  end.
(** [lock.release()], with the count of an RLock (threading). *)
Definition release (s : st) : st :=
  match lock s with
  | Some (t, S (S n)) => set_lock s (Some (t, S n))
  | _ => set_lock s None
  end.

(** What a thread or the garbage collector does next: symbol.py 61-80, singleton.py 127-147 *)
Inductive action :=
| New (k : nat)           (* start sym(name), gsym(...), or unpickling: __new__ without __call__ *)
| Construct (k : nat)     (* start cls(...) *)
| Go                      (* the next step of the call in progress *)
| FailInit                (* cls.__init__ raises *)
| Drop (i : nat)          (* the idle thread gives up one reference *)
| Share (i t' : nat)      (* the idle thread hands a reference to another *)
| Interrupt               (* a signal handler or finalizer starts in the middle of a call *)
| Resume.                 (* ... and ends *)

Section Step.
Variable reentrant : bool.

(** The end of __new__: to the caller or to __call__ *)
Definition returned (k : nat) (r : result) (outer : bool) : pc :=
  match r, outer with Obj i, true => Init k i | r, _ => Idle (Some (k, r)) end.
(** One line of sym.__new__ or of the singleton's constructor, as cited at [pc]. *)
Definition go (s : st) (t : nat) : option st :=
  match pcs s t with
  | Idle _ => None
  | Look k outer =>
      match lookup s k with
      | Some i => Some (set_pc (set_refs s ((t, i) :: refs s)) t (returned k (Obj i) outer))
      | None => Some (set_pc s t (Acquire k outer))
      end
  | Acquire k outer =>
      match acquire reentrant s t with Some s => Some (set_pc s t (Check k outer)) | None => None end
  | Check k outer =>
      match lookup s k with
      | None => Some (set_pc s t (Create k outer))
      | Some _ => Some (set_pc s t (Fetch k outer))
      end
  | Create k outer =>
      Some (mkst (S (made s)) (setf (keyof s) (made s) k) (registry s) ((t, made s) :: refs s) (lock s)
                 (setf (pcs s) t (Register k (made s) outer)) (suspended s))
  | Register k i outer =>
      Some (mkst (made s) (keyof s) (setf (registry s) k (Some i)) (refs s) (lock s)
                 (setf (pcs s) t (Leave k (Obj i) outer)) (suspended s))
  | Fetch k outer =>
      match lookup s k with
      | Some i => Some (set_pc (set_refs s ((t, i) :: refs s)) t (Leave k (Obj i) outer))
      | None => Some (set_pc s t (Leave k RKeyError outer))
      end
  | Leave k r outer =>
      let s := release s in
      match r, outer with
      | Obj i, true => Some (set_pc s t (Init k i))
      | _, true => Some (set_pc (release s) t (Idle (Some (k, r))))        (* through __call__'s with block *)
      | _, false => Some (set_pc s t (Idle (Some (k, r))))
      end
  | CallLock k =>
      match acquire reentrant s t with Some s => Some (set_pc s t (CallCheck k)) | None => None end
  | CallCheck k =>
      match lookup s k with
      | Some _ => Some (set_pc (release s) t (Idle (Some (k, RTypeError))))
      | None => Some (set_pc s t (Look k true))
      end
  | Init k i => Some (set_pc (release s) t (Idle (Some (k, Obj i))))
  end.
(** [None]: the action is not possible now *)
Definition step (s : st) (t : nat) (a : action) : option st :=
  match a, pcs s t with
  | New k, Idle _ => Some (set_pc s t (Look k false))
  | Construct k, Idle _ => Some (set_pc s t (CallLock k))
  | Go, _ => go s t
  | FailInit, Init k i => Some (set_pc (set_refs (release s) (drop1 (t, i) (refs s))) t (Idle (Some (k, RInitError))))
  | Drop i, Idle _ => if has_ref s t i then Some (set_refs s (drop1 (t, i) (refs s))) else None
  | Share i t', Idle _ => if has_ref s t i then Some (set_refs s ((t', i) :: refs s)) else None
  | Interrupt, Idle _ => None
  | Interrupt, p => Some (mkst (made s) (keyof s) (registry s) (refs s) (lock s)
                               (setf (pcs s) t (Idle None)) (setf (suspended s) t (p :: suspended s t)))
  | Resume, Idle _ =>
      match suspended s t with
      | p :: ps => Some (mkst (made s) (keyof s) (registry s) (refs s) (lock s)
                              (setf (pcs s) t p) (setf (suspended s) t ps))
      | [] => None
      end
  | _, _ => None
  end.
(** A schedule; [None] if some action is not possible. *)
Fixpoint run (s : st) (sched : list (nat * action)) : option st :=
  match sched with
  | [] => Some s
  | (t, a) :: sched => match step s t a with Some s => run s sched | None => None end
  end.
End Step.
