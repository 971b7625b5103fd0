(** Models of memoized generators (unpythonic/gmemo.py) and of memoize (unpythonic/fun.py). *)
From Coq Require Import List Bool Arith ZArith.
From Verif Require Import Base CollModel.
Import ListNotations.
Open Scope nat_scope.

(** Update of a function at one point (no code in /repo). *)
Definition setf {X} (f : nat -> X) (i : nat) (x : X) : nat -> X := fun j => if j =? i then x else f j.

(** ** Memoized generators: one memoized sequence, its instances, and the threads using them.
    Instances are numbered; an instance exists from the start (creating one only sets its
    position to 0). *)
Section Gmemo.
Context {V G : Type}.   (* items; states of the underlying generator, suspended at a yield *)
(** What the generator does between two yields: it may use instances of its own memoized
    sequence, and finally yields a value, raises, or ends (StopIteration). *)
Inductive gprog :=
| GOut (o : outcome V) (g : G)
| GNext (i : nat) (k : outcome V -> gprog).
Variable resume : G -> gprog.

(** A call of __next__ that has not returned (gmemo.py 118-134). *)
Inductive nframe :=
| NStart (i : nat)               (* before line 119 *)
| NHave (i j : nat)              (* self.j has been read; before line 121 *)
| NLocked (i j : nat)            (* lock taken; before line 122 *)
| NRun (i j : nat) (p : gprog)   (* in next(self.g), line 126; lock taken *)
| NDone (i j : nat) (r : outcome V).  (* result known and memoized; before line 131; lock taken *)
Record gst := mkgst {
  memo : list (outcome V);
  gstate : G;
  running : bool;                (* the underlying generator is executing *)
  advanced : nat;                (* how often it has been resumed *)
  pos : nat -> nat;              (* .j of each instance *)
  lock : option (nat * nat);     (* RLock: owner and count *)
  calls : nat -> list nframe;    (* of each thread, innermost first *)
  returned : list (nat * outcome V) }. (* finished calls of __next__: instance and outcome *)
Definition gst0 (g : G) : gst := mkgst [] g false 0 (fun _ => 0) None (fun _ => []) [].

(** What a thread does next: it calls __next__, or goes on in it: gmemo.py 118-134 *)
Inductive gact :=
| Begin (t i : nat)   (* thread t calls next(instance i) *)
| Go (t : nat).       (* thread t does its next step *)
Definition set_calls (s : gst) (t : nat) (fs : list nframe) : gst :=
  mkgst (memo s) (gstate s) (running s) (advanced s) (pos s) (lock s) (setf (calls s) t fs) (returned s).
(** [None]: the step cannot be done now (e.g. the lock is taken). *)
Definition gmstep (s : gst) (a : gact) : option gst :=
  match a with
  | Begin t i => match calls s t with [] => Some (set_calls s t [NStart i]) | _ => None end
  | Go t =>
      match calls s t with
      | [] => None
      | NStart i :: fs => Some (set_calls s t (NHave i (pos s i) :: fs))
      | NHave i j :: fs =>
          match lock s with
          | None => let s' := set_calls s t (NLocked i j :: fs) in
              Some (mkgst (memo s') (gstate s') (running s') (advanced s') (pos s') (Some (t, 1)) (calls s') (returned s'))
          | Some (o, c) =>
              if o =? t then
                let s' := set_calls s t (NLocked i j :: fs) in
                Some (mkgst (memo s') (gstate s') (running s') (advanced s') (pos s') (Some (t, S c)) (calls s') (returned s'))
              else None
          end
      | NLocked i j :: fs =>
          match nth_error (memo s) j with
          | Some r => Some (set_calls s t (NDone i j r :: fs))
          | None =>
              if running s then (* ValueError: generator already executing *)
                Some (mkgst (memo s ++ [Raise ValueError]) (gstate s) (running s) (advanced s) (pos s) (lock s)
                        (setf (calls s) t (NDone i j (Raise ValueError) :: fs)) (returned s))
              else
                Some (mkgst (memo s) (gstate s) true (S (advanced s)) (pos s) (lock s)
                        (setf (calls s) t (NRun i j (resume (gstate s)) :: fs)) (returned s))
          end
      | NRun i j (GOut o g) :: fs =>
          Some (mkgst (memo s ++ [o]) g false (advanced s) (pos s) (lock s)
                  (setf (calls s) t (NDone i j o :: fs)) (returned s))
      | NRun i j (GNext i' k) :: fs => Some (set_calls s t (NStart i' :: NRun i j (GNext i' k) :: fs))
      | NDone i j r :: fs =>
          Some (mkgst (memo s) (gstate s) (running s) (advanced s) (setf (pos s) i (S (pos s i)))
                  (match lock s with
                   | Some (o, S (S c)) => Some (o, S c)
                   | _ => None
                   end)
                  (setf (calls s) t
                     match fs with
                     | NRun i0 j0 (GNext _ k) :: fs' => NRun i0 j0 (k r) :: fs'
                     | _ => fs
                     end)
                  (returned s ++ [(i, r)]))
      end
  end.
(** A schedule; [None] if some step cannot be done. *)
Fixpoint gmrun (s : gst) (acts : list gact) : option gst :=
  match acts with
  | [] => Some s
  | a :: acts' => match gmstep s a with Some s' => gmrun s' acts' | None => None end
  end.

(** gmemo.py 136-137 *)
Definition gm_len (s : gst) : Z := zlen (memo s).
(** gmemo.py 151-156, 139-150 (for an int and for a slice) *)
Definition gm_getitem (s : gst) (k : Z) : outcome V :=
  let n := zlen (memo s) in
  if (n <=? k)%Z || (k <? - n)%Z then Raise IndexError
  else match znth (memo s) (if (k <? 0)%Z then k + n else k)%Z with Some r => r | None => Raise IndexError end.
(** The results of calls of __next__ as items; an exception ends it: gmemo.py 139-156 *)
Fixpoint walk (rs : list (outcome V)) : outcome (list V) :=
  match rs with
  | [] => Ok []
  | Ok v :: rs' => do vs <- walk rs' ; Ok (v :: vs)
  | Raise x :: _ => Raise x
  end.
(** __getitem__ with a slice: gmemo.py 139-150 *)
Definition gm_getslice (s : gst) (k : pyslice) : outcome (list V) :=
  do rs <- py_slice (memo s) k ; walk rs.
End Gmemo.
Arguments gprog : clear implicits.
Arguments nframe : clear implicits.
Arguments gst : clear implicits.

(** ** gmemoized (gmemo.py 96-101): a call by a thread, up to finding the memo, the generator
    and the lock.  A triple of these is represented by its number. *)
Section Gcreate.
Context {K : Type}.
Variable keqb : K -> K -> bool.
Inductive cframe :=
| CCheck (k : K)           (* before line 98 *)
| CMake (k : K)            (* before line 100 *)
| CRead (k : K).           (* before line 101 *)
Record cst := mkcst {
  memos : dict K nat;
  made : nat;                          (* generators made *)
  ccalls : nat -> option cframe;
  cresults : list (K * nat) }.         (* what finished calls got: the generator *)
Definition cst0 : cst := mkcst [] 0 (fun _ => None) [].
(** What a thread does next: it calls the function, or goes on in it: gmemo.py 96-101 *)
Inductive cact := CBegin (t : nat) (k : K) | CGo (t : nat).
(** One line of gmemoized in one thread: gmemo.py 96-101 *)
Definition cstep (s : cst) (a : cact) : option cst :=
  match a with
  | CBegin t k => match ccalls s t with
      | None => Some (mkcst (memos s) (made s) (setf (ccalls s) t (Some (CCheck k))) (cresults s))
      | Some _ => None
      end
  | CGo t => match ccalls s t with
      | None => None
      | Some (CCheck k) =>
          Some (mkcst (memos s) (made s)
                  (setf (ccalls s) t (Some (match dict_get keqb (memos s) k with None => CMake k | Some _ => CRead k end)))
                  (cresults s))
      | Some (CMake k) =>
          Some (mkcst (dict_set keqb (memos s) k (made s)) (S (made s)) (setf (ccalls s) t (Some (CRead k))) (cresults s))
      | Some (CRead k) =>
          match dict_get keqb (memos s) k with
          | Some g => Some (mkcst (memos s) (made s) (setf (ccalls s) t None) (cresults s ++ [(k, g)]))
          | None => None   (* KeyError; does not happen *)
          end
      end
  end.
(** A schedule; [None] if some step cannot be done. *)
Fixpoint crun (s : cst) (acts : list cact) : option cst :=
  match acts with
  | [] => Some s
  | a :: acts' => match cstep s a with Some s' => crun s' acts' | None => None end
  end.
End Gcreate.
Arguments cst : clear implicits.
Arguments cact : clear implicits.

(** ** memoize (fun.py 71-96) *)
Section Memoize.
Context {K V : Type}.   (* keys: canonical parameter bindings; values *)
Variable keqb : K -> K -> bool.
(** Code that calls the memoized function. *)
Inductive prog :=
| PRet (r : outcome V)
| PCall (k : K) (c : outcome V -> prog).
(** The body of the function may depend on mutable state: here, on how many runs (of any key)
    there were before. *)
Variable body : nat -> K -> prog.
Inductive frame :=
| FTop (p : prog)             (* code of the thread itself *)
| FEnter (k : K)              (* before line 79 *)
| FWait (k : K)               (* not in the memo; before line 82 *)
| FCheck (k : K)              (* lock taken; before line 83 *)
| FRun (k : K) (p : prog)     (* in f, line 86; lock taken *)
| FStore (k : K) (r : outcome V)  (* before line 89; lock taken *)
| FUnlock (k : K)             (* at the end of the with block; lock taken *)
| FRead (k : K).              (* lock released; before line 93 *)
Record mst := mkmst {
  mmemo : dict K (outcome V);
  mlock : option (nat * nat);
  threads : nat -> list frame;
  runs : list K;                        (* runs of f that were started, in order *)
  answers : list (K * outcome V) }.     (* what calls of the memoized function returned or raised *)
Definition mst0 (progs : nat -> prog) : mst := mkmst [] None (fun t => [FTop (progs t)]) [] [].
(** A thread goes on. *)
Definition with_thread (s : mst) (t : nat) (fs : list frame) : mst :=
  mkmst (mmemo s) (mlock s) (setf (threads s) t fs) (runs s) (answers s).
(** A call of the memoized function returns [r] to the code that called it. *)
Definition answer (s : mst) (t : nat) (k : K) (r : outcome V) (fs : list frame) : option mst :=
  match fs with
  | FTop (PCall _ c) :: fs' =>
      Some (mkmst (mmemo s) (mlock s) (setf (threads s) t (FTop (c r) :: fs')) (runs s) (answers s ++ [(k, r)]))
  | FRun k0 (PCall _ c) :: fs' =>
      Some (mkmst (mmemo s) (mlock s) (setf (threads s) t (FRun k0 (c r) :: fs')) (runs s) (answers s ++ [(k, r)]))
  | _ => None
  end.
(** One step of one thread: fun.py 54-99, and the bodies of the functions. *)
Definition mstep (s : mst) (t : nat) : option mst :=
  match threads s t with
  | [] => None
  | FTop (PRet _) :: _ => None                      (* finished *)
  | FTop (PCall k c) :: fs => Some (with_thread s t (FEnter k :: FTop (PCall k c) :: fs))
  | FRun k0 (PCall k c) :: fs => Some (with_thread s t (FEnter k :: FRun k0 (PCall k c) :: fs))
  | FEnter k :: fs =>
      match dict_get keqb (mmemo s) k with
      | Some r => answer s t k r fs
      | None => Some (with_thread s t (FWait k :: fs))
      end
  | FWait k :: fs =>
      match mlock s with
      | None => Some (mkmst (mmemo s) (Some (t, 1)) (setf (threads s) t (FCheck k :: fs)) (runs s) (answers s))
      | Some (o, c) =>
          if o =? t then Some (mkmst (mmemo s) (Some (t, S c)) (setf (threads s) t (FCheck k :: fs)) (runs s) (answers s))
          else None
      end
  | FCheck k :: fs =>
      match dict_get keqb (mmemo s) k with
      | Some _ => Some (with_thread s t (FUnlock k :: fs))
      | None => Some (mkmst (mmemo s) (mlock s) (setf (threads s) t (FRun k (body (length (runs s)) k) :: fs))
                        (runs s ++ [k]) (answers s))
      end
  | FRun k (PRet r) :: fs => Some (with_thread s t (FStore k r :: fs))
  | FStore k r :: fs =>
      Some (mkmst (dict_set keqb (mmemo s) k r) (mlock s) (setf (threads s) t (FUnlock k :: fs)) (runs s) (answers s))
  | FUnlock k :: fs =>
      Some (mkmst (mmemo s)
              (match mlock s with Some (o, S (S c)) => Some (o, S c) | _ => None end)
              (setf (threads s) t (FRead k :: fs)) (runs s) (answers s))
  | FRead k :: fs =>
      match dict_get keqb (mmemo s) k with
      | Some r => answer s t k r fs
      | None => None   (* KeyError; does not happen *)
      end
  end.
(** A schedule; [None] if some step cannot be done. *)
Fixpoint mrun (s : mst) (schedule : list nat) : option mst :=
  match schedule with
  | [] => Some s
  | t :: ts => match mstep s t with Some s' => mrun s' ts | None => None end
  end.
End Memoize.
Arguments prog : clear implicits.
Arguments frame : clear implicits.
Arguments mst : clear implicits.
