(** Model of dynamic assignment (unpythonic/dynassign.py). *)
From Coq Require Import List Bool Arith.
From Verif Require Import Base CollModel.
Import ListNotations.
Open Scope nat_scope.

Section Dyn.
Context {N V : Type}.
Variable neqb : N -> N -> bool.
Notation scope := (dict N V).
(** `name in scope` (Python's dict, no code in /repo). *)
Definition in_scope (s : scope) (n : N) : bool := match dict_get neqb s n with Some _ => true | None => false end.

(** ** Programs of one thread.  The stack, innermost scope first, and _global_dynvars. *)
Record dst := mkdst { stack : list scope; globals : scope }.

(** dynassign.py 146-154: the number of the scope in the stack, or [None] for the globals *)
Fixpoint find_scope (ss : list scope) (n : N) : option nat :=
  match ss with
  | [] => None
  | s :: ss' => if in_scope s n then Some 0 else match find_scope ss' n with Some i => Some (S i) | None => None end
  end.
(** _resolve: dynassign.py 146-154 *)
Definition resolve (d : dst) (n : N) : outcome (option nat) :=
  match find_scope (stack d) n with
  | Some i => Ok (Some i)
  | None => if in_scope (globals d) n then Ok None else Raise AttributeError
  end.
(** The scope with that number, or the global one. *)
Definition scope_at (d : dst) (w : option nat) : scope :=
  match w with Some i => nth i (stack d) [] | None => globals d end.
(** An assignment in that scope: dynassign.py 161-174 *)
Definition set_at (d : dst) (w : option nat) (n : N) (v : V) : dst :=
  match w with
  | Some i => mkdst (upd (stack d) i (dict_set neqb (nth i (stack d) []) n v)) (globals d)
  | None => mkdst (stack d) (dict_set neqb (globals d) n v)
  end.
(** dynassign.py 156-159 *)
Definition dyn_get (d : dst) (n : N) : outcome V :=
  do w <- resolve d n ;
  match dict_get neqb (scope_at d w) n with Some v => Ok v | None => Raise KeyError end.
(** dynassign.py 161-174 *)
Definition dyn_set (d : dst) (n : N) (v : V) : outcome dst :=
  do w <- resolve d n ; Ok (set_at d w n v).
(** dynassign.py 192-216: first all names are resolved, then all values set *)
Fixpoint resolve_all (d : dst) (b : list (N * V)) : outcome (list (option nat)) :=
  match b with
  | [] => Ok []
  | (n, _) :: b' => do w <- resolve d n ; do ws <- resolve_all d b' ; Ok (w :: ws)
  end.
(** The assignments of update: dynassign.py 192-216 *)
Fixpoint set_all (d : dst) (ws : list (option nat)) (b : list (N * V)) : dst :=
  match ws, b with
  | w :: ws', (n, v) :: b' => set_all (set_at d w n v) ws' b'
  | _, _ => d
  end.
(** dyn.update: dynassign.py 192-216 *)
Definition dyn_update (d : dst) (b : list (N * V)) : outcome dst :=
  do ws <- resolve_all d b ; Ok (set_all d ws b).
(** dynassign.py 268-292 *)
Definition make_dynvar (d : dst) (b : list (N * V)) : dst := mkdst (stack d) (dict_update neqb (globals d) b).
(** dynassign.py 37-49 *)
Definition block_enter (d : dst) (b : scope) : dst :=
  match b with [] => d | _ => mkdst (b :: stack d) (globals d) end.
(** The end of a block: dynassign.py 45-49 *)
Definition block_exit (d : dst) (b : scope) : dst :=
  match b with [] => d | _ => mkdst (tl (stack d)) (globals d) end.

(** Programs: what they do may depend on the values they read. *)
Inductive cmd :=
| Skip
| Seq (c1 c2 : cmd)
| Read (n : N) (k : V -> cmd)
| Assign (n : N) (v : V)
| Update (b : list (N * V))
| MakeDynvar (b : list (N * V))
| Throw (x : exn)
| Try (c : cmd) (handler : exn -> cmd)
| Let (b : scope) (body : cmd).   (* with dyn.let( **b): body *)

(** Result, final state, and the values read, in order. *)
Fixpoint exec (c : cmd) (d : dst) : outcome unit * dst * list V :=
  match c with
  | Skip => (Ok tt, d, [])
  | Seq c1 c2 =>
      match exec c1 d with
      | (Ok _, d1, t1) => match exec c2 d1 with (r, d2, t2) => (r, d2, t1 ++ t2) end
      | r => r
      end
  | Read n k =>
      match dyn_get d n with
      | Ok v => match exec (k v) d with (r, d1, t) => (r, d1, v :: t) end
      | Raise x => (Raise x, d, [])
      end
  | Assign n v => match dyn_set d n v with Ok d1 => (Ok tt, d1, []) | Raise x => (Raise x, d, []) end
  | Update b => match dyn_update d b with Ok d1 => (Ok tt, d1, []) | Raise x => (Raise x, d, []) end
  | MakeDynvar b => (Ok tt, make_dynvar d b, [])
  | Throw x => (Raise x, d, [])
  | Try c1 h =>
      match exec c1 d with
      | (Raise x, d1, t1) => match exec (h x) d1 with (r, d2, t2) => (r, d2, t1 ++ t2) end
      | r => r
      end
  | Let b body =>
      match exec body (block_enter d b) with (r, d1, t) => (r, block_exit d1 b, t) end
  end.

(** ** Several threads.  Scopes are dict objects in a heap; thread 0 is the main thread.
    Every operation is one atomic step. *)
Record tst := mktst {
  heap : list scope;
  mainstack : list nat;              (* innermost first *)
  stacks : nat -> option (list nat); (* _L._stack of the other threads *)
  tglobals : scope;
  views : nat -> list (list nat) }.  (* _L._observers: the .maps of each live view, without the globals *)
Definition tst0 : tst := mktst [] [] (fun _ => None) [] (fun _ => []).
(** dynassign.py 19-30 *)
Definition tstack (w : tst) (t : nat) : list nat :=
  if t =? 0 then mainstack w
  else match stacks w t with Some s => s | None => mainstack w end.
(** A thread gets a new stack. *)
Definition set_stack (w : tst) (t : nat) (s : list nat) : tst :=
  if t =? 0 then mktst (heap w) s (stacks w) (tglobals w) (views w)
  else mktst (heap w) (mainstack w) (fun u => if u =? t then Some s else stacks w u) (tglobals w) (views w).
(** _getstack: dynassign.py 19-30 *)
Definition getstack (w : tst) (t : nat) : tst * list nat := (set_stack w t (tstack w t), tstack w t).
(** The first use in a thread copies the main thread's stack: dynassign.py 19-30 *)
Definition refresh (w : tst) (t : nat) : tst :=
  mktst (heap w) (mainstack w) (stacks w) (tglobals w)
    (fun u => if u =? t then map (fun _ => tstack w t) (views w t) else views w u).
(** The scope object with a number. *)
Definition cell (w : tst) (r : nat) : scope := nth r (heap w) [].
(** The innermost scope that has the name: dynassign.py 146-154 *)
Fixpoint find_ref (w : tst) (rs : list nat) (n : N) : option nat :=
  match rs with
  | [] => None
  | r :: rs' => if in_scope (cell w r) n then Some r else find_ref w rs' n
  end.
(** the scope that has [n] *)
Definition tresolve (w : tst) (t : nat) (n : N) : outcome (option nat) :=
  match find_ref w (tstack w t) n with
  | Some r => Ok (Some r)
  | None => if in_scope (tglobals w) n then Ok None else Raise AttributeError
  end.
(** dyn.n in a thread: dynassign.py 156-159 *)
Definition tget (w : tst) (t : nat) (n : N) : outcome V :=
  do s <- tresolve w t n ;
  match dict_get neqb (match s with Some r => cell w r | None => tglobals w end) n with
  | Some v => Ok v
  | None => Raise KeyError
  end.
(** An assignment into a scope object: dynassign.py 161-174 *)
Definition twrite (w : tst) (s : option nat) (n : N) (v : V) : tst :=
  match s with
  | Some r => mktst (upd (heap w) r (dict_set neqb (cell w r) n v)) (mainstack w) (stacks w) (tglobals w) (views w)
  | None => mktst (heap w) (mainstack w) (stacks w) (dict_set neqb (tglobals w) n v) (views w)
  end.
(** update in a thread, the first half: dynassign.py 192-216 *)
Fixpoint tresolve_all (w : tst) (t : nat) (b : list (N * V)) : outcome (list (option nat)) :=
  match b with
  | [] => Ok []
  | (n, _) :: b' => do s <- tresolve w t n ; do ss <- tresolve_all w t b' ; Ok (s :: ss)
  end.
(** update in a thread, the second half: dynassign.py 192-216 *)
Fixpoint twrite_all (w : tst) (ss : list (option nat)) (b : list (N * V)) : tst :=
  match ss, b with
  | s :: ss', (n, v) :: b' => twrite_all (twrite w s n v) ss' b'
  | _, _ => w
  end.

(** What a thread can do with dyn: dynassign.py 79-265, dynassign.py 268-292 *)
Inductive dop :=
| DEnter (b : scope)            (* entering with dyn.let( **b) *)
| DExit (empty : bool)          (* leaving a block; [empty]: it has no bindings *)
| DGet (n : N)                  (* any read access *)
| DSet (n : N) (v : V)
| DUpdate (b : list (N * V))
| DMake (b : list (N * V))
| DView.                        (* dyn.asdict(), items(), keys(), values(), iter, len, == *)
Definition tstep (w0 : tst) (e : nat * dop) : tst :=
  let (t, o) := e in
  match o with
  | DEnter [] => w0
  | DEnter b => let w := fst (getstack w0 t) in
      let r := length (heap w) in
      refresh (set_stack (mktst (heap w ++ [b]) (mainstack w) (stacks w) (tglobals w) (views w)) t (r :: tstack w t)) t
  | DExit true => w0
  | DExit false => let w := fst (getstack w0 t) in refresh (set_stack w t (tl (tstack w t))) t
  | DGet n => fst (getstack w0 t)
  | DSet n v => let w := fst (getstack w0 t) in
      match tresolve w t n with Ok s => twrite w s n v | Raise _ => w end
  | DUpdate b => match b with
      | [] => w0
      | _ => let w := fst (getstack w0 t) in
             match tresolve_all w t b with Ok ss => twrite_all w ss b | Raise _ => w end
      end
  | DMake b => mktst (heap w0) (mainstack w0) (stacks w0) (dict_update neqb (tglobals w0) b) (views w0)
  | DView => let w := fst (getstack w0 t) in  (* 53-57, 76-77 *)
      mktst (heap w) (mainstack w) (stacks w) (tglobals w)
        (fun u => if u =? t then tstack w t :: views w t else views w u)
  end.
(** A whole history of several threads. *)
Definition trun (w : tst) (es : list (nat * dop)) : tst := fold_left tstep es w.
(** Reading through a live view: ChainMap looks in its maps in order. *)
Definition view_get (w : tst) (maps : list nat) (n : N) : option V :=
  match find_ref w maps n with
  | Some r => dict_get neqb (cell w r) n
  | None => dict_get neqb (tglobals w) n
  end.
End Dyn.
Arguments dst : clear implicits.
Arguments cmd : clear implicits.
Arguments tst : clear implicits.
Arguments dop : clear implicits.
