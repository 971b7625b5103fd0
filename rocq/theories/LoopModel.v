(** Model of unpythonic/fploop.py: looped, breakably_looped, looped_over, breakably_looped_over.
    Simplifications: no named arguments in loop(...); the arity checks (120-124 etc.) have passed;
    the body does not catch the escape that brk(...) sends, and returns no jump of its own making. *)
From Coq Require Import List.
From Verif Require Import Base.
Import ListNotations.
Open Scope list_scope.

Section Loop.
Context {V U : Type}.

(** What a function returns: a value or a [_jump] to the loop body; [J] is the jump's arguments *)
Inductive rv (J : Type) := RVal (v : V) | RJump (j : J).
(** The body: any computation on the program's state [U]; calls of loop(...) and cnt(...), whose
    result (or exception) it may use as it likes; brk(v) *)
Inductive prog (J : Type) :=
| Ret (r : rv J)
| Throw (e : exn)
| Eff (g : U -> U * V) (k : V -> prog J)
| Loop (args : list V) (k : outcome (rv J) -> prog J)
| Cnt (args : list V) (k : outcome (rv J) -> prog J)
| Brk (v : V).
Arguments RVal {J} v.
Arguments RJump {J} j.
Arguments Ret {J} r.
Arguments Throw {J} e.
Arguments Eff {J} g k.
Arguments Loop {J} args k.
Arguments Cnt {J} args k.
Arguments Brk {J} v.

(** How the run of a loop body can end. *)
Inductive bres (J : Type) := BRet (r : rv J) | BExc (e : exn) | BBrk (v : V).
Arguments BRet {J} r.
Arguments BExc {J} e.
Arguments BBrk {J} v.

(** One run of the body.  [L] is what the closure [loop] has in its cell variables. *)
Section Run.
Context {J L : Type}.
Variable do_loop : list V -> L -> outcome (rv J) * L.
(** The run of a loop body, in terms of what loop() and cnt() do (fploop.py, as cited at the loops below). *)
Fixpoint run_body (do_cnt : list V -> L -> outcome (rv J) * L) (p : prog J) (u : U) (l : L) : bres J * U * L :=
  match p with
  | Ret r => (BRet r, u, l)
  | Throw e => (BExc e, u, l)
  | Eff g k => let (u, v) := g u in run_body do_cnt (k v) u l
  | Loop args k => let (r, l) := do_loop args l in run_body do_cnt (k r) u l
  | Cnt args k => let (r, l) := do_cnt args l in run_body do_cnt (k r) u l
  | Brk v => (BBrk v, u, l)
  end.
(** tco.py 251-267, for jumps to the body only; [None]: out of fuel *)
Fixpoint trampoline (fuel : nat) (body : J -> prog J) (do_cnt : J -> list V -> L -> outcome (rv J) * L) (j : J) (u : U) (l : L) : option (outcome V * U * L) :=
  match fuel with
  | O => None
  | S fuel =>
      let '(r, u, l) := run_body (do_cnt j) (body j) u l in
      match r with
      | BRet (RJump j) => trampoline fuel body do_cnt j u l
      | BRet (RVal v) => Some (Ok v, u, l)
      | BExc e => Some (Raise e, u, l)
      | BBrk v => Some (Ok v, u, l)              (* ec.py: call_ec returns the value escaped with *)
      end
  end.
End Run.

(** Loops without cnt: there is no such name. *)
Definition no_cnt {J L} (args : list V) (l : L) : outcome (rv J) * L := (Raise NameError, l).

(** fploop.py 114-126 and 165-176: the jump's arguments after [loop] (and [brk]) *)
Definition looped_loop (args : list V) (l : unit) : outcome (rv (list V)) * unit := (Ok (RJump args), l).
(** looped: fploop.py 37-126 *)
Definition looped (fuel : nat) (body : list V -> prog (list V)) (u : U) : option (outcome V * U) :=
  match trampoline looped_loop fuel body (fun _ => no_cnt) [] u tt with
  | Some (r, u, _) => Some (r, u)
  | None => None
  end.

Context {X It : Type}.
(** What next() of the iterator can do (Python's own). *)
Inductive itres := INext (x : X) (it : It) | IStop | IRaise (e : exn).
Variable next : It -> itres.

(** The arguments of a jump (260, 331): newx, newacc, the accumulator that cnt is bound to, rest *)
Definition jump_args : Type := X * V * V * list V.
(** fploop.py 251-260, 321-331; the cell variables are [it] and [oldacc] *)
Definition over_loop (args : list V) (l : It * V) : outcome (rv jump_args) * (It * V) :=
  let (it, oldacc) := l in
  let newacc := match args with a :: _ => a | [] => oldacc end in
  match next it with
  | IStop => (Ok (RVal newacc), (it, newacc))
  | IRaise e => (Raise e, (it, newacc))
  | INext x it => (Ok (RJump (x, newacc, newacc, tl args)), (it, newacc))
  end.
(** fploop.py 330, 342: cnt = partial(loop, oldacc) *)
Definition over_cnt (j : jump_args) (args : list V) (l : It * V) : outcome (rv jump_args) * (It * V) :=
  let '(_, _, bound, _) := j in over_loop (bound :: args) l.
(** fploop.py 246-271, 316-343 *)
Definition over (cnt : jump_args -> list V -> It * V -> outcome (rv jump_args) * (It * V)) (fuel : nat)
  (it : It) (acc : V) (body : X -> V -> list V -> prog jump_args) (u : U) : option (outcome V * U) :=
  match next it with
  | IStop => Some (Ok acc, u)
  | IRaise e => Some (Raise e, u)
  | INext x0 it =>
      match trampoline over_loop fuel (fun '(x, acc, _, rest) => body x acc rest) cnt (x0, acc, acc, []) u (it, acc) with
      | Some (r, u, _) => Some (r, u)
      | None => None
      end
  end.
(** looped_over: fploop.py 179-272 *)
Definition looped_over := over (fun _ => no_cnt).
(** breakably_looped_over: fploop.py 275-344 *)
Definition breakably_looped_over := over over_cnt.
End Loop.
Arguments RVal {V J} v.
Arguments RJump {V J} j.
Arguments Ret {V U J} r.
Arguments Throw {V U J} e.
Arguments Eff {V U J} g k.
Arguments Loop {V U J} args k.
Arguments Cnt {V U J} args k.
Arguments Brk {V U J} v.
Arguments BRet {V J} r.
Arguments BExc {V J} e.
Arguments BBrk {V J} v.
Arguments prog : clear implicits.
Arguments jump_args : clear implicits.
Arguments INext {X It} x it.
Arguments IStop {X It}.
Arguments IRaise {X It} e.
