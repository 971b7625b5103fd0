(** Model of unpythonic/conditions.py: signal, error, cerror, warn, invoke, find_restart, handlers,
    restarts, resignal (lines 91-200, 232-270, 419-554, 578-724, 729-850, 862-962), one thread. *)
From Coq Require Import String List Arith.
From Verif Require Import Base.
Import ListNotations.
Open Scope list_scope.

(** Which function signalled (condition.__protocol__, 225) *)
Inductive protocol := PSignal | PError | PCerror | PWarn.
(** A condition instance: its type, the protocol, and __cause__ *)
Inductive cond := mkCond { ctype : nat; cproto : protocol; ccause : option cond }.
(** The type ControlError, raised and also signalled by [invoke] *)
Definition ControlErrorType : nat := 0.

Section Cond.
Context {V St : Type}.
Variable none : V.
(** issubclass *)
Variable sub : nat -> nat -> bool.
(** What warnings.warn does to the state *)
Variable print_warning : cond -> St -> St.

(** Programs that use the condition system.  A restart object (BoundRestart, 517) is the number of
    its block and a name.  Handlers are functions of the condition (a handler that takes no argument
    ignores it, conditions.py 193-196). *)
Inductive prog :=
| Ret (v : V)
| RaiseP (e : exn)
| Eff (g : St -> St * V)                                    (* any other computation *)
| Signal (c : cond)
| Invoke (n : string) (a : V)                               (* invoke by name *)
| InvokeBound (b : nat) (n : string) (a : V)                (* invoke of a result of find_restart *)
| FindRestart (n : string) (k : option (nat * string) -> prog)
| WithHandlers (hs : list (list nat * (cond -> prog))) (p : prog)
| WithRestarts (rs : list (string * (V -> prog))) (p : prog) (* with_restarts(...)(body), 715-723 *)
| Try (p : prog) (h : exn -> prog)                          (* try: p  except Exception as e: h(e) *)
| Finally (p : prog) (q : prog)
| Bind (p : prog) (k : V -> prog).

(** The bindings of a `with handlers` block (conditions.py 488-496). *)
Definition hblock := list (list nat * (cond -> prog)).
(** The bindings of a `with restarts` block (conditions.py 435-440). *)
Definition rblock := list (string * (V -> prog)).
(** conditions.py 75-79: the handler deque [hs] and its modification counter [hver] (CPython's deque.state), the
    deque [rs] of the numbers of the active restart blocks, and all restart blocks ever made: [rs]
    holds dicts, which are told apart by identity in line 675. *)
Record st := mkSt { hs : list hblock; hver : nat; rs : list nat; blocks : list rblock; usr : St }.

(** [RInvoke b n a]: an InvokeRestart exception (conditions.py 498-504) in flight. *)
Inductive res := RVal (v : V) | RExc (e : exn) | RInvoke (b : nat) (n : string) (a : V).

(** conditions.py 578, 676: [restarts] is a generator, so that a StopIteration raised in it by the restart's function
    becomes RuntimeError (PEP 479).  One that is thrown in from the body is recognised by contextlib, and passes. *)
Definition gen_exit (r : res) : res := match r with RExc StopIterationE => RExc RuntimeError | r => r end.

(** The bindings of the restart block of that number. *)
Definition block (s : st) (b : nat) : rblock := nth b (blocks s) [].
(** Lookup in an association list: Python's dict or namespace (no code in /repo). *)
Fixpoint assoc (n : string) (l : rblock) : option (V -> prog) :=
  match l with [] => None | (n', f) :: l => if String.eqb n' n then Some f else assoc n l end.
(** conditions.py 518-534: find_restart *)
Definition find_restart (n : string) (s : st) : option (nat * string) :=
  match find (fun b => match assoc n (block s b) with Some _ => true | None => false end) (rs s) with
  | Some b => Some (b, n)
  | None => None
  end.
(** conditions.py 510-515 *)
Definition matches (c : cond) (ts : list nat) : bool := existsb (sub (ctype c)) ts.

(** conditions.py 729-746, 784-796 *)
Definition error (c : cond) : prog := Bind (Signal c) (fun _ => RaiseP ControlError).
(** conditions.py 748-782 *)
Definition cerror (c : cond) : prog :=
  WithRestarts [("proceed"%string, fun _ => Ret none)] (Bind (Signal c) (fun _ => RaiseP ControlError)).
(** conditions.py 798-850 *)
Definition warn (c : cond) : prog :=
  WithRestarts [("muffle"%string, fun _ => Ret none)]
    (Bind (WithRestarts [("_proceed"%string, fun _ => Ret none)] (Signal c))
       (fun _ => Eff (fun u => (print_warning c u, none)))).
(** signal, error, cerror and warn with the condition c: conditions.py 91-200, conditions.py 729-746, conditions.py 748-782, conditions.py 798-850 *)
Definition by_protocol (p : protocol) (c : cond) : prog :=
  match p with PSignal => Signal c | PError => error c | PCerror => cerror c | PWarn => warn c end.
(** conditions.py 885-893.  The application condition is a new instance of a type; giving an instance in the
    mapping is not modelled. *)
Fixpoint resignal_handler (mapping : list (list nat * nat)) (c : cond) : prog :=
  match mapping with
  | [] => Ret none
  | (lib, app) :: rest =>
      if matches c lib
      then Bind (by_protocol (cproto c) (mkCond app (cproto c) (Some c))) (fun _ => resignal_handler rest c)
      else resignal_handler rest c
  end.
(** conditions.py 927-928, 961-962; [any] is the type BaseException *)
Definition resignal (any : nat) (mapping : list (list nat * nat)) (p : prog) : prog :=
  WithHandlers [([any], resignal_handler mapping)] p.
(** conditions.py 263-264: no such restart *)
Definition no_such_restart : prog := error (mkCond ControlErrorType PError None).

(** __enter__ and __exit__ of _Stacked (conditions.py 423-427), for handlers and for restarts. *)
Definition push_h (b : hblock) (s : st) : st := mkSt (b :: hs s) (S (hver s)) (rs s) (blocks s) (usr s).
(** See push_h. *)
Definition pop_h (s : st) : st := mkSt (tl (hs s)) (S (hver s)) (rs s) (blocks s) (usr s).
(** See push_h. *)
Definition push_r (b : rblock) (s : st) : st :=
  mkSt (hs s) (hver s) (length (blocks s) :: rs s) (blocks s ++ [b]) (usr s).
(** See push_h. *)
Definition pop_r (s : st) : st := mkSt (hs s) (hver s) (tl (rs s)) (blocks s) (usr s).

(** [Offer c l later ver]: in the loop of conditions.py line 192, with the handlers [l] of the current block and
    the blocks [later] still to come; [ver] is the deque's state when the loop began. *)
Inductive task := Run (p : prog) | Offer (c : cond) (l : hblock) (later : list hblock) (ver : nat).

(** How programs run: signal (conditions.py 91-200), the blocks, and invoke (conditions.py 232-270), as cited at the tasks. *)
Fixpoint exec (fuel : nat) (t : task) (s : st) : option (res * st) :=
  match fuel with
  | O => None
  | S fuel =>
      match t with
      | Run (Ret v) => Some (RVal v, s)
      | Run (RaiseP e) => Some (RExc e, s)
      | Run (Eff g) => let (u, v) := g (usr s) in Some (RVal v, mkSt (hs s) (hver s) (rs s) (blocks s) u)
      (* 192-200 *)
      | Run (Signal c) => exec fuel (Offer c [] (hs s) (hver s)) s
      (* 261-264, 270 *)
      | Run (Invoke n a) =>
          match find_restart n s with
          | Some (b, n) => Some (RInvoke b n a, s)
          | None => exec fuel (Run no_such_restart) s
          end
      (* 265-266, 270 *)
      | Run (InvokeBound b n a) => Some (RInvoke b n a, s)
      | Run (FindRestart n k) => exec fuel (Run (k (find_restart n s))) s
      (* 423-427, 488-496 *)
      | Run (WithHandlers b p) =>
          match exec fuel (Run p) (push_h b s) with
          | None => None
          | Some (r, s1) => Some (r, pop_h s1)
          end
      (* 670-678, 721-723 *)
      | Run (WithRestarts b p) =>
          let me := length (blocks s) in
          match exec fuel (Run p) (push_r b s) with
          | None => None
          | Some (RInvoke b' n a, s1) =>
              if b' =? me then
                match assoc n (block s1 b') with
                | None => None        (* a BoundRestart names a restart of its block *)
                | Some f =>
                    match exec fuel (Run (f a)) s1 with
                    | None => None
                    | Some (r, s2) => Some (gen_exit r, pop_r s2)
                    end
                end
              else Some (RInvoke b' n a, pop_r s1)
          | Some (r, s1) => Some (r, pop_r s1)
          end
      | Run (Try p h) =>
          match exec fuel (Run p) s with
          | Some (RExc e, s1) => exec fuel (Run (h e)) s1
          | x => x
          end
      | Run (Finally p q) =>
          match exec fuel (Run p) s with
          | None => None
          | Some (r, s1) =>
              match exec fuel (Run q) s1 with
              | Some (RVal _, s2) => Some (r, s2)
              | x => x
              end
          end
      | Run (Bind p k) =>
          match exec fuel (Run p) s with
          | Some (RVal v, s1) => exec fuel (Run (k v)) s1
          | x => x
          end
      (* the next element of the deque: 508 *)
      | Offer c [] later ver =>
          if hver s =? ver then
            match later with
            | [] => Some (RVal none, s)
            | b :: later => exec fuel (Offer c b later ver) s
            end
          else Some (RExc RuntimeError, s)
      | Offer c ((ts, h) :: l) later ver =>
          if matches c ts then
            match exec fuel (Run (h c)) s with
            | Some (RVal _, s1) => exec fuel (Offer c l later ver) s1
            | x => x
            end
          else exec fuel (Offer c l later ver) s
      end
  end.

(** conditions.py 536-554: available_restarts, before it is sorted by name *)
Fixpoint collect (seen : list string) (l : rblock) : list string * rblock :=
  match l with
  | [] => (seen, [])
  | (n, f) :: l =>
      if existsb (String.eqb n) seen then collect seen l
      else let (seen', out) := collect (n :: seen) l in (seen', (n, f) :: out)
  end.
(** available_restarts: conditions.py 536-554 *)
Definition available_restarts (s : st) : rblock := snd (collect [] (flat_map (block s) (rs s))).
End Cond.
Arguments prog : clear implicits.
Arguments st : clear implicits.
Arguments res : clear implicits.
Arguments hblock : clear implicits.
Arguments rblock : clear implicits.
Arguments task : clear implicits.
