(** Model of unpythonic/tco.py: jump, trampolined (strict code: lines 140-170, 236-274). *)
From Coq Require Import List Arith.
From Verif Require Import Base.
Import ListNotations.
Open Scope list_scope.

Section Tco.
Context {D St : Type}.
(** A callable: [Tramp i] is the function number [i] decorated with @trampolined, [Plain i] the
    undecorated function. *)
Inductive callable := Tramp (i : nat) | Plain (i : nat).
(** Values: data, or something that can be called. *)
Inductive val := Data (d : D) | Fn (t : callable).

(** The body of a function, as far as calls are concerned.  The continuation of a call that is
    not in tail position gets the result or the exception (the program may catch it).
    Simplification: named arguments are not distinguished from positional ones. *)
Inductive cmd :=
| Ret (v : val)
| RaiseExc (e : exn)
| Eff (g : St -> St * val) (k : val -> cmd)               (* any computation on the program's state *)
| Call (t : val) (args : list val) (k : outcome val -> cmd)
| Jump (t : val) (args : list val).                       (* return jump(t, ...) *)
Variable body : nat -> list val -> cmd.

(** What a body returns: a value, a [_jump] object, or an exception. *)
Inductive result := RVal (v : val) | RJump (target : val) (args : list val) | RExc (e : exn).
(** tco.py 165-169: a trampolined target is replaced by its entry point *)
Definition make_jump (t : val) (args : list val) : result :=
  RJump (match t with Fn (Tramp i) => Fn (Plain i) | _ => t end) args.

(** What runs: the rest of a body; a call of a trampolined function; the loop of a trampoline
    that is about to call [f]. *)
Inductive task :=
| Body (c : cmd)
| CallTramp (i : nat) (args : list val)
| Loop (f : val) (args : list val)
| Inert (r : result).      (* @trampolined on what a do-it-now decorator (call_ec) has left: 273-274 *)
Definition as_outcome (r : result) : option (outcome val) :=
  match r with RVal v => Some (Ok v) | RExc e => Some (Raise e) | RJump _ _ => None end.

(** Runs a task; gives the result, the state and the greatest number of Python frames in use at
    the same time.  [None]: out of fuel, or the program uses a [_jump] object as a value. *)
Fixpoint exec (fuel : nat) (t : task) (s : St) : option (result * St * nat) :=
  match fuel with
  | O => None
  | S fuel =>
      match t with
      | Body (Ret v) => Some (RVal v, s, 1)
      | Body (RaiseExc e) => Some (RExc e, s, 1)
      | Body (Eff g k) => let (s1, v) := g s in exec fuel (Body (k v)) s1
      | Body (Jump t args) => Some (make_jump t args, s, 1)
      | Body (Call (Data _) args k) => exec fuel (Body (k (Raise TypeError))) s
      | Body (Call (Fn f) args k) =>
          let callee := match f with Tramp i => CallTramp i args | Plain i => Body (body i args) end in
          match exec fuel callee s with
          | None => None
          | Some (r1, s1, n1) =>
              match as_outcome r1 with
              | None => None
              | Some o =>
                  match exec fuel (Body (k o)) s1 with
                  | None => None
                  | Some (r, s2, n2) => Some (r, s2, max (S n1) n2)
                  end
              end
          end
      (* 246-247, 271 *)
      | CallTramp i args =>
          match exec fuel (Loop (Fn (Plain i)) args) s with
          | None => None
          | Some (r, s1, n) => Some (r, s1, S n)
          end
      (* 248, 251-261: [r] is no function *)
      | Inert (RJump (Data _) args) => Some (RExc RuntimeError, s, 1)
      | Inert (RJump target args) =>
          match exec fuel (Loop target args) s with
          | None => None
          | Some (r, s1, n) => Some (r, s1, S n)
          end
      | Inert r => Some (r, s, 1)
      (* 248-261 *)
      | Loop (Data d) args => Some (RVal (Data d), s, 0)
      | Loop (Fn f) args =>
          let callee := match f with Tramp i => CallTramp i args | Plain i => Body (body i args) end in
          match exec fuel callee s with
          | None => None
          | Some (RJump target args', s1, n1) =>
              match target with
              | Data _ => Some (RExc RuntimeError, s1, n1)
              | Fn _ =>
                  match exec fuel (Loop target args') s1 with
                  | None => None
                  | Some (r, s2, n2) => Some (r, s2, max n1 n2)
                  end
              end
          | Some done => Some done
          end
      end
  end.
End Tco.
Arguments val : clear implicits.
Arguments cmd : clear implicits.
Arguments result : clear implicits.
Arguments task : clear implicits.
