(** Model of unpythonic/ec.py: throw, catch, call_ec. *)
From Coq Require Import List Bool Arith.
From Verif Require Import Base.
Import ListNotations.
Open Scope list_scope.

(** Tags: those of the program (hashable or not), and the ids that call_ec uses (ec.py 252-253).
    Simplification: the program does not use as a tag an int that is the id of such an object. *)
Inductive tag := User (t : nat) | Unhashable (t : nat) | Uid (u : nat).
(** [==] on tags. *)
Definition tag_eqb (a b : tag) : bool :=
  match a, b with
  | User s, User t => Nat.eqb s t
  | Unhashable s, Unhashable t => Nat.eqb s t
  | Uid s, Uid t => Nat.eqb s t
  | _, _ => false
  end.

(** ec.py 179-188.  [tags] is the set; [e.tag in tags] raises TypeError for an unhashable tag. *)
Definition shouldcatch (tags : option (list tag)) (catch_untagged : bool)
                       (e_tag : option tag) (allow_catchall : bool) : outcome bool :=
  match tags with
  | None =>
      if allow_catchall then Ok true
      else Ok (catch_untagged && match e_tag with None => true | Some _ => false end)
  | Some ts =>
      match e_tag with
      | None => Ok catch_untagged
      | Some (Unhashable _) => Raise TypeError
      | Some t => Ok (existsb (tag_eqb t) ts)
      end
  end.

Section Ec.
(** data of the program, and its own state *)
Context {D St : Type}.
(** Values: data, or the escape continuation with the given identity. *)
Inductive val := Data (d : D) | Ec (i : nat).

(** A (terminating) program. *)
Inductive cmd :=
| Ret (v : val)
| Eff (g : St -> St * val)                       (* any computation on the program's state *)
| Bind (c : cmd) (k : val -> cmd)
| RaiseExc (e : exn)                             (* an ordinary exception *)
| Throw (v : val) (t : option tag) (allow_catchall : bool)
| Catch (tags : option (list nat)) (catch_untagged : bool) (c : cmd)  (* a call of a @catch(...) function *)
| CallEc (f : val -> cmd)
| Invoke (w : val) (v : val)                     (* w(v) *)
| Finally (c : cmd) (g : St -> St)               (* try: c finally: g *)
| Except (c : cmd) (h : exn -> cmd).             (* try: c except Exception as e: h(e) *)

(** How code ends: with a value, with an [Escape] (a BaseException, ec.py 62-73), or with an
    ordinary exception. *)
Inductive result := RVal (v : val) | REsc (v : val) (t : option tag) (allow_catchall : bool) | RExc (e : exn).

(** For each escape continuation made so far, its [uid] and [ec_valid]; the number of call_ecs
    that are active; the program's state.  [id(anchor)] is unique among live objects only: the
    model reuses the ids of call_ecs that have returned. *)
Record state := mkstate { ecs : list (nat * bool); active : nat; user : St }.

(** The flag of an escape continuation, written (ec.py, as cited where it is used). *)
Definition set_valid (s : state) (i : nat) (b : bool) : state :=
  match nth_error (ecs s) i with
  | Some (u, _) => mkstate (upd (ecs s) i (u, b)) (active s) (user s)
  | None => s
  end.
(** ec.py 190-201: what a catch point does with how its function ended *)
Definition catchpoint (tags : option (list tag)) (catch_untagged : bool) (r : result) : result :=
  match r with
  | REsc v t a =>
      match shouldcatch tags catch_untagged t a with
      | Ok true => RVal v
      | Ok false => r
      | Raise e => RExc e
      end
  | _ => r
  end.
(** ec.py 263-267 *)
Definition invoke_ec (s : state) (i : nat) (value : val) : result :=
  match nth_error (ecs s) i with
  | Some (uid, ec_valid) =>
      if ec_valid then REsc value (Some (Uid uid)) false else RExc RuntimeError
  | None => RExc RuntimeError                    (* no such object *)
  end.
(** ec.py 251-268, 274-277 *)
Definition enter_ec (s : state) : nat * state :=
  (length (ecs s), mkstate (ecs s ++ [(active s, true)]) (S (active s)) (user s)).
(** The end of the context, where the tag becomes invalid: ec.py 251-268 *)
Definition leave_ec (i : nat) (s : state) : state :=
  let s' := set_valid s i false in mkstate (ecs s') (pred (active s')) (user s').
(** The tag of an ec object: ec.py 251-268 *)
Definition uid_of (s : state) (i : nat) : nat :=
  match nth_error (ecs s) i with Some (u, _) => u | None => 0 end.

(** How programs run: throw, catch and call_ec, as cited above; the rest is Python's own. *)
Fixpoint eval (c : cmd) (s : state) : result * state :=
  match c with
  | Ret v => (RVal v, s)
  | Eff g => let (u, v) := g (user s) in (RVal v, mkstate (ecs s) (active s) u)
  | Bind c k =>
      match eval c s with
      | (RVal v, s') => eval (k v) s'
      | other => other
      end
  | RaiseExc e => (RExc e, s)
  (* 60 *)
  | Throw v t a => (REsc v t a, s)
  | Catch tags catch_untagged c =>
      let (r, s') := eval c s in
      (catchpoint (option_map (map User) tags) catch_untagged r, s')
  (* 268-277 *)
  | CallEc f =>
      let (i, s1) := enter_ec s in
      let (r, s2) := eval (f (Ec i)) s1 in
      (catchpoint (Some [Uid (uid_of s1 i)]) false r, leave_ec i s2)
  | Invoke (Ec i) v => (invoke_ec s i v, s)
  | Invoke (Data _) v => (RExc TypeError, s)
  | Finally c g =>
      let (r, s') := eval c s in (r, mkstate (ecs s') (active s') (g (user s')))
  | Except c h =>
      match eval c s with
      | (RExc e, s') => eval (h e) s'
      | other => other
      end
  end.
End Ec.
Arguments val : clear implicits.
Arguments cmd : clear implicits.
Arguments state : clear implicits.
Arguments result : clear implicits.
