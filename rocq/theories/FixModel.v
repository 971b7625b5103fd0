(** Model of unpythonic/fix.py: _fix, i.e. fix and fixtco (lines 65-71, 209-285), one thread. *)
From Coq Require Import List Arith.
From Verif Require Import Base.
Import ListNotations.
Open Scope list_scope.

Section Fix.
(** [A]: the arguments of a call after resolve_bindings and tuplify_bindings.
    Simplification: a call is given by the number of the function and these bound arguments, so
    different ways to write the same call are one call, also for the memo. *)
Context {A V St : Type}.
Variable eqA : forall x y : A, {x = y} + {x <> y}.

(** The body of a function.  A call goes to a decorated function; its continuation gets the
    result or the exception.  [JumpTo j b] is [return jump(f_j, b)]. *)
Inductive prog :=
| Ret (v : V)
| RaiseP (e : exn)
| Eff (g : St -> St) (k : St -> prog)                 (* any other computation *)
| CallP (j : nat) (b : A) (k : outcome V -> prog)
| JumpTo (j : nat) (b : A).
Variable body : nat -> A -> prog.
(** [bottom owner name args]: the bottom of the decorator on function [owner] *)
Variable bottom : nat -> nat -> A -> outcome V.
Variables tco memo : bool.       (* fixtco or fix; the memo parameter *)

(** fix.py 219: (f_fix, args); 260: (f, args), where f is the entry point *)
Inductive key := KFix (i : nat) (a : A) | KEntry (i : nat) (a : A).
(** Equality of keys. *)
Definition key_dec (x y : key) : {x = y} + {x <> y}.
Proof. decide equality; apply Nat.eq_dec. Defined.
(** Equality of calls. *)
Definition call_dec (x y : nat * A) : {x = y} + {x <> y}.
Proof. decide equality; apply Nat.eq_dec. Defined.

(** A frame of the trampoline: which function, and what its `finally` removes (fix.py, as cited at the machine below). *)
Record frame := mkFrame { target : nat; cleanup : list key }.
(** fix.py 65-71 and the memos of all the decorated functions *)
Record st := mkSt { visited : list key; stack : list frame; memos : list ((nat * A) * outcome V); usr : St }.

(** What a function of the trampoline gives: a value, an exception or a jump. *)
Inductive result := RVal (v : V) | RExc (e : exn) | RJump (j : nat) (b : A).
(** Between outcomes and results. *)
Definition result_of (o : outcome V) : result := match o with Ok v => RVal v | Raise e => RExc e end.
(** See result_of. *)
Definition outcome_of (r : result) : option (outcome V) :=
  match r with RVal v => Some (Ok v) | RExc e => Some (Raise e) | RJump _ _ => None end.

(** set.remove *)
Fixpoint remove1 (k : key) (l : list key) : option (list key) :=
  match l with
  | [] => None
  | x :: l => if key_dec x k then Some l else match remove1 k l with None => None | Some l' => Some (x :: l') end
  end.
(** [set.difference_update] with keys that must be there: fix.py 262-274 *)
Fixpoint remove_all (ks : list key) (l : list key) : option (list key) :=
  match ks with
  | [] => Some l
  | k :: ks => match remove1 k l with None => None | Some l' => remove_all ks l' end
  end.
(** Looking up a call in the memo: fun.py 54-99 *)
Fixpoint lookup (c : nat * A) (m : list ((nat * A) * outcome V)) : option (outcome V) :=
  match m with
  | [] => None
  | (c', o) :: m => if call_dec c' c then Some o else lookup c m
  end.

(** fix.py 226-228, the finally clause *)
Definition finish (mrproper : bool) (me : key) (r : result) (s : st) : result * st :=
  match stack s with
  | [] => (RExc IndexError, s)
  | _ :: rest =>
      if mrproper then (r, mkSt [] rest (memos s) (usr s))
      else match remove1 me (visited s) with
           | None => (RExc KeyError, mkSt (visited s) rest (memos s) (usr s))
           | Some vis => (r, mkSt vis rest (memos s) (usr s))
           end
  end.
(** fix.py 262-263, 273-274.  Simplification: if an element were missing, the elements before it would
    have been removed. *)
Definition clean (t : frame) (r : result) (s : st) : result * st :=
  match remove_all (cleanup t) (visited s) with
  | None => (RExc KeyError, s)
  | Some vis => (r, mkSt vis (stack s) (memos s) (usr s))
  end.
(** fun.py 76-96, for the memo of function [i] *)
Definition memoized (c : nat * A) (r : result) (s : st) : st :=
  match memo, outcome_of r with
  | true, Some o => mkSt (visited s) (stack s) ((c, o) :: memos s) (usr s)
  | _, _ => s
  end.
(** What the memo has, if there is one: fun.py 54-99 *)
Definition from_memo (c : nat * A) (s : st) : option (outcome V) := if memo then lookup c (memos s) else None.

(** What runs: the rest of a body; a call of the decorated function; [spy] of function [ow] called
    by its trampoline; the rest of that [spy] (from fix.py line 259) when the target gave [r]. *)
Inductive task := Body (p : prog) | CallFix (i : nat) (a : A) | Chain (ow : nat) (a : A) | After (ow : nat) (a : A) (r : result).

(** [None]: out of fuel; or, with [tco] off, a jump that no trampoline takes. *)
Fixpoint exec (fuel : nat) (t : task) (s : st) : option (result * st) :=
  match fuel with
  | O => None
  | S fuel =>
      match t with
      | Body (Ret v) => Some (RVal v, s)
      | Body (RaiseP e) => Some (RExc e, s)
      | Body (Eff g k) =>
          let u := g (usr s) in exec fuel (Body (k u)) (mkSt (visited s) (stack s) (memos s) u)
      | Body (JumpTo j b) => Some (RJump j b, s)
      | Body (CallP j b k) =>
          match exec fuel (CallFix j b) s with
          | None => None
          | Some (r1, s1) =>
              match outcome_of r1 with None => None | Some o => exec fuel (Body (k o)) s1 end
          end
      (* 217-230 *)
      | CallFix i a =>
          let me := KFix i a in
          if in_dec key_dec me (visited s) then Some (result_of (bottom i i a), s)
          else
            let mrproper := match visited s with [] => true | _ => false end in
            let s1 := mkSt (me :: visited s) (mkFrame i [] :: stack s) (memos s) (usr s) in
            match from_memo (i, a) s1 with
            | Some o => Some (finish mrproper me (result_of o) s1)
            | None =>
                match exec fuel (if tco then Chain i a else Body (body i a)) s1 with
                | None | Some (RJump _ _, _) => None
                | Some (r, s2) => Some (finish mrproper me r (memoized (i, a) r s2))
                end
            end
      (* 255-258 *)
      | Chain ow a =>
          match stack s with
          | [] => Some (RExc IndexError, s)
          | t :: _ =>
              match exec fuel (Body (body (target t) a)) s with
              | None => None
              | Some (r, s1) => exec fuel (After ow a r) s1
              end
          end
      (* 259-275; tco.py 248-261 *)
      | After ow a r =>
          match stack s with
          | [] => Some (RExc IndexError, s)
          | t :: rest =>
              match r with
              | RExc e => Some (RExc e, s)
              | RVal v => Some (clean t (RVal v) s)
              | RJump j b =>
                  let you := KEntry j b in
                  if in_dec key_dec you (visited s) then Some (clean t (result_of (bottom ow j a)) s)
                  else exec fuel (Chain ow b)
                         (mkSt (you :: visited s) (mkFrame j (you :: cleanup t) :: rest) (memos s) (usr s))
              end
          end
      end
  end.
End Fix.
Arguments prog : clear implicits.
Arguments key : clear implicits.
Arguments frame : clear implicits.
Arguments st : clear implicits.
Arguments result : clear implicits.
Arguments task : clear implicits.
