From Coq Require Import List Bool Arith ZArith.
From Verif Require Import Base CollModel MemoModel.
Import ListNotations.
Open Scope nat_scope.

(** ** The sequence a recursively defined generator stands for *)
Section Sequence.
Context {V G : Type}.
Variable resume : G -> gprog V G.
(** What the generator produces next, given the items before, if it only asks for these; [ip]
    are the positions of the instances it uses. *)
Fixpoint produce (p : gprog V G) (items : list (outcome V)) (ip : nat -> nat) : option (outcome V * G * (nat -> nat)) :=
  match p with
  | GOut o g => Some (o, g, ip)
  | GNext i k =>
      match nth_error items (ip i) with
      | Some r => produce (k r) items (setf ip i (S (ip i)))
      | None => None
      end
  end.
(** The first [n] items (the outcomes of the first [n] times it is resumed). *)
Fixpoint sequence_of (g : G) (n : nat) : option (list (outcome V) * G * (nat -> nat)) :=
  match n with
  | O => Some ([], g, fun _ => 0)
  | S n' =>
      match sequence_of g n' with
      | Some (items, g', ip) =>
          match produce (resume g') items ip with
          | Some (o, g'', ip') => Some (items ++ [o], g'', ip')
          | None => None
          end
      | None => None
      end
  end.
Definition item (g : G) (k : nat) : option (outcome V) :=
  match sequence_of g (S k) with Some (items, _, _) => nth_error items k | None => None end.
(** It never asks for an item that depends on itself. *)
Definition productive (g : G) : Prop := forall n, sequence_of g n <> None.
(** The generator uses only instances of its own. *)
Fixpoint uses_only (own : nat -> bool) (p : gprog V G) : Prop :=
  match p with
  | GOut _ _ => True
  | GNext i k => own i = true /\ forall r, uses_only own (k r)
  end.
(** The instances a thread is using. *)
Definition inst (f : nframe V G) : nat :=
  match f with NStart i | NHave i _ | NLocked i _ | NRun i _ _ | NDone i _ _ => i end.
(** Each instance that is not the generator's own is used by one thread at a time. *)
Definition begins_alone (own : nat -> bool) (s : gst V G) (a : gact) : Prop :=
  match a with
  | Begin t i => own i = false /\ forall u f, u <> t -> In f (calls s u) -> inst f <> i
  | Go _ => True
  end.
Fixpoint one_user (own : nat -> bool) (s : gst V G) (acts : list gact) : Prop :=
  match acts with
  | [] => True
  | a :: acts' => begins_alone own s a /\ match gmstep resume s a with Some s' => one_user own s' acts' | None => True end
  end.
(** What the finished calls on instance [i] gave, in order. *)
Definition given (s : gst V G) (i : nat) : list (outcome V) :=
  map snd (filter (fun e => fst e =? i) (returned s)).
End Sequence.

(** ** memoize *)
Section Rank.
Context {K V : Type}.
(** Code that calls the memoized function only with keys of rank below [n]. *)
Fixpoint calls_below (rank : K -> nat) (n : nat) (p : prog K V) : Prop :=
  match p with
  | PRet _ => True
  | PCall k c => rank k < n /\ forall r, calls_below rank n (c r)
  end.
Definition finished (s : mst K V) (t : nat) : Prop :=
  match threads s t with [FTop (PRet _)] => True | _ => False end.
End Rank.
(** What the function computes without memoization, if it depends on its arguments only. *)
Section Plain.
Context {K V : Type}.
Variable b : K -> prog K V.
Inductive plain : prog K V -> outcome V -> Prop :=
| plain_ret r : plain (PRet r) r
| plain_call k c r r' : plain (b k) r -> plain (c r) r' -> plain (PCall k c) r'.
End Plain.
(** Calls of gmemoized with the same key do not overlap. *)
Section Overlap.
Context {K : Type}.
Variable keqb : K -> K -> bool.
Definition ckey (f : cframe (K:=K)) : K := match f with CCheck k | CMake k | CRead k => k end.
Fixpoint no_overlap (s : cst K) (acts : list (cact K)) : Prop :=
  match acts with
  | [] => True
  | a :: acts' =>
      match a with
      | CBegin t k => forall u f, ccalls s u = Some f -> ckey f <> k
      | CGo _ => True
      end /\ match cstep keqb s a with Some s' => no_overlap s' acts' | None => True end
  end.
End Overlap.
