(** C56, C57: tryf and reraise. *)
From Coq Require Import List Bool.
From Verif Require Import Base ExcModel ExcSpec ExcProofs.
Import ListNotations.
Open Scope nat_scope.
Open Scope list_scope.

(** C56.  With proper excspecs, when the body does not raise or some handler matches, tryf does
    exactly what the try statement does.  (Otherwise see below.) *)
Theorem C56_try_partial : forall (V St : Type) (none : V) sub (body : comp V St) hs elsef finallyf s,
  Forall (fun h => all_types (fst h)) hs ->
  (forall e s1, body s = (Exc e, s1) -> exists h, first_catch sub hs e h) ->
  forall r' s', tryf none sub body hs elsef finallyf s = (r', s') <->
  exists r s2, try_part sub body hs elsef s r s2 /\ finally_part finallyf r s2 r' s'.
Proof. exact @tryf_valid. Qed.
Print Assumptions C56_try_partial.

(** An exception that no handler matches does not propagate: tryf returns None. *)
Theorem C56_swallow_refuted : forall (V St : Type) (none : V) sub (body : comp V St) hs elsef s e s1,
  Forall (fun h => all_types (fst h)) hs -> body s = (Exc e, s1) -> uncaught sub hs e ->
  tryf none sub body hs elsef None s = (Val none, s1).
Proof. exact @tryf_swallows. Qed.
Print Assumptions C56_swallow_refuted.

(** raisef raises the exception it is given, with the cause it is given, if any; nothing else changes. *)
Theorem C56_raisef : forall (V St : Type) e c (s : St),
  raisef (V := V) e None s = (Exc e, s) /\
  exists e', raisef (V := V) e (Some c) s = (Exc e', s) /\ etype e' = etype e /\ ecause e' = Some c.
Proof. intros. split; [reflexivity|]. eexists. repeat split. Qed.
Print Assumptions C56_raisef.

(** finallyf runs exactly once, after everything else, whatever happened; if it raises, that
    exception is the result. *)
Theorem C56_finally : forall (V St : Type) (none : V) sub (body : comp V St) hs elsef f s,
  Forall (fun h => all_types (fst h)) hs ->
  exists r s2 x s3, tryf none sub body hs elsef None s = (r, s2) /\ f s2 = (x, s3) /\
    tryf none sub body hs elsef (Some f) s = (match x with Val _ => r | Exc e => Exc e end, s3).
Proof. exact @tryf_finally. Qed.
Print Assumptions C56_finally.

(** An excspec that is not made of exception types: TypeError, and nothing runs. *)
Theorem C56_invalid : forall (V St : Type) (none : V) sub (body : comp V St) hs elsef finallyf s sp h,
  In (sp, h) hs -> ~ all_types sp ->
  tryf none sub body hs elsef finallyf s = (Exc (mkExc TypeErrorT None), s).
Proof. exact @tryf_invalid. Qed.
Print Assumptions C56_invalid.

Definition eqt (a b : nat) : bool := Nat.eqb a b || Nat.eqb b 9.
Definition put (n : nat) : comp nat (list nat) := fun s => (Val n, s ++ [n]).
Definition fail (t : nat) : comp nat (list nat) := fun s => (Exc (mkExc t None), s ++ [t]).
Example C56_ex :
  tryf 0 eqt (fail 5) [(One (ExcType 4), H0 (put 40)); (Tup [ExcType 3; ExcType 5], H1 (fun e => put (etype e * 10))); (One (ExcType 9), H0 (put 90))]
     (Some (put 7)) (Some (put 8)) [] = (Val 50, [5; 50; 8])
  /\ tryf 0 eqt (put 1) [(One (ExcType 9), H0 (fail 3))] (Some (fail 7)) (Some (put 8)) [] = (Exc (mkExc 7 None), [1; 7; 8])
  /\ tryf 0 eqt (fail 5) [(One (ExcType 4), H0 (put 40))] None (Some (put 8)) [] = (Val 0, [5; 8]).
Proof. repeat split. Qed.

(** C57.  A normal result passes through; the first entry of the mapping that matches decides; an
    exception that is not in the mapping propagates unchanged. *)
Theorem C57_reraise_in : forall (V St : Type) sub (body : comp V St) mapping s r s1, body s = (r, s1) ->
  match r with
  | Val v => reraise_in sub body mapping s = (Val v, s1)
  | Exc e => (forall app, first_catch sub mapping e app -> reraise_in sub body mapping s = (Exc (mkExc app (Some e)), s1)) /\
             (uncaught sub mapping e -> reraise_in sub body mapping s = (Exc e, s1))
  end.
Proof. exact @reraise_in_spec. Qed.
Print Assumptions C57_reraise_in.

(** One of the two cases applies. *)
Theorem C57_total : forall sub (X : Type) (l : list (excspec * X)) e, (exists x, first_catch sub l e x) \/ uncaught sub l e.
Proof. exact @first_or_none. Qed.
Print Assumptions C57_total.

(** The block form does the same, if no target is StopIteration ... *)
Theorem C57_reraise_partial : forall (V St : Type) sub (body : comp V St) mapping s,
  (forall lib app, In (lib, app) mapping -> sub app StopIterationT = false) ->
  reraise sub mapping body s = reraise_in sub body mapping s.
Proof. exact @reraise_same. Qed.
Print Assumptions C57_reraise_partial.

(** ... but that comes out as RuntimeError. *)
Theorem C57_stop_refuted : exists (body : comp nat (list nat)) mapping s,
  fst (reraise_in eqt body mapping s) = Exc (mkExc StopIterationT (Some (mkExc 5 None))) /\
  fst (reraise eqt mapping body s) = Exc (mkExc RuntimeErrorT (Some (mkExc StopIterationT (Some (mkExc 5 None))))).
Proof. exists (fail 5), [(One (ExcType 5), StopIterationT)], []. split; reflexivity. Qed.
Print Assumptions C57_stop_refuted.

Example C57_ex : reraise_in eqt (fail 5) [(One (ExcType 4), 10); (Tup [ExcType 3; ExcType 5], 11); (One (ExcType 9), 12)] []
  = (Exc (mkExc 11 (Some (mkExc 5 None))), [5])
  /\ first_catch eqt [(One (ExcType 4), 10); (Tup [ExcType 3; ExcType 5], 11); (One (ExcType 9), 12)] (mkExc 5 None) 11.
Proof.
  split; [reflexivity|]. exists [(One (ExcType 4), 10)], (Tup [ExcType 3; ExcType 5]), [(One (ExcType 9), 12)].
  split; [reflexivity|]. split; [exists 5; split; [right; now left|reflexivity]|].
  constructor; [|constructor]. intros (t & [E|[]] & H). injection E as <-. discriminate.
Qed.
