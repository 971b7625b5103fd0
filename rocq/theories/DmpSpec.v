(** What dynamic variables there are (C122). *)
From Coq Require Import String List.
From Verif Require Import Base CollModel DynModel.
Import ListNotations.

Section Spec.
Context {V : Type}.
(** The scopes, innermost first, the defaults last. *)
Definition scopes (d : @dst string V) : list (list (string * V)) := stack d ++ [globals d].
(** a scope is a dict *)
Definition proper (d : @dst string V) : Prop := Forall (fun s => NoDup (map fst s)) (scopes d).
(** [n] has the value [v] in the innermost scope that has [n]. *)
Definition binds (d : @dst string V) (n : string) (v : V) : Prop :=
  exists inner s outer, scopes d = inner ++ s :: outer /\ In (n, v) s /\ forall s', In s' inner -> ~ In n (map fst s').
Definition bound (d : @dst string V) (n : string) : Prop := exists s, In s (scopes d) /\ In n (map fst s).
(** the first occurrences in a list *)
Fixpoint firsts (l : list string) : list string :=
  match l with [] => [] | a :: l => a :: filter (fun b => if string_dec a b then false else true) (firsts l) end.
End Spec.
