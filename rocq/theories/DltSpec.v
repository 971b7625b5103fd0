(** dlet and friends as documented: each function has an env of its own, made once, that lives as long as the function *)
From Coq Require Import String List Bool Arith.
From Verif Require Import Base CollModel EnvModel EnvSpec DltModel.
Import ListNotations.

Section Spec.
Context {V : Type}.
Variable isid : name -> bool.
Variable de : envst V -> name -> V -> envst V.
(** The definitions that succeeded, in order *)
Definition definition_of (ev : event V) : list (bool * bool * list (name * init V)) :=
  match ev with Defined lispy letrec bs => [(lispy, letrec, bs)] | Did _ _ _ => [] end.
Definition definitions (l : list (event V)) := flat_map definition_of l.
(** What the body of function f did to its env, with the results *)
Definition use_of (f : nat) (ev : event V) : list (eop V * outcome (@res V)) :=
  match ev with Did g o r => if Nat.eqb f g then [(o, r)] else [] | Defined _ _ _ => [] end.
Definition uses (f : nat) (l : list (event V)) := flat_map (use_of f) l.
(** From env e, these operations give these results, and env e' *)
Fixpoint follows (e : envst V) (l : list (eop V * outcome (@res V))) (e' : envst V) : Prop :=
  match l with
  | [] => e = e'
  | (o, r) :: l => fst (env_step isid de e o) = r /\ follows (snd (env_step isid de e o)) l e'
  end.
(** what let or letrec (of the given module) makes of the bindings *)
Definition made (lispy letrec : bool) (bs : list (name * init V)) (e : envst V) : Prop :=
  (if lispy then lispylet isid de letrec None bs NoBody else let_ isid de letrec bs NoBody) = Ok (LEnv e).
End Spec.
