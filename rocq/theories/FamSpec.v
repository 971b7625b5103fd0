(** Nested loops *)
From Coq Require Import String List Bool.
From Verif Require Import Base CollModel AmbModel AmbSpec FamModel.
Import ListNotations.
Open Scope string_scope.
Open Scope list_scope.

Section FamSpec.
Context {D W : Type}.
(** `for v in l: out.extend(f(v))` with its effects; an exception ends it *)
Fixpoint for_each (f : val D -> W -> outcome (list (val D)) * W) (l : list (val D)) (w : W)
    : outcome (list (val D)) * W :=
  match l with
  | [] => (Ok [], w)
  | v :: l =>
      match f v w with
      | (Ok r, w) => match for_each f l w with (Ok rs, w) => (Ok (r ++ rs), w) | z => z end
      | z => z
      end
  end.
(** A line with a name is a loop over its choices, and the variable is visible in the lines after it; a
    line without a name is a loop without a variable; the last line gives the results. *)
Fixpoint loops (ls : list (fline D W)) (sc : scope D) (w : W) : outcome (list (val D)) * W :=
  match ls with
  | [] => (Ok [], w)
  | [l] => match fbody l sc w with (Ok v, w) => (Ok (results v), w) | (Raise e, w) => (Raise e, w) end
  | l :: rest =>
      match fbody l sc w with
      | (Ok v, w) =>
          for_each (fun c => loops rest (match fname l with Some x => (x, c) :: sc | None => sc end)) (choices v) w
      | (Raise e, w) => (Raise e, w)
      end
  end.
(** What a body sees: the value of the innermost variable of a name *)
Fixpoint lookup (x : string) (sc : scope D) : option (val D) :=
  match sc with [] => None | (y, v) :: sc => if String.eqb y x then Some v else lookup x sc end.
Definition looks_up (b : body_fn D W) : Prop := forall sc sc' w,
  (forall x, x <> "_ignored" -> lookup x sc = lookup x sc') -> b sc w = b sc' w.
Definition good_values (b : body_fn D W) : Prop := forall sc w v w', b sc w = (Ok v, w') -> monadic v.
(** The two exceptions that have a meaning of their own to what goes through a generator *)
Definition peculiar (e : exn) : Prop := e = TypeError \/ e = StopIterationE.
Definition no_peculiar (b : body_fn D W) : Prop := forall sc w e w', peculiar e -> b sc w <> (Raise e, w').
End FamSpec.
