(** Specification vocabulary for C34. *)
From Coq Require Import String List Bool.
From Verif Require Import Base CollModel AmbModel.
Import ListNotations.
Open Scope list_scope.

Section AmbSpec.
Context {D : Type}.
(** A line whose body always returns: [n <- b], or just [b] *)
Definition pure_line : Type := option string * (env D -> val D).
Definition as_line (p : pure_line) : line D := mkline (fst p) (fun e => Ok (snd p e)).
Definition names_of (ls : list pure_line) : list string :=
  flat_map (fun p => match fst p with Some n => [n] | None => [] end) ls.

(** The choices that a line before the last one offers.  A sequence with [nil] as the only item
    offers nothing. *)
Definition choices (v : val D) : list (val D) :=
  match v with
  | MList x => x
  | Seq [Nil] => []
  | Seq l => l
  | Nil => []
  | Atom _ => [v]
  end.
(** The results that a value of the last line contributes: itself, unless it is a MonadicList
    or [nil]. *)
Definition results (v : val D) : list (val D) :=
  match v with MList x => x | Nil => [] | _ => [v] end.
(** The nested comprehension
    [results(last) for n1 in choices(line1) for n2 in choices(line2) ...] *)
Fixpoint comprehension (scope : env D) (ls : list pure_line) : list (val D) :=
  match ls with
  | [] => []
  | [(_, b)] => results (b scope)
  | (Some n, b) :: rest => flat_map (fun x => comprehension (scope ++ [(n, x)]) rest) (choices (b scope))
  | (None, b) :: rest => flat_map (fun _ => comprehension scope rest) (choices (b scope))
  end.
(** A MonadicList never contains [nil] as its only item (by its constructor). *)
Definition monadic (v : val D) : Prop := v <> MList [Nil].
(** The items of a MonadicList value *)
Definition no_nil (x : list (val D)) : Prop := forall v, In v x -> v <> Nil.
Definition returns_mlist (f : val D -> val D) : Prop := forall v, exists x, f v = MList x /\ x <> [Nil].
End AmbSpec.
