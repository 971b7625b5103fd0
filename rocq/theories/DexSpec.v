(** The report of an exception: the history that led to it, first things first *)
From Coq Require Import String List Bool Arith.
From Verif Require Import DexModel.
Import ListNotations.
Open Scope string_scope.
Open Scope list_scope.
Open Scope nat_scope.

Inductive how := Caused | During.
Section Spec.
Variable colorize : string -> string.
Variable h : heap.
(** [b] was raised from [a], or while [a] was being handled (and this is not suppressed by `raise ... from ...`) *)
Inductive followed : nat -> how -> nat -> Prop :=
| f_cause a b : instance (h b) = true -> cause (h b) = Some a -> followed a Caused b
| f_context a b : instance (h b) = true -> cause (h b) = None -> suppress (h b) = false -> context (h b) = Some a -> followed a During b.
(** From the first exception, by the following ones, to the last *)
Inductive leads (first : nat) : list (how * nat) -> nat -> Prop :=
| l_first : (forall a w, ~ followed a w first) -> leads first [] first
| l_next rest a w b : leads first rest a -> followed a w b -> leads first (rest ++ [(w, b)]) b.
(** The text on one exception *)
Definition section (e : exc) : string :=
  if instance e then
    ((match traceback e with Some tb => colorize ("
Traceback (most recent call last):
" ++ tb) | None => "" end) ++ type_ e ++ (if String.eqb (message e) "" then "" else ": " ++ message e))%string
  else message e.
Definition between (w : how) : string :=
  match w with
  | Caused => "

The above exception was the direct cause of the following exception:
"
  | During => "

During handling of the above exception, another exception occurred:
"
  end.
Fixpoint story (rest : list (how * nat)) : string :=
  match rest with [] => "" | (w, b) :: rest => (between w ++ section (h b) ++ story rest)%string end.
Definition report (first : nat) (rest : list (how * nat)) : string := (section (h first) ++ story rest)%string.
End Spec.
