(** Model of getattrrec and setattrrec (unpythonic/misc.py 155-178): reading and writing the innermost layer of
    an onion of wrapper objects.

    Objects have an attribute dictionary each; other data (numbers, None) have no attributes, and cannot be given
    any.  Attributes of classes, properties, and __getattr__ are left out. *)
From Coq Require Import String List Bool Arith ZArith.
From Verif Require Import Base.
Import ListNotations.
Open Scope string_scope.
Open Scope list_scope.
Open Scope nat_scope.

(** Python values of the language model (no code in /repo). *)
Inductive value : Type := Data (z : Z) | Obj (i : nat).
(** Python's dict: an association list in insertion order (no code in /repo). *)
Definition dict : Type := list (string * value).
(** The state of the language model (no code in /repo). *)
Definition heap : Type := list dict.

(** Lookup in an association list: Python's dict or namespace (no code in /repo). *)
Fixpoint get (d : dict) (n : string) : option value :=
  match d with [] => None | (m, v) :: d => if String.eqb n m then Some v else get d n end.
(** Update of an association list: Python's dict or namespace (no code in /repo). *)
Fixpoint put (d : dict) (n : string) (v : value) : dict :=
  match d with
  | [] => [(n, v)]
  | (m, w) :: d => if String.eqb n m then (m, v) :: d else (m, w) :: put d n v
  end.

(** the attribute n of o, if it has it *)
Definition attr (h : heap) (o : value) (n : string) : option value :=
  match o with
  | Data _ => None
  | Obj i => match nth_error h i with Some d => get d n | None => None end
  end.
(** [hasattr(o, n)] (no code in /repo). *)
Definition hasattr (h : heap) (o : value) (n : string) : bool :=
  match attr h o n with Some _ => true | None => false end.
(** Python's getattr, with or without a default *)
Definition getattr (h : heap) (o : value) (n : string) (default : option value) : outcome value :=
  match attr h o n, default with
  | Some v, _ => Ok v
  | None, Some d => Ok d
  | None, None => Raise AttributeError
  end.
(** [setattr(o, n, v)] (no code in /repo). *)
Definition setattr (h : heap) (o : value) (n : string) (v : value) : outcome heap :=
  match o with
  | Data _ => Raise AttributeError
  | Obj i => match nth_error h i with
             | Some d => Ok (upd h i (put d n v))
             | None => Raise AttributeError          (* no such object *)
             end
  end.

(** misc.py 166-168: the loop; None: it has not ended after [fuel] rounds *)
Fixpoint getloop (fuel : nat) (h : heap) (o : value) (n : string) (default : option value) : option (outcome value) :=
  match fuel with
  | O => None
  | S k =>
      if hasattr h o n
      then match getattr h o n default with
           | Ok o => getloop k h o n default
           | Raise e => Some (Raise e)
           end
      else Some (Ok o)
  end.
(** misc.py 155-168 *)
Definition getattrrec (fuel : nat) (h : heap) (o : value) (n : string) (default : option value) : option (outcome value) :=
  match getattr h o n default with
  | Ok o => getloop fuel h o n default
  | Raise e => Some (Raise e)
  end.
(** misc.py 170-178 *)
Fixpoint setattrrec (fuel : nat) (h : heap) (o : value) (n : string) (v : value) : option (outcome heap) :=
  match fuel with
  | O => None
  | S k =>
      match getattr h o n None with
      | Ok w => if hasattr h w n then setattrrec k h w n v else Some (setattr h o n v)
      | Raise _ => Some (setattr h o n v)
      end
  end.
