(** Model of describe_exception of the test framework (unpythonic/test/fixtures.py 405-448).  Exceptions are objects with
    an identity, so that chains of causes may share exceptions, or go around in a circle.
    Simplified: the texts of a traceback, of str() and of type() are given. *)
From Coq Require Import String List Bool Arith.
Import ListNotations.
Open Scope string_scope.
Open Scope list_scope.
Open Scope nat_scope.

(** What describe_exception looks at (fixtures.py 416-448).  [instance]: an instance, and not a class (raise SomeError) *)
Record exc := mkexc { instance : bool; cause : option nat; context : option nat; suppress : bool;
                      traceback : option string; message : string; type_ : string }.
(** All exceptions, by their identity (no code in /repo) *)
Definition heap : Type := nat -> exc.
Section Describe.
Variable colorize : string -> string.     (* maybe_colorize(..., Style.DIM): fixtures.py 304-314 *)
Variable h : heap.
(** describe_instance: fixtures.py 416-429 *)
Definition describe_instance (e : exc) : list string :=
  match traceback e with
  | Some tb => [colorize ("
Traceback (most recent call last):
" ++ tb)%string]
  | None => []
  end ++ (if String.eqb (message e) "" then [type_ e] else [(type_ e ++ ": " ++ message e)%string]).
(** The sentence between two exceptions: fixtures.py 437 *)
Definition cause_text : string := "

The above exception was the direct cause of the following exception:
".
(** The sentence between two exceptions: fixtures.py 440 *)
Definition context_text : string := "

During handling of the above exception, another exception occurred:
".
(** describe_recursive: fixtures.py 431-446.  None: the recursion limit (the fuel) is reached. *)
Fixpoint describe_recursive (fuel : nat) (i : nat) : option (list string) :=
  match fuel with
  | 0 => None
  | S fuel =>
      let e := h i in
      if instance e then
        match cause e with
        | Some c => match describe_recursive fuel c with
                    | Some l => Some (l ++ [cause_text] ++ describe_instance e)
                    | None => None
                    end
        | None =>
            match (if suppress e then None else context e) with
            | Some c => match describe_recursive fuel c with
                        | Some l => Some (l ++ [context_text] ++ describe_instance e)
                        | None => None
                        end
            | None => Some (describe_instance e)
            end
        end
      else Some [message e]
  end.
(** describe_exception: fixtures.py 405-448 *)
Definition describe_exception (fuel : nat) (i : nat) : option string :=
  match describe_recursive fuel i with Some l => Some (String.concat "" l) | None => None end.
End Describe.
