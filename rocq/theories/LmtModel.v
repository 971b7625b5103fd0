(** Model of unpythonic/dispatch.py isgeneric and list_methods (57-68, 364-419), beside DispModel.  [format_methods] and [methods] (317-362) show
    this list; the text of an entry is not modelled. *)
From Coq Require Import String List Bool.
From Verif Require Import Base CollModel BindModel TypeModel DispModel.
Import ListNotations.
Open Scope list_scope.

(** What the user has: a function, an unbound method or a static method, all of which are the dispatcher itself; or a bound method, of an object
    or of a class ([getfunc], arity.py 160-202, and 418: the dispatcher and __self__).  The generic function is given by its fullname; a name
    without dispatcher is a function that is not generic. *)
Inductive handle := Plain (n : string) | Bound (n : string) (self : value).
(** The name under which the dispatcher is registered: dispatch.py 424-429 *)
Definition name_of (h : handle) : string := match h with Plain n | Bound n _ => n end.
(** [__self__], for a bound method: dispatch.py 364-419 *)
Definition self_of (h : handle) : option value := match h with Plain _ => None | Bound _ s => Some s end.
(** dispatch.py 57-68 *)
Inductive kind := IsGeneric | IsTyped | IsNot.
(** isgeneric: dispatch.py 57-68 *)
Definition isgeneric (r : registry) (h : handle) : kind :=
  match rget r (name_of h) with Some d => if typed_ d then IsTyped else IsGeneric | None => IsNot end.

Section Call.
Variable usub : nat -> cls -> bool.
Variable has_reversed : cls -> bool.
Variable truthy : value -> bool.
Variable self_class : value -> cls.
Variable mro : cls -> list cls.
Variable own : cls -> string -> option (option string).
Variable kwname : pname -> value.
(** dispatch.py 364-419 *)
Definition list_methods (r : registry) (h : handle) : outcome (list mm) :=
  match rget r (name_of h) with
  | None => Raise TypeError
  | Some d => Ok (list_multimethods truthy self_class mro own r d (self_of h))
  end.
(** A call of it: Python passes __self__ as the first argument. *)
Definition arguments (h : handle) (args : list value) : list value := match h with Plain _ => args | Bound _ s => s :: args end.
(** A call of what the user has: dispatch.py 506-530, after Python has put __self__ first. *)
Definition call_handle (r : registry) (h : handle) (args : list value) (kw : dict pname value) : option (outcome fundef) :=
  match rget r (name_of h) with
  | None => None
  | Some d => Some (call usub has_reversed truthy self_class mro own kwname r d (arguments h args) kw)
  end.
End Call.
