(** What the texts mean: a reader of Python expressions made of [ll], [cons], [nil] and
    atoms, and a reader of Lisp's dot notation (C116). *)
From Verif Require Import Base LLModel LLSpec.
From Coq Require Import String Ascii List ZArith DecimalString.
Import ListNotations.
Open Scope string_scope.
Open Scope char_scope.

(** The characters that end a word, and the first word of a text. *)
Definition delim (c : ascii) : bool :=
  match c with "(" | ")" | "," | " " => true | _ => false end.
Fixpoint word (s : string) : string * string :=
  match s with
  | EmptyString => (EmptyString, EmptyString)
  | String c s' => if delim c then (EmptyString, s) else let '(w, r) := word s' in (String c w, r)
  end.

Definition andthen {B C} (o : option B) (f : B -> option C) : option C := match o with Some x => f x | None => None end.

Section Lrp.
Context {A : Type}.
(** how a text that is not "nil" denotes an atom, if it does *)
Variable read : string -> option A.
Definition named (w : string) : option (val A) := if (w =? "nil")%string then Some Nil else option_map Atom (read w).
(** The value of [f(vs...)]. *)
Definition call (f : string) (vs : list (val A)) : option (val A) :=
  if (f =? "ll")%string then Some (lst vs)
  else if (f =? "cons")%string then match vs with [a; d] => Some (Cons a d) | _ => None end
  else None.

(** An expression at the start of a text, and the rest of the text; the arguments of a
    call up to the closing parenthesis.  The number bounds the depth; see [pyread]. *)
Fixpoint expr (n : nat) (s : string) : option (val A * string) :=
  match n with
  | O => None
  | S n =>
      let '(w, r) := word s in
      match r with
      | String "(" r => andthen (args n r) (fun '(vs, r) => andthen (call w vs) (fun v => Some (v, r)))
      | _ => andthen (named w) (fun v => Some (v, r))
      end
  end
with args (n : nat) (s : string) : option (list (val A) * string) :=
  match n with
  | O => None
  | S n =>
      match s with
      | String ")" r => Some ([], r)
      | _ =>
          andthen (expr n s) (fun '(v, r) =>
            match r with
            | String ")" r => Some ([v], r)
            | String "," (String " " r) => andthen (args n r) (fun '(vs, r) => Some (v :: vs, r))
            | _ => None
            end)
      end
  end.
Definition whole {B} (r : option (B * string)) : option B :=
  match r with Some (v, EmptyString) => Some v | _ => None end.
(** The value of a text as a Python expression. *)
Definition pyread (s : string) : option (val A) := whole (expr (2 * String.length s + 2) s).

(** Lisp: an atom, or [(x1 ... xn)], or [(x1 ... xn . t)]. *)
Fixpoint datum (n : nat) (s : string) : option (val A * string) :=
  match n with
  | O => None
  | S n =>
      match s with
      | String "(" r => data n r
      | _ => let '(w, r) := word s in andthen (named w) (fun v => Some (v, r))
      end
  end
with data (n : nat) (s : string) : option (val A * string) :=
  match n with
  | O => None
  | S n =>
      match s with
      | String ")" r => Some (Nil, r)
      | _ =>
          andthen (datum n s) (fun '(v, r) =>
            match r with
            | String ")" r => Some (Cons v Nil, r)
            | String " " (String "." (String " " r)) =>
                andthen (datum n r) (fun '(t, r) => match r with String ")" r => Some (Cons v t, r) | _ => None end)
            | String " " r => andthen (data n r) (fun '(t, r) => Some (Cons v t, r))
            | _ => None
            end)
      end
  end.
Definition lispread (s : string) : option (val A) := whole (datum (2 * String.length s + 2) s).
End Lrp.

(** The atoms print as one word, other than "nil" and ".", that reads back. *)
Fixpoint one_word (s : string) : Prop :=
  match s with EmptyString => True | String c s' => delim c = false /\ one_word s' end.
Definition plain {A} (show : A -> string) (read : string -> option A) : Prop :=
  forall a, show a <> EmptyString /\ one_word (show a) /\ show a <> "nil"%string /\ show a <> "."%string /\ read (show a) = Some a.

(** Linked lists end in nil. *)
Fixpoint proper {A} (v : val A) : bool := match v with Nil => true | Cons _ d => proper d | Atom _ => false end.
(** How deep the value is nested.  All items of a list are on the same level. *)
Fixpoint depth {A} (v : val A) : nat :=
  match v with
  | Cons a d => Nat.max (S (depth a)) (if proper d then depth d else S (depth d))
  | _ => 1
  end.
(** No item of a linked list is a cell. *)
Fixpoint flat {A} (v : val A) : Prop :=
  match v with
  | Cons a d => (if proper d then is_cons a = false else flat a) /\ flat d
  | _ => True
  end.

(** For example the integers, in decimal. *)
Definition show_int (z : Z) : string := NilZero.string_of_int (Z.to_int z).
Definition read_int (s : string) : option Z := option_map Z.of_int (NilZero.int_of_string s).
