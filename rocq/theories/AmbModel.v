(** Model of unpythonic/amb.py: forall, choice, insist, deny, MonadicList. *)
From Coq Require Import String List Bool.
From Verif Require Import Base CollModel.
Import ListNotations.
Open Scope list_scope.

Section Amb.
Context {D : Type}.

(** Values: a [MonadicList], the sentinel [nil] of llist, any other iterable (with the items
    that iterating over it gives; iteration itself does not raise), anything else. *)
Inductive val := Atom (d : D) | Seq (items : list val) | MList (x : list val) | Nil.

(** MonadicList.__init__: amb.py 222-233.  The result is the field [x]. *)
Definition mlist (elts : list val) : list val :=
  match elts with [Nil] => [] | _ => elts end.
(** amb.py 317-327 and 205-218; iterating over nil gives nothing *)
Definition monadify (v : val) (unpack : bool) : list val :=
  match v with
  | MList x => x
  | Seq items => if unpack then mlist items else mlist [v]
  | Nil => if unpack then mlist [] else mlist [v]
  | Atom _ => mlist [v]
  end.

(** ** MonadicList operations, on the field [x] *)
(** amb.py 343-351 *)
Definition fmap (f : val -> val) (x : list val) : list val := mlist (map f x).
(** amb.py 353-363 *)
Fixpoint all_mlists (l : list val) : option (list (list val)) :=
  match l with
  | [] => Some []
  | MList x :: l' => match all_mlists l' with Some r => Some (x :: r) | None => None end
  | _ :: _ => None
  end.
(** MonadicList.join: amb.py 353-363 *)
Definition join (x : list val) : outcome (list val) :=
  match all_mlists x with Some xs => Ok (mlist (concat xs)) | None => Raise TypeError end.
(** amb.py 235-248: [self >> f] *)
Definition bind (x : list val) (f : val -> val) : outcome (list val) := join (fmap f x).
(** amb.py 252-264 *)
Definition then_ (x : list val) (f : val) : outcome (list val) :=
  match f with MList _ => bind x (fun _ => f) | _ => Raise TypeError end.
(** amb.py 266-289, 365-368; [true_] is True *)
Definition guard (true_ : D) (b : bool) : list val := if b then mlist [Atom true_] else mlist [].
(** insist is MonadicList.guard: amb.py 267-289 *)
Definition insist := guard.
(** deny: amb.py 366-368 *)
Definition deny (true_ : D) (b : bool) : list val := insist true_ (negb b).
(** amb.py 334-341: lift(f)(x) *)
Definition lift (f : val -> val) (x : val) : val := MList (mlist [f x]).
(** amb.py 306-311 *)
Definition add (x y : list val) : list val := mlist (x ++ y).

(** ** forall: amb.py 58-200 *)
(** The env: amb.py 118-130, names with values, in order of assignment.  Simplification: no
    name is one of the env's own attributes ([names], [assign], [close_over]). *)
Definition env := dict string val.
(** A variable of the env gets a value: amb.py 118-130 *)
Definition assign (e : env) (k : string) (v : val) : env := dict_set String.eqb e k v.
(** The variables that a function takes from the env: amb.py 118-130 *)
Definition close_over (e : env) (freevars : list string) : env :=
  filter (fun kv => existsb (String.eqb (fst kv)) freevars) e.

(** A line: the name for a choice; the body sees the env (a body that is not callable ignores
    it).  Simplification: bodies have no side effects. *)
Record line := mkline { name : option string; body : env -> outcome val }.

(** [m >> (lambda x: ...)], where the lambda returns a MonadicList or raises.  [fmap] hands a
    generator to [from_iterable] (amb.py 324-327, 351); when the lambda raises TypeError, this is
    caught there, and the generator, tried once more, is found exhausted. *)
Fixpoint each (k : env -> val -> outcome (list val) * env) (e : env) (x : list val)
  : outcome (list (list val)) * env :=
  match x with
  | [] => (Ok [], e)
  | v :: x' =>
      match k e v with
      | (Raise err, e') => (Raise err, e')
      | (Ok r, e') =>
          match each k e' x' with
          | (Ok rs, e'') => (Ok (r :: rs), e'')
          | (Raise err, e'') => (Raise err, e'')
          end
      end
  end.
(** MonadicList.__rshift__, with the env that the lines share: amb.py 235-248 *)
Definition bind_in (k : env -> val -> outcome (list val) * env) (e : env) (x : list val)
  : outcome (list val) * env :=
  match each k e x with
  | (Ok rs, e') => (Ok (mlist (concat rs)), e')
  | (Raise TypeError, e') => (Ok (mlist []), e')
  | (Raise StopIterationE, e') => (Raise RuntimeError, e')      (* in a generator *)
  | (Raise err, e') => (Raise err, e')
  end.

(** The expression that the loop amb.py 143-192 generates for the lines from the current one on, given
    [names], the names of the earlier lines. *)
Fixpoint run (is_first : bool) (names : list string) (lines : list line) (e : env)
  : outcome (list val) * env :=
  match lines with
  | [] => (Raise SyntaxError, e)      (* eval("") *)
  | [item] =>
      match body item e with
      | Raise err => (Raise err, e)
      | Ok v => (Ok (monadify v false), e)
      end
  | item :: rest =>
      match body item e with
      | Raise err => (Raise err, e)
      | Ok v =>
          let m := monadify v true in
          match name item with
          | Some n =>
              bind_in (fun e x => run false (names ++ [n]) rest (assign (close_over e names) n x)) e m
          | None =>
              if is_first
              then bind_in (fun e _ => run false names rest (close_over e [])) e m
              else
                (* [m.then(REST)]: the argument is evaluated before the call *)
                match run false names rest e with
                | (Raise err, e') => (Raise err, e')
                | (Ok r, e') => (then_ m (MList r), e')
                end
          end
      end
  end.
(** The tuple that forall returns. *)
Definition forall_ (lines : list line) : outcome (list val) := fst (run true [] lines []).
End Amb.
Arguments val : clear implicits.
Arguments env : clear implicits.
Arguments line : clear implicits.
