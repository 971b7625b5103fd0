(** Model of the macro forall (unpythonic/syntax/forall.py 43-80), which makes of its lines an expression of
    binds of MonadicLists (amb.py 205-363).  A line is `x := body`, or just a body; a body may look at the
    variables, have effects and raise.  Simplification: iterating over the value of a line has no effects and
    does not raise, and no body mentions the name `_here_`. *)
From Coq Require Import String List Bool.
From Verif Require Import Base CollModel AmbModel.
Import ListNotations.
Open Scope string_scope.
Open Scope list_scope.

Section Fam.
Context {D W : Type}.
(** Variables, innermost first *)
Definition scope := list (string * val D).
(** What the expression of a line does: it reads the variables, may change the world, and may raise. *)
Definition body_fn := scope -> W -> outcome (val D) * W.
(** A line of forall: its name, if any, and its expression: forall.py 43-80 *)
Record fline := mkfline { fname : option string; fbody : body_fn }.

(** What the macro generates: `monadify(body, unpack)`, `m >> (lambda x: r)`, and the name `_here_`, which
    marks where the next line goes. *)
Inductive mx := Unit (b : body_fn) (unpack : bool) | Bind (m : mx) (x : string) (r : mx) | Here.
(** mcpyrate's splice_expression *)
Fixpoint splice (new tree : mx) : mx :=
  match tree with
  | Here => new
  | Unit b u => Unit b u
  | Bind m x r => Bind (splice new m) x (splice new r)
  end.
(** forall.py 51-79 *)
Fixpoint build (lines : list fline) (tree : option mx) : option mx :=
  match lines with
  | [] => tree
  | line :: rest =>
      let k := match fname line with Some x => x | None => "_ignored" end in
      let islast := match rest with [] => true | _ => false end in
      let Mv := Unit (fbody line) (negb islast) in
      let body := if islast then Mv else Bind Mv k Here in
      build rest (Some match tree with Some t => splice body t | None => body end)
  end.

(** The generator `f(elt) for elt in self.x` (amb.py 343-351) with its effects, up to the first exception *)
Fixpoint each_elt (f : val D -> W -> outcome (list (val D)) * W) (x : list (val D)) (w : W)
    : outcome (list (list (val D))) * W :=
  match x with
  | [] => (Ok [], w)
  | v :: x =>
      match f v w with
      | (Raise e, w) => (Raise e, w)
      | (Ok r, w) =>
          match each_elt f x w with
          | (Ok rs, w) => (Ok (r :: rs), w)
          | (Raise e, w) => (Raise e, w)
          end
      end
  end.
(** amb.py 235-248 and 317-363.  A TypeError in the generator is caught by from_iterable (324-327), which
    takes what is left of the generator, and that is nothing.  A StopIteration in a generator becomes RuntimeError. *)
Definition bind_elts (f : val D -> W -> outcome (list (val D)) * W) (x : list (val D)) (w : W)
    : outcome (list (val D)) * W :=
  match each_elt f x w with
  | (Ok rs, w) => (Ok (mlist (concat rs)), w)
  | (Raise TypeError, w) => (Ok (mlist []), w)
  | (Raise StopIterationE, w) => (Raise RuntimeError, w)
  | (Raise e, w) => (Raise e, w)
  end.
(** The generated code: monadify, [>>] and the lambdas: amb.py 220-363 *)
Fixpoint meval (sc : scope) (t : mx) (w : W) : outcome (list (val D)) * W :=
  match t with
  | Unit b unpack =>
      match b sc w with
      | (Ok v, w) => (Ok (monadify v unpack), w)
      | (Raise e, w) => (Raise e, w)
      end
  | Bind m x r =>
      match meval sc m w with
      | (Ok l, w) => bind_elts (fun v w => meval ((x, v) :: sc) r w) l w
      | (Raise e, w) => (Raise e, w)
      end
  | Here => (Raise NameError, w)
  end.
(** forall.py 80: the tuple *)
Definition forall_macro (lines : list fline) (sc : scope) (w : W) : outcome (list (val D)) * W :=
  match build lines None with
  | Some t => meval sc t w
  | None => (Raise SyntaxError, w)
  end.
End Fam.
Arguments scope : clear implicits.
Arguments body_fn : clear implicits.
Arguments fline : clear implicits.
Arguments mx : clear implicits.
