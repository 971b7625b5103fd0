(** Model of unpythonic/fold.py on finite inputs ([unfold1]: on prefixes of its
    possibly infinite output).  [zip], [zip_longest], [rev_], [last_] are those of
    ItrModel.v.  [proc] receives the tuple of items, then the accumulator:
    [proc( *(xs + (acc,)) )]. *)
From Verif Require Import Base ItrModel.
From Coq Require Import List Bool ZArith.
Import ListNotations.

Section Folds.
Context {A X : Type}.
Variable proc : list A -> X -> X.

(** The keyword arguments [longest] and [fillvalue]: [None] for longest=False. *)
Definition rows (fill : option A) (cols : list (list A)) : list (list A) :=
  match fill with None => zip cols | Some f => zip_longest f cols end.

(** The loop of fold.py 67-70 and 128-131: everything that is yielded. *)
Fixpoint scan_loop (acc : X) (xss : list (list A)) : list X :=
  match xss with
  | [] => [acc]
  | xs :: xss' => acc :: scan_loop (proc xs acc) xss'
  end.
(** fold.py 32-70 *)
Definition scanl (init : X) (fill : option A) (cols : list (list A)) : list X :=
  scan_loop init (rows fill cols).
(** fold.py 72-131, with an explicit init *)
Definition scanr (init : X) (fill : option A) (cols : list (list A)) : list X :=
  scan_loop init (rev_ (rows fill cols)).
(** fold.py 197-212; [last] of a non-empty iterable, its default is not used *)
Definition foldl (init : X) (fill : option A) (cols : list (list A)) : X :=
  last_ (scanl init fill cols) init.
(** fold.py 214-219 *)
Definition foldr (init : X) (fill : option A) (cols : list (list A)) : X :=
  last_ (scanr init fill cols) init.
(** fold.py 238-247, 253-262 *)
Definition rscanl (init : X) (fill : option A) (cols : list (list A)) : list X :=
  scanl init fill (map rev_ cols).
(** rfoldl: fold.py 253-262 *)
Definition rfoldl (init : X) (fill : option A) (cols : list (list A)) : X :=
  foldl init fill (map rev_ cols).
End Folds.

Section Reduce.
Context {A : Type}.
Variable proc : A -> A -> A.  (* proc(elt, acc) *)
(** The arguments of proc, as reducel gives them: fold.py 221-227 *)
Definition proc1 (xs : list A) (acc : A) : A :=
  match xs with [x] => proc x acc | _ => acc (* rows of a single input have one item *) end.
(** fold.py 163-187; [init]: [None] when not given *)
Definition scanl1 (l : list A) (init : option A) : list A :=
  match init with
  | Some a => scanl proc1 a None [l]
  | None => match l with [] => [] | a :: l' => scanl proc1 a None [l'] end
  end.
(** fold.py 189-195 with 108-131: the last item is the init when none is given *)
Definition scanr1 (l : list A) (init : option A) : list A :=
  match init with
  | Some a => scanr proc1 a None [l]
  | None => match rev_ (zip [l]) with
            | [] => []
            | xs :: xss => match xs with a :: _ => scan_loop proc1 a xss | [] => [] end
            end
  end.
(** fold.py 221-236; [None] models the Python None that [last] returns by default *)
Definition reducel (l : list A) (init : option A) : option A :=
  last_ (map Some (scanl1 l init)) None.
(** reducer: fold.py 229-236 *)
Definition reducer (l : list A) (init : option A) : option A :=
  last_ (map Some (scanr1 l init)) None.
(** fold.py 249-251, 264-266 *)
Definition rscanl1 (l : list A) (init : option A) : list A := scanl1 (rev_ l) init.
(** rreducel: fold.py 264-266 *)
Definition rreducel (l : list A) (init : option A) : option A := reducel (rev_ l) init.
End Reduce.

(** fold.py 268-299: the first [n] items yielded, and whether the generator has
    been seen to end within them. *)
Fixpoint unfold1 {V S} (proc : S -> option (V * S)) (state : S) (n : nat) : list V * bool :=
  match n with
  | O => ([], false)
  | S n' =>
      match proc state with
      | None => ([], true)
      | Some (value, state') =>
          let (vs, e) := unfold1 proc state' n' in (value :: vs, e)
      end
  end.

(** fold.py 362-367 on integers *)
Definition prod (l : list Z) (start : Z) : option Z := reducel Z.mul l (Some start).

(** fold.py 369-409, over any type with a [<] *)
Section MinMax.
Context {A : Type}.
Variable ltb : A -> A -> bool.
Definition mm (xs : list A) (acc : A * A) : A * A :=
  match xs with
  | [elt] => let (a, b) := acc in
             (if ltb elt a then elt else a, if ltb b elt then elt else b)
  | _ => acc  (* rows of a single input have one item *)
  end.
(** running_minmax: fold.py 369-396 *)
Definition running_minmax (l : list A) : list (A * A) :=
  match l with
  | [] => []
  | first :: it => scanl mm (first, first) None [it]
  end.
(** [None] models the default (None, None) *)
Definition minmax (l : list A) : option (A * A) :=
  last_ (map Some (running_minmax l)) None.
End MinMax.
