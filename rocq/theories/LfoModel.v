(** Model of the laziness of the tools that go through several iterables at once: unpythonic/fold.py, and the map and
    zip family of unpythonic/it.py.  What they read of which iterable, and when.  Processes as in LitModel.v; the
    iterables are iterators (which reversed() does not accept), numbered from 0. *)
From Coq Require Import List ZArith Bool Arith.
From Verif Require Import Base LitModel.
Import ListNotations.
Open Scope list_scope.
Open Scope nat_scope.

Section Rows.
Context {A B St : Type}.
Notation P := (proc A B).
Variable longest : bool.          (* zip_longest instead of zip *)
Variable fill : A.
Variable m : nat.                 (* the number of iterables *)

(** zip_longest (no code in /repo): how many of the next iterators have ended *)
Fixpoint gap (act : list bool) : nat := match act with false :: act => S (gap act) | _ => 0 end.
(** zip_longest (no code in /repo): they are not asked again; the fill value takes their place in the row *)
Definition pad (act : list bool) (xs : list A) : list A := xs ++ repeat fill (gap (skipn (length xs) act)).
(** zip, zip_longest (no code in /repo): is there still an iterator to go on with, when one has ended? *)
Definition goes_on (act : list bool) : bool := longest && existsb (fun x => x) act.

(** fold.py 68-70, it.py 74, 88: for each row of zip or zip_longest something is given.  [act]: the iterators that
    have not ended; [xs]: the row so far; [exc]: when the function raises an exception *)
CoFixpoint give_rows (f : St -> list A -> outcome (B * St)) (exc : exn -> P) (s : St) (act : list bool) (xs : list A) : P :=
  let ys := pad act xs in
  if length ys =? m then
    match f s ys with
    | Ok (b, s) => POut (Given b) (give_rows f exc s act [])
    | Raise e => exc e
    end
  else PRead (length ys) (fun v =>
    match v with
    | Item a => give_rows f exc s act (ys ++ [a])
    | Stop => let act := upd act (length ys) false in
              if goes_on act then give_rows f exc s act (ys ++ [fill]) else PRet
    | Fail e => PThrow e
    end).

(** it.py 58, 152, 160, fold.py 68-70 with 211: a full row is dealt with, and the next one begun *)
Definition settle (f : St -> list A -> outcome St) (s : St) (act : list bool) (xs : list A) : (St * exn) + (St * list A) :=
  let ys := pad act xs in
  if length ys =? m then
    match f s ys with Ok s => inr (s, pad act []) | Raise e => inl (s, e) end
  else inr (s, ys).
(** it.py 58, 152, 160, fold.py 68-70 with 211: each row is dealt with, and nothing is given before the end *)
CoFixpoint take_rows (f : St -> list A -> outcome St) (exc : St -> exn -> P) (k : St -> P) (s : St) (act : list bool) (xs : list A) : P :=
  match settle f s act xs with
  | inl (s, e) => exc s e
  | inr (s, ys) => PRead (length ys) (fun v =>
      match v with
      | Item a => take_rows f exc k s act (ys ++ [a])
      | Stop => let act := upd act (length ys) false in
                if goes_on act then take_rows f exc k s act (ys ++ [fill]) else k s
      | Fail e => PThrow e
      end)
  end.
(** it.py 113, 136, fold.py 246: rev(s) for each iterable, from the first to the last: each is read to its end *)
CoFixpoint columns (i : nat) (cols : list (list A)) (xs : list A) (k : list (list A) -> P) : P :=
  PRead i (fun v =>
    match v with
    | Item a => columns i cols (xs ++ [a]) k
    | Stop => if S i =? m then k (cols ++ [xs]) else columns (S i) (cols ++ [xs]) [] k
    | Fail e => PThrow e
    end).
(** zip, zip_longest of lists (no code in /repo) *)
Definition zip_lists (cols : list (list A)) : list (list A) :=
  let n := match map (@length A) cols with
           | [] => 0
           | l :: ls => fold_left (if longest then Nat.max else Nat.min) ls l
           end in
  map (fun k => map (fun c => nth k c fill) cols) (seq 0 n).
End Rows.

Section Tools.
Context {A B : Type}.
Notation P := (proc A B).
Variable longest : bool.
Variable fill : A.
Variable m : nat.

(** all iterators are there at the beginning (no code in /repo) *)
Definition all : list bool := repeat true m.
(** a map without anything to remember (no code in /repo) *)
Definition plain (f : list A -> outcome B) (_ : unit) (row : list A) : outcome (B * unit) := omap (fun b => (b, tt)) (f row).
(** it.py 60-88: map, map_longest *)
Definition map_ (f : list A -> outcome B) : P := POut Returned (give_rows longest fill m (plain f) in_builtin tt all []).
(** it.py 146-168: mapr, zipr, mapr_longest, zipr_longest.  A StopIteration from the function ends the map inside. *)
Definition mapr (f : list A -> outcome B) : P :=
  POut Returned (take_rows longest fill m (fun ys row => omap (fun y => ys ++ [y]) (f row))
    (fun ys e => match e with StopIterationE => emit (rev ys) PRet | e => PThrow e end) (fun ys => emit (rev ys) PRet) [] all []).
(** stdlib map over rows that are there, inside of a generator (it.py 113, 140) *)
Fixpoint map_list (f : list A -> outcome B) (rows : list (list A)) : P :=
  match rows with
  | [] => PRet
  | row :: rows => match f row with Ok b => POut (Given b) (map_list f rows) | Raise e => in_builtin e end
  end.
(** it.py 90-144: rmap, rzip, rmap_longest, rzip_longest *)
Definition rmap (f : list A -> outcome B) : P :=
  POut Returned (columns m 0 [] [] (fun cols => map_list f (zip_lists longest fill (map (@rev A) cols)))).

Variable proc_ : list A -> B -> outcome B.
(** fold.py 66-70 *)
Definition scan_body (acc : B) (row : list A) : outcome (B * B) := omap (fun b => (b, b)) (proc_ row acc).
(** fold.py 32-70 *)
Definition scanl (init : B) : P :=
  POut Returned (POut (Given init) (give_rows longest fill m scan_body (fun e => PThrow (in_generator e)) init all [])).
(** fold.py 197-212 *)
Definition foldl (init : B) : P :=
  take_rows longest fill m (fun acc row => proc_ row acc) (fun _ e => PThrow (in_generator e)) (fun acc => POut (Given acc) PRet) init all [].
(** fold.py 129-131: over rows that are there *)
Fixpoint scan_list (acc : B) (rows : list (list A)) : P :=
  match rows with
  | [] => PRet
  | row :: rows => match proc_ row acc with Ok acc => POut (Given acc) (scan_list acc rows) | Raise e => PThrow (in_generator e) end
  end.
(** it.py 438-449 (last) over the same *)
Fixpoint fold_list (acc : B) (rows : list (list A)) : P :=
  match rows with
  | [] => POut (Given acc) PRet
  | row :: rows => match proc_ row acc with Ok acc => fold_list acc rows | Raise e => PThrow (in_generator e) end
  end.
(** fold.py 110: rev(z(...)) *)
Definition with_rows (k : list (list A) -> P) : P :=
  take_rows longest fill m (fun rs row => Ok (rs ++ [row])) (fun _ e => PThrow e) k [] all [].
(** fold.py 72-131, with an init *)
Definition scanr (init : B) : P := POut Returned (with_rows (fun rs => POut (Given init) (scan_list init (rev rs)))).
(** fold.py 214-219 *)
Definition foldr (init : B) : P := with_rows (fun rs => fold_list init (rev rs)).
(** fold.py 238-247: rev(...) runs when rscanl is called *)
Definition rscanl (init : B) : P :=
  columns m 0 [] [] (fun cols => POut Returned (POut (Given init) (scan_list init (zip_lists longest fill (map (@rev A) cols))))).
(** fold.py 253-262 *)
Definition rfoldl (init : B) : P :=
  columns m 0 [] [] (fun cols => fold_list init (zip_lists longest fill (map (@rev A) cols))).
End Tools.

(** * One iterable, whose first or last item is the initial value *)
Section One.
Context {A B : Type}.
Variable fill : A.                (* not used: there is one iterable *)

(** fold.py 69, 130: proc is called with the items of the row, then the accumulator *)
Definition one (f : A -> B -> outcome B) (row : list A) (acc : B) : outcome B :=
  match row with [a] => f a acc | _ => Raise TypeError end.
(** fold.py 179-186, 382-388: the first item is read when the function is called *)
Definition read_first (empty : proc A B) (k : A -> proc A B) : proc A B :=
  PRead 0 (fun v => match v with Item a => k a | Stop => empty | Fail e => PThrow e end).
(** fold.py 163-187 (without an init), 369-396: [init] makes the initial value from the first item *)
Definition scan_first (init : A -> B) (f : A -> B -> outcome B) : proc A B :=
  read_first (POut Returned PRet) (fun a => scanl false fill 1 (one f) (init a)).
(** fold.py 221-227, 398-409, it.py 438-449: [none] is what last gives when there is nothing *)
Definition fold_first (none : B) (init : A -> B) (f : A -> B -> outcome B) : proc A B :=
  read_first (POut (Given none) PRet) (fun a => foldl false fill 1 (one f) (init a)).
(** fold.py 389-395.  [lt], [gt]: the comparisons of the items, which may raise *)
Definition mm (lt gt : A -> A -> outcome bool) (elt : A) (acc : A * A) : outcome (A * A) :=
  let (a, b) := acc in
  do l <- lt elt a;
  let a := if l then elt else a in
  do g <- gt elt b;
  Ok (a, if g then elt else b).
End One.

(** fold.py 163-187 *)
Definition scanl1 {A} (fill : A) (f : A -> A -> outcome A) : proc A A := scan_first fill (fun a => a) f.
(** fold.py 221-227 *)
Definition reducel {A} (fill none : A) (f : A -> A -> outcome A) : proc A A := fold_first fill none (fun a => a) f.
(** fold.py 369-396 *)
Definition running_minmax {A} (fill : A) (lt gt : A -> A -> outcome bool) : proc A (A * A) := scan_first fill (fun a => (a, a)) (mm lt gt).
(** fold.py 398-409 *)
Definition minmax {A} (fill none : A) (lt gt : A -> A -> outcome bool) : proc A (A * A) := fold_first fill (none, none) (fun a => (a, a)) (mm lt gt).
(** fold.py 108-116: init = next(xss)[0]; then the rest of the rows *)
Definition from_last {A} (empty : proc A A) (k : A -> list (list A) -> proc A A) (rows : list (list A)) : proc A A :=
  match rows with
  | [] => empty
  | (a :: _) :: rows => k a rows
  | [] :: _ => PThrow IndexError
  end.
(** fold.py 190-195, 72-131 *)
Definition scanr1 {A} (fill : A) (f : A -> A -> outcome A) : proc A A :=
  POut Returned (with_rows false fill 1 (fun rs => from_last PRet (fun a rs => POut (Given a) (scan_list (one f) a rs)) (rev rs))).
(** fold.py 229-236 *)
Definition reducer {A} (fill none : A) (f : A -> A -> outcome A) : proc A A :=
  with_rows false fill 1 (fun rs => from_last (POut (Given none) PRet) (fun a rs => fold_list (one f) a rs) (rev rs)).
(** fold.py 249-251 *)
Definition rscanl1 {A} (fill : A) (f : A -> A -> outcome A) : proc A A :=
  columns 1 0 [] [] (fun cols => POut Returned (from_last PRet (fun a rs => POut (Given a) (scan_list (one f) a rs)) (zip_lists false fill (map (@rev A) cols)))).
(** fold.py 264-266 *)
Definition rreducel {A} (fill none : A) (f : A -> A -> outcome A) : proc A A :=
  columns 1 0 [] [] (fun cols => from_last (POut (Given none) PRet) (fun a rs => fold_list (one f) a rs) (zip_lists false fill (map (@rev A) cols))).
