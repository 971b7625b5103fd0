(** Model of unpythonic/it.py on finite iterables (lists), and of the functions
    that matter for infinite ones on [nat -> A].

    Conventions: an iterable consumed to the end is its list of items.  Laziness
    (how much of the input has been consumed when an output is produced) is not
    modelled, except where a definition returns the unconsumed rest.  Arguments
    that must be ints are ints by typing; their range checks are modelled. *)
From Verif Require Import Base.
From Coq Require Import ZArith List Bool Arith.
Import ListNotations.
Open Scope nat_scope.

(** ** Built-ins used by it.py *)

(** [zip]: rows up to the shortest input; no inputs, no rows. *)
Definition min_len {A} (cols : list (list A)) : nat :=
  match cols with
  | [] => 0
  | c :: cs => fold_left (fun m c => Nat.min m (length c)) cs (length c)
  end.
(** The length of the longest input. *)
Definition max_len {A} (cols : list (list A)) : nat :=
  fold_left (fun m c => Nat.max m (length c)) cols 0.
(** The built-in [zip]. *)
Definition zip {A} (cols : list (list A)) : list (list A) :=
  map (fun i => somes (map (fun c => nth_error c i) cols)) (seq 0 (min_len cols)).
(** [itertools.zip_longest]. *)
Definition zip_longest {A} (fill : A) (cols : list (list A)) : list (list A) :=
  map (fun i => map (fun c => nth i c fill) cols) (seq 0 (max_len cols)).
(** [deque(l, maxlen=n)], consumed as the input arrives. *)
Definition deque_push {A} (n : nat) (d : list A) (x : A) : list A :=
  let d' := d ++ [x] in if n <? length d' then tl d' else d'.
(** [deque(l, maxlen=n)] (standard library). *)
Definition deque_maxlen {A} (n : nat) (l : list A) : list A :=
  fold_left (deque_push n) l [].

(** ** Reversing maps and zips *)

(** it.py 40-58 *)
Definition rev_ {A} (l : list A) : list A := rev l.
(** it.py 60-74 and the built-in [map] with several inputs *)
Definition map_ {A B} (f : list A -> B) (cols : list (list A)) : list B := map f (zip cols).
(** it.py 78-88 *)
Definition map_longest {A B} (f : list A -> B) (fill : A) (cols : list (list A)) : list B :=
  map f (zip_longest fill cols).
(** it.py 90-113 *)
Definition rmap {A B} (f : list A -> B) (cols : list (list A)) : list B := map_ f (map rev_ cols).
(** it.py 115-136 *)
Definition rzip {A} (cols : list (list A)) : list (list A) := zip (map rev_ cols).
(** it.py 138-144 *)
Definition rmap_longest {A B} (f : list A -> B) (fill : A) (cols : list (list A)) : list B :=
  map_longest f fill (map rev_ cols).
(** rzip_longest: it.py 142-144 *)
Definition rzip_longest {A} (fill : A) (cols : list (list A)) : list (list A) :=
  zip_longest fill (map rev_ cols).
(** it.py 146-168 *)
Definition mapr {A B} (f : list A -> B) (cols : list (list A)) : list B := rev_ (map_ f cols).
(** zipr: it.py 154-160 *)
Definition zipr {A} (cols : list (list A)) : list (list A) := rev_ (zip cols).
(** mapr_longest: it.py 162-164 *)
Definition mapr_longest {A B} (f : list A -> B) (fill : A) (cols : list (list A)) : list B :=
  rev_ (map_longest f fill cols).
(** zipr_longest: it.py 166-168 *)
Definition zipr_longest {A} (fill : A) (cols : list (list A)) : list (list A) :=
  rev_ (zip_longest fill cols).
(** it.py 190-221 *)
Definition flatmap {A B} (f : list A -> list B) (cols : list (list A)) : list B :=
  concat (map_ f cols).

(** ** uniqify, uniq *)
Section Uniq.
Context {A K : Type} (keq : K -> K -> bool) (key : A -> K).

(** it.py 225-248; the set [seen] as a list.  With key=None, [key] is the identity. *)
Fixpoint uniqify_loop (seen : list K) (l : list A) : list A :=
  match l with
  | [] => []
  | e :: l' =>
      let k := key e in
      if existsb (keq k) seen then uniqify_loop seen l'
      else e :: uniqify_loop (k :: seen) l'
  end.
(** uniqify: it.py 225-248 *)
Definition uniqify (l : list A) : list A := uniqify_loop [] l.

(** it.py 250-258: the first item of each group of [itertools.groupby], which
    starts a new group when the key differs from the key of the current group. *)
Fixpoint uniq_loop (cur : K) (l : list A) : list A :=
  match l with
  | [] => []
  | e :: l' => if keq cur (key e) then uniq_loop cur l' else e :: uniq_loop (key e) l'
  end.
(** uniq: it.py 250-258 *)
Definition uniq (l : list A) : list A :=
  match l with [] => [] | e :: l' => e :: uniq_loop (key e) l' end.
End Uniq.

(** ** Taking and dropping *)

(** it.py 260-271 *)
Definition take {A} (n : Z) (l : list A) : outcome (list A) :=
  if (n <? 0)%Z then Raise ValueError else Ok (firstn (Z.to_nat n) l).
(** it.py 273-290; the iterator returned is the rest of the input *)
Definition drop {A} (n : option Z) (l : list A) : outcome (list A) :=
  match n with
  | None => Ok []
  | Some n => if (n <? 0)%Z then Raise ValueError else Ok (skipn (Z.to_nat n) l)
  end.
(** it.py 292-314 *)
Definition split_at {A} (n : Z) (l : list A) : outcome (list A * list A) :=
  if (n <? 0)%Z then Raise ValueError
  else do a <- take n l; do b <- drop (Some n) l; Ok (a, b).

(** it.py 316-374.  The loop over range(n): [j] counts up, [it] is the remaining
    input, [tl] the tail saved by [tee] when [j == k].  Result: the extracted
    items, and the tail. *)
Fixpoint unpack_loop {A} (todo j k : nat) (fill : A) (out : list A) (it : list A) (tl : option (list A))
  : list A * list A * option (list A) :=
  match todo with
  | O => (out, it, tl)
  | S todo' =>
      let tl := if j =? k then Some it else tl in
      match it with
      | x :: it' => unpack_loop todo' (S j) k fill (out ++ [x]) it' tl
      | [] => (out ++ repeat fill todo, it, Some [])
      end
  end.
(** unpack: it.py 316-374 *)
Definition unpack {A} (n : Z) (l : list A) (k : option Z) (fill : A) : outcome (list A * list A) :=
  if (n <? 0)%Z then Raise ValueError
  else
    let k := match k with Some k => k | None => n end in
    if (k <? 0)%Z then Raise ValueError
    else
      let n' := Z.to_nat n in let k' := Z.to_nat k in
      let '(out, it, tl) := unpack_loop n' 0 k' fill [] l None in
      let tl := match tl with
                | Some t => t
                | None => if k' =? n' then it else skipn (k' - n') it
                end in
      Ok (out, tl).

(** it.py 376-391 *)
Definition tail_ {A} (l : list A) : outcome (list A) := drop (Some 1%Z) l.
(** it.py 393-413, for n >= 0: the queue [q] holds n+1 items. *)
Fixpoint butlastn_loop {A} (q : list A) (it : list A) : list A :=
  match q with
  | [] => []  (* not reached: q has n+1 >= 1 items *)
  | x :: q' =>
      match it with
      | [] => [x]
      | y :: it' => x :: butlastn_loop (q' ++ [y]) it'
      end
  end.
(** butlastn: it.py 393-413 *)
Definition butlastn {A} (n : nat) (l : list A) : list A :=
  if length l <? n + 1 then [] else butlastn_loop (firstn (n + 1) l) (skipn (n + 1) l).
(** butlast: it.py 383-391 *)
Definition butlast {A} (l : list A) : list A := butlastn 1 l.
(** it.py 415-436 *)
Definition nth_ {A} (n : Z) (l : list A) (default : A) : outcome A :=
  if (n <? 0)%Z then Raise ValueError
  else do r <- (if (n =? 0)%Z then Ok l else drop (Some n) l);
       match r with x :: _ => Ok x | [] => Ok default end.
(** first: it.py 415-417 *)
Definition first {A} (l : list A) (default : A) : outcome A := nth_ 0 l default.
(** second: it.py 419-421 *)
Definition second {A} (l : list A) (default : A) : outcome A := nth_ 1 l default.
(** it.py 438-449: deque of maxlen 1, then [pop] *)
Definition last_ {A} (l : list A) (default : A) : A :=
  match rev (deque_maxlen 1 l) with x :: _ => x | [] => default end.
(** it.py 451-463 *)
Definition lastn {A} (n : nat) (l : list A) : list A := deque_maxlen n l.
(** it.py 465-474 *)
Definition scons {A} (x : A) (l : list A) : list A := x :: l.
(** it.py 476-489: [k] ends as the number of items seen; range(k, n) fill values *)
Definition pad {A} (n : nat) (fill : A) (l : list A) : list A :=
  l ++ repeat fill (n - length l).

(** ** flatten *)

(** Items: a list/tuple (tagged by its type) of items, or anything else. *)
Inductive item (A : Type) : Type :=
| Leaf (a : A)
| Node (is_tuple : bool) (es : list (item A)).
Arguments Leaf {A} a.
Arguments Node {A} is_tuple es.

Section Flatten.
Context {A : Type} (pred : item A -> bool).
(** it.py 523-532 with recursive=True, the loop body for one element *)
Fixpoint flatten_elt (e : item A) : list (item A) :=
  match e with
  | Node t es => if pred e then flat_map flatten_elt es else [e]
  | Leaf _ => [e]
  end.
(** it.py 491-515 *)
Definition flatten (l : list (item A)) : list (item A) := flat_map flatten_elt l.
(** it.py 517-521, 523-532 with recursive=False, pred given *)
Definition flatten1 (l : list (item A)) : list (item A) :=
  flat_map (fun e => match e with
                     | Node t es => if pred e then es else [e]
                     | Leaf _ => [e] end) l.
(** it.py 534-559 *)
Fixpoint flatten_in_elt (e : item A) : list (item A) :=
  match e with
  | Node t es => if pred e then flat_map flatten_in_elt es else [Node t (flat_map flatten_in_elt es)]
  | Leaf _ => [e]
  end.
(** flatten_in: it.py 534-559 *)
Definition flatten_in (l : list (item A)) : list (item A) := flat_map flatten_in_elt l.
End Flatten.

(** ** iterate, partition *)

(** it.py 561-565: the first [n] items yielded *)
Fixpoint iterate1 {A} (f : A -> A) (x : A) (n : nat) : list A :=
  match n with O => [] | S n' => x :: iterate1 f (f x) n' end.
(** it.py 588-612 *)
Definition partition_ {A} (pred : A -> bool) (l : list A) : list A * list A :=
  (filter (fun x => negb (pred x)) l, filter pred l).

(** ** inn, iindex, find *)

(** Result of a search that may not terminate. *)
Inductive search : Type := Found | NotFound | OutOfFuel.

(** it.py 614-679 on numbers.  [it i] is the i-th item; [None] from the end of the
    iterable on.  The while loop of 669-673, then [takewhile]. *)
Fixpoint inn_scan (up : bool) (x : Z) (it : nat -> option Z) (i fuel : nat) : search :=
  match fuel with
  | O => OutOfFuel
  | S fuel' =>
      match it i with
      | None => NotFound
      | Some y =>
          if negb (if up then (y <=? x)%Z else (x <=? y)%Z) then NotFound
          else if (y =? x)%Z then Found
          else inn_scan up x it (S i) fuel'
      end
  end.
(** The search after the first item: it.py 614-679 *)
Fixpoint inn_skip (x y0 : Z) (it : nat -> option Z) (i fuel : nat) : search :=
  match fuel with
  | O => OutOfFuel
  | S fuel' =>
      match it i with
      | None => NotFound
      | Some yj =>
          if (yj =? y0)%Z then inn_skip x y0 it (S i) fuel'
          else if (yj =? x)%Z then Found
          else inn_scan (0 <? yj - y0)%Z x it (S i) fuel'
      end
  end.
(** inn: it.py 614-679 *)
Definition inn (x : Z) (it : nat -> option Z) (fuel : nat) : search :=
  match it 0 with
  | None => NotFound
  | Some y0 => if (y0 =? x)%Z then Found else inn_skip x y0 it 1 fuel
  end.

(** it.py 681-694 *)
Fixpoint iindex_loop {A} (eqb : A -> A -> bool) (x : A) (j : nat) (l : list A) : outcome nat :=
  match l with
  | [] => Raise ValueError
  | e :: l' => if eqb e x then Ok j else iindex_loop eqb x (S j) l'
  end.
(** iindex: it.py 681-694 *)
Definition iindex {A} (eqb : A -> A -> bool) (x : A) (l : list A) : outcome nat := iindex_loop eqb x 0 l.
(** it.py 696-702 *)
Definition find_ {A} (pred : A -> bool) (l : list A) (default : A) : A :=
  match filter pred l with x :: _ => x | [] => default end.

(** ** window, chunked, within *)

(** it.py 704-736: the deque [xs] of n items, and the rest of the input *)
Fixpoint windowed {A} (xs : list A) (it : list A) : list (list A) :=
  match it with
  | [] => [xs]
  | y :: it' => xs :: windowed (tl xs ++ [y]) it'
  end.
(** window: it.py 704-736 *)
Definition window {A} (n : Z) (l : list A) : outcome (list (list A)) :=
  if (n <? 2)%Z then Raise ValueError
  else let n := Z.to_nat n in
       if length l <? n then Ok [] else Ok (windowed (firstn n l) (skipn n l)).
(** it.py 738-772, each chunk consumed before the next one is asked for; [fuel]
    bounds the number of chunks and is never exhausted (length of the input). *)
Fixpoint chunker {A} (n : nat) (fuel : nat) (it : list A) : list (list A) :=
  match fuel with
  | O => []
  | S fuel' =>
      match firstn n it with
      | [] => []
      | x :: cit => (x :: cit) :: chunker n fuel' (skipn n it)
      end
  end.
(** chunked: it.py 738-772 *)
Definition chunked {A} (n : Z) (l : list A) : outcome (list (list A)) :=
  if (n <? 2)%Z then Raise ValueError else Ok (chunker (Z.to_nat n) (S (length l)) l).
(** it.py 774-792 on numbers *)
Fixpoint within_loop (tol : Z) (ws : list (list Z)) : list Z :=
  match ws with
  | [] => []
  | [a; b] :: ws' => if (Z.abs (a - b) <=? tol)%Z then [a; b] else a :: within_loop tol ws'
  | _ :: ws' => within_loop tol ws'  (* windows have two items *)
  end.
(** within: it.py 774-792 *)
Definition within (tol : Z) (l : list Z) : outcome (list Z) :=
  do ws <- window 2 l; Ok (within_loop tol ws).

(** ** interleave, subset, powerset, allsame *)

(** One call of [roundrobin] (it.py 806-812): the items yielded, and the iterators
    left, or [None] if some input ended. *)
Fixpoint roundrobin {A} (iters : list (list A)) : list A * option (list (list A)) :=
  match iters with
  | [] => ([], Some [])
  | [] :: _ => ([], None)
  | (x :: it) :: iters' =>
      let (out, rest) := roundrobin iters' in
      (x :: out, match rest with Some r => Some (it :: r) | None => None end)
  end.
(** it.py 794-817; [None] when out of fuel (rounds). *)
Fixpoint interleave {A} (fuel : nat) (iters : list (list A)) : option (list A) :=
  match fuel with
  | O => None
  | S fuel' =>
      match roundrobin iters with
      | (out, None) => Some out
      | (out, Some rest) =>
          match interleave fuel' rest with Some out' => Some (out ++ out') | None => None end
      end
  end.
(** it.py 819-832 *)
Definition subset {A} (eqb : A -> A -> bool) (part whole : list A) : bool :=
  forallb (fun e => existsb (eqb e) whole) part.
(** it.py 834-917: the loop with its [bag] *)
Fixpoint powerset_loop {A} (bag : list (list A)) (it : list A) : list (list A) :=
  match it with
  | [] => []
  | x :: it' =>
      let t := map (fun c => c ++ [x]) bag in
      [x] :: t ++ powerset_loop (bag ++ [[x]] ++ t) it'
  end.
(** powerset: it.py 834-917 *)
Definition powerset {A} (l : list A) : list (list A) := powerset_loop [] l.
(** it.py 919-939 *)
Definition allsame {A} (eqb : A -> A -> bool) (l : list A) : bool :=
  match l with
  | [] => true
  | x0 :: it => forallb (fun x => eqb x x0) it
  end.
