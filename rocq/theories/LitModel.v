(** Model of the laziness of unpythonic/it.py: what its tools read of their input, and when.

    The run of a tool is a process that reads from iterators (numbered; most tools have just one), gives things
    to its user, ends, or raises an exception.  It makes a step only when its user asks for something.  That the
    call of a tool returns is one of the things that it gives ([Returned]): what a tool reads before this it
    reads when it is called, and what it reads after this only when next() is called on what was returned.
    For functions that return a plain value, that value is what they give, and they end with it. *)
From Coq Require Import List ZArith Bool Arith.
From Verif Require Import Base ItrModel.
Import ListNotations.
Open Scope list_scope.
Open Scope nat_scope.

(** What next() on an iterator of the user does (no code in /repo): an item, StopIteration, or another exception *)
Inductive ev (A : Type) : Type := Item (a : A) | Stop | Fail (e : exn).
Arguments Item {A} a.
Arguments Stop {A}.
Arguments Fail {A} e.
(** What a tool gives to its user (no code in /repo): the call has returned; an item, or the value of the call *)
Inductive ans (B : Type) : Type := Returned | Given (b : B).
Arguments Returned {B}.
Arguments Given {B} b.
(** Processes (no code in /repo) *)
CoInductive proc (A B : Type) : Type :=
| POut (b : ans B) (k : proc A B)
| PRead (i : nat) (k : ev A -> proc A B)
| PRet
| PThrow (e : exn).
Arguments POut {A B} b k.
Arguments PRead {A B} i k.
Arguments PRet {A B}.
Arguments PThrow {A B} e.

(** An exception from a function that a generator calls (no code in /repo): a generator does not let StopIteration
    pass (PEP 479). *)
Definition in_generator (e : exn) : exn := match e with StopIterationE => RuntimeError | e => e end.
(** An exception from a function that map, filter or groupby calls, inside of a generator (no code in /repo): to
    the generator, StopIteration looks like the end. *)
Definition in_builtin {A B} (e : exn) : proc A B := match e with StopIterationE => PRet | e => PThrow e end.

Section Tools.
Context {A B K : Type}.
Notation P := (proc A B).

(** A list of items, given one by one (no code in /repo): iterating over a list, tuple or deque *)
Fixpoint emit (l : list B) (k : P) : P := match l with [] => k | b :: l => POut (Given b) (emit l k) end.
(** [n] times: next(it), the items being collected (it.py 403-407, 721-727); [short]: the input has ended *)
Fixpoint read_n (n : nat) (xs : list A) (full short : list A -> P) : P :=
  match n with
  | 0 => full xs
  | S n => PRead 0 (fun v => match v with
                             | Item a => read_n n (xs ++ [a]) full short
                             | Stop => short xs
                             | Fail e => PThrow e
                             end)
  end.

(** it.py 190-221, 520, 526-532: for each item of the input, the items of [f item], one by one: chain.from_iterable
    and the loops of the flatten family.  [pend]: those not given yet. *)
CoFixpoint each (f : A -> outcome (list B)) (pend : list B) : P :=
  match pend with
  | b :: pend => POut (Given b) (each f pend)
  | [] => PRead 0 (fun v => match v with
                            | Item a => match f a with Ok l => each f l | Raise e => in_builtin e end
                            | Stop => PRet
                            | Fail e => PThrow e
                            end)
  end.
(** it.py 190-221, for one iterable *)
Definition flatmap (f : A -> outcome (list B)) : P := POut Returned (each f []).
End Tools.

Section Same.
Context {A K : Type}.
Notation P := (proc A A).

(** The iterator itself, returned to the user (it.py 290, 370).  (That it has ended is not asked again.) *)
CoFixpoint rest : P :=
  PRead 0 (fun v => match v with Item a => POut (Given a) rest | Stop => PRet | Fail e => PThrow e end).
(** it.py 282: deque(it, maxlen=0) *)
CoFixpoint exhaust (k : P) : P :=
  PRead 0 (fun v => match v with Item _ => exhaust k | Stop => k | Fail e => PThrow e end).
(** itertools.islice(it, n) (no code in /repo) *)
Fixpoint islice (n : nat) : P :=
  match n with
  | 0 => PRet
  | S n => PRead 0 (fun v => match v with Item a => POut (Given a) (islice n) | Stop => PRet | Fail e => PThrow e end)
  end.

Section Keys.
Variable keq : K -> K -> bool.
Variable key : A -> outcome K.                (* without key: Ok *)
(** it.py 236-248 *)
CoFixpoint uniqify_loop (seen : list K) : P :=
  PRead 0 (fun v => match v with
    | Item a =>
        match key a with
        | Ok k => if existsb (keq k) seen then uniqify_loop seen else POut (Given a) (uniqify_loop (k :: seen))
        | Raise e => PThrow (in_generator e)
        end
    | Stop => PRet
    | Fail e => PThrow e
    end).
(** it.py 225-248 *)
Definition uniqify : P := POut Returned (uniqify_loop []).
(** it.py 258: groupby, and the first item of each group.  [cur]: the key of the group *)
CoFixpoint uniq_loop (cur : option K) : P :=
  PRead 0 (fun v => match v with
    | Item a =>
        match key a with
        | Ok k => if match cur with Some c => keq c k | None => false end then uniq_loop cur
                  else POut (Given a) (uniq_loop (Some k))
        | Raise e => in_builtin e
        end
    | Stop => PRet
    | Fail e => PThrow e
    end).
(** it.py 250-258 *)
Definition uniq : P := POut Returned (uniq_loop None).
End Keys.

(** it.py 260-271 *)
Definition take (n : Z) : P := if (n <? 0)%Z then PThrow ValueError else POut Returned (islice (Z.to_nat n)).
(** it.py 273-290 *)
Definition drop (n : option Z) : P :=
  match n with
  | None => exhaust (POut Returned PRet)
  | Some n =>
      if (n <? 0)%Z then PThrow ValueError
      else read_n (Z.to_nat n) [] (fun _ => POut Returned rest) (fun _ => POut Returned PRet)
  end.
(** it.py 408-413 *)
CoFixpoint butlastn_loop (q : list A) : P :=
  match q with
  | [] => PThrow IndexError                   (* 409, on an empty deque *)
  | x :: q =>
      POut (Given x) (PRead 0 (fun v => match v with
                                         | Item a => butlastn_loop (q ++ [a])
                                         | Stop => PRet
                                         | Fail e => PThrow e
                                         end))
  end.
(** it.py 393-413, for n >= 0 *)
Definition butlastn (n : nat) : P := POut Returned (read_n (n + 1) [] butlastn_loop (fun _ => PRet)).
(** it.py 423-436 *)
Definition nth_ (n : Z) (default : A) : P :=
  if (n <? 0)%Z then PThrow ValueError
  else read_n (Z.to_nat n) []
         (fun _ => PRead 0 (fun v => match v with
                                     | Item a => POut (Given a) PRet
                                     | Stop => POut (Given default) PRet
                                     | Fail e => PThrow e
                                     end))
         (fun _ => POut (Given default) PRet).
(** it.py 448, 462: deque(iterable, maxlen=n), and then [k] *)
CoFixpoint fill_deque (n : nat) (d : list A) (k : list A -> P) : P :=
  PRead 0 (fun v => match v with
                    | Item a => fill_deque n (deque_push n d a) k
                    | Stop => k d
                    | Fail e => PThrow e
                    end).
(** it.py 438-449 *)
Definition last_ (default : A) : P :=
  fill_deque 1 [] (fun d => POut (Given (match rev d with x :: _ => x | [] => default end)) PRet).
(** it.py 451-463 *)
Definition lastn (n : nat) : P := POut Returned (fill_deque n [] (fun d => emit d PRet)).
(** it.py 465-474: chain((x,), iterable) *)
Definition scons (x : A) : P := POut Returned (POut (Given x) rest).
(** it.py 485-489: [k] items so far *)
CoFixpoint pad_loop (n : nat) (fill : A) (k : nat) : P :=
  PRead 0 (fun v => match v with
                    | Item a => POut (Given a) (pad_loop n fill (S k))
                    | Stop => emit (repeat fill (n - k)) PRet
                    | Fail e => PThrow e
                    end).
(** it.py 476-489 *)
Definition pad (n : nat) (fill : A) : P := POut Returned (pad_loop n fill 0).
(** it.py 806-816: round and round; [j]: the iterator whose turn it is.  (Without any iterator, 814-815 do nothing
    for ever: not modelled.) *)
CoFixpoint interleave_loop (m j : nat) : P :=
  PRead j (fun v => match v with
                    | Item a => POut (Given a) (interleave_loop m (if S j =? m then 0 else S j))
                    | Stop => PRet
                    | Fail e => PThrow e
                    end).
(** it.py 794-817, for m > 0 iterables *)
Definition interleave (m : nat) : P := POut Returned (interleave_loop m 0).
(** it.py 696-702: next(filter(predicate, iterable), default); a StopIteration from the predicate is taken for the
    end of the filter *)
CoFixpoint find (pred : A -> outcome bool) (default : A) : P :=
  PRead 0 (fun v => match v with
    | Item a =>
        match pred a with
        | Ok true => POut (Given a) PRet
        | Ok false => find pred default
        | Raise StopIterationE => POut (Given default) PRet
        | Raise e => PThrow e
        end
    | Stop => POut (Given default) PRet
    | Fail e => PThrow e
    end).
End Same.

(** * The flatten family: lists and tuples in the input are there already *)
(** it.py 491-515 *)
Definition flatten {A} (pred : item A -> bool) : proc (item A) (item A) := flatmap (fun e => Ok (flatten_elt pred e)).
(** it.py 517-521; without pred, an item that is not a list or tuple is taken for one that cannot be iterated over *)
Definition flatten1 {A} (pred : option (item A -> bool)) : proc (item A) (item A) :=
  flatmap (fun e => match e, pred with
                    | Node _ es, None => Ok es
                    | Node _ es, Some pred => Ok (if pred e then es else [e])
                    | Leaf _, None => Raise TypeError
                    | Leaf _, Some _ => Ok [e]
                    end).
(** it.py 534-559 *)
Definition flatten_in {A} (pred : item A -> bool) : proc (item A) (item A) := flatmap (fun e => Ok (flatten_in_elt pred e)).

(** * Windows *)
(** it.py 728-735 *)
CoFixpoint windowed {A} (xs : list A) : proc A (list A) :=
  POut (Given xs) (PRead 0 (fun v => match v with
                                     | Item a => windowed (tl xs ++ [a])
                                     | Stop => PRet
                                     | Fail e => PThrow e
                                     end)).
(** it.py 704-736 *)
Definition window {A} (n : Z) : proc A (list A) :=
  if (n <? 2)%Z then PThrow ValueError
  else read_n (Z.to_nat n) [] (fun xs => POut Returned (windowed xs)) (fun _ => POut Returned PRet).
(** it.py 788-792, on numbers, with the windows (a, b) *)
CoFixpoint within_loop (tol a b : Z) : proc Z Z :=
  POut (Given a)
    (if (Z.abs (a - b) <=? tol)%Z then POut (Given b) PRet
     else PRead 0 (fun v => match v with
                            | Item c => within_loop tol b c
                            | Stop => PRet
                            | Fail e => PThrow e
                            end)).
(** it.py 774-792 *)
Definition within (tol : Z) : proc Z Z :=
  POut Returned (read_n 2 [] (fun xs => match xs with [a; b] => within_loop tol a b | _ => PRet end) (fun _ => PRet)).

(** * Questions *)
(** it.py 678-679: takewhile, and `in` *)
CoFixpoint inn_scan (up : bool) (x : Z) : proc Z bool :=
  PRead 0 (fun v => match v with
    | Item y =>
        if negb (if up then (y <=? x)%Z else (x <=? y)%Z) then POut (Given false) PRet
        else if (y =? x)%Z then POut (Given true) PRet
        else inn_scan up x
    | Stop => POut (Given false) PRet
    | Fail e => PThrow e
    end).
(** it.py 668-677 *)
CoFixpoint inn_skip (x y0 : Z) : proc Z bool :=
  PRead 0 (fun v => match v with
    | Item yj =>
        if (yj =? y0)%Z then inn_skip x y0
        else if (yj =? x)%Z then POut (Given true) PRet
        else inn_scan (0 <? yj - y0)%Z x
    | Stop => POut (Given false) PRet
    | Fail e => PThrow e
    end).
(** it.py 614-679, on numbers *)
Definition inn (x : Z) : proc Z bool :=
  PRead 0 (fun v => match v with
    | Item y0 => if (y0 =? x)%Z then POut (Given true) PRet else inn_skip x y0
    | Stop => POut (Given false) PRet
    | Fail e => PThrow e
    end).
(** it.py 691-694 *)
CoFixpoint iindex_loop {A} (eqb : A -> A -> bool) (x : A) (j : nat) : proc A nat :=
  PRead 0 (fun v => match v with
    | Item a => if eqb a x then POut (Given j) PRet else iindex_loop eqb x (S j)
    | Stop => PThrow ValueError
    | Fail e => PThrow e
    end).
(** it.py 681-694 *)
Definition iindex {A} (eqb : A -> A -> bool) (x : A) : proc A nat := iindex_loop eqb x 0.
(** it.py 819-832: all(elt in whole for elt in part); [part] is the input *)
CoFixpoint subset {A} (eqb : A -> A -> bool) (whole : list A) : proc A bool :=
  PRead 0 (fun v => match v with
    | Item a => if existsb (eqb a) whole then subset eqb whole else POut (Given false) PRet
    | Stop => POut (Given true) PRet
    | Fail e => PThrow e
    end).
(** it.py 936-939 *)
CoFixpoint allsame_loop {A} (eqb : A -> A -> bool) (x0 : A) : proc A bool :=
  PRead 0 (fun v => match v with
    | Item x => if negb (eqb x x0) then POut (Given false) PRet else allsame_loop eqb x0
    | Stop => POut (Given true) PRet
    | Fail e => PThrow e
    end).
(** it.py 919-939 *)
Definition allsame {A} (eqb : A -> A -> bool) : proc A bool :=
  PRead 0 (fun v => match v with
    | Item x0 => allsame_loop eqb x0
    | Stop => POut (Given true) PRet
    | Fail e => PThrow e
    end).

(** * Head and tail at once *)
(** it.py 316-374, 292-314: the answers of unpack and split_at.  [Head l]: the call returns, with these items;
    [Tail a]: an item of the tail *)
Inductive part (A : Type) : Type := Head (l : list A) | Tail (a : A).
Arguments Head {A} l.
Arguments Tail {A} a.
(** The tail: first what it shares with the head (it.py 360: tee), then the iterator *)
CoFixpoint tail_from {A} (buf : list A) : proc A (part A) :=
  match buf with
  | a :: buf => POut (Given (Tail a)) (tail_from buf)
  | [] => PRead 0 (fun v => match v with Item a => POut (Given (Tail a)) (tail_from []) | Stop => PRet | Fail e => PThrow e end)
  end.
(** it.py 316-374 *)
Definition unpack {A} (n : Z) (k : option Z) (fill : A) : proc A (part A) :=
  if (n <? 0)%Z then PThrow ValueError
  else
    let k := match k with Some k => k | None => n end in
    if (k <? 0)%Z then PThrow ValueError
    else
      let n := Z.to_nat n in let k := Z.to_nat k in
      read_n n []
        (fun out =>                                                             (* 368-374 *)
           if k <? n then POut (Given (Head out)) (tail_from (skipn k out))
           else read_n (k - n) [] (fun _ => POut (Given (Head out)) (tail_from [])) (fun _ => POut (Given (Head out)) PRet))
        (fun out => POut (Given (Head (out ++ repeat fill (n - length out)))) PRet).   (* 362-367 *)
(** it.py 292-314: drop reads [n] items (314); they are the head, and wait in the tee *)
Definition split_at {A} (n : Z) : proc A (part A) :=
  if (n <? 0)%Z then PThrow ValueError
  else read_n (Z.to_nat n) [] (fun out => POut (Given (Head out)) (tail_from [])) (fun out => POut (Given (Head out)) PRet).
