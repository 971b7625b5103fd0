(** What a tool that goes through several iterables owes its user. *)
From Coq Require Import List ZArith Bool Arith.
From Verif Require Import Base LitModel LitSpec.
Import ListNotations.
Open Scope list_scope.
Open Scope nat_scope.

Section History.
Context {A : Type}.
(** A history: which iterable was asked, and what it did, from the first to the last *)
Notation history := (list (nat * ev A)).
(** The items that iterable [j] has given *)
Definition column (j : nat) (h : history) : list A :=
  flat_map (fun x => match x with (i, Item a) => if i =? j then [a] else [] | _ => [] end) h.
(** Iterable [j] has ended. *)
Definition ended (j : nat) (h : history) : bool :=
  existsb (fun x => match x with (i, Stop) => i =? j | _ => false end) h.
(** The last thing that happened was a failure. *)
Definition failed (h : history) : option exn := match rev h with (_, Fail e) :: _ => Some e | _ => None end.

Variable longest : bool.
Variable fill : A.
Variable m : nat.
(** Row [k]: the items number [k] of each iterable, with the fill value for those that have fewer *)
Definition row (h : history) (k : nat) : list A := map (fun j => nth k (column j h) fill) (seq 0 m).
(** Row [k] is complete: each iterable has given its item number [k]; or, for zip_longest, has ended, but not all
    of them before this item *)
Definition complete (h : history) (k : nat) : bool :=
  forallb (fun j => (k <? length (column j h)) || longest && ended j h) (seq 0 m) && existsb (fun j => k <? length (column j h)) (seq 0 m).
Definition rows (h : history) : list (list A) := map (row h) (filter (complete h) (seq 0 (length h))).
(** There will be no more rows. *)
Definition over (h : history) : bool := (if longest then @forallb nat else @existsb nat) (fun j => ended j h) (seq 0 m).
(** Whose turn it is: among those that have not ended, the first of those that have given the fewest items *)
Definition turn (h : history) : option nat :=
  List.find (fun i => negb (ended i h) && forallb (fun j => ended j h || (length (column i h) <=? length (column j h))) (seq 0 m)) (seq 0 m).
End History.

Section Runs.
Context {A B : Type}.
Notation history := (list (nat * ev A)).
Definition events (tr : list (label A B)) : history := flat_map (fun x => match x with LRead i v => [(i, v)] | _ => [] end) tr.
(** What happens next: an iterable is asked, or the tool ends, or raises an exception. *)
Inductive act := Ask (i : nat) | Ends | Raises (e : exn).
(** A promise: after the history [h], [hout h] is all that is given before [hnext h]. *)
Record hpromise := mkH { hout : history -> list (ans B); hnext : history -> act }.
(** The tool keeps it, whatever the iterables do and however long it is used. *)
Definition hkeeps (P : hpromise) (p : proc A B) : Prop := forall tr q, run p tr q ->
  prefix (outs tr) (hout P (events tr)) /\
  (forall tr1 i v tr2, tr = tr1 ++ LRead i v :: tr2 -> outs tr1 = hout P (events tr1) /\ hnext P (events tr1) = Ask i) /\
  (q = PRet -> outs tr = hout P (events tr) /\ hnext P (events tr) = Ends) /\
  (forall e, q = PThrow e -> outs tr = hout P (events tr) /\ hnext P (events tr) = Raises e).
End Runs.
Arguments hpromise : clear implicits.

Section Promises.
Context {A B : Type}.
Variable longest : bool.
Variable fill : A.
Variable m : nat.

(** A function applied to row after row, until it raises: the results, and the exception *)
Fixpoint results (f : list A -> outcome B) (rs : list (list A)) : list B * option exn :=
  match rs with
  | [] => ([], None)
  | r :: rs => match f r with Ok b => let (bs, e) := results f rs in (b :: bs, e) | Raise e => ([], Some e) end
  end.
(** ... accumulated *)
Fixpoint accumulated (f : list A -> B -> outcome B) (acc : B) (rs : list (list A)) : list B * option exn :=
  match rs with
  | [] => ([], None)
  | r :: rs => match f r acc with Ok b => let (bs, e) := accumulated f b rs in (b :: bs, e) | Raise e => ([], Some e) end
  end.
(** What an exception of the function does: in a builtin, StopIteration looks like the end; in a generator it is
    replaced. *)
Definition as_end (e : exn) : act := match e with StopIterationE => Ends | e => Raises e end.
Definition replaced (e : exn) : act := match e with StopIterationE => Raises RuntimeError | e => Raises e end.
(** What comes after [h]: a failure is passed on; an exception of the function stops the tool; at the end it ends, or
    else the next one in turn is asked. *)
Definition after (h : list (nat * ev A)) (exc : option act) (at_end : act) : act :=
  match failed h with
  | Some e => Raises e
  | None => match exc with
            | Some a => a
            | None => if over longest m h then at_end else match turn m h with Some i => Ask i | None => Ends end
            end
  end.
Notation rows := (rows longest fill m).
Notation over := (over longest m).

(** map, map_longest: each result as soon as its row is complete *)
Definition map_promise (f : list A -> outcome B) : hpromise A B :=
  mkH (fun h => Returned :: map Given (fst (results f (rows h))))
      (fun h => after h (option_map as_end (snd (results f (rows h)))) Ends).
(** scanl: the same *)
Definition scanl_promise (f : list A -> B -> outcome B) (init : B) : hpromise A B :=
  mkH (fun h => Returned :: Given init :: map Given (fst (accumulated f init (rows h))))
      (fun h => after h (option_map replaced (snd (accumulated f init (rows h)))) Ends).
(** foldl: the value at the end *)
Definition foldl_promise (f : list A -> B -> outcome B) (init : B) : hpromise A B :=
  mkH (fun h => match failed h, snd (accumulated f init (rows h)) with
                | None, None => if over h then [Given (last (fst (accumulated f init (rows h))) init)] else []
                | _, _ => []
                end)
      (fun h => after h (option_map replaced (snd (accumulated f init (rows h)))) Ends).
(** mapr, zipr: everything at the end, from the last to the first *)
Definition mapr_promise (f : list A -> outcome B) : hpromise A B :=
  mkH (fun h => Returned :: match failed h, snd (results f (rows h)) with
                            | None, None => if over h then map Given (rev (fst (results f (rows h)))) else []
                            | None, Some StopIterationE => map Given (rev (fst (results f (rows h))))
                            | _, _ => []
                            end)
      (fun h => after h (option_map as_end (snd (results f (rows h)))) Ends).
(** scanr: at the end *)
Definition scanr_promise (f : list A -> B -> outcome B) (init : B) : hpromise A B :=
  mkH (fun h => Returned :: if match failed h with None => over h | Some _ => false end
                            then Given init :: map Given (fst (accumulated f init (rev (rows h)))) else [])
      (fun h => after h None (match snd (accumulated f init (rev (rows h))) with Some e => replaced e | None => Ends end)).
(** foldr *)
Definition foldr_promise (f : list A -> B -> outcome B) (init : B) : hpromise A B :=
  mkH (fun h => if match failed h with None => over h | Some _ => false end
                then match accumulated f init (rev (rows h)) with (bs, None) => [Given (last bs init)] | _ => [] end else [])
      (fun h => after h None (match snd (accumulated f init (rev (rows h))) with Some e => replaced e | None => Ends end)).

(** Reading the iterables to their ends one after the other *)
Definition first_open (h : list (nat * ev A)) : option nat := List.find (fun j => negb (ended j h)) (seq 0 m).
(** Row [k] of the reversed iterables *)
Definition rrow (h : list (nat * ev A)) (k : nat) : list A := map (fun j => nth k (rev (column j h)) fill) (seq 0 m).
Definition rrows (h : list (nat * ev A)) : list (list A) :=
  map (rrow h) (filter (fun k => (if longest then @existsb nat else @forallb nat) (fun j => k <? length (column j h)) (seq 0 m)) (seq 0 (length h))).
(** all of them have been read *)
Definition all_read (h : list (nat * ev A)) : bool :=
  match failed h with None => match first_open h with None => true | Some _ => false end | Some _ => false end.
Definition after_columns (h : list (nat * ev A)) (at_end : act) : act :=
  match failed h with
  | Some e => Raises e
  | None => match first_open h with Some i => Ask i | None => at_end end
  end.
Definition rmap_promise (f : list A -> outcome B) : hpromise A B :=
  mkH (fun h => Returned :: if all_read h then map Given (fst (results f (rrows h))) else [])
      (fun h => after_columns h (match snd (results f (rrows h)) with Some e => as_end e | None => Ends end)).
Definition rscanl_promise (f : list A -> B -> outcome B) (init : B) : hpromise A B :=
  mkH (fun h => if all_read h then Returned :: Given init :: map Given (fst (accumulated f init (rrows h))) else [])
      (fun h => after_columns h (match snd (accumulated f init (rrows h)) with Some e => replaced e | None => Ends end)).
Definition rfoldl_promise (f : list A -> B -> outcome B) (init : B) : hpromise A B :=
  mkH (fun h => if all_read h then match accumulated f init (rrows h) with (bs, None) => [Given (last bs init)] | _ => [] end else [])
      (fun h => after_columns h (match snd (accumulated f init (rrows h)) with Some e => replaced e | None => Ends end)).
End Promises.

(** * One iterable *)
Section One.
Context {A B : Type}.
Notation history := (list (nat * ev A)).
(** An accumulation over items, until the function raises *)
Fixpoint accumulate (f : A -> B -> outcome B) (acc : B) (l : list A) : list B * option exn :=
  match l with
  | [] => ([], None)
  | a :: l => match f a acc with Ok b => let (bs, e) := accumulate f b l in (b :: bs, e) | Raise e => ([], Some e) end
  end.
(** ... which begins with the first item *)
Definition from_first (init : A -> B) (f : A -> B -> outcome B) (l : list A) : list B * option exn :=
  match l with
  | [] => ([], None)
  | a :: l => let (bs, e) := accumulate f (init a) l in (init a :: bs, e)
  end.
(** What comes after [h] *)
Definition after_one (h : history) (exc : option act) (at_end : act) : act :=
  match failed h with
  | Some e => Raises e
  | None => match exc with Some a => a | None => if ended 0 h then at_end else Ask 0 end
  end.
(** The tool returns when the first item has been read, and then gives each result as soon as its item has been read. *)
Definition scan_first_promise (init : A -> B) (f : A -> B -> outcome B) : hpromise A B :=
  mkH (fun h => match column 0 h with
                | [] => if ended 0 h then [Returned] else []
                | l => Returned :: map Given (fst (from_first init f l))
                end)
      (fun h => after_one h (option_map replaced (snd (from_first init f (column 0 h)))) Ends).
(** The last of them, at the end *)
Definition fold_first_promise (none : B) (init : A -> B) (f : A -> B -> outcome B) : hpromise A B :=
  mkH (fun h => match failed h, snd (from_first init f (column 0 h)) with
                | None, None => if ended 0 h then [Given (last (fst (from_first init f (column 0 h))) none)] else []
                | _, _ => []
                end)
      (fun h => after_one h (option_map replaced (snd (from_first init f (column 0 h)))) Ends).
(** Everything is read, to the end; then, if there was no failure, these are given. *)
Definition at_the_end (pre : list (ans B)) (res : list A -> list (ans B)) (exc : list A -> option exn) : hpromise A B :=
  mkH (fun h => pre ++ match failed h with None => if ended 0 h then res (rev (column 0 h)) else [] | Some _ => [] end)
      (fun h => after_one h None (match exc (rev (column 0 h)) with Some e => replaced e | None => Ends end)).
Definition value_of (none : B) (x : list B * option exn) : list (ans B) :=
  match x with (bs, None) => [Given (last bs none)] | _ => [] end.
End One.
(** The running minimum and maximum: each new item is compared with both, the comparisons may raise *)
Definition smaller_larger {A} (lt gt : A -> A -> outcome bool) (x : A) (lohi : A * A) : outcome (A * A) :=
  match lt x (fst lohi), gt x (snd lohi) with
  | Ok l, Ok g => Ok (if l then x else fst lohi, if g then x else snd lohi)
  | Raise e, _ => Raise e
  | _, Raise e => Raise e
  end.
