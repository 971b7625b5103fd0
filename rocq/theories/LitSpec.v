(** What a lazy tool owes its user, and the promises of the tools of unpythonic/it.py. *)
From Coq Require Import List ZArith Bool Arith.
From Verif Require Import Base.
From Verif Require ItrModel.
From Verif Require Import LitModel.
Import ListNotations.
Open Scope list_scope.
Open Scope nat_scope.

Section Runs.
Context {A B : Type}.
(** What can be seen of a run: what is given to the user, and what is read of the input *)
Inductive label := LOut (b : ans B) | LRead (i : nat) (v : ev A).
Inductive run : proc A B -> list label -> proc A B -> Prop :=
| run_here p : run p [] p
| run_out b k tr q : run k tr q -> run (POut b k) (LOut b :: tr) q
| run_read i k v tr q : run (k v) tr q -> run (PRead i k) (LRead i v :: tr) q.
(** The items read, and the things given, in a run *)
Definition items (tr : list label) : list A := flat_map (fun x => match x with LRead _ (Item a) => [a] | _ => [] end) tr.
Definition outs (tr : list label) : list (ans B) := flat_map (fun x => match x with LOut b => [b] | _ => [] end) tr.
(** All that was read were items. *)
Definition going_on (tr : list label) : Prop := forall i v, In (LRead i v) tr -> exists a, v = Item a.
Definition prefix {X} (l m : list X) : Prop := exists r, m = l ++ r.

(** A promise.  When the items [l] have been read, and the input goes on:
    - [out l] is all that is given to the user in the end, before anything else is read;
    - [halt l]: [None]: then the input is read, from the iterator number [which l]; [Some None]: the tool ends by
      itself; [Some (Some e)]: it raises [e];
    when the input ends after [l]:
    - [fin l] is given as well;
    - [err l]: then it raises this exception, or else just ends. *)
Record promise := mkP {
  out : list A -> list (ans B);
  halt : list A -> option (option exn);
  fin : list A -> list (ans B);
  err : list A -> option exn;
  which : list A -> nat }.

(** The tool keeps the promise, whatever the input does and however long it is used. *)
Definition keeps (P : promise) (p : proc A B) : Prop := forall tr q, run p tr q ->
  (* the input is read only when everything that can be given has been given, from the right iterator, and never
     after it has ended or failed *)
  (forall tr1 i v tr2, tr = tr1 ++ LRead i v :: tr2 ->
     going_on tr1 /\ outs tr1 = out P (items tr1) /\ halt P (items tr1) = None /\ i = which P (items tr1)) /\
  (* while the input goes on *)
  (going_on tr ->
     prefix (outs tr) (out P (items tr)) /\
     (q = PRet -> outs tr = out P (items tr) /\ halt P (items tr) = Some None) /\
     (forall e, q = PThrow e -> outs tr = out P (items tr) /\ halt P (items tr) = Some (Some e))) /\
  (* the input has ended *)
  (forall tr1 i tr2, tr = tr1 ++ LRead i Stop :: tr2 ->
     prefix (outs tr2) (fin P (items tr1)) /\
     (q = PRet -> outs tr2 = fin P (items tr1) /\ err P (items tr1) = None) /\
     (forall e, q = PThrow e -> outs tr2 = fin P (items tr1) /\ err P (items tr1) = Some e)) /\
  (* the input has failed: the exception is passed on at once *)
  (forall tr1 i e tr2, tr = tr1 ++ LRead i (Fail e) :: tr2 -> tr2 = [] /\ q = PThrow e).
End Runs.
Arguments label : clear implicits.
Arguments promise : clear implicits.

(** * The promises *)
Definition always {X} (l : list X) : option (option exn) := None.
Definition nothing {X Y} (l : list X) : list Y := [].
Definition no_err {X} (l : list X) : option exn := None.
Definition only {X} (l : list X) : nat := 0.
(** Of a tool with one input, which goes on until the input ends, then just ends, and returns as soon as it is called *)
Definition gives {A B} (f : list A -> list B) : promise A B :=
  mkP (fun l => Returned :: map Given (f l)) always nothing no_err only.
(** ... the same for one that may stop by itself *)
Definition gives_until {A B} (f : list A -> list B) (h : list A -> option (option exn)) : promise A B :=
  mkP (fun l => Returned :: map Given (f l)) h nothing no_err only.
(** Of a function that reads items until [f] says what its value is, or which exception it raises; at the end of
    the input, [g] says it *)
Definition answers {A B} (f : list A -> option (outcome B)) (g : list A -> outcome B) : promise A B :=
  mkP (fun l => match f l with Some (Ok b) => [Given b] | _ => [] end)
      (fun l => match f l with Some (Ok _) => Some None | Some (Raise e) => Some (Some e) | None => None end)
      (fun l => match g l with Ok b => [Given b] | Raise _ => [] end)
      (fun l => match g l with Ok _ => None | Raise e => Some e end) only.
(** ... of a function that reads [m] items when it is called, and then returns an iterator of [f l]; if there are fewer,
    it returns one of [g l] *)
Definition reads_first {A B} (m : nat) (f : list A -> list (ans B)) (g : list A -> list (ans B)) : promise A B :=
  mkP (fun l => if length l <? m then [] else f l) always (fun l => if length l <? m then g l else []) no_err only.
(** A call that is refused, without reading anything *)
Definition refuses {A B} (e : exn) : promise A B := mkP (fun _ => []) (fun _ => Some (Some e)) nothing no_err only.

(** Each item with the items before it *)
Fixpoint with_before {A} (pre l : list A) : list (list A * A) :=
  match l with [] => [] | a :: l => (pre, a) :: with_before (pre ++ [a]) l end.
Definition last_of {A} (l : list A) : option A := match rev l with a :: _ => Some a | [] => None end.

Section Keys.
Context {A K : Type} (keq : K -> K -> bool) (key : A -> outcome K).
Definition same_key (a b : A) : bool := match key a, key b with Ok x, Ok y => keq x y | _, _ => false end.
Definition has_key (a : A) : bool := match key a with Ok _ => true | Raise _ => false end.
(** the items whose key is not that of an item before *)
Definition uniqify_out (l : list A) : list A :=
  flat_map (fun pa => if has_key (snd pa) && negb (existsb (same_key (snd pa)) (fst pa)) then [snd pa] else []) (with_before [] l).
(** the items whose key is not that of the item just before *)
Definition uniq_out (l : list A) : list A :=
  flat_map (fun pa => if has_key (snd pa) && negb (match last_of (fst pa) with Some b => same_key b (snd pa) | None => false end)
                      then [snd pa] else []) (with_before [] l).
(** the key function raises an exception for the last item *)
Definition key_fails (stop : option exn) (l : list A) : option (option exn) :=
  match last_of l with
  | Some a => match key a with Ok _ => None | Raise StopIterationE => Some stop | Raise e => Some (Some e) end
  | None => None
  end.
Definition equivalence : Prop :=
  (forall x, keq x x = true) /\ (forall x y, keq x y = keq y x) /\ (forall x y z, keq x y = true -> keq y z = true -> keq x z = true).
End Keys.

(** flatmap: all items of [f a], for each item [a] *)
Definition flat {A B} (f : A -> outcome (list B)) (l : list A) : list B := flat_map (fun a => match f a with Ok bs => bs | Raise _ => [] end) l.
(** windows of [n] items *)
Definition windows {A} (n : nat) (l : list A) : list (list A) := map (fun i => firstn n (skipn i l)) (seq 0 (length l + 1 - n)).
(** within: the last two items are close *)
Definition close (tol : Z) (l : list Z) : bool :=
  match rev l with b :: a :: _ => (Z.abs (a - b) <=? tol)%Z | _ => false end.
Definition within_out (tol : Z) (l : list Z) : list Z := if close tol l then l else removelast l.
(** inn: what is known after [l]: the last item is [x]; or the direction of the input is known from the first item
    and the first item other than it, and a later item is past [x] *)
Definition inn_answer (x : Z) (l : list Z) : option (outcome bool) :=
  match rev l with
  | [] => None
  | a :: pre =>
      if (a =? x)%Z then Some (Ok true)
      else match rev pre with
           | [] => None
           | y0 :: pre =>
               match List.find (fun y => negb (y =? y0)%Z) pre with
               | Some yj => if (if (y0 <? yj)%Z then (x <? a)%Z else (a <? x)%Z) then Some (Ok false) else None
               | None => None
               end
           end
  end.
(** a question that is decided by the last item and the number of items *)
Definition by_last {A B} (f : A -> nat -> option (outcome B)) (l : list A) : option (outcome B) :=
  match last_of l with Some a => f a (length l) | None => None end.
