(** Model of imemoize and fimemoize (unpythonic/gmemo.py 158-236), on gmemoize (94-156).  One thread: for
    schedules of many threads see MemoModel. *)
From Coq Require Import List Bool Arith.
From Verif Require Import Base.
Import ListNotations.
Open Scope list_scope.

(** What is iterated over: [Fresh i]: a container; iter() makes a new iterator, whose state is [i].
    [Same n]: iterator number [n]; iter() gives the iterator itself.  (Python's own, no code in /repo;
    simplified: what a container gives does not change.) *)
Inductive iterable (I : Type) := Fresh (i : I) | Same (n : nat) | NotIterable.
Arguments Fresh {I}. Arguments Same {I}. Arguments NotIterable {I}.

(** The generator made of a function that has `yield from` as its body (gmemo.py 188-189, 233-234): not started;
    in the iteration; finished. *)
Inductive gen (A : Type) := GNew (a : A) | GIter (n : nat) | GDone.
Arguments GNew {A}. Arguments GIter {A}. Arguments GDone {A}.

Section Imz.
Context {V I A K : Type}.
Variable keqb : K -> K -> bool.                       (* == of the bindings of arguments *)
Variable resolve : A -> outcome K.                    (* tuplify_bindings(resolve_bindings(...)), and hash *)
Variable factory : A -> outcome (iterable I).         (* ifactory *)
Variable advance : I -> outcome V * I.                (* __next__ of an iterator; the end is StopIteration *)

(** gmemo.py 100: an entry of memos: the generator and the list *)
Record memo := mkMemo { mkey : K; mgen : gen A; items : list (outcome V) }.
(** gmemo.py 108-112 *)
Record inst := mkInst { imemo : nat; pos : nat }.
(** [iters]: the states of all iterators; [calls]: the arguments that the factory has been called with. *)
Record st := mkSt { iters : list I; memos : list memo; insts : list inst; calls : list A }.

(** next(it) (Python's own) *)
Definition next_iter (n : nat) (its : list I) : outcome V * list I :=
  match nth_error its n with
  | Some i => let (r, i') := advance i in (r, upd its n i')
  | None => (Raise TypeError, its)
  end.
(** A step of `yield from` over iterator [n]: any exception ends the generator; StopIteration is how the
    iterator says that it is at its end, and then it is how the generator does (189, 234). *)
Definition go_on (n : nat) (its : list I) : outcome V * gen A * list I :=
  match next_iter n its with
  | (Ok v, its) => (Ok v, GIter n, its)
  | (Raise e, its) => (Raise e, GDone, its)
  end.
(** An exception in a generator.  A StopIteration that is not of the iterator becomes RuntimeError
    (Python's own, PEP 479). *)
Definition in_generator (e : exn) : exn := match e with StopIterationE => RuntimeError | e => e end.
(** next(g): 189 and 234.  The factory is called, and iter() is, at the first time. *)
Definition next_gen (g : gen A) (s : st) : outcome V * gen A * st :=
  match g with
  | GNew a =>
      let s := mkSt (iters s) (memos s) (insts s) (calls s ++ [a]) in
      match factory a with
      | Raise e => (Raise (in_generator e), GDone, s)
      | Ok NotIterable => (Raise TypeError, GDone, s)
      | Ok (Fresh i) =>
          let '(r, g, its) := go_on (length (iters s)) (iters s ++ [i]) in
          (r, g, mkSt its (memos s) (insts s) (calls s))
      | Ok (Same n) =>
          let '(r, g, its) := go_on n (iters s) in
          (r, g, mkSt its (memos s) (insts s) (calls s))
      end
  | GIter n => let '(r, g, its) := go_on n (iters s) in (r, g, mkSt its (memos s) (insts s) (calls s))
  | GDone => (Raise StopIterationE, GDone, s)
  end.

(** `k not in memos`, memos[k]: 98, 101 *)
Fixpoint find (k : K) (l : list memo) : option nat :=
  match l with
  | [] => None
  | m :: l => if keqb (mkey m) k then Some 0 else match find k l with Some n => Some (S n) | None => None end
  end.
(** gmemo.py 96-101 *)
Definition call (a : A) (s : st) : outcome nat * st :=
  match resolve a with
  | Raise e => (Raise e, s)
  | Ok k =>
      let '(m, ms) := match find k (memos s) with
                      | Some m => (m, memos s)
                      | None => (length (memos s), memos s ++ [mkMemo k (GNew a) []])
                      end in
      (Ok (length (insts s)), mkSt (iters s) ms (insts s ++ [mkInst m 0]) (calls s))
  end.
(** gmemo.py 118-134, of instance [i] *)
Definition next (i : nat) (s : st) : option (outcome V) * st :=
  match nth_error (insts s) i with
  | None => (None, s)                                  (* there is no such instance *)
  | Some x =>
      match nth_error (memos s) (imemo x) with
      | None => (None, s)                              (* does not occur *)
      | Some m =>
          let '(r, s) :=
            match nth_error (items m) (pos x) with
            | Some r => (r, s)                                                        (* 122-123 *)
            | None =>                                                                 (* 125-129 *)
                let '(r, g, s) := next_gen (mgen m) s in
                (r, mkSt (iters s) (upd (memos s) (imemo x) (mkMemo (mkey m) g (items m ++ [r]))) (insts s) (calls s))
            end in
          (Some r, mkSt (iters s) (memos s) (upd (insts s) i (mkInst (imemo x) (S (pos x)))) (calls s))   (* 131-134 *)
      end
  end.

(** Histories: calls of the memoized function, next() of its instances, and next() by others of the
    iterators that there were at the start. *)
Inductive op := Call (a : A) | Next (i : nat) | Outside (n : nat).
(** What an action gives back. *)
Inductive res := RCall (r : outcome nat) | RItem (r : outcome V) | RNone.    (* RNone: there is no such object *)
Variable start : list I.
Definition init : st := mkSt start [] [] [].
(** One action of the program: gmemo.py 158-190, gmemo.py 193-235, gmemo.py 16-102 *)
Definition step (o : op) (s : st) : res * st :=
  match o with
  | Call a => let (r, s) := call a s in (RCall r, s)
  | Next i => let (r, s) := next i s in (match r with Some r => RItem r | None => RNone end, s)
  | Outside n =>
      if n <? length start
      then let (r, its) := next_iter n (iters s) in (RItem r, mkSt its (memos s) (insts s) (calls s))
      else (RNone, s)
  end.
(** A whole history. *)
Fixpoint run (l : list op) (s : st) : list res * st :=
  match l with
  | [] => ([], s)
  | o :: l => let (r, s) := step o s in let (rs, s) := run l s in (r :: rs, s)
  end.
End Imz.
Arguments st : clear implicits. Arguments memo : clear implicits. Arguments op : clear implicits. Arguments res : clear implicits.

(** fimemoize: gmemo.py 192-235.  The parameters are those of ifactory, whose signature is found through
    functools.wraps. *)
Definition fimemoize {V I A K} (keqb : K -> K -> bool) (resolve : A -> outcome K) (factory : A -> outcome (iterable I))
    (advance : I -> outcome V * I) (start : list I) (l : list (op A)) : list (res V) * st V I A K :=
  run keqb resolve factory advance start l (init start).
(** imemoize: gmemo.py 187-190.  There are no parameters; [arg] is the type of arguments. *)
Definition imemoize {V I arg} (it : iterable I) (advance : I -> outcome V * I) (start : list I) (l : list (op (list arg)))
    : list (res V) * st V I (list arg) unit :=
  run (fun _ _ => true) (fun a => match a with [] => Ok tt | _ => Raise TypeError end) (fun _ => Ok it) advance start l (init start).
