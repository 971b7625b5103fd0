(** Model of pickling the objects of unpythonic: what pickle.dumps and pickle.loads do with linked lists (llist.py
    112-181: nothing special), boxes and Some (collections.py 137-297), frozendict (collections.py 430-470), env
    (env.py 52-68, 90-98), symbols and gensyms (symbol.py 61-93, 113-132), singletons (singleton.py 126-188), Shim
    and ThreadLocalBox (collections.py 241-281, 359-381), in any graph of these, lists and dictionaries.

    pickle itself is in Python's library; the model follows protocol 2 and later: an object is saved as its class,
    the arguments for __new__ and its __dict__, is noted in the memo before its contents are saved, and is saved as
    a reference to the memo from then on.  Left out: tuples, sets, objects with a __reduce__, __getstate__ or
    __setstate__ of their own (before Python 3.11 a variable called __getstate__ of an env is taken for one),
    threads and garbage collection (see C58, C59).  Keys of dictionaries are strings, numbers, symbols and
    singletons; cons cells and frozendicts as keys, whose hash depends on their contents, are left out. *)
From Coq Require Import String List Bool Arith ZArith.
From Verif Require Import Base.
Import ListNotations.
Open Scope string_scope.
Open Scope list_scope.
Open Scope nat_scope.

(** Python values of the language model (no code in /repo). *)
Inductive value : Type := Num (z : Z) | Str (s : string) | Ref (a : nat).
(** The classes of objects: symbol.py 32-98, symbol.py 102-137, singleton.py 160-188, collections.py 391-515, llist.py 210-270 and so on. *)
Inductive class : Type :=
| Plain (c : string)                       (* cons, box, Some, and any other class with pickle's default behaviour *)
| Fdict | Env | Sym | Gsym
| Single (c : string)                      (* a class derived from Singleton, such as Nil *)
| Shim
| Local.                                   (* threading.local *)
Inductive object : Type :=
| Inst (c : class) (d : list (string * value))       (* with its __dict__ *)
| Lst (l : list value)
| Dct (l : list (value * value)).
(** the registries of interned objects: _symbols, _gensyms (symbol.py 16, 21), _instances (singleton.py 117) and
    _the_empty_frozendict (collections.py 383) *)
Inductive key : Type := KSym (name : value) | KGsym (uid : value) | KSingle (c : string) | KEmpty.
(** A process: its objects, and its registries. *)
Record proc : Type := mkproc { heap : list object; table : list (key * nat) }.

(** Python's == of keys (no code in /repo). *)
Definition veqb (v w : value) : bool :=
  match v, w with
  | Num x, Num y => Z.eqb x y
  | Str x, Str y => String.eqb x y
  | Ref a, Ref b => Nat.eqb a b
  | _, _ => false
  end.
(** Equality of registry keys (no code in /repo). *)
Definition keqb (k l : key) : bool :=
  match k, l with
  | KSym v, KSym w | KGsym v, KGsym w => veqb v w
  | KSingle c, KSingle d => String.eqb c d
  | KEmpty, KEmpty => true
  | _, _ => false
  end.
(** Lookup in an association list (no code in /repo). *)
Fixpoint find (k : key) (l : list (key * nat)) : option nat :=
  match l with [] => None | (k', a) :: l => if keqb k k' then Some a else find k l end.
(** Lookup in the table of a process (no code in /repo). *)
Definition reg (p : proc) (k : key) : option nat := find k (table p).
(** Lookup in an association list: Python's dict or namespace (no code in /repo). *)
Fixpoint get (d : list (string * value)) (n : string) : option value :=
  match d with [] => None | (m, v) :: d => if String.eqb n m then Some v else get d n end.
(** Update of an association list: Python's dict or namespace (no code in /repo). *)
Fixpoint put (d : list (string * value)) (n : string) (v : value) : list (string * value) :=
  match d with
  | [] => [(n, v)]
  | (m, w) :: d => if String.eqb n m then (m, v) :: d else (m, w) :: put d n v
  end.
(** Python's dict update (no code in /repo). *)
Fixpoint dput (d : list (value * value)) (k v : value) : list (value * value) :=
  match d with
  | [] => [(k, v)]
  | (l, w) :: d => if veqb k l then (l, v) :: d else (l, w) :: dput d k v
  end.

(** * Saving *)
Inductive head : Type :=
| HInst (c : class) (args : list value) (names : list string) | HList | HDict.
(** A pickle: how to make each object, with references to those made before (pickle, standard library). *)
Inductive term : Type :=
| TPrim (v : value)
| TGet (i : nat)                           (* the i-th object of the memo *)
| TNode (h : head) (ts : list term).       (* an object and its contents *)

(** __getnewargs__: sym (symbol.py 92-93), gsym (131-132), frozendict (collections.py 443-450) *)
Definition getnewargs (p : proc) (a : nat) (c : class) (d : list (string * value)) : outcome (list value) :=
  match c with
  | Sym => match get d "name" with Some n => Ok [n] | None => Raise AttributeError end
  | Gsym => match get d "uid", get d "label" with Some u, Some l => Ok [u; l] | _, _ => Raise AttributeError end
  | Fdict => match reg p KEmpty with
             | Some b => if a =? b then Ok [] else Ok [Str "nonempty"]
             | None => Ok [Str "nonempty"]
             end
  | Local => Raise TypeError               (* cannot pickle '_thread._local' object *)
  | _ => Ok []
  end.
(** The class and the arguments of __new__, as cited above. *)
Definition header (p : proc) (a : nat) (o : object) : outcome head :=
  match o with
  | Inst c d => do args <- getnewargs p a c d ; Ok (HInst c args (map fst d))
  | Lst _ => Ok HList
  | Dct _ => Ok HDict
  end.
(** What an object holds, in the order in which pickle saves it. *)
Definition children (o : object) : list value :=
  match o with
  | Inst _ d => map snd d
  | Lst l => l
  | Dct l => flat_map (fun q => [fst q; snd q]) l
  end.
(** The place of an object in the memo of pickle. *)
Fixpoint index (a : nat) (l : list nat) : option nat :=
  match l with
  | [] => None
  | b :: l => if a =? b then Some 0 else option_map S (index a l)
  end.
(** One computation after another with a state; an exception ends it (no code in /repo). *)
Definition mapm {S A B : Type} (f : S -> A -> outcome (S * B)) : S -> list A -> outcome (S * list B) :=
  fix go (s : S) (l : list A) : outcome (S * list B) :=
    match l with
    | [] => Ok (s, [])
    | x :: l => do r <- f s x ; do q <- go (fst r) l ; Ok (fst q, snd r :: snd q)
    end.
(** pickle.dumps; [fuel]: how deep the recursion may go *)
Fixpoint save (fuel : nat) (p : proc) (memo : list nat) (v : value) : outcome (list nat * term) :=
  match fuel with
  | O => Raise RuntimeError                (* RecursionError *)
  | S n =>
      match v with
      | Ref a =>
          match index a memo with
          | Some i => Ok (memo, TGet i)
          | None =>
              match nth_error (heap p) a with
              | None => Raise KeyError     (* no such object *)
              | Some o =>
                  do h <- header p a o ;
                  do r <- mapm (save n p) (memo ++ [a]) (children o) ;
                  Ok (fst r, TNode h (snd r))
              end
          end
      | v => Ok (memo, TPrim v)
      end
  end.

(** * Loading *)
Definition alloc (p : proc) (o : object) : proc * nat := (mkproc (heap p ++ [o]) (table p), length (heap p)).
(** symbol.py 61-80, 113-125, singleton.py 169-188, collections.py 432-436: the registered object, or else a new
    one, which is registered *)
Definition intern (p : proc) (k : key) (c : class) : proc * nat :=
  match reg p k with
  | Some a => (p, a)
  | None => let (p, a) := alloc p (Inst c []) in (mkproc (heap p) ((k, a) :: table p), a)
  end.
(** cls.__new__(cls, args) *)
Definition new (p : proc) (c : class) (args : list value) : outcome (proc * nat) :=
  match c, args with
  | Sym, [n] => Ok (intern p (KSym n) Sym)
  | Gsym, [u; _] => Ok (intern p (KGsym u) Gsym)
  | Single c, _ => Ok (intern p (KSingle c) (Single c))
  | Fdict, [] => Ok (intern p KEmpty Fdict)                                  (* collections.py 432-437 *)
  | Fdict, _ => Ok (alloc p (Inst Fdict []))
  | Env, [] => let (p, d) := alloc p (Dct []) in                            (* env.py 58-63 *)
               Ok (alloc p (Inst Env [("_env", Ref d); ("_finalized", Num 0)]))
  | Plain c, [] => Ok (alloc p (Inst (Plain c) []))
  | Shim, [] => Ok (alloc p (Inst Shim []))
  | _, _ => Raise TypeError
  end.
(** __new__ with these arguments: symbol.py 61-80, collections.py 430-436 and so on. *)
Definition create (p : proc) (h : head) : outcome (proc * nat) :=
  match h with
  | HInst c args _ => new p c args
  | HList => Ok (alloc p (Lst []))
  | HDict => Ok (alloc p (Dct []))
  end.
(** pickle asks the new object for __setstate__; a class with a __getattr__ that uses an instance variable that is
    not there yet calls itself without end (env.py 90-98, collections.py 366-373) *)
Definition probe (c : class) (d : list (string * value)) : outcome unit :=
  let needs n := match get d n with Some _ => Ok tt | None => Raise RuntimeError end in
  match c with
  | Env => needs "_env"
  | Shim => needs "_shim_box"
  | _ => Ok tt
  end.
(** [hash(v)] does not raise: keys and items of sets. *)
Definition hashable (p : proc) (v : value) : bool :=
  match v with
  | Num _ | Str _ => true
  | Ref a => match nth_error (heap p) a with
             | Some (Inst (Sym | Gsym | Single _) _) => true
             | _ => false
             end
  end.
(** A list of keys and values in turn, as pairs. *)
Fixpoint pairs (l : list value) : list (value * value) :=
  match l with k :: v :: l => (k, v) :: pairs l | _ => [] end.
(** An object gets its contents. *)
Definition write (p : proc) (a : nat) (o : object) : proc := mkproc (upd (heap p) a o) (table p).
(** the contents are put into the object: of an instance, into its __dict__ (past any __setattr__) *)
Definition fill (p : proc) (a : nat) (h : head) (vs : list value) : outcome proc :=
  match h, nth_error (heap p) a with
  | HInst c _ names, Some (Inst c' d) =>
      do _ <- probe c' d ;
      Ok (write p a (Inst c' (fold_left (fun d q => put d (fst q) (snd q)) (combine names vs) d)))
  | HList, Some (Lst l) => Ok (write p a (Lst (l ++ vs)))
  | HDict, Some (Dct l) =>
      if forallb (fun q => hashable p (fst q)) (pairs vs)
      then Ok (write p a (Dct (fold_left (fun d q => dput d (fst q) (snd q)) (pairs vs) l)))
      else Raise TypeError
  | _, _ => Raise TypeError
  end.
(** pickle.loads *)
Fixpoint load (s : proc * list nat) (t : term) : outcome ((proc * list nat) * value) :=
  match t with
  | TPrim v => Ok (s, v)
  | TGet i => match nth_error (snd s) i with Some a => Ok (s, Ref a) | None => Raise KeyError end
  | TNode h ts =>
      do r <- create (fst s) h ;
      do q <- mapm load (fst r, snd s ++ [snd r]) ts ;
      do p <- fill (fst (fst q)) (snd r) h (snd q) ;
      Ok ((p, snd (fst q)), Ref (snd r))
  end.
(** [pickle.dumps] (standard library). *)
Definition dumps (fuel : nat) (p : proc) (v : value) : outcome term :=
  do r <- save fuel p [] v ; Ok (snd r).
(** [pickle.loads] (standard library). *)
Definition loads (p : proc) (t : term) : outcome (proc * value) :=
  do r <- load (p, []) t ; Ok (fst (fst r), snd r).
