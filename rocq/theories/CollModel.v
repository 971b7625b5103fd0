(** Model of frozendict, box, ThreadLocalBox, Some, Shim and mogrify
    (unpythonic/collections.py). *)
From Verif Require Import Base.
From Coq Require Import List Bool ZArith Arith.
Import ListNotations.
Open Scope nat_scope.

(** ** dict: association list in insertion order, distinct keys *)
Section Dict.
Context {K V : Type}.
Variable keqb : K -> K -> bool.
(** Python's dict: an association list in insertion order (no code in /repo). *)
Definition dict : Type := list (K * V).
(** Python's lookup in a dict (no code in /repo). *)
Fixpoint dict_get (d : dict) (k : K) : option V :=
  match d with
  | [] => None
  | (k', v) :: d' => if keqb k' k then Some v else dict_get d' k
  end.
(** [d[k] = v] keeps the position (and the key object) of an existing key *)
Fixpoint dict_set (d : dict) (k : K) (v : V) : dict :=
  match d with
  | [] => [(k, v)]
  | (k', v') :: d' => if keqb k' k then (k', v) :: d' else (k', v') :: dict_set d' k v
  end.
(** [del d[k]] (no code in /repo). *)
Fixpoint dict_del (d : dict) (k : K) : dict :=
  match d with
  | [] => []
  | (k', v') :: d' => if keqb k' k then d' else (k', v') :: dict_del d' k
  end.
(** [d.update(m)] for a mapping or a sequence of pairs *)
Definition dict_update (d : dict) (m : list (K * V)) : dict :=
  fold_left (fun d kv => dict_set d (fst kv) (snd kv)) m d.
End Dict.
Arguments dict : clear implicits.

(** ** frozendict: mutable dicts and frozendict instances in a heap *)
Section Frozen.
Context {K V : Type}.
Variable keqb : K -> K -> bool.
Notation dict := (dict K V).

(** [cells]: all dict objects.  [users]: those the program holds a reference to.
    [frozen]: for each frozendict instance, its private dict.  [empty]: the instance held
    by _the_empty_frozendict. *)
Record world := mkworld { cells : list dict; users : list nat; frozen : list nat; empty : option nat }.
(** Before anything is made. *)
Definition world0 : world := mkworld [] [] [] None.
(** The dict object with a number. *)
Definition cell (w : world) (r : nat) : option dict := nth_error (cells w) r.
(** What a frozendict holds: collections.py 430-436 *)
Definition read_frozen (w : world) (i : nat) : option dict :=
  match nth_error (frozen w) i with Some r => cell w r | None => None end.
(** What a dict of the program holds. *)
Definition read_user (w : world) (u : nat) : option dict :=
  match nth_error (users w) u with Some r => cell w r | None => None end.

(** A source mapping: a dict of the program, or another frozendict. *)
Inductive source := User (u : nat) | Frozen (i : nat).
(** What a source mapping of a frozendict holds: collections.py 430-436 *)
Definition read_source (w : world) (s : source) : option dict :=
  match s with User u => read_user w u | Frozen i => read_frozen w i end.
(** The same for all sources, in order. *)
Fixpoint read_sources (w : world) (ss : list source) : option (list dict) :=
  match ss with
  | [] => Some []
  | s :: ss' => match read_source w s, read_sources w ss' with
                | Some d, Some ds => Some (d :: ds)
                | _, _ => None
                end
  end.
(** collections.py 468-472 [__init__], given the contents of the arguments *)
Definition frozen_data (ms : list dict) (bindings : dict) : dict :=
  dict_update keqb (fold_left (dict_update keqb) ms []) bindings.

(** What the program can do. *)
Inductive op :=
| NewDict (items : list (K * V))             (* a new dict *)
| SetItem (u : nat) (k : K) (v : V)          (* on a dict of the program *)
| DelItem (u : nat) (k : K)
| Clear (u : nat)
| NewFrozen (ms : list source) (bindings : dict).  (* frozendict( *ms, **bindings) *)
Definition set_cell (w : world) (r : nat) (d : dict) : world :=
  mkworld (upd (cells w) r d) (users w) (frozen w) (empty w).
(** A change to a dict of the program. *)
Definition on_user (w : world) (u : nat) (f : dict -> dict) : world :=
  match nth_error (users w) u with
  | Some r => match cell w r with Some d => set_cell w r (f d) | None => w end
  | None => w
  end.
(** collections.py 430-436, 468-472; returns the instance. *)
Definition new_frozen (w : world) (ms : list source) (bindings : dict) : world * option nat :=
  match read_sources w ms with
  | None => (w, None)  (* no such objects *)
  | Some ds =>
      let r := length (cells w) in  (* the new dict in self._data *)
      let cells' := cells w ++ [frozen_data ds bindings] in
      match ms, bindings with
      | [], [] =>
          match empty w with
          | Some i => (mkworld cells' (users w) (upd (frozen w) i r) (empty w), Some i)
          | None => let i := length (frozen w) in
                    (mkworld cells' (users w) (frozen w ++ [r]) (Some i), Some i)
          end
      | _, _ => let i := length (frozen w) in
                (mkworld cells' (users w) (frozen w ++ [r]) (empty w), Some i)
      end
  end.
(** One action of the program; those on frozendicts are collections.py 430-472 *)
Definition step (w : world) (o : op) : world :=
  match o with
  | NewDict its => mkworld (cells w ++ [dict_update keqb [] its]) (users w ++ [length (cells w)]) (frozen w) (empty w)
  | SetItem u k v => on_user w u (fun d => dict_set keqb d k v)
  | DelItem u k => on_user w u (fun d => dict_del keqb d k)
  | Clear u => on_user w u (fun _ => [])
  | NewFrozen ms bindings => fst (new_frozen w ms bindings)
  end.
(** A whole history. *)
Definition run (w : world) (ops : list op) : world := fold_left step ops w.

(** dict equality: same length and every item of the one is in the other
    ([frozendict.__eq__], collections.py 514-515, compares the dicts). *)
Variable veqb : V -> V -> bool.
Definition dict_eq (a b : dict) : bool :=
  (length a =? length b) &&
  forallb (fun kv => match dict_get keqb b (fst kv) with Some v => veqb (snd kv) v | None => false end) a.
(** collections.py 478-479; [hi] hashes an item, [hs] combines the hashes of the elements of
    a frozenset, in the order of iteration *)
Variables (hi : K * V -> Z) (hs : list Z -> Z).
Definition frozen_hash (d : dict) : Z := hs (map hi d).
End Frozen.
Arguments world : clear implicits.
Arguments op : clear implicits.

(** ** box, ThreadLocalBox *)
Section Box.
Context {V : Type}.
(** collections.py 200-237 *)
Definition box_get (x : V) : V := x.
(** box.set: collections.py 212-221 *)
Definition box_set (_ x : V) : V * V := (x, x).  (* new contents, returned value *)
(** collections.py 242-279: the default, and the attribute of each thread's storage *)
Record tlbox := mktlbox { tl_default : V; tl_storage : nat -> option V }.
(** ThreadLocalBox(x): collections.py 249-251 *)
Definition tl_new (x : V) : tlbox := mktlbox x (fun _ => None).
(** What a thread can do to a ThreadLocalBox: set, clear, setdefault (collections.py 242-279). *)
Inductive tlop := TSet (x : V) | TClear | TSetDefault (x : V).
(** ThreadLocalBox.get: collections.py 266-269 *)
Definition tl_get (b : tlbox) (t : nat) : V :=
  match tl_storage b t with Some x => x | None => tl_default b end.
(** One action of one thread: collections.py 242-279 *)
Definition tl_step (b : tlbox) (e : nat * tlop) : tlbox :=
  let (t, o) := e in
  match o with
  | TSet x => mktlbox (tl_default b) (fun t' => if t' =? t then Some x else tl_storage b t')
  | TClear => mktlbox (tl_default b) (fun t' => if t' =? t then None else tl_storage b t')
  | TSetDefault x => mktlbox x (tl_storage b)
  end.
End Box.
Arguments tlbox : clear implicits.
Arguments tlop : clear implicits.

(** ** Shim.  An object: attributes and truth value; boxes hold object numbers. *)
Section Shim.
Context {N V : Type}.
Variable neqb : N -> N -> bool.
(** Objects that a Shim can be for: attributes and truth value (no code in /repo). *)
Record object := mkobject { attrs : dict N V; truthy : bool }.
(** Memory of the Shim model: objects, and boxes (collections.py 148-149, what a box holds). *)
Record smem := mksmem { objects : list object; boxes : list nat }.
(** The fallback argument of Shim (collections.py, Shim.__init__). *)
Inductive fallback := NoFallback | FBox (b : nat) | FObj (o : nat).
(** What a box holds (collections.py, unbox). *)
Definition unbox (m : smem) (b : nat) : option object :=
  match nth_error (boxes m) b with Some o => nth_error (objects m) o | None => None end.
(** [not fallback]: a box has length 1, so it is true *)
Definition falsy (m : smem) (f : fallback) : bool :=
  match f with
  | NoFallback => true
  | FBox _ => false
  | FObj o => match nth_error (objects m) o with Some x => negb (truthy x) | None => false end
  end.
(** Shim.__getattr__: collections.py 376-383 *)
Definition getattr (o : option object) (k : N) : outcome V :=
  match o with
  | Some x => match dict_get neqb (attrs x) k with Some v => Ok v | None => Raise AttributeError end
  | None => Raise TypeError  (* no such object *)
  end.
(** collections.py 376-383 *)
Definition shim_getattr (m : smem) (b : nat) (f : fallback) (k : N) : outcome V :=
  let thing := unbox m b in
  let has := match thing with Some x => match dict_get neqb (attrs x) k with Some _ => true | None => false end | None => false end in
  if falsy m f || has then getattr thing k
  else getattr (match f with FBox b' => unbox m b' | FObj o => nth_error (objects m) o | NoFallback => None end) k.
(** collections.py 384-388 *)
Definition shim_setattr (m : smem) (b : nat) (k : N) (v : V) : smem :=
  match nth_error (boxes m) b with
  | Some o => match nth_error (objects m) o with
              | Some x => mksmem (upd (objects m) o (mkobject (dict_set neqb (attrs x) k v) (truthy x))) (boxes m)
              | None => m
              end
  | None => m
  end.
End Shim.
Arguments object : clear implicits.
Arguments smem : clear implicits.

(** ** mogrify *)
Section Mogrify.
Context {A K : Type}.
Variable aeqb : A -> A -> bool.
Variable func : A -> A.
(** Values: atoms (with strings, ranges, env, dyn), references to mutable containers, and
    the immutable containers.  Views, mapping views and [Values] are not modelled.  Sets
    contain atoms only. *)
Inductive mval :=
| MAtom (a : A)
| MRef (r : nat)
| MTuple (l : list mval)            (* tuple, namedtuple, other Sequence *)
| MFrozendict (l : list (K * mval)) (* any Mapping *)
| MFrozenset (l : list A)
| MNil
| MCons (a d : mval)
| MSome (x : mval).
(** Mutable containers. *)
Inductive mcell :=
| CList (l : list mval)
| CDict (l : list (K * mval))
| CSet (l : list A)
| CBox (x : mval).
(** The memory of mutable containers (no code in /repo). *)
Definition mheap : Type := nat -> option mcell.
(** A container gets new contents (no code in /repo). *)
Definition hset (h : mheap) (r : nat) (c : mcell) : mheap := fun r' => if r' =? r then Some c else h r'.
(** a set built from the items, in order of first occurrence *)
Fixpoint dedup (seen l : list A) : list A :=
  match l with
  | [] => []
  | x :: l' => if existsb (aeqb x) seen then dedup seen l' else x :: dedup (seen ++ [x]) l'
  end.

(** collections.py 84-152.  [fuel] bounds the recursion depth ([None] beyond: RecursionError;
    also for a dangling reference). *)
Fixpoint doit (fuel : nat) (h : mheap) (x : mval) : option (mheap * mval) :=
  match fuel with
  | O => None
  | S f =>
      let all := fix all (h : mheap) (l : list mval) : option (mheap * list mval) :=
        match l with
        | [] => Some (h, [])
        | e :: l' => match doit f h e with
                     | None => None
                     | Some (h, e) => match all h l' with
                                      | None => None
                                      | Some (h, es) => Some (h, e :: es)
                                      end
                     end
        end in
      let allkv := fix allkv (h : mheap) (l : list (K * mval)) : option (mheap * list (K * mval)) :=
        match l with
        | [] => Some (h, [])
        | (k, e) :: l' => match doit f h e with
                     | None => None
                     | Some (h, e) => match allkv h l' with
                                      | None => None
                                      | Some (h, es) => Some (h, (k, e) :: es)
                                      end
                     end
        end in
      match x with
      | MRef r =>
          match h r with
          | None => None
          | Some (CList l) => match all h l with Some (h, y) => Some (hset h r (CList y), MRef r) | None => None end
          | Some (CDict l) => match allkv h l with Some (h, y) => Some (hset h r (CDict y), MRef r) | None => None end
          | Some (CSet l) => Some (hset h r (CSet (dedup [] (map func l))), MRef r)
          | Some (CBox e) => match doit f h e with Some (h, y) => Some (hset h r (CBox y), MRef r) | None => None end
          end
      | MNil => Some (h, MNil)
      | MCons a d => match doit f h a with
                     | None => None
                     | Some (h, a) => match doit f h d with
                                      | None => None
                                      | Some (h, d) => Some (h, MCons a d)
                                      end
                     end
      | MSome e => match doit f h e with Some (h, y) => Some (h, MSome y) | None => None end
      | MFrozendict l => match allkv h l with Some (h, y) => Some (h, MFrozendict y) | None => None end
      | MTuple l => match all h l with Some (h, y) => Some (h, MTuple y) | None => None end
      | MFrozenset l => Some (h, MFrozenset (dedup [] (map func l)))
      | MAtom a => Some (h, MAtom (func a))
      end
  end.
End Mogrify.
Arguments mval : clear implicits.
Arguments mcell : clear implicits.
Arguments mheap : clear implicits.
