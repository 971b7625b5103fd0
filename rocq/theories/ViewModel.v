(** Model of [roview] and [view] (unpythonic/collections.py 579-736).

    A view object holds a reference to the thing it views: the base sequence, or
    another view object.  We follow one such chain of references, outermost view
    first: [v :: v1 :: ... ] where the last view refers to the base list.  Other
    views built on the same inner views can only cause extra accesses at inner
    levels, which histories may contain ([OpRead k]).  The base list is the
    mutable part of the state; [data] in the code is always that list object. *)
From Verif Require Import Base.
From Coq Require Import ZArith List Bool.
Import ListNotations.
Open Scope Z_scope.

(** Instance attributes of a view: [slice], [_seql], [_cache] (collections.py
    626-637, 640-645).  The first component of [_cache] is always the base list. *)
Record vlevel : Type := mkview {
  v_slice : pyslice; v_seql : option Z; v_cache : option pyrange }.
(** A view of a view of ..., the outermost view (made last) first: collections.py 579-669 *)
Definition vchain : Type := list vlevel.

(** [roview.__init__(sequence, s)] with a slice (collections.py 617-627). *)
Definition fresh (s : pyslice) : vlevel := mkview s None None.

(** [roview._range] with its inner [buildr] (collections.py 646-652); [n] is the
    current length of the base list. *)
Fixpoint build_range (c : vchain) (n : Z) : outcome pyrange :=
  match c with
  | [] => Ok (range0 n)
  | l :: c' => do r <- build_range c' n; range_slice r (v_slice l)
  end.

(** [roview._update_cache] (collections.py 640-645).  [len(self.seq)] is [n] if
    [self.seq] is the base list, and the inner view's [__len__] (636-638), which
    updates the inner cache, if it is a view.  [self._seql] is assigned before
    [self._range()] is called, so if the latter raises, [_seql] stays updated;
    [self._cache] that was never assigned raises AttributeError. *)
Fixpoint update_cache (c : vchain) (n : Z) : vchain * outcome pyrange :=
  match c with
  | [] => ([], Ok (range0 n))
  | l :: c' =>
      let (c1, rin) := update_cache c' n in
      match omap range_len rin with
      | Raise e => (l :: c1, Raise e)
      | Ok seql =>
          if match v_seql l with Some m => m =? seql | None => false end
          then (l :: c1, match v_cache l with Some r => Ok r | None => Raise AttributeError end)
          else match build_range (l :: c') n with
               | Ok r => (mkview (v_slice l) (Some seql) (Some r) :: c1, Ok r)
               | Raise e => (mkview (v_slice l) (Some seql) (v_cache l) :: c1, Raise e)
               end
      end
  end.

(** [v[s]] with a slice (collections.py 654-661): [v[:]] is [v] itself, and a
    no-op view is bypassed. *)
Definition is_noop (s : pyslice) : bool :=
  match s with mkslice None None None => true | _ => false end.
(** [v[s]] with a slice, on the chain: collections.py 654-669 *)
Definition subscript (c : vchain) (s : pyslice) : vchain :=
  if is_noop s then c
  else match c with
       | [] => [fresh s]
       | l :: c' => if is_noop (v_slice l) then fresh s :: c' else fresh s :: c
       end.

Section WithItems.
Context {A : Type}.

(** State: the base list and the chain of view objects. *)
Record vstate : Type := mkst { st_list : list A; st_chain : vchain }.

(** Item of a range, [r[k]], for -len(r) <= k < len(r). *)
Definition range_index (r : pyrange) (k : Z) : Z :=
  range_item r (if k <? 0 then k + range_len r else k).

(** [roview.__len__] (collections.py 636-638). *)
Definition view_len (st : vstate) : vstate * outcome Z :=
  let (c, r) := update_cache (st_chain st) (zlen (st_list st)) in
  (mkst (st_list st) c, omap range_len r).

(** [roview.__getitem__] with an int (collections.py 664-669). *)
Definition view_get (st : vstate) (k : Z) : vstate * outcome A :=
  let (c, r) := update_cache (st_chain st) (zlen (st_list st)) in
  (mkst (st_list st) c,
   do r <- r;
   let n := range_len r in
   if (n <=? k) || (k <? - n) then Raise IndexError
   else py_index (st_list st) (range_index r k)).

(** Reading items one by one, stopping at the first exception. *)
Fixpoint read_all (l : list A) (js : list Z) : outcome (list A) :=
  match js with
  | [] => Ok []
  | j :: js => do x <- py_index l j; do xs <- read_all l js; Ok (x :: xs)
  end.

(** [list(v)], through [roview.__iter__] (collections.py 629-635).  The base list
    is not mutated while the iteration is in progress (the class documents that
    requirement). *)
Definition view_list (st : vstate) : vstate * outcome (list A) :=
  let (c, r) := update_cache (st_chain st) (zlen (st_list st)) in
  (mkst (st_list st) c, do r <- r; read_all (st_list st) (range_list r)).

(** [data[j] = x] on the base list. *)
Definition py_setitem (l : list A) (j : Z) (x : A) : outcome (list A) :=
  let j := if j <? 0 then j + zlen l else j in
  if (j <? 0) || (zlen l <=? j) then Raise IndexError else Ok (zupd l j x).

(** The loop [for j, item in zip(r[k], vs): data[j] = item] (collections.py
    727-728): stops at the shorter of the two; an exception leaves the writes
    already done. *)
Fixpoint write_all (l : list A) (js : list Z) (xs : list A) : list A * outcome unit :=
  match js, xs with
  | j :: js, x :: xs =>
      match py_setitem l j x with
      | Ok l' => write_all l' js xs
      | Raise e => (l, Raise e)
      end
  | _, _ => (l, Ok tt)
  end.

(** [view.__setitem__] with an int (collections.py 717-718, 731-734). *)
Definition view_set (st : vstate) (k : Z) (x : A) : vstate * outcome unit :=
  let (c, r) := update_cache (st_chain st) (zlen (st_list st)) in
  match r with
  | Raise e => (mkst (st_list st) c, Raise e)
  | Ok r =>
      let n := range_len r in
      if (n <=? k) || (k <? - n) then (mkst (st_list st) c, Raise IndexError)
      else match py_setitem (st_list st) (range_index r k) x with
           | Ok l' => (mkst l' c, Ok tt)
           | Raise e => (mkst (st_list st) c, Raise e)
           end
  end.

(** The right-hand side of a slice assignment: an iterable (here: a list that is
    not itself a view of the same data) or a scalar, which is broadcast
    ([repeat(v)], collections.py 723-726). *)
Inductive rhs : Type := RSeq (xs : list A) | RScalar (x : A).

(** [view.__setitem__] with a slice (collections.py 717-728). *)
Definition view_setslice (st : vstate) (k : pyslice) (v : rhs) : vstate * outcome unit :=
  let (c, r) := update_cache (st_chain st) (zlen (st_list st)) in
  match (do r <- r; range_slice r k) with
  | Raise e => (mkst (st_list st) c, Raise e)
  | Ok rk =>
      let js := range_list rk in
      let xs := match v with RSeq xs => xs | RScalar x => repeat x (length js) end in
      let (l', o) := write_all (st_list st) js xs in
      (mkst l' c, o)
  end.

(** [view.reverse] (collections.py 735-736). *)
Definition view_reverse (st : vstate) : vstate * outcome unit :=
  match view_list st with
  | (st', Ok xs) => view_setslice st' (mkslice None None (Some (-1))) (RSeq xs)
  | (st', Raise e) => (st', Raise e)
  end.

(** Histories.  [OpMutate l] stands for any mutation of the base list by other
    means (append, insert, item assignment, clear, ...), ending with contents
    [l].  The others are operations on the view at nesting level [k] of the
    chain (0 = outermost). *)
Inductive vop : Type :=
| OpMutate (l : list A)
| OpRead (k : nat)
| OpSet (k : nat) (i : Z) (x : A)
| OpSetSlice (k : nat) (s : pyslice) (v : rhs)
| OpReverse (k : nat).

(** An operation on the view [k] levels down in the chain. *)
Definition at_level (k : nat) (f : vstate -> vstate) (st : vstate) : vstate :=
  let st' := f (mkst (st_list st) (skipn k (st_chain st))) in
  mkst (st_list st') (firstn k (st_chain st) ++ st_chain st').

(** One operation of a history. *)
Definition vstep (st : vstate) (o : vop) : vstate :=
  match o with
  | OpMutate l => mkst l (st_chain st)
  | OpRead k => at_level k (fun s => fst (view_len s)) st
  | OpSet k i x => at_level k (fun s => fst (view_set s i x)) st
  | OpSetSlice k sl v => at_level k (fun s => fst (view_setslice s sl v)) st
  | OpReverse k => at_level k (fun s => fst (view_reverse s)) st
  end.
(** A history of operations. *)
Definition vrun (st : vstate) (h : list vop) : vstate := fold_left vstep h st.

End WithItems.
Arguments vstate A : clear implicits.
Arguments rhs A : clear implicits.
Arguments vop A : clear implicits.
