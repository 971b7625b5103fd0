(** Model of [ShadowedSequence] (unpythonic/collections.py 741-846) and of
    [fupdate] on sequences (unpythonic/fup.py 10-128). *)
From Verif Require Import Base SliceModel.
From Coq Require Import ZArith List Bool.
Import ListNotations.
Open Scope Z_scope.

Section WithItems.
Context {A : Type}.

(** The replacement [v] when [ix] is a slice (collections.py 769-781, 811-846).
    [VSeq]: a [collections.abc.Sequence].  [VIter]: any other iterable; [it i] is
    its i-th item, [None] from its end on; [memo] tells whether its iterator is
    subscriptable (a memoized generator, lines 827-836); [cnt] is
    [self._v_it.count], 0 before the first access (825). *)
Inductive repl : Type :=
| VSeq (xs : list A)
| VIter (it : nat -> option A) (memo : bool) (cnt : Z).

(** [ix] and [v]: an int index with one item, or a slice with a replacement.  A
    slice with a non-iterable [v] is rejected by the constructor (collections.py 776-777) and is
    not representable. *)
Inductive shadow : Type :=
| ShInt (k : Z) (x : A)
| ShSlice (s : pyslice) (v : repl).

(** A sequence: the target of fupdate, or a ShadowedSequence over a sequence. *)
Inductive sseq : Type :=
| SBase (l : list A)
| SShadow (inner : sseq) (sh : shadow).

(** [ShadowedSequence.__len__] (collections.py 795-796). *)
Fixpoint ss_len (s : sseq) : Z :=
  match s with SBase l => zlen l | SShadow inner _ => ss_len inner end.

(** Reading item [i] of the replacement (collections.py 817-842); returns the
    replacement with its iterator advanced. *)
Definition repl_get (v : repl) (i : Z) : outcome A * repl :=
  match v with
  | VSeq xs =>
      (* 819-822; [self.v[i]] with i >= 0 *)
      (if zlen xs <=? i then Raise IndexError else py_index xs i, v)
  | VIter it memo cnt =>
      if i <? cnt then
        (* 826-837; the assertion of line 835 holds, since the memo has at least
           the [cnt] items counted *)
        (if memo
         then match it (Z.to_nat i) with Some x => Ok x | None => Raise IndexError end
         else Raise IndexError, v)
      else
        (* 838-842: drop the skipped items (stops silently at the end of the
           iterable), then [next] *)
        match it (Z.to_nat i) with
        | Some x => (Ok x, VIter it memo (i + 1))
        | None => (Raise StopIterationE, VIter it memo cnt)
        end
  end.

(** [ShadowedSequence._getone] (collections.py 811-846) and [__getitem__] with an
    int (798-809).  Exceptions: from [in_slice], from the replacement, from the
    innermost sequence.  [getone] is applied to a SShadow; on SBase it is the
    built-in indexing. *)
Fixpoint getone (s : sseq) (k : Z) : outcome A * sseq :=
  match s with
  | SBase l => (py_index l k, s)
  | SShadow inner sh =>
      let n := ss_len s in
      let ix := match sh with ShInt j _ => SInt j | ShSlice sl _ => SSlice sl end in
      match in_slice k ix (Some n) with
      | Raise e => (Raise e, s)
      | Ok true =>
          match sh with
          | ShInt _ x => (Ok x, s)
          | ShSlice sl v =>
              match index_in_slice_novalidate k sl (Some n) with
              | Raise e => (Raise e, s)
              | Ok i => let (o, v') := repl_get v i in (o, SShadow inner (ShSlice sl v'))
              end
          end
      | Ok false =>
          (* self.seq[k]; the range check of the inner __getitem__ (807-808) *)
          match inner with
          | SBase _ => let (o, inner') := getone inner k in (o, SShadow inner' sh)
          | SShadow _ _ =>
              if (n <=? k) || (k <? - n) then (Raise IndexError, s)
              else let (o, inner') := getone inner k in (o, SShadow inner' sh)
          end
      end
  end.

(** [ShadowedSequence.__iter__] (collections.py 788-794) consumed to the end by the
    generator expression and the constructor in [fupdate] (fup.py 106-110).  A
    StopIteration raised by [getone] inside the generator becomes a RuntimeError
    (PEP 479). *)
Fixpoint read_from (s : sseq) (k : Z) (m : nat) : outcome (list A) :=
  match m with
  | O => Ok []
  | S m' =>
      match getone s k with
      | (Ok x, s') => do xs <- read_from s' (k + 1) m'; Ok (x :: xs)
      | (Raise StopIterationE, _) => Raise RuntimeError
      | (Raise e, _) => Raise e
      end
  end.

(** [fupdate(target, indices, values)] for a sequence (fup.py 103-117): the list
    [us] is [zip(indices, values)], or the single pair.  The type of the output
    (the constructor call) is not modelled; an empty [indices] copies the target. *)
Definition fupdate (target : list A) (us : list shadow) : outcome (list A) :=
  let s := fold_left SShadow us (SBase target) in
  read_from s 0 (length target).

End WithItems.
Arguments repl A : clear implicits.
Arguments shadow A : clear implicits.
Arguments sseq A : clear implicits.
