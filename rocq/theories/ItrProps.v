(** Property theorems: iterator utilities (C19-C25) and [iterate1] (C17).
    Specification vocabulary: ItrSpec.v ([picks], [first_occurrence], [run_start],
    [subseq], [monotone], [interleaved]). *)
From Verif Require Import Base ItrModel ItrSpec ItrProofs.
From Coq Require Import ZArith List Bool Arith Lia.
Import ListNotations.
Open Scope nat_scope.

(** * C17: iterate *)
Theorem C17_iterate1_orbit :
  forall (A : Type) (f : A -> A) n x i, i < n -> nth_error (iterate1 f x n) i = Some (Nat.iter i f x).
Proof. exact @iterate1_nth. Qed.
Print Assumptions C17_iterate1_orbit.
Example C17_iterate1_ex : iterate1 (fun x => 2 * x) 1 5 = [1; 2; 4; 8; 16].
Proof. reflexivity. Qed.

(** * C19: take, drop, split_at and the other end-of-iterable utilities *)
Theorem C19_split_at :
  forall (A : Type) n (l : list A), (0 <= n)%Z ->
    exists a b, take n l = Ok a /\ drop (Some n) l = Ok b /\ split_at n l = Ok (a, b)
                /\ a ++ b = l /\ zlen a = Z.min n (zlen l).
Proof. exact @split_at_spec. Qed.
Print Assumptions C19_split_at.
Example C19_split_at_ex : split_at 2 [1; 2; 3] = Ok ([1; 2], [3]).
Proof. reflexivity. Qed.
Theorem C19_negative_rejected :
  forall (A : Type) n (l : list A), (n < 0)%Z ->
    take n l = Raise ValueError /\ drop (Some n) l = Raise ValueError /\ split_at n l = Raise ValueError.
Proof. exact @take_drop_neg. Qed.
Print Assumptions C19_negative_rejected.
(** [take] looks at the first n items only, so it works on an infinite iterable. *)
Theorem C19_take_prefix :
  forall (A : Type) n (l r : list A), (n <= zlen l)%Z -> take n (l ++ r) = take n l.
Proof. exact @take_app. Qed.
Print Assumptions C19_take_prefix.
(** unpack(n, it, k=k): the first n items and the tail from k. *)
Theorem C19_unpack :
  forall (A : Type) n k (l : list A) fill, (0 <= n <= zlen l)%Z -> (0 <= k)%Z ->
    unpack n l (Some k) fill = Ok (firstn (Z.to_nat n) l, skipn (Z.to_nat k) l).
Proof. exact @unpack_enough. Qed.
Print Assumptions C19_unpack.
Theorem C19_unpack_default :
  forall (A : Type) n (l : list A) fill, unpack n l None fill = unpack n l (Some n) fill.
Proof. exact @unpack_default. Qed.
Print Assumptions C19_unpack_default.
(** Fewer than n items: filled up, and the tail is empty. *)
Theorem C19_unpack_short :
  forall (A : Type) n k (l : list A) fill, (zlen l < n)%Z -> (0 <= k)%Z ->
    unpack n l (Some k) fill = Ok (l ++ repeat fill (Z.to_nat n - length l), []).
Proof. exact @unpack_short. Qed.
Print Assumptions C19_unpack_short.
Example C19_unpack_ex :
  unpack 3 [0; 1; 2; 3; 4] (Some 1%Z) 9 = Ok ([0; 1; 2], [1; 2; 3; 4]) /\
  unpack 3 [0; 1] (Some 1%Z) 9 = Ok ([0; 1; 9], []) /\
  unpack 2 [0; 1; 2; 3; 4] (Some 4%Z) 9 = Ok ([0; 1], [4]).
Proof. repeat split. Qed.
(** butlastn and lastn cut the iterable at n items from its end. *)
Theorem C19_butlastn_lastn :
  forall (A : Type) n (l : list A),
    butlastn n l ++ lastn n l = l /\ length (lastn n l) = Nat.min n (length l).
Proof. exact @butlastn_lastn. Qed.
Print Assumptions C19_butlastn_lastn.
Theorem C19_butlast : forall (A : Type) (l : list A) x, butlast (l ++ [x]) = l /\ butlast (@nil A) = [].
Proof. exact @butlast_snoc. Qed.
Print Assumptions C19_butlast.
Theorem C19_nth :
  forall (A : Type) n (l : list A) d, (0 <= n)%Z -> nth_ n l d = Ok (nth (Z.to_nat n) l d).
Proof. exact @nth_spec. Qed.
Print Assumptions C19_nth.
Theorem C19_first_second :
  forall (A : Type) (x y : A) l d,
    first (x :: l) d = Ok x /\ first [] d = Ok d /\
    second (x :: y :: l) d = Ok y /\ second [x] d = Ok d /\ second [] d = Ok d.
Proof. exact @first_second_spec. Qed.
Print Assumptions C19_first_second.
Theorem C19_last :
  forall (A : Type) (l : list A) d, last_ l d = last l d.
Proof. exact @last_spec. Qed.
Print Assumptions C19_last.
Theorem C19_tail :
  forall (A : Type) (l : list A), tail_ l = Ok (tl l).
Proof. exact @tail_spec. Qed.
Print Assumptions C19_tail.
(** pad: at least n items, the input followed by fill values. *)
Theorem C19_pad :
  forall (A : Type) n (fill : A) l,
    length (pad n fill l) = Nat.max n (length l) /\
    forall i, nth i (pad n fill l) fill = nth i l fill.
Proof. exact @pad_spec. Qed.
Print Assumptions C19_pad.
Example C19_misc_ex :
  butlastn 2 [1; 2; 3; 4; 5] = [1; 2; 3] /\ lastn 2 [1; 2; 3; 4; 5] = [4; 5] /\
  nth_ 1 [7; 8] 0 = Ok 8 /\ last_ [7; 8] 0 = 8 /\ last_ [] 0 = 0.
Proof. repeat split. Qed.

(** * C20: window and chunked *)
(** The windows are exactly the contiguous n-item sublists, by position. *)
Theorem C20_window :
  forall (A : Type) n (l : list A), (2 <= n)%Z ->
    exists ws, window n l = Ok ws /\
      forall i w, nth_error ws i = Some w <->
        (i + Z.to_nat n <= length l /\ w = firstn (Z.to_nat n) (skipn i l)).
Proof. exact @window_spec. Qed.
Print Assumptions C20_window.
Example C20_window_ex : window 3 [1; 2; 3; 4] = Ok [[1; 2; 3]; [2; 3; 4]].
Proof. reflexivity. Qed.
Theorem C20_chunked :
  forall (A : Type) n (l : list A), (2 <= n)%Z ->
    exists cs, chunked n l = Ok cs /\ concat cs = l /\
      (forall i c, nth_error cs i = Some c -> 0 < length c <= Z.to_nat n) /\
      (forall i c, nth_error cs i = Some c -> S i < length cs -> length c = Z.to_nat n).
Proof. exact @chunked_spec. Qed.
Print Assumptions C20_chunked.
Example C20_chunked_ex : chunked 2 [1; 2; 3; 4; 5] = Ok [[1; 2]; [3; 4]; [5]].
Proof. reflexivity. Qed.
Theorem C20_small_n_rejected :
  forall (A : Type) n (l : list A), (n < 2)%Z -> window n l = Raise ValueError /\ chunked n l = Raise ValueError.
Proof. exact @window_chunked_small. Qed.
Print Assumptions C20_small_n_rejected.

(** * C21: flatten *)
(** With no predicate: only leaves come out, and by the equations below, in order. *)
Theorem C21_flatten_only_leaves :
  forall (A : Type) (l : list (item A)) x, In x (flatten (fun _ => true) l) -> exists a, x = Leaf a.
Proof. exact @flatten_only_leaves. Qed.
Print Assumptions C21_flatten_only_leaves.
(** What comes out is a leaf or was rejected by the predicate. *)
Theorem C21_flatten_result :
  forall (A : Type) (pred : item A -> bool) (l : list (item A)) x, In x (flatten pred l) ->
    (exists a, x = Leaf a) \/ pred x = false.
Proof. exact @flatten_result. Qed.
Print Assumptions C21_flatten_result.
(** No leaf is lost, duplicated or moved, whatever the predicate. *)
Theorem C21_flatten_preserves_leaves :
  forall (A : Type) (pred : item A -> bool) (l : list (item A)),
    flatten (fun _ => true) (flatten pred l) = flatten (fun _ => true) l /\
    flatten (fun _ => true) (flatten_in pred l) = flatten (fun _ => true) l /\
    flatten (fun _ => true) (flatten1 pred l) = flatten (fun _ => true) l.
Proof. exact @flatten_preserves. Qed.
Print Assumptions C21_flatten_preserves_leaves.
(** Element by element: leaves stay; accepted sublists are spliced (flatten and
    flatten_in: recursively); rejected ones are kept (flatten_in: processed inside). *)
Theorem C21_flatten_equations :
  forall (A : Type) (pred : item A -> bool) e l,
    flatten pred [] = [] /\ flatten1 pred [] = [] /\ flatten_in pred [] = [] /\
    match e with
    | Leaf a => flatten pred (e :: l) = e :: flatten pred l /\
                flatten1 pred (e :: l) = e :: flatten1 pred l /\
                flatten_in pred (e :: l) = e :: flatten_in pred l
    | Node t es =>
        (pred e = true -> flatten pred (e :: l) = flatten pred es ++ flatten pred l /\
                          flatten1 pred (e :: l) = es ++ flatten1 pred l /\
                          flatten_in pred (e :: l) = flatten_in pred es ++ flatten_in pred l) /\
        (pred e = false -> flatten pred (e :: l) = e :: flatten pred l /\
                           flatten1 pred (e :: l) = e :: flatten1 pred l /\
                           flatten_in pred (e :: l) = Node t (flatten_in pred es) :: flatten_in pred l)
    end.
Proof. exact @flatten_equations. Qed.
Print Assumptions C21_flatten_equations.
Example C21_flatten_ex :
  let e := Node true [Leaf 1; Node false [Leaf 2; Node true [Leaf 3]]] in
  flatten (fun _ => true) [e; Leaf 4] = [Leaf 1; Leaf 2; Leaf 3; Leaf 4] /\
  flatten1 (fun _ => true) [e; Leaf 4] = [Leaf 1; Node false [Leaf 2; Node true [Leaf 3]]; Leaf 4] /\
  flatten_in (fun x => match x with Node true _ => true | _ => false end) [e; Leaf 4]
    = [Leaf 1; Node false [Leaf 2; Leaf 3]; Leaf 4].
Proof. repeat split. Qed.

(** * C22: uniqify, uniq *)
(** The items at exactly the positions of first occurrences, in order. *)
Theorem C22_uniqify :
  forall (A K : Type) (keq : K -> K -> bool) (key : A -> K),
    (forall a b, keq a b = true <-> a = b) ->
    forall l, picks l (first_occurrence key l) 0 (uniqify keq key l).
Proof. exact @uniqify_spec. Qed.
Print Assumptions C22_uniqify.
(** The items at exactly the positions that start a run. *)
Theorem C22_uniq :
  forall (A K : Type) (keq : K -> K -> bool) (key : A -> K),
    (forall a b, keq a b = true <-> a = b) ->
    forall l, picks l (run_start key l) 0 (uniq keq key l).
Proof. exact @uniq_spec. Qed.
Print Assumptions C22_uniq.
(** These specifications have exactly one solution. *)
Theorem C22_picks_unique :
  forall (A : Type) (l : list A) P i o1 o2, picks l P i o1 -> picks l P i o2 -> o1 = o2.
Proof. exact @picks_fun. Qed.
Print Assumptions C22_picks_unique.
Example C22_ex :
  uniqify Nat.eqb (fun x => x) [1; 1; 2; 1; 3; 2] = [1; 2; 3] /\ uniq Nat.eqb (fun x => x) [1; 1; 2; 1; 3; 3] = [1; 2; 1; 3].
Proof. split; reflexivity. Qed.

(** * C23: inn, iindex, find *)
(** Full statement: the search ends with the right answer on a monotone iterable
    that eventually passes x or ends.  Refuted: an infinite constant iterable that
    starts beyond x never ends the search. *)
Theorem C23_inn_refuted :
  exists it x, it_closed it /\ monotone true it /\ (exists b, it 0 = Some b /\ beyond true x b) /\
    forall fuel, inn x it fuel = OutOfFuel.
Proof.
  exists (fun _ => Some 5%Z), 3%Z. split; [intros i j _ H; discriminate|].
  split; [intros i j a b _ Ha Hb; injection Ha as <-; injection Hb as <-; apply Z.le_refl|].
  split; [exists 5%Z; split; reflexivity|]. intro fuel. unfold inn. simpl.
  apply inn_skip_diverges; [reflexivity|lia].
Qed.
Print Assumptions C23_inn_refuted.
(** With the extra condition that the iterable is not constant forever. *)
Theorem C23_inn_partial :
  forall (up : bool) x it,
    it_closed it -> monotone up it ->
    (exists i, it i = None \/ exists b, it i = Some b /\ beyond up x b) ->
    (exists i, it i <> it 0) ->
    exists fuel0, forall fuel, fuel0 <= fuel ->
      inn x it fuel = Found /\ (exists i, it i = Some x) \/
      inn x it fuel = NotFound /\ ~ (exists i, it i = Some x).
Proof. exact inn_spec. Qed.
Print Assumptions C23_inn_partial.
(** Infinite examples: the odd numbers, upward. *)
Example C23_inn_ex :
  let it := fun i => Some (2 * Z.of_nat i + 1)%Z in
  it_closed it /\ monotone true it /\ (exists i, it i = None \/ exists b, it i = Some b /\ beyond true 40 b) /\
  (exists i, it i <> it 0) /\ inn 41 it 100 = Found /\ inn 40 it 100 = NotFound.
Proof.
  cbv zeta. split; [intros i j _ H; discriminate|].
  split.
  { intros i j a b H Ha Hb. assert (a = 2 * Z.of_nat i + 1)%Z by congruence.
    assert (b = 2 * Z.of_nat j + 1)%Z by congruence. simpl. lia. }
  split; [exists 100; right; eexists; split; [reflexivity|reflexivity]|].
  split; [exists 1; discriminate|]. split; reflexivity.
Qed.
(** iindex: the first index holding the item, ValueError if none does. *)
Theorem C23_iindex :
  forall (A : Type) (eqb : A -> A -> bool) x l k,
    iindex eqb x l = Ok k <->
    exists e, nth_error l k = Some e /\ eqb e x = true /\
      forall i f, i < k -> nth_error l i = Some f -> eqb f x = false.
Proof. exact @iindex_spec. Qed.
Print Assumptions C23_iindex.
Theorem C23_iindex_absent :
  forall (A : Type) (eqb : A -> A -> bool) x l,
    (forall e, In e l -> eqb e x = false) -> iindex eqb x l = Raise ValueError.
Proof. exact @iindex_absent. Qed.
Print Assumptions C23_iindex_absent.
(** find: the first item satisfying the predicate, or the default. *)
Theorem C23_find :
  forall (A : Type) (pred : A -> bool) l d,
    (exists a x b, l = a ++ x :: b /\ pred x = true /\ (forall y, In y a -> pred y = false) /\ find_ pred l d = x) \/
    ((forall y, In y l -> pred y = false) /\ find_ pred l d = d).
Proof. exact @find_spec. Qed.
Print Assumptions C23_find.
Example C23_find_ex : find_ Nat.even [1; 3; 4; 6] 0 = 4 /\ iindex Nat.eqb 4 [1; 3; 4; 6; 4] = Ok 2.
Proof. split; reflexivity. Qed.

(** * C24: reversing zips and maps *)
(** Position by position: zip counts from the start of the inputs; zipr is zip
    backwards; rzip counts from the end of each input; lengths: shortest input. *)
Theorem C24_zip_positions :
  forall (A : Type) (cols : list (list A)) i, i < min_len cols ->
    (exists row, nth_error (zip cols) i = Some row /\ map Some row = map (fun c => nth_error c i) cols) /\
    (exists row, nth_error (zipr cols) i = Some row /\
                 map Some row = map (fun c => nth_error c (min_len cols - 1 - i)) cols) /\
    (exists row, nth_error (rzip cols) i = Some row /\
                 map Some row = map (fun c => nth_error c (length c - 1 - i)) cols).
Proof. exact @zip_positions. Qed.
Print Assumptions C24_zip_positions.
Theorem C24_zip_lengths :
  forall (A : Type) (cols : list (list A)),
    length (zip cols) = min_len cols /\ length (zipr cols) = min_len cols /\ length (rzip cols) = min_len cols /\
    (forall c, In c cols -> min_len cols <= length c) /\
    (cols <> [] -> exists c, In c cols /\ length c = min_len cols).
Proof. exact @zip_lengths. Qed.
Print Assumptions C24_zip_lengths.
(** The longest variants: padded at the end of each (reversed) input. *)
Theorem C24_zip_longest_positions :
  forall (A : Type) (fill : A) (cols : list (list A)) i,
    nth_error (zip_longest fill cols) i =
      (if i <? max_len cols then Some (map (fun c => nth i c fill) cols) else None) /\
    nth_error (zipr_longest fill cols) i =
      (if i <? max_len cols then Some (map (fun c => nth (max_len cols - 1 - i) c fill) cols) else None) /\
    nth_error (rzip_longest fill cols) i =
      (if i <? max_len cols
       then Some (map (fun c => if i <? length c then nth (length c - 1 - i) c fill else fill) cols) else None).
Proof. exact @zip_longest_positions. Qed.
Print Assumptions C24_zip_longest_positions.
(** ... up to the length of the longest input. *)
Theorem C24_zip_longest_lengths :
  forall (A : Type) (fill : A) (cols : list (list A)),
  exists n, length (zip_longest fill cols) = n /\ length (zipr_longest fill cols) = n /\ length (rzip_longest fill cols) = n /\
    (forall c, In c cols -> length c <= n) /\ (cols = [] -> n = 0) /\ (cols <> [] -> exists c, In c cols /\ length c = n).
Proof. exact @zip_longest_lengths. Qed.
Print Assumptions C24_zip_longest_lengths.
(** Without inputs there are no rows. *)
Theorem C24_no_inputs : forall A : Type, zip (@nil (list A)) = [] /\ zipr (@nil (list A)) = [] /\ rzip (@nil (list A)) = [].
Proof. exact @zip_none. Qed.
Print Assumptions C24_no_inputs.
(** Mapping versions are the zips with the function applied to each row. *)
Theorem C24_maps_are_zips :
  forall (A B : Type) (f : list A -> B) (fill : A) (cols : list (list A)),
    mapr f cols = map f (zipr cols) /\ rmap f cols = map f (rzip cols) /\
    mapr_longest f fill cols = map f (zipr_longest fill cols) /\
    rmap_longest f fill cols = map f (rzip_longest fill cols).
Proof. exact @maps_are_zips. Qed.
Print Assumptions C24_maps_are_zips.
(** On inputs of equal length the two kinds of reversal agree. *)
Theorem C24_equal_lengths :
  forall (A B : Type) (f : list A -> B) (cols : list (list A)),
    (forall c d, In c cols -> In d cols -> length c = length d) ->
    rzip cols = zipr cols /\ rmap f cols = mapr f cols.
Proof. exact @equal_lengths. Qed.
Print Assumptions C24_equal_lengths.
Example C24_ex :
  rzip [[1; 2; 3]; [4; 5]] = [[3; 5]; [2; 4]] /\ zipr [[1; 2; 3]; [4; 5]] = [[2; 5]; [1; 4]] /\
  rzip_longest 0 [[1; 2; 3]; [4; 5]] = [[3; 5]; [2; 4]; [1; 0]] /\
  zipr_longest 0 [[1; 2; 3]; [4; 5]] = [[3; 0]; [2; 5]; [1; 4]].
Proof. repeat split. Qed.

(** * C25: partition, interleave, subset, powerset, allsame *)
Theorem C25_partition :
  forall (A : Type) (pred : A -> bool) l f t, partition_ pred l = (f, t) ->
    picks l (fun i => exists x, nth_error l i = Some x /\ pred x = false) 0 f /\
    picks l (fun i => exists x, nth_error l i = Some x /\ pred x = true) 0 t.
Proof. exact @partition_spec. Qed.
Print Assumptions C25_partition.
Theorem C25_interleave :
  forall (A : Type) fuel (iters : list (list A)), iters <> [] -> min_len iters < fuel ->
    exists out, interleave fuel iters = Some out /\ interleaved iters out.
Proof. exact @interleave_spec. Qed.
Print Assumptions C25_interleave.
(** With no inputs at all it never ends (nor yields). *)
Theorem C25_interleave_no_inputs_diverges :
  forall (A : Type) fuel, @interleave A fuel [] = None.
Proof. exact @interleave_none. Qed.
Print Assumptions C25_interleave_no_inputs_diverges.
Theorem C25_subset :
  forall (A : Type) (eqb : A -> A -> bool), (forall a b, eqb a b = true <-> a = b) ->
    forall p w, subset eqb p w = true <-> incl p w.
Proof. exact @subset_spec. Qed.
Print Assumptions C25_subset.
(** Exactly the non-empty subsequences; 2^n - 1 of them; distinct if the items are. *)
Theorem C25_powerset :
  forall (A : Type) (l : list A),
    (forall s, In s (powerset l) <-> s <> [] /\ subseq s l) /\ length (powerset l) = 2 ^ length l - 1.
Proof. exact @powerset_spec. Qed.
Print Assumptions C25_powerset.
Theorem C25_powerset_distinct :
  forall (A : Type) (l : list A), NoDup l -> NoDup (powerset l).
Proof. exact @powerset_NoDup. Qed.
Print Assumptions C25_powerset_distinct.
Theorem C25_allsame :
  forall (A : Type) (eqb : A -> A -> bool), (forall a b, eqb a b = true <-> a = b) ->
    forall l, allsame eqb l = true <-> forall x y, In x l -> In y l -> x = y.
Proof. exact @allsame_spec. Qed.
Print Assumptions C25_allsame.
Example C25_ex :
  partition_ Nat.even [1; 2; 3; 4] = ([1; 3], [2; 4]) /\
  interleave 5 [[1; 2; 3]; [10; 20]; [100; 200; 300]] = Some [1; 10; 100; 2; 20; 200; 3] /\
  powerset [1; 2; 3] = [[1]; [2]; [1; 2]; [3]; [1; 3]; [2; 3]; [1; 2; 3]] /\
  allsame Nat.eqb [1; 1; 2] = false /\ subset Nat.eqb [1; 3] [3; 2; 1] = true.
Proof. repeat split. Qed.
