(** Property theorems: folds, scans, unfold, prod, minmax (C16-C18).  The rows fed to
    the operation are those of zip (shortest input) or zip_longest, whose positions
    are characterised by the C24 theorems.  Specification: FoldSpec.v and Coq's
    [fold_left] / [fold_right]. *)
From Verif Require Import Base ItrModel FoldModel FoldSpec FoldProofs.
From Coq Require Import List Bool ZArith Arith.
Import ListNotations.
Open Scope nat_scope.

(** The rows: row i has the items at position i of every input.  There is such a row as long
    as every input has an item there (default), or as long as some input has (with
    [longest=True]; the others are padded with the fill value). *)
Theorem C16_rows :
  forall (A : Type) (cols : list (list A)) fill i row,
    (nth_error (rows None cols) i = Some row <->
       cols <> [] /\ map Some row = map (fun c => nth_error c i) cols) /\
    (nth_error (rows (Some fill) cols) i = Some row <->
       (exists c, In c cols /\ i < length c) /\ row = map (fun c => nth i c fill) cols).
Proof. exact @rows_spec. Qed.
Print Assumptions C16_rows.

(** foldl combines from the left, foldr from the right, with op( *elts, acc). *)
Theorem C16_foldl :
  forall (A X : Type) (proc : list A -> X -> X) init fill cols,
    foldl proc init fill cols = fold_left (fun acc xs => proc xs acc) (rows fill cols) init.
Proof. exact @foldl_eq. Qed.
Print Assumptions C16_foldl.
Theorem C16_foldr :
  forall (A X : Type) (proc : list A -> X -> X) init fill cols,
    foldr proc init fill cols = fold_right proc init (rows fill cols).
Proof. exact @foldr_eq. Qed.
Print Assumptions C16_foldr.
(** Scans: one more item than rows; item i is the fold of the first (last) i rows;
    the last item is the fold. *)
Theorem C16_scan_lengths :
  forall (A X : Type) (proc : list A -> X -> X) init fill cols,
    length (scanl proc init fill cols) = S (length (rows fill cols)) /\
    length (scanr proc init fill cols) = S (length (rows fill cols)).
Proof. exact @scan_lengths. Qed.
Print Assumptions C16_scan_lengths.
Theorem C16_scanl_items :
  forall (A X : Type) (proc : list A -> X -> X) init fill cols i,
    nth_error (scanl proc init fill cols) i =
    if i <=? length (rows fill cols)
    then Some (fold_left (fun acc xs => proc xs acc) (firstn i (rows fill cols)) init) else None.
Proof. exact @scanl_nth. Qed.
Print Assumptions C16_scanl_items.
Theorem C16_scanr_items :
  forall (A X : Type) (proc : list A -> X -> X) init fill cols i, i <= length (rows fill cols) ->
    nth_error (scanr proc init fill cols) i =
    Some (fold_right proc init (skipn (length (rows fill cols) - i) (rows fill cols))).
Proof. exact @scanr_nth. Qed.
Print Assumptions C16_scanr_items.
Theorem C16_scan_last_is_fold :
  forall (A X : Type) (proc : list A -> X -> X) init fill cols d,
    last (scanl proc init fill cols) d = foldl proc init fill cols /\
    last (scanr proc init fill cols) d = foldr proc init fill cols.
Proof. exact @scan_last_fold. Qed.
Print Assumptions C16_scan_last_is_fold.
(** On inputs of equal length, folding from the right is left-folding the reversed inputs. *)
Theorem C16_foldr_is_rfoldl :
  forall (A X : Type) (proc : list A -> X -> X) init cols,
    (forall c d, In c cols -> In d cols -> length c = length d) ->
    foldr proc init None cols = rfoldl proc init None cols /\
    scanr proc init None cols = rscanl proc init None cols.
Proof. exact @foldr_rfoldl. Qed.
Print Assumptions C16_foldr_is_rfoldl.
(** In general rfoldl aligns the right ends of the inputs. *)
Theorem C16_rfoldl :
  forall (A X : Type) (proc : list A -> X -> X) init fill cols,
    rfoldl proc init fill cols = fold_left (fun acc xs => proc xs acc) (rows fill (map rev_ cols)) init.
Proof. exact @rfoldl_eq. Qed.
Print Assumptions C16_rfoldl.
(** reducel takes the first item, reducer the last, as initial value if none is given. *)
Theorem C16_reducel :
  forall (A : Type) (proc : A -> A -> A) l init,
    reducel proc l init =
    match init, l with
    | Some a, _ => Some (fold_left (fun acc x => proc x acc) l a)
    | None, [] => None
    | None, a :: l' => Some (fold_left (fun acc x => proc x acc) l' a)
    end.
Proof. exact @reducel_eq. Qed.
Print Assumptions C16_reducel.
Theorem C16_reducer :
  forall (A : Type) (proc : A -> A -> A) l init,
    reducer proc l init =
    match init, rev l with
    | Some a, _ => Some (fold_right proc a l)
    | None, [] => None
    | None, a :: r => Some (fold_right proc a (rev r))
    end.
Proof. exact @reducer_eq. Qed.
Print Assumptions C16_reducer.
Example C16_ex :
  foldl (fun xs acc => xs :: acc) [] None [[1; 2; 3]; [4; 5]] = [[2; 5]; [1; 4]] /\
  foldr (fun xs acc => xs :: acc) [] None [[1; 2; 3]; [4; 5]] = [[1; 4]; [2; 5]] /\
  rfoldl (fun xs acc => xs :: acc) [] None [[1; 2; 3]; [4; 5]] = [[2; 4]; [3; 5]] /\
  foldl (fun xs acc => xs :: acc) [] (Some 0) [[1; 2; 3]; [4; 5]] = [[3; 0]; [2; 5]; [1; 4]] /\
  reducel (fun x acc => x - acc) [1; 5; 20] None = Some 16 /\ reducer (fun x acc => x - acc) [20; 5; 1] None = Some 16.
Proof. repeat split. Qed.

(** * C17 unfold: item i is the value produced at the i-th state; the generator ends
    exactly when the process returns None. *)
Theorem C17_unfold1_items :
  forall (V S : Type) (proc : S -> option (V * S)) n s i, i < n ->
    nth_error (fst (unfold1 proc s n)) i =
    match unfold_state proc s i with
    | None => None
    | Some t => match proc t with None => None | Some (v, _) => Some v end
    end.
Proof. exact @unfold1_nth. Qed.
Print Assumptions C17_unfold1_items.
Theorem C17_unfold1_end :
  forall (V S : Type) (proc : S -> option (V * S)) n s,
    snd (unfold1 proc s n) = true <-> exists i t, i < n /\ unfold_state proc s i = Some t /\ proc t = None.
Proof. exact @unfold1_ended. Qed.
Print Assumptions C17_unfold1_end.
Example C17_unfold1_ex :
  unfold1 (fun k => if k <? 5 then Some (k * k, k + 2) else None) 0 10 = ([0; 4; 16], true).
Proof. reflexivity. Qed.

(** * C18 *)
Theorem C18_prod :
  forall l start, prod l start = Some (start * fold_right Z.mul 1 l)%Z.
Proof. exact prod_eq. Qed.
Print Assumptions C18_prod.
Theorem C18_running_minmax :
  forall (A : Type) (ltb : A -> A -> bool),
    (forall a b, ltb a b = true -> ltb b a = false) ->
    (forall a b c, ltb b a = false -> ltb c b = false -> ltb c a = false) ->
    forall l, length (running_minmax ltb l) = length l /\
      forall i m, nth_error (running_minmax ltb l) i = Some m -> extrema ltb (firstn (S i) l) m.
Proof. exact @running_minmax_spec. Qed.
Print Assumptions C18_running_minmax.
Theorem C18_minmax :
  forall (A : Type) (ltb : A -> A -> bool),
    (forall a b, ltb a b = true -> ltb b a = false) ->
    (forall a b c, ltb b a = false -> ltb c b = false -> ltb c a = false) ->
    forall l, match minmax ltb l with None => l = [] | Some m => extrema ltb l m end.
Proof. exact @minmax_spec. Qed.
Print Assumptions C18_minmax.
(** The hypotheses hold for the integers. *)
Example C18_hypotheses_met :
  (forall a b, Z.ltb a b = true -> Z.ltb b a = false) /\
  (forall a b c, Z.ltb b a = false -> Z.ltb c b = false -> Z.ltb c a = false).
Proof. split; intros; rewrite ?Z.ltb_lt, ?Z.ltb_ge in *; [now apply Z.lt_le_incl|eapply Z.le_trans; eassumption]. Qed.
Example C18_ex : minmax Z.ltb [3; 1; 4; 1; 5]%Z = Some (1, 5)%Z /\ prod [2; 3; 4]%Z 1 = Some 24%Z
  /\ running_minmax Z.ltb [3; 1; 4]%Z = [(3, 3); (1, 3); (1, 4)]%Z.
Proof. repeat split. Qed.
