(** C133: the laziness of the folds, scans, maps and zips over several iterables: which iterable is asked, and when, and
    what is given, as a function of what has happened so far ([hkeeps], in LfoSpec.v), whatever the iterables do and
    however long the tool is used. *)
From Coq Require Import List ZArith Bool Arith Lia.
From Verif Require Import Base LitModel LitSpec LfoModel LfoSpec LfoProofs.
Import ListNotations.
Open Scope list_scope.
Open Scope nat_scope.

Ltac play := repeat first [apply run_here | match goal with |- run ?p _ _ => rewrite (unf_eq p); cbn; constructor end].

(** * What a row is *)
Example C133_rows_ex :
  let h := [(0, Item 1); (1, Item 2); (0, Item 3); (1, Stop); (0, Item 4)] in
  rows false 0 2 h = [[1; 2]] /\ over false 2 h = true /\
  rows true 0 2 h = [[1; 2]; [3; 0]; [4; 0]] /\ over true 2 h = false /\ turn 2 h = Some 0 /\
  rrows true 0 2 h = [[4; 2]; [3; 0]; [1; 0]] /\ rrows false 0 2 h = [[4; 2]].
Proof. repeat (split; [reflexivity|]). reflexivity. Qed.

(** * map, zip and their relatives *)
Theorem C133_map : forall (A B : Type) (longest : bool) (fill : A) (m : nat), 0 < m -> forall f,
  hkeeps (map_promise longest fill m f) (map_ (B := B) longest fill m f).
Proof. exact @map_keeps. Qed.
Print Assumptions C133_map.
Theorem C133_mapr : forall (A B : Type) (longest : bool) (fill : A) (m : nat), 0 < m -> forall f,
  hkeeps (mapr_promise longest fill m f) (mapr (B := B) longest fill m f).
Proof. exact @mapr_keeps. Qed.
Print Assumptions C133_mapr.
Theorem C133_rmap : forall (A B : Type) (longest : bool) (fill : A) (m : nat), 0 < m -> forall f,
  hkeeps (rmap_promise longest fill m f) (rmap (B := B) longest fill m f).
Proof. exact @rmap_keeps. Qed.
Print Assumptions C133_rmap.
Example C133_map_ex :
  let f := fun r : list nat => Ok r in
  run (map_ false 0 2 f) [LOut Returned; LRead 0 (Item 1); LRead 1 (Item 2); LOut (Given [1; 2]); LRead 0 (Item 3); LRead 1 Stop] PRet /\
  run (map_ false 0 2 f) [LOut Returned; LRead 0 (Item 1); LRead 1 (Item 2); LOut (Given [1; 2]); LRead 0 Stop] PRet /\
  run (map_ true 0 2 f) [LOut Returned; LRead 0 (Item 1); LRead 1 (Item 2); LOut (Given [1; 2]); LRead 0 Stop; LRead 1 (Item 4); LOut (Given [0; 4]); LRead 1 (Item 5); LOut (Given [0; 5]); LRead 1 Stop] PRet /\
  run (mapr false 0 2 f) [LOut Returned; LRead 0 (Item 1); LRead 1 (Item 2); LRead 0 (Item 3); LRead 1 (Item 4); LRead 0 Stop; LOut (Given [3; 4]); LOut (Given [1; 2])] PRet /\
  run (rmap false 0 2 f) [LOut Returned; LRead 0 (Item 1); LRead 0 (Item 2); LRead 0 Stop; LRead 1 (Item 4); LRead 1 Stop; LOut (Given [2; 4])] PRet /\
  run (rmap true 0 2 f) [LOut Returned; LRead 0 (Item 1); LRead 0 (Item 2); LRead 0 Stop; LRead 1 (Item 4); LRead 1 Stop; LOut (Given [2; 4]); LOut (Given [1; 0])] PRet /\
  run (rmap true 0 2 f) [LOut Returned; LRead 0 (Item 1); LRead 0 (Fail (UserExn 5))] (PThrow (UserExn 5)).
Proof. repeat (split; [play|]). play. Qed.

(** * scans and folds *)
Theorem C133_scanl : forall (A B : Type) (longest : bool) (fill : A) (m : nat), 0 < m -> forall f init,
  hkeeps (scanl_promise longest fill m f init) (scanl (B := B) longest fill m f init).
Proof. exact @scanl_keeps. Qed.
Print Assumptions C133_scanl.
Theorem C133_foldl : forall (A B : Type) (longest : bool) (fill : A) (m : nat), 0 < m -> forall f init,
  hkeeps (foldl_promise longest fill m f init) (foldl (B := B) longest fill m f init).
Proof. exact @foldl_keeps. Qed.
Print Assumptions C133_foldl.
Theorem C133_scanr : forall (A B : Type) (longest : bool) (fill : A) (m : nat), 0 < m -> forall f init,
  hkeeps (scanr_promise longest fill m f init) (scanr (B := B) longest fill m f init).
Proof. exact @scanr_keeps. Qed.
Print Assumptions C133_scanr.
Theorem C133_foldr : forall (A B : Type) (longest : bool) (fill : A) (m : nat), 0 < m -> forall f init,
  hkeeps (foldr_promise longest fill m f init) (foldr (B := B) longest fill m f init).
Proof. exact @foldr_keeps. Qed.
Print Assumptions C133_foldr.
Theorem C133_rscanl : forall (A B : Type) (longest : bool) (fill : A) (m : nat), 0 < m -> forall f init,
  hkeeps (rscanl_promise longest fill m f init) (rscanl (B := B) longest fill m f init).
Proof. exact @rscanl_keeps. Qed.
Print Assumptions C133_rscanl.
Theorem C133_rfoldl : forall (A B : Type) (longest : bool) (fill : A) (m : nat), 0 < m -> forall f init,
  hkeeps (rfoldl_promise longest fill m f init) (rfoldl (B := B) longest fill m f init).
Proof. exact @rfoldl_keeps. Qed.
Print Assumptions C133_rfoldl.
Example C133_scan_ex :
  let f := fun (r : list nat) acc => match r with [9; _] => Raise StopIterationE | _ => Ok (r ++ acc) end in
  run (scanl false 0 2 f [7]) [LOut Returned; LOut (Given [7]); LRead 0 (Item 1); LRead 1 (Item 2); LOut (Given [1; 2; 7]); LRead 0 (Item 9); LRead 1 (Item 3)] (PThrow RuntimeError) /\
  run (foldl true 0 2 f [7]) [LRead 0 (Item 1); LRead 1 Stop; LRead 0 (Item 2); LRead 0 Stop; LOut (Given [2; 0; 1; 0; 7])] PRet /\
  run (scanr false 0 2 f [7]) [LOut Returned; LRead 0 (Item 1); LRead 1 (Item 2); LRead 0 (Item 3); LRead 1 (Item 4); LRead 0 Stop; LOut (Given [7]); LOut (Given [3; 4; 7]); LOut (Given [1; 2; 3; 4; 7])] PRet /\
  run (foldr false 0 2 f [7]) [LRead 0 (Item 1); LRead 1 (Item 2); LRead 0 Stop; LOut (Given [1; 2; 7])] PRet /\
  run (rscanl false 0 2 f [7]) [LRead 0 (Item 1); LRead 0 Stop; LRead 1 (Item 5); LRead 1 (Item 6); LRead 1 Stop; LOut Returned; LOut (Given [7]); LOut (Given [1; 6; 7])] PRet /\
  run (rfoldl true 0 2 f [7]) [LRead 0 (Item 1); LRead 0 Stop; LRead 1 (Item 5); LRead 1 (Item 6); LRead 1 Stop; LOut (Given [0; 5; 1; 6; 7])] PRet.
Proof. repeat (split; [play|]). play. Qed.

(** * An iterable that has ended is not asked again; after a failure none is *)
Theorem C133_not_asked_again : forall (A B : Type) (longest : bool) (fill : A) (m : nat) f g init (p : proc A B), 0 < m ->
  In p [map_ longest fill m f; mapr longest fill m f; rmap longest fill m f; scanl longest fill m g init; scanr longest fill m g init;
        rscanl longest fill m g init; foldl longest fill m g init; foldr longest fill m g init; rfoldl longest fill m g init] ->
  forall tr1 i v tr2 q, run p (tr1 ++ LRead i v :: tr2) q -> failed (events tr1) = None /\ ended i (events tr1) = false /\ i < m.
Proof. exact @not_again. Qed.
Print Assumptions C133_not_asked_again.
Example C133_not_asked_again_ex : run (map_ true 0 2 (fun r : list nat => Ok r)) ([LOut Returned; LRead 0 Stop] ++ LRead 1 (Item 4) :: [LOut (Given [0; 4]); LRead 1 Stop]) PRet.
Proof. play. Qed.

(** * One iterable, whose first or last item is the initial value *)
Theorem C133_scanl1 : forall (A : Type) (fill : A) f, hkeeps (scan_first_promise (fun a => a) f) (scanl1 fill f).
Proof. exact (fun A fill f => scan_first_keeps fill (fun a => a) f). Qed.
Print Assumptions C133_scanl1.
Theorem C133_reducel : forall (A : Type) (fill none : A) f, hkeeps (fold_first_promise none (fun a => a) f) (reducel fill none f).
Proof. exact (fun A fill none f => fold_first_keeps fill none (fun a => a) f). Qed.
Print Assumptions C133_reducel.
Theorem C133_running_minmax : forall (A : Type) (fill : A) lt gt, hkeeps (scan_first_promise (fun a => (a, a)) (smaller_larger lt gt)) (running_minmax fill lt gt).
Proof. exact @running_minmax_keeps. Qed.
Print Assumptions C133_running_minmax.
Theorem C133_minmax : forall (A : Type) (fill none : A) lt gt, hkeeps (fold_first_promise (none, none) (fun a => (a, a)) (smaller_larger lt gt)) (minmax fill none lt gt).
Proof. exact @minmax_keeps. Qed.
Print Assumptions C133_minmax.
Theorem C133_scanr1 : forall (A : Type) (fill : A) f,
  hkeeps (at_the_end [Returned] (fun l => map Given (fst (from_first (fun a => a) f l))) (fun l => snd (from_first (fun a => a) f l))) (scanr1 fill f).
Proof. exact @scanr1_keeps. Qed.
Print Assumptions C133_scanr1.
Theorem C133_reducer : forall (A : Type) (fill none : A) f,
  hkeeps (at_the_end [] (fun l => value_of none (from_first (fun a => a) f l)) (fun l => snd (from_first (fun a => a) f l))) (reducer fill none f).
Proof. exact @reducer_keeps. Qed.
Print Assumptions C133_reducer.
Theorem C133_rscanl1 : forall (A : Type) (fill : A) f,
  hkeeps (at_the_end [] (fun l => Returned :: map Given (fst (from_first (fun a => a) f l))) (fun l => snd (from_first (fun a => a) f l))) (rscanl1 fill f).
Proof. exact @rscanl1_keeps. Qed.
Print Assumptions C133_rscanl1.
Theorem C133_rreducel : forall (A : Type) (fill none : A) f,
  hkeeps (at_the_end [] (fun l => value_of none (from_first (fun a => a) f l)) (fun l => snd (from_first (fun a => a) f l))) (rreducel fill none f).
Proof. exact @rreducel_keeps. Qed.
Print Assumptions C133_rreducel.
Example C133_one_ex :
  let f := fun a acc : nat => Ok (10 * acc + a) in
  let lt := fun a b : nat => Ok (a <? b) in let gt := fun a b : nat => Ok (b <? a) in
  run (scanl1 0 f) [LRead 0 (Item 1); LOut Returned; LOut (Given 1); LRead 0 (Item 2); LOut (Given 12); LRead 0 Stop] PRet /\
  run (scanl1 0 f) [LRead 0 Stop; LOut Returned] PRet /\
  run (reducel 0 5 f) [LRead 0 (Item 1); LRead 0 (Item 2); LRead 0 Stop; LOut (Given 12)] PRet /\
  run (reducel 0 5 f) [LRead 0 Stop; LOut (Given 5)] PRet /\
  run (running_minmax 0 lt gt) [LRead 0 (Item 4); LOut Returned; LOut (Given (4, 4)); LRead 0 (Item 2); LOut (Given (2, 4)); LRead 0 (Item 6); LOut (Given (2, 6)); LRead 0 (Fail (UserExn 1))] (PThrow (UserExn 1)) /\
  run (minmax 0 5 lt gt) [LRead 0 (Item 4); LRead 0 (Item 2); LRead 0 Stop; LOut (Given (2, 4))] PRet /\
  run (scanr1 0 f) [LOut Returned; LRead 0 (Item 1); LRead 0 (Item 2); LRead 0 Stop; LOut (Given 2); LOut (Given 21)] PRet /\
  run (reducer 0 5 f) [LRead 0 (Item 1); LRead 0 (Item 2); LRead 0 Stop; LOut (Given 21)] PRet /\
  run (rscanl1 0 f) [LRead 0 (Item 1); LRead 0 (Item 2); LRead 0 Stop; LOut Returned; LOut (Given 2); LOut (Given 21)] PRet /\
  run (rreducel 0 5 f) [LRead 0 Stop; LOut (Given 5)] PRet.
Proof. repeat (split; [play|]). play. Qed.
