(** C130: the tools of unpythonic/it.py are lazy.  For each of them: what it reads of its input, and when, and what it
    gives, as a function of the items read so far, whatever the input does and however long the tool is used ([keeps],
    in LitSpec.v).  Then: nothing is read before everything that can be given has been given; nothing is read after
    the input has ended or failed, or after the tool has stopped by itself; and an exception from the input is passed
    on at once. *)
From Coq Require Import List ZArith Bool Arith Lia.
From Verif Require Import Base.
From Verif Require ItrModel.
From Verif Require Import LitModel LitSpec LitProofs.
Import ListNotations.
Open Scope list_scope.
Open Scope nat_scope.

Ltac play := repeat first [apply run_here | match goal with |- run ?p _ _ => rewrite (unf_eq p); cbn; constructor end].

(** * uniqify, uniq *)
Theorem C130_uniqify : forall (A K : Type) (keq : K -> K -> bool) (key : A -> outcome K), equivalence keq ->
  keeps (gives_until (uniqify_out keq key) (key_fails key (Some RuntimeError))) (uniqify keq key).
Proof. exact @uniqify_keeps. Qed.
Print Assumptions C130_uniqify.
Theorem C130_uniq : forall (A K : Type) (keq : K -> K -> bool) (key : A -> outcome K), equivalence keq ->
  keeps (gives_until (uniq_out keq key) (key_fails key None)) (uniq keq key).
Proof. exact @uniq_keeps. Qed.
Print Assumptions C130_uniq.
Example C130_uniqify_ex :
  equivalence Nat.eqb /\
  uniqify_out Nat.eqb (Ok : nat -> outcome nat) [1; 1; 2; 1; 3] = [1; 2; 3] /\
  uniq_out Nat.eqb (Ok : nat -> outcome nat) [1; 1; 2; 1; 3] = [1; 2; 1; 3] /\
  run (uniqify Nat.eqb (Ok : nat -> outcome nat))
    [LOut Returned; LRead 0 (Item 1); LOut (Given 1); LRead 0 (Item 1); LRead 0 (Item 2); LOut (Given 2); LRead 0 (Fail (UserExn 5))] (PThrow (UserExn 5)).
Proof.
  split; [|split; [reflexivity|split; [reflexivity|play]]]. split; [exact Nat.eqb_refl|]. split; [exact Nat.eqb_sym|].
  intros x y z H1 H2. apply Nat.eqb_eq in H1, H2. subst. apply Nat.eqb_refl.
Qed.

(** * take, drop, butlastn, lastn *)
Theorem C130_take : forall (A : Type) (n : nat),
  keeps (gives_until (fun l => l) (fun l => if length l =? n then Some None else None)) (take (Z.of_nat n) : proc A A).
Proof. exact @take_keeps. Qed.
Print Assumptions C130_take.
Theorem C130_drop : forall (A : Type) (n : nat),
  keeps (reads_first n (fun l => Returned :: map Given (skipn n l)) (fun _ => [Returned])) (drop (Some (Z.of_nat n)) : proc A A).
Proof. exact @drop_keeps. Qed.
Print Assumptions C130_drop.
Theorem C130_drop_all : forall (A : Type),
  keeps (mkP (fun _ => []) always (fun _ => [Returned]) no_err only) (drop None : proc A A).
Proof. exact @drop_all_keeps. Qed.
Print Assumptions C130_drop_all.
Theorem C130_butlastn : forall (A : Type) (n : nat), keeps (gives (fun l => firstn (length l - n) l)) (butlastn n : proc A A).
Proof. exact @butlastn_keeps. Qed.
Print Assumptions C130_butlastn.
Theorem C130_lastn : forall (A : Type) (n : nat),
  keeps (mkP (fun _ => [Returned]) always (fun l => map Given (skipn (length l - n) l)) no_err only) (lastn n : proc A A).
Proof. exact @lastn_keeps. Qed.
Print Assumptions C130_lastn.
Example C130_take_ex :
  run (take 2 : proc nat nat) [LOut Returned; LRead 0 (Item 7); LOut (Given 7); LRead 0 (Item 8); LOut (Given 8)] PRet /\
  run (drop (Some 1%Z) : proc nat nat) [LRead 0 (Item 7); LOut Returned; LRead 0 (Item 8); LOut (Given 8); LRead 0 Stop] PRet /\
  run (butlastn 1 : proc nat nat) [LOut Returned; LRead 0 (Item 7); LRead 0 (Item 8); LOut (Given 7); LRead 0 (Item 9); LOut (Given 8); LRead 0 Stop] PRet /\
  run (lastn 1 : proc nat nat) [LOut Returned; LRead 0 (Item 7); LRead 0 (Item 8); LRead 0 Stop; LOut (Given 8)] PRet.
Proof. split; [|split; [|split]]; play. Qed.

(** * nth, last, scons, pad, interleave *)
Theorem C130_nth : forall (A : Type) (n : nat) (default : A),
  keeps (answers (fun l => option_map Ok (nth_error l n)) (fun _ => Ok default)) (nth_ (Z.of_nat n) default).
Proof. exact @nth_keeps. Qed.
Print Assumptions C130_nth.
Theorem C130_last : forall (A : Type) (default : A),
  keeps (answers (fun _ => None) (fun l => Ok (List.last l default))) (last_ default).
Proof. exact @last_keeps. Qed.
Print Assumptions C130_last.
Theorem C130_scons : forall (A : Type) (x : A), keeps (gives (fun l => x :: l)) (scons x).
Proof. exact @scons_keeps. Qed.
Print Assumptions C130_scons.
Theorem C130_pad : forall (A : Type) (n : nat) (fill : A),
  keeps (mkP (fun l => Returned :: map Given l) always (fun l => map Given (repeat fill (n - length l))) no_err only) (pad n fill).
Proof. exact @pad_keeps. Qed.
Print Assumptions C130_pad.
Theorem C130_interleave : forall (A : Type) (m : nat),
  keeps (mkP (fun l => Returned :: map Given l) always nothing no_err (fun l => length l mod (S m))) (interleave (S m) : proc A A).
Proof. exact @interleave_keeps. Qed.
Print Assumptions C130_interleave.
Example C130_nth_ex :
  run (nth_ 1 0) [LRead 0 (Item 7); LRead 0 (Item 8); LOut (Given 8)] PRet /\
  run (last_ 0) [LRead 0 (Item 7); LRead 0 (Item 8); LRead 0 Stop; LOut (Given 8)] PRet /\
  run (scons 5) [LOut Returned; LOut (Given 5); LRead 0 (Item 8); LOut (Given 8); LRead 0 Stop] PRet /\
  run (pad 3 0) [LOut Returned; LRead 0 (Item 8); LOut (Given 8); LRead 0 Stop; LOut (Given 0); LOut (Given 0)] PRet /\
  run (interleave 2 : proc nat nat) [LOut Returned; LRead 0 (Item 8); LOut (Given 8); LRead 1 (Item 5); LOut (Given 5); LRead 0 (Item 9); LOut (Given 9); LRead 1 Stop] PRet.
Proof. split; [|split; [|split; [|split]]]; play. Qed.

(** * flatmap, and the flatten family (what the flattened lists are: C21) *)
Theorem C130_flatmap : forall (A B : Type) (f : A -> outcome (list B)),
  keeps (gives_until (flat f) (key_fails f None)) (flatmap f).
Proof. exact @flatmap_keeps. Qed.
Print Assumptions C130_flatmap.
Theorem C130_flatten : forall (A : Type) (pred : ItrModel.item A -> bool), keeps (gives (ItrModel.flatten pred)) (flatten pred).
Proof. exact @flatten_keeps. Qed.
Print Assumptions C130_flatten.
Theorem C130_flatten1 : forall (A : Type) (pred : ItrModel.item A -> bool), keeps (gives (ItrModel.flatten1 pred)) (flatten1 (Some pred)).
Proof. exact @flatten1_keeps. Qed.
Print Assumptions C130_flatten1.
Theorem C130_flatten1_bare : forall (A : Type),
  keeps (gives_until (flat_map (fun e => match e with ItrModel.Node _ es => es | ItrModel.Leaf _ => [] end))
           (fun l => match last_of l with Some (ItrModel.Leaf _) => Some (Some TypeError) | _ => None end)) (flatten1 (A := A) None).
Proof. exact @flatten1_bare_keeps. Qed.
Print Assumptions C130_flatten1_bare.
Theorem C130_flatten_in : forall (A : Type) (pred : ItrModel.item A -> bool), keeps (gives (ItrModel.flatten_in pred)) (flatten_in pred).
Proof. exact @flatten_in_keeps. Qed.
Print Assumptions C130_flatten_in.
Example C130_flatmap_ex :
  run (flatmap (fun n : nat => if n =? 3 then Raise (UserExn 1) else Ok [n; n + 10]))
    [LOut Returned; LRead 0 (Item 1); LOut (Given 1); LOut (Given 11); LRead 0 (Item 3)] (PThrow (UserExn 1)) /\
  run (flatten (fun _ : ItrModel.item nat => true))
    [LOut Returned; LRead 0 (Item (ItrModel.Node true [ItrModel.Leaf 1; ItrModel.Node false [ItrModel.Leaf 2]]));
     LOut (Given (ItrModel.Leaf 1)); LOut (Given (ItrModel.Leaf 2)); LRead 0 Stop] PRet.
Proof. split; play. Qed.

(** * window, within *)
Theorem C130_window : forall (A : Type) (n : nat), 2 <= n ->
  keeps (reads_first n (fun l => Returned :: map Given (windows n l)) (fun _ => [Returned])) (window (Z.of_nat n) : proc A (list A)).
Proof. exact @window_keeps. Qed.
Print Assumptions C130_window.
Theorem C130_within : forall tol : Z,
  keeps (gives_until (within_out tol) (fun l => if close tol l then Some None else None)) (within tol).
Proof. exact within_keeps. Qed.
Print Assumptions C130_within.
Example C130_window_ex :
  windows 2 [7; 8; 9] = [[7; 8]; [8; 9]] /\
  run (window 2 : proc nat (list nat)) [LRead 0 (Item 7); LRead 0 (Item 8); LOut Returned; LOut (Given [7; 8]); LRead 0 (Item 9); LOut (Given [8; 9]); LRead 0 Stop] PRet /\
  run (within 1) [LOut Returned; LRead 0 (Item 9%Z); LRead 0 (Item 5%Z); LOut (Given 9%Z); LRead 0 (Item 4%Z); LOut (Given 5%Z); LOut (Given 4%Z)] PRet.
Proof. split; [reflexivity|]. split; play. Qed.

(** * Questions *)
Theorem C130_find : forall (A : Type) (pred : A -> outcome bool) (default : A),
  keeps (answers (by_last (fun a _ => match pred a with
                                      | Ok true => Some (Ok a) | Ok false => None
                                      | Raise StopIterationE => Some (Ok default) | Raise e => Some (Raise e)
                                      end)) (fun _ => Ok default)) (find pred default).
Proof. exact @find_keeps. Qed.
Print Assumptions C130_find.
Theorem C130_iindex : forall (A : Type) (eqb : A -> A -> bool) (x : A),
  keeps (answers (by_last (fun a n => if eqb a x then Some (Ok (n - 1)) else None)) (fun _ => Raise ValueError)) (iindex eqb x).
Proof. exact @iindex_keeps. Qed.
Print Assumptions C130_iindex.
Theorem C130_subset : forall (A : Type) (eqb : A -> A -> bool) (whole : list A),
  keeps (answers (by_last (fun a _ => if existsb (eqb a) whole then None else Some (Ok false))) (fun _ => Ok true)) (subset eqb whole).
Proof. exact @subset_keeps. Qed.
Print Assumptions C130_subset.
Theorem C130_allsame : forall (A : Type) (eqb : A -> A -> bool),
  keeps (answers (fun l => match l with [] => None | x0 :: r => by_last (fun a _ => if eqb a x0 then None else Some (Ok false)) r end) (fun _ => Ok true))
        (allsame eqb).
Proof. exact @allsame_keeps. Qed.
Print Assumptions C130_allsame.
Theorem C130_inn : forall x : Z, keeps (answers (inn_answer x) (fun _ => Ok false)) (inn x).
Proof. exact inn_keeps. Qed.
Print Assumptions C130_inn.
Example C130_find_ex :
  run (find (fun n => Ok (5 <? n)) 0) [LRead 0 (Item 4); LRead 0 (Item 8); LOut (Given 8)] PRet /\
  run (iindex Nat.eqb 8) [LRead 0 (Item 4); LRead 0 (Item 8); LOut (Given 1)] PRet /\
  run (subset Nat.eqb [4; 5]) [LRead 0 (Item 4); LRead 0 (Item 8); LOut (Given false)] PRet /\
  run (allsame Nat.eqb) [LRead 0 (Item 4); LRead 0 (Item 4); LRead 0 (Item 8); LOut (Given false)] PRet /\
  run (inn 3) [LRead 0 (Item 9%Z); LRead 0 (Item 9%Z); LRead 0 (Item 8%Z); LRead 0 (Item 4%Z); LRead 0 (Item 2%Z); LOut (Given false)] PRet.
Proof. split; [|split; [|split; [|split]]]; play. Qed.

(** * Head and tail at once *)
Theorem C130_unpack : forall (A : Type) (n : nat) (k : option nat) (fill : A),
  let k' := match k with Some k => k | None => n end in
  keeps (reads_first (Nat.max n k') (fun l => Given (Head (firstn n l)) :: map (fun a => Given (Tail a)) (skipn k' l))
           (fun l => [Given (Head (firstn n l ++ repeat fill (n - length l)))]))
        (unpack (Z.of_nat n) (option_map Z.of_nat k) fill).
Proof. exact @unpack_keeps. Qed.
Print Assumptions C130_unpack.
Theorem C130_split_at : forall (A : Type) (n : nat),
  keeps (reads_first n (fun l => Given (Head (firstn n l)) :: map (fun a => Given (Tail a)) (skipn n l)) (fun l => [Given (Head l)]))
        (split_at (Z.of_nat n) : proc A (part A)).
Proof. exact @split_at_keeps. Qed.
Print Assumptions C130_split_at.
Example C130_unpack_ex :
  run (unpack 3 (Some 1%Z) 0) [LRead 0 (Item 7); LRead 0 (Item 8); LRead 0 (Item 9); LOut (Given (Head [7; 8; 9]));
    LOut (Given (Tail 8)); LOut (Given (Tail 9)); LRead 0 (Item 5); LOut (Given (Tail 5)); LRead 0 Stop] PRet /\
  run (unpack 1 (Some 2%Z) 0) [LRead 0 (Item 7); LRead 0 (Item 8); LOut (Given (Head [7])); LRead 0 (Item 5); LOut (Given (Tail 5)); LRead 0 Stop] PRet /\
  run (unpack 3 None 0) [LRead 0 (Item 7); LRead 0 Stop; LOut (Given (Head [7; 0; 0]))] PRet.
Proof. split; [|split]; play. Qed.

(** * Calls that are refused, without reading anything *)
Theorem C130_refusals : forall (A : Type) (n : Z) (k : option Z) (x : A), (n < 0)%Z ->
  keeps (refuses ValueError) (take n : proc A A) /\ keeps (refuses ValueError) (drop (Some n) : proc A A) /\
  keeps (refuses ValueError) (nth_ n x) /\ keeps (refuses ValueError) (unpack n k x) /\
  keeps (refuses ValueError) (split_at n : proc A (part A)).
Proof. exact refusals. Qed.
Print Assumptions C130_refusals.
Theorem C130_refusals_unpack : forall (A : Type) (n k : Z) (x : A), (k < 0)%Z -> keeps (refuses ValueError) (unpack n (Some k) x).
Proof. exact unpack_refuses. Qed.
Print Assumptions C130_refusals_unpack.
Theorem C130_refusals_window : forall (A : Type) (n : Z), (n < 2)%Z -> keeps (refuses ValueError) (window n : proc A (list A)).
Proof. exact window_refuses. Qed.
Print Assumptions C130_refusals_window.
Example C130_refusals_ex : run (take (-1) : proc nat nat) [] (PThrow ValueError) /\ run (window 1 : proc nat (list nat)) [] (PThrow ValueError).
Proof. split; play. Qed.
