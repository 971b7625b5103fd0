(** Property theorems: the sequence constructor [s] (C63).  Partial: power sequences and
    finite geometric sequences, which depend on floating-point logarithms, are not modelled. *)
From Verif Require Import Base SeqModel SeqSpec SeqProofs SeqInts.
From Coq Require Import List QArith Qabs Lia.
Import ListNotations.
Open Scope Q_scope.

(** For int terms the generated sequence need not begin with the given terms: terms
    that are only approximately in arithmetic progression are accepted. *)
Theorem C63_begins_with_terms_refuted :
  exists l g j q q', s Ints (map Num l ++ [Dots]) = Done (Ok g) /\
    (forall x, In x l -> exists z, x = inject_Z z) /\
    nth_error l j = Some q /\ g j = Some (Num q') /\ ~ q' == q.
Proof. exact s_begins_refuted. Qed.
Print Assumptions C63_begins_with_terms_refuted.
(** For exact fractions, a modelled result begins with the given terms and is an
    arithmetic or geometric sequence. *)
Theorem C63_begins_with_terms_partial :
  forall l g, s Exact (map Num l ++ [Dots]) = Done (Ok g) ->
    exists f, yields g f /\ begins l f /\
      ((exists a0 d, forall j, f j == arith_item a0 d j) \/ (exists a0 r, forall j, f j == geom_item a0 r j)).
Proof. exact s_begins. Qed.
Print Assumptions C63_begins_with_terms_partial.
Theorem C63_arithmetic :
  forall l a0 d, (2 <= length l)%nat -> begins l (arith_item a0 d) ->
    exists g, s Exact (map Num l ++ [Dots]) = Done (Ok g) /\ yields g (arith_item a0 d).
Proof. exact s_arith. Qed.
Print Assumptions C63_arithmetic.
Theorem C63_geometric :
  forall l a0 r, (3 <= length l)%nat -> ~ a0 == 0 -> ~ r == 0 -> begins l (geom_item a0 r) ->
    exists g, s Exact (map Num l ++ [Dots]) = Done (Ok g) /\ yields g (geom_item a0 r).
Proof. exact s_geom. Qed.
Print Assumptions C63_geometric.
(** Terms of no arithmetic or geometric sequence are rejected, unless the logarithm test
    for power sequences (not modelled) accepts them. *)
Theorem C63_inconsistent_rejected_partial :
  forall l, l <> [] ->
    (forall a0 d, ~ begins l (arith_item a0 d)) -> (forall a0 r, ~ begins l (geom_item a0 r)) ->
    s Exact (map Num l ++ [Dots]) = Done (Raise SyntaxError) \/ s Exact (map Num l ++ [Dots]) = Unmodelled.
Proof. exact s_reject. Qed.
Print Assumptions C63_inconsistent_rejected_partial.
(** With a final term, an arithmetic sequence ends exactly there; a final term that is
    not a later item of the sequence is rejected. *)
Theorem C63_finite_arithmetic :
  forall l a0 d last m, (2 <= length l)%nat -> ~ d == 0 -> begins l (arith_item a0 d) ->
    (1 <= m)%nat -> last == arith_item a0 d m ->
    exists g, s Exact (map Num l ++ [Dots; Num last]) = Done (Ok g) /\ yields_upto g (arith_item a0 d) m.
Proof. exact s_finite_arith. Qed.
Print Assumptions C63_finite_arithmetic.
Theorem C63_finite_arithmetic_rejected :
  forall l a0 d last, (2 <= length l)%nat -> begins l (arith_item a0 d) ->
    (forall m, (1 <= m)%nat -> ~ last == arith_item a0 d m) \/ d == 0 ->
    s Exact (map Num l ++ [Dots; Num last]) = Done (Raise SyntaxError).
Proof. exact s_finite_arith_reject. Qed.
Print Assumptions C63_finite_arithmetic_rejected.
(** Cyclic sequences: the initial items, then the repeating ones over and over. *)
Theorem C63_cyclic :
  forall init rep, rep <> [] ->
    exists g, s Exact (init ++ [Lst rep; Dots]) = Done (Ok g) /\
      (forall j x, nth_error init j = Some x -> g j = Some x) /\
      (forall j, exists q, nth_error rep (j mod length rep)%nat = Some q /\ g (length init + j)%nat = Some (Num q)).
Proof. exact s_cyclic. Qed.
Print Assumptions C63_cyclic.
(** Without [...], the sequence is just the given items. *)
Theorem C63_plain :
  forall md spec init x, spec = init ++ [x] -> (forall e, In e spec -> e <> Dots) -> (forall l, x <> Lst l) ->
    s md spec = Done (Ok (nth_error spec)).
Proof. exact s_plain. Qed.
Print Assumptions C63_plain.
(** On integers, [s] compares with a tolerance.  For integers below 5000 this makes no difference: the result, or the
    exception, is the same as for fractions. *)
Theorem C63_ints_small : forall spec, (forall q, In (Num q) spec -> small_int q) -> same_result (s Ints spec) (s Exact spec).
Proof. exact s_small. Qed.
Print Assumptions C63_ints_small.
(** In particular: *)
Theorem C63_ints_begins_partial : forall l g, Forall small_int l -> s Ints (map Num l ++ [Dots]) = Done (Ok g) ->
  exists f, yields g f /\ begins l f /\
    ((exists a0 d, forall j, f j == arith_item a0 d j) \/ (exists a0 r, forall j, f j == geom_item a0 r j)).
Proof. exact s_begins_small. Qed.
Print Assumptions C63_ints_begins_partial.
Theorem C63_ints_arithmetic : forall l a0 d, Forall small_int l -> (2 <= length l)%nat -> begins l (arith_item a0 d) ->
  exists g, s Ints (map Num l ++ [Dots]) = Done (Ok g) /\ yields g (arith_item a0 d).
Proof. exact s_arith_small. Qed.
Print Assumptions C63_ints_arithmetic.
(** Three terms whose differences, or else whose ratios, are not equal but within the tolerance: the sequence has their mean. *)
Theorem C63_ints_tolerance : forall a0 a1 a2, let d1 := a1 - a0 in let d2 := a2 - a1 in let r1 := a1 / a0 in let r2 := a2 / a1 in
  ~ d1 == d2 ->
  (close d2 d1 -> exists g, s Ints [Num a0; Num a1; Num a2; Dots] = Done (Ok g) /\ yields g (arith_item a0 ((a2 - a0) / 2))) /\
  (~ close d2 d1 -> ~ a0 == 0 -> ~ a1 == 0 -> ~ a2 == 0 -> close r2 r1 -> (forall z, ~ r1 == inject_Z z) ->
   exists g, s Ints [Num a0; Num a1; Num a2; Dots] = Done (Ok g) /\ yields g (geom_item a0 ((r1 + r2) / 2))).
Proof. exact s_tolerant. Qed.
Print Assumptions C63_ints_tolerance.
(** What is not of the form s(a0, ...), s(a0, ..., an), s([*repeats], ...) or s(a, b, [*repeats], ...), because a list or
    [...] is misplaced or missing, is a SyntaxError. *)
Theorem C63_syntax : forall md,
  (forall init l, ~ In Dots init -> s md (init ++ [Lst l]) = Done (Raise SyntaxError)) /\
  (forall init, s md (init ++ [Lst []; Dots]) = Done (Raise SyntaxError)) /\
  s md [Dots] = Done (Raise SyntaxError) /\
  (forall x, x <> Dots -> s md [Dots; x] = Done (Raise SyntaxError)) /\
  (forall init x y, In Dots init -> x <> Dots -> y <> Dots -> s md (init ++ [x; y]) = Done (Raise SyntaxError)) /\
  (forall x l, s md [x; Dots; Lst l] = Done (Raise SyntaxError)).
Proof. exact s_syntax. Qed.
Print Assumptions C63_syntax.
Definition show (r : res (nat -> option elt)) (n : nat) : option (list (option elt)) :=
  match r with Done (Ok g) => Some (map (fun j => match g j with Some (Num q) => Some (Num (Qred q)) | x => x end) (seq 0 n)) | _ => None end.
Example C63_ex :
  show (s Exact [Num 1; Num 3; Dots]) 4 = Some [Some (Num 1); Some (Num 3); Some (Num 5); Some (Num 7)] /\
  show (s Exact [Num 1; Num 3; Num 9; Dots]) 4 = Some [Some (Num 1); Some (Num 3); Some (Num 9); Some (Num 27)] /\
  show (s Exact [Num 1; Num (1 # 2); Num (1 # 4); Num (1 # 8); Dots]) 5 =
    Some [Some (Num 1); Some (Num (1 # 2)); Some (Num (1 # 4)); Some (Num (1 # 8)); Some (Num (1 # 16))] /\
  show (s Exact [Num 1; Num 3; Dots; Num 5]) 4 = Some [Some (Num 1); Some (Num 3); Some (Num 5); None] /\
  show (s Exact [Num 9; Lst [1; 2]; Dots]) 5 = Some [Some (Num 9); Some (Num 1); Some (Num 2); Some (Num 1); Some (Num 2)] /\
  s Exact [Num 1; Num 2; Num 5; Dots] = Done (Raise SyntaxError) /\ s Exact [Num 2; Num 4; Num 16; Dots] = Unmodelled.
Proof. repeat split. Qed.
Example C63_ex_ints : Forall small_int [1; 3; 9; 27] /\ show (s Ints (map Num [1; 3; 9; 27] ++ [Dots])) 6 =
  Some (map (fun q => Some (Num q)) [1; 3; 9; 27; 81; 243]).
Proof.
  split; [|vm_compute; reflexivity].
  repeat constructor; [exists 1%Z|exists 3%Z|exists 9%Z|exists 27%Z]; (split; [reflexivity|split; reflexivity]).
Qed.
Example C63_ex_tolerance : let n := inject_Z 1000000000 in close (n + 1) n /\ ~ n == n + 1 /\
  close (1 / 1) ((n + 1) / n) /\ ~ close 0 (-1) /\ forall z, ~ n / (n + 1) == inject_Z z.
Proof.
  cbn zeta. split; [reflexivity|]. split; [discriminate|]. split; [reflexivity|]. split; [discriminate|].
  intros z H. assert (E : inject_Z 1000000000 == inject_Z (z * 1000000001)) by (rewrite inject_Z_mult, <- H; reflexivity).
  apply (proj1 (inject_Z_injective _ _)) in E. lia.
Qed.
