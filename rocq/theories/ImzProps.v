(** C128: memoized iterables, imemoize and fimemoize. *)
From Coq Require Import List Bool Arith.
From Verif Require Import Base ImzModel ImzSpec ImzProofs.
Import ListNotations.
Open Scope list_scope.

(** Whatever the history: what instance [i] gives at its [k]th next() is the [k]th outcome of going through
    the iterable made from the arguments of the first call like the one that made the instance. *)
Theorem C128_sequence : forall {V I A K} (keqb : K -> K -> bool) (resolve : A -> outcome K) (factory : A -> outcome (iterable I))
    (advance : I -> outcome V * I) (start : list I), equivalence keqb -> exist factory start ->
  forall ops rs s i k r a b, fimemoize keqb resolve factory advance start ops = (rs, s) ->
  nth_error (made (combine ops rs)) i = Some a -> first_like keqb resolve a (made (combine ops rs)) = Some b ->
  private keqb resolve factory ops b ->
  nth_error (given i (combine ops rs)) k = Some r -> r = sequence factory advance start b k.
Proof. exact @sequence_ok. Qed.
Print Assumptions C128_sequence.
(** The same for imemoize, which has no arguments. *)
Theorem C128_imemoize : forall {V I arg} (it : iterable I) (advance : I -> outcome V * I) (start : list I)
    (ops : list (op (list arg))) rs s i k r, imemoize it advance start ops = (rs, s) ->
  (forall n, it = Same n -> n < length start /\ ~ In (Outside n) ops) ->
  nth_error (given i (combine ops rs)) k = Some r -> r = sequence (fun _ : list arg => Ok it) advance start [] k.
Proof. exact @im_sequence_ok. Qed.
Print Assumptions C128_imemoize.
(** Also if others use the iterator, all instances see the same. *)
Theorem C128_same : forall {V I A K} (keqb : K -> K -> bool) (resolve : A -> outcome K) (factory : A -> outcome (iterable I))
    (advance : I -> outcome V * I) (start : list I), equivalence keqb -> exist factory start ->
  forall ops rs s i j k r r' a b, fimemoize keqb resolve factory advance start ops = (rs, s) ->
  nth_error (made (combine ops rs)) i = Some a -> nth_error (made (combine ops rs)) j = Some b -> alike keqb resolve a b = true ->
  nth_error (given i (combine ops rs)) k = Some r -> nth_error (given j (combine ops rs)) k = Some r' -> r = r'.
Proof. exact @same_ok. Qed.
Print Assumptions C128_same.
(** The factory is called at most once for arguments that are alike, namely with the first of them. *)
Theorem C128_once : forall {V I A K} (keqb : K -> K -> bool) (resolve : A -> outcome K) (factory : A -> outcome (iterable I))
    (advance : I -> outcome V * I) (start : list I), equivalence keqb -> exist factory start ->
  forall ops rs s, fimemoize keqb resolve factory advance start ops = (rs, s) ->
  (forall p q b c, nth_error (calls s) p = Some b -> nth_error (calls s) q = Some c -> alike keqb resolve b c = true -> p = q) /\
  (forall b, In b (calls s) -> first_like keqb resolve b (made (combine ops rs)) = Some b).
Proof. exact @once_ok. Qed.
Print Assumptions C128_once.
(** Calls of the memoized function do not call the factory, and do not advance any iterator. *)
Theorem C128_lazy : forall {V I A K} (keqb : K -> K -> bool) (resolve : A -> outcome K) (factory : A -> outcome (iterable I))
    (advance : I -> outcome V * I) (start : list I) ops rs s,
  (forall o, In o ops -> exists a, o = Call a) -> fimemoize keqb resolve factory advance start ops = (rs, s) ->
  iters s = start /\ calls s = [].
Proof. exact @lazy_ok. Qed.
Print Assumptions C128_lazy.
(** Nor does next() where another instance has been before. *)
Theorem C128_again : forall {V I A K} (keqb : K -> K -> bool) (resolve : A -> outcome K) (factory : A -> outcome (iterable I))
    (advance : I -> outcome V * I) (start : list I), equivalence keqb -> exist factory start ->
  forall ops rs s i j a b, fimemoize keqb resolve factory advance start ops = (rs, s) ->
  nth_error (made (combine ops rs)) i = Some a -> nth_error (made (combine ops rs)) j = Some b -> alike keqb resolve a b = true ->
  length (given i (combine ops rs)) < length (given j (combine ops rs)) ->
  let s' := snd (step keqb resolve factory advance start (Next i) s) in iters s' = iters s /\ calls s' = calls s.
Proof. exact @again_ok. Qed.
Print Assumptions C128_again.
(** Nor does next() after an exception, such as StopIteration. *)
Theorem C128_after : forall {V I A K} (keqb : K -> K -> bool) (resolve : A -> outcome K) (factory : A -> outcome (iterable I))
    (advance : I -> outcome V * I) (start : list I), equivalence keqb -> exist factory start ->
  forall ops rs s i e, fimemoize keqb resolve factory advance start ops = (rs, s) ->
  In (Raise e) (given i (combine ops rs)) ->
  let s' := snd (step keqb resolve factory advance start (Next i) s) in iters s' = iters s /\ calls s' = calls s.
Proof. exact @after_ok. Qed.
Print Assumptions C128_after.

(** Iterators over lists of outcomes. *)
Definition adv (l : list (outcome nat)) : outcome nat * list (outcome nat) :=
  match l with [] => (Raise StopIterationE, []) | r :: l => (r, l) end.
(** f(n): a container with n items for n > 0; iterator number 0 for n = 0; called with 9: KeyError.  5 and 6 are equal. *)
Definition fac (n : nat) : outcome (iterable (list (outcome nat))) :=
  match n with 0 => Ok (Same 0) | 9 => Raise KeyError | _ => Ok (Fresh (map Ok (seq 0 n))) end.
Definition keq (a b : nat) : bool := (if a =? 6 then 5 else a) =? (if b =? 6 then 5 else b).
Definition it0 : list (outcome nat) := [Ok 7; Raise ValueError; Ok 8].
Definition hist : list (op nat) :=
  [Call 2; Call 0; Next 0; Next 1; Next 0; Call 2; Next 0; Next 2; Next 1; Next 1; Next 2; Call 9; Next 3; Next 3; Call 6; Call 5; Next 5].
Example C128_ex : equivalence keq /\ exist fac [it0] /\ (forall b, private keq Ok fac hist b) /\
  let (rs, s) := fimemoize keq Ok fac adv [it0] hist in
  made (combine hist rs) = [2; 0; 2; 9; 6; 5] /\
  given 0 (combine hist rs) = [Ok 0; Ok 1; Raise StopIterationE] /\
  given 1 (combine hist rs) = [Ok 7; Raise ValueError; Raise StopIterationE] /\
  given 2 (combine hist rs) = [Ok 0; Ok 1] /\
  given 3 (combine hist rs) = [Raise KeyError; Raise StopIterationE] /\
  first_like keq Ok 5 (made (combine hist rs)) = Some 6 /\
  calls s = [2; 0; 9; 6].
Proof.
  split; [|split; [|split]].
  - unfold equivalence, keq. split; [|split]; intros; rewrite ?Nat.eqb_eq in *; congruence.
  - intros [|[|[|[|[|[|[|[|[|[|a]]]]]]]]]] n H; inversion H. simpl. auto.
  - intros a n H. split.
    + intro Q. simpl in Q. repeat destruct Q as [Q | Q]; discriminate || contradiction.
    + intros b k _ H'. assert (forall c, fac c = Ok (Same n) -> c = 0) as Hz.
      { intros [|[|[|[|[|[|[|[|[|[|c]]]]]]]]]] Q; inversion Q; auto. }
      rewrite (Hz _ H), (Hz _ H'). reflexivity.
  - vm_compute. repeat split.
Qed.

(** An iterator that somebody else advances, too: the memoized sequence lacks the items. *)
Theorem C128_outside_refuted : exists (ops : list (op (list nat))) rs s i k r,
  imemoize (Same 0) adv [it0] ops = (rs, s) /\ nth_error (given i (combine ops rs)) k = Some r /\
  r <> sequence (fun _ : list nat => Ok (Same 0)) adv [it0] [] k.
Proof.
  exists [Call []; Outside 0; Next 0], [RCall (Ok 0); RItem (Ok 7); RItem (Raise ValueError)],
    (snd (imemoize (Same 0) adv [it0] [Call []; Outside 0; Next 0])), 0, 0, (Raise ValueError).
  split; [reflexivity|]. split; [reflexivity|]. discriminate.
Qed.
Print Assumptions C128_outside_refuted.
(** The k-th next() of an iterator itself, when it is called again and again, also after exceptions *)
Fixpoint itself (k : nat) (l : list (outcome nat)) : outcome nat :=
  match k with 0 => fst (adv l) | S k => itself k (snd (adv l)) end.
(** An iterator that goes on after an exception (such as a map): the memoized sequence does not. *)
Theorem C128_goes_on_refuted : exists (ops : list (op (list nat))) rs s i k r,
  imemoize (Fresh it0) adv [] ops = (rs, s) /\ nth_error (given i (combine ops rs)) k = Some r /\ r <> itself k it0.
Proof.
  exists [Call []; Next 0; Next 0; Next 0], [RCall (Ok 0); RItem (Ok 7); RItem (Raise ValueError); RItem (Raise StopIterationE)],
    (snd (imemoize (Fresh it0) adv [] [Call []; Next 0; Next 0; Next 0])), 0, 2, (Raise StopIterationE).
  split; [reflexivity|]. split; [reflexivity|]. discriminate.
Qed.
Print Assumptions C128_goes_on_refuted.
