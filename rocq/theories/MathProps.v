(** Property theorems: primes (C61), Cauchy products (C62), termwise arithmetic and
    simple sequences (C64). *)
From Verif Require Import Base MathModel MathSpec MathProofs PrimeProofs NumModel NumProofs.
From Coq Require Import List Bool ZArith Arith Sorted.
Import ListNotations.
Open Scope nat_scope.

(** After the odd candidates up to 2m+1, the numbers yielded are, in increasing order,
    exactly the primes up to 2m+2. *)
Theorem C61_primes_speed :
  forall m, StronglySorted lt (fastprimes m) /\
    (forall p, In p (fastprimes m) <-> prime p /\ p <= 2 * m + 2).
Proof. exact (fun m => let (a, b) := primes_spec m in conj a (proj1 b)). Qed.
Print Assumptions C61_primes_speed.
(** The generator never runs dry, and what it has yielded stays the beginning of its output. *)
Theorem C61_primes_infinite :
  forall k, exists m, k <= length (fastprimes m) /\
    forall m', m <= m' -> firstn k (fastprimes m') = firstn k (fastprimes m).
Proof. exact primes_yield_all. Qed.
Print Assumptions C61_primes_infinite.
(** The memory-optimized version never needs an item it has not yielded yet, so it does
    not fail, and it yields the same numbers. *)
Theorem C61_primes_memory :
  forall m, memprimes m = Ok (fastprimes m).
Proof. exact memprimes_eq. Qed.
Print Assumptions C61_primes_memory.
Example C61_ex : fastprimes 14 = [2; 3; 5; 7; 11; 13; 17; 19; 23; 29] /\ prime 2.
Proof. split; [reflexivity|exact prime_2]. Qed.

(** Output k combines the items on the diagonal i + j = k, present exactly when the
    diagonal has an item (with require='all': when both inputs have an item k). *)
Theorem C62_diagonal_reduce :
  forall (A B E D : Type) (a : stream A) (b : stream B), ends_once a -> ends_once b ->
  forall (combine : list A -> list B -> E) (reduce : E -> D) req fuel k,
  match nth_error (diagonal_reduce combine reduce req a b fuel) k with
  | Some d => k < fuel /\ diagonal a b k <> [] /\ (req = All -> a k <> None /\ b k <> None) /\
      exists xs ys, map a (diagonal a b k) = map Some xs /\
        map (fun i => b (k - i)) (diagonal a b k) = map Some ys /\ d = reduce (combine xs ys)
  | None => fuel <= k \/ diagonal a b k = [] \/ (req = All /\ (a k = None \/ b k = None))
  end.
Proof. exact (fun A B E D a b Ea Eb c r req fuel k => diagonal_spec a b Ea Eb c r req fuel k). Qed.
Print Assumptions C62_diagonal_reduce.
Theorem C62_cauchyprod :
  forall a b req fuel k, ends_once a -> ends_once b ->
  match nth_error (cauchyprod req a b fuel) k with
  | Some c => k < fuel /\ c = sum_upto (fun i => coef a i * coef b (k - i))%Z k
  | None => True
  end.
Proof. exact cauchy_spec. Qed.
Print Assumptions C62_cauchyprod.
Theorem C62_cauchyprod_length :
  forall (la lb : list Z) fuel,
  length (cauchyprod Any (of_list la) (of_list lb) fuel) =
    Nat.min fuel (match la, lb with [], _ | _, [] => 0 | _, _ => length la + length lb - 1 end) /\
  length (cauchyprod All (of_list la) (of_list lb) fuel) = Nat.min fuel (Nat.min (length la) (length lb)).
Proof. exact cauchy_length. Qed.
Print Assumptions C62_cauchyprod_length.
Theorem C62_commutative :
  forall a b req fuel, ends_once a -> ends_once b -> cauchyprod req a b fuel = cauchyprod req b a fuel.
Proof. exact cauchy_comm. Qed.
Print Assumptions C62_commutative.
Theorem C62_polynomial :
  forall la lb fuel x, length la + length lb <= fuel ->
    poly (cauchyprod Any (of_list la) (of_list lb) fuel) x = (poly la x * poly lb x)%Z.
Proof. exact cauchy_poly. Qed.
Print Assumptions C62_polynomial.
Example C62_ex :
  cauchyprod Any (of_list [1; 2; 3]%Z) (of_list [4; 5]%Z) 10 = [4; 13; 22; 15]%Z /\
  cauchyprod All (of_list [1; 2; 3]%Z) (of_list [4; 5]%Z) 10 = [4; 13]%Z /\
  cauchyprod Any (fun _ => Some 1%Z) (of_list [1; 1]%Z) 4 = [1; 2; 2; 2]%Z /\
  ends_once (of_list [4; 5]%Z) /\ ends_once (fun _ : nat => Some 1%Z).
Proof. repeat split; [exact (of_list_ends _)|discriminate]. Qed.

(** Whatever the nesting, the value at a path is the operation applied to the values of
    the operands there, in this order; a scalar stands for itself at every position. *)
Theorem C64_termwise :
  forall (A B C : Type) (op : A -> B -> C) p a b c,
    look (binop op a b) p = Some (Sc c) <->
    exists x y, look a p = Some (Sc x) /\ look b p = Some (Sc y) /\ c = op x y.
Proof. exact @binop_look. Qed.
Print Assumptions C64_termwise.
Theorem C64_termwise_unary :
  forall (A B : Type) (op : A -> B) p t c,
    look (unop op t) p = Some (Sc c) <-> exists x, look t p = Some (Sc x) /\ c = op x.
Proof. exact @unop_look. Qed.
Print Assumptions C64_termwise_unary.
(** The result of two iterables ends with the shorter one. *)
Theorem C64_shortest :
  forall (A B C : Type) (op : A -> B -> C) f g, exists h, binop op (It f) (It g) = It h /\
    forall i, (exists t, h i = Some t) <-> (exists x, f i = Some x) /\ (exists y, g i = Some y).
Proof. exact @binop_shape. Qed.
Print Assumptions C64_shortest.
Example C64_termwise_ex :
  let a := It (of_list [Sc 10; It (of_list [Sc 20; Sc 30])]) in
  look (binop Nat.sub a (Sc 1)) [1; 0] = Some (Sc 19) /\ look (binop Nat.sub (Sc 100) a) [1; 1] = Some (Sc 70) /\
  look (binop Nat.sub a (It (of_list [Sc 3]))) [0] = Some (Sc 7) /\
  look (binop Nat.sub a (It (of_list [Sc 3]))) [1] = None.
Proof. repeat split. Qed.
Theorem C64_fibonacci :
  forall i, fibonacci 0 = 1%Z /\ fibonacci 1 = 1%Z /\
    fibonacci (S (S i)) = (fibonacci i + fibonacci (S i))%Z.
Proof. exact fib_spec. Qed.
Print Assumptions C64_fibonacci.
Theorem C64_triangular :
  forall i, (2 * triangular i = (Z.of_nat i + 1) * (Z.of_nat i + 2))%Z.
Proof. exact triangular_spec. Qed.
Print Assumptions C64_triangular.
Example C64_seq_ex : map fibonacci (seq 0 8) = [1; 1; 2; 3; 5; 8; 13; 21]%Z /\
  map triangular (seq 0 5) = [1; 3; 6; 10; 15]%Z.
Proof. split; reflexivity. Qed.
