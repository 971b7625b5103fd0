(** Specification vocabulary for infix arithmetic on sequences (C111). *)
From Coq Require Import List Bool Arith.
From Verif Require Import Base CollModel InfModel.
Import ListNotations.

Section Spec.
Context {N : Type}.
Variable prim2 : binop -> N -> N -> outcome N.
Variable prim1 : @unop N -> N -> outcome N.
Variable pow3 : N -> N -> N -> outcome N.
(** What an expression means, given what the generators have yet to yield: a number (or an exception), or the sequence of
    its terms, each of which is there or not, or is an exception. *)
Inductive meaning := Scalar (z : outcome N) | Seq (t : nat -> outcome (option N)).
Definition lift2 (f : N -> N -> outcome N) (x y : outcome (option N)) : outcome (option N) :=
  do x <- x ; match x with None => Ok None | Some x => do y <- y ; match y with None => Ok None | Some y => do z <- f x y ; Ok (Some z) end end.
Definition const (z : N) : nat -> outcome (option N) := fun _ => Ok (Some z).
Definition terms (gens : nat -> nat -> option N) : @val N -> nat -> outcome (option N) :=
  fix go v := match v with
  | Num z => const z
  | Tup l => fun k => Ok (nth_error l k)
  | Gen i => fun k => Ok (gens i k)
  | M v => go v
  end.
Definition binary (f : N -> N -> outcome N) (a b : meaning) : meaning :=
  match a, b with
  | Scalar x, Scalar y => Scalar (do x <- x ; do y <- y ; f x y)
  | Seq s, Seq t => Seq (fun k => lift2 f (s k) (t k))
  | Seq s, Scalar y => Seq (fun k => lift2 f (s k) (omap Some y))
  | Scalar x, Seq t => Seq (fun k => lift2 f (omap Some x) (t k))
  end.
Definition unary (f : N -> outcome N) (a : meaning) : meaning :=
  match a with
  | Scalar x => Scalar (do x <- x ; f x)
  | Seq s => Seq (fun k => do x <- s k ; match x with None => Ok None | Some x => do z <- f x ; Ok (Some z) end)
  end.
Fixpoint means (gens : nat -> nat -> option N) (e : @expr N) : meaning :=
  match e with
  | Leaf (Num z) => Scalar (Ok z)
  | Leaf v => Seq (terms gens v)
  | Call f => Seq (fun k => Ok (f k))
  | Bin o a b => binary (prim2 o) (means gens a) (means gens b)
  | Pre o a => unary (prim1 o) (means gens a)
  | Pow3 a b c => binary (fun x y => pow3 x y c) (means gens a) (means gens b)
  end.
(** The scalar parts of the expression give numbers: they are computed at once. *)
Fixpoint scalars_ok (gens : nat -> nat -> option N) (e : @expr N) : Prop :=
  match means gens e with Scalar (Raise _) => False | _ => True end /\
  match e with
  | Bin _ a b | Pow3 a b _ => scalars_ok gens a /\ scalars_ok gens b
  | Pre _ a => scalars_ok gens a
  | _ => True
  end.
(** Every operation that involves an iterable involves an imathified one; for [pow(a, b, c)], a is one; and so it is for a
    comparison of two iterables. *)
Definition compares (o : binop) : bool := match o with Lt | Le | Eq | Ne | Ge | Gt => true | _ => false end.
Fixpoint bare (v : @val N) : @val N := match v with M v => bare v | v => v end.
Definition is_seq (m : meaning) : bool := match m with Seq _ => true | Scalar _ => false end.
Definition mathified (e : @expr N) : bool := match e with Leaf (M _) => true | Leaf _ => false | Call _ => true | _ => true end.
Fixpoint infixable (gens : nat -> nat -> option N) (e : @expr N) : Prop :=
  match e with
  | Leaf v => match v with M v => match bare v with Num _ => False | _ => True end | _ => True end
  | Call _ => True
  | Bin o a b =>
      infixable gens a /\ infixable gens b /\
      (compares o && is_seq (means gens a) && is_seq (means gens b) = true -> mathified a = true) /\
      (is_seq (means gens a) || is_seq (means gens b) = true ->
       (is_seq (means gens a) && mathified a) || (is_seq (means gens b) && mathified b) = true)
  | Pre _ a => infixable gens a /\ (is_seq (means gens a) = true -> mathified a = true)
  | Pow3 a b _ =>
      infixable gens a /\ infixable gens b /\
      (is_seq (means gens a) || is_seq (means gens b) = true -> is_seq (means gens a) = true /\ mathified a = true)
  end.
(** The generators that occur in it, as often as they occur *)
Fixpoint gens_of_val (v : @val N) : list nat := match v with Gen i => [i] | M v => gens_of_val v | _ => [] end.
Fixpoint gens_of (e : @expr N) : list nat :=
  match e with
  | Leaf v => gens_of_val v
  | Call _ => []
  | Bin _ a b | Pow3 a b _ => gens_of a ++ gens_of b
  | Pre _ a => gens_of a
  end.
(** Generator i of the heap has yet to yield this. *)
Definition yields (h : @heap N) (gens : nat -> nat -> option N) (i : nat) : Prop :=
  exists f p, nth_error h i = Some (Src f p) /\ forall k, gens i k = f (p + k).
(** The first n terms: up to the first that is not there, or raises *)
Fixpoint upto (n : nat) (t : nat -> outcome (option N)) : list N * option exn :=
  match n with
  | O => ([], None)
  | S n =>
      match t 0 with
      | Ok (Some z) => let '(l, x) := upto n (fun k => t (S k)) in (z :: l, x)
      | Ok None => ([], None)
      | Raise x => ([], Some x)
      end
  end.
(** Comparisons mirror each other. *)
Definition mirrored : Prop := forall x y, prim2 Lt x y = prim2 Gt y x /\ prim2 Le x y = prim2 Ge y x /\ prim2 Eq x y = prim2 Eq y x /\ prim2 Ne x y = prim2 Ne y x.
End Spec.
