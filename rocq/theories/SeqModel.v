(** Model of [s] (unpythonic/mathseq.py 104-455), for exact arithmetic.

    Elements are [fractions.Fraction] (mode [Exact]): all arithmetic in [s] is then
    exact, and [almosteq] (numutil.py 35-66) is plain equality as its arguments are
    neither float nor int.  Mode [Ints] is for int elements; true division of ints
    is modelled as exact (float rounding is not modelled), and [almosteq] is the
    relative comparison.  Decisions made with floating-point logarithms (power
    sequences, and the number of terms of a finite geometric sequence) are not
    modelled: the result is then [Unmodelled]. *)
From Verif Require Import Base ItrModel.
From Coq Require Import List Bool QArith Qabs Qround.
Import ListNotations.
Open Scope Q_scope.

(** Fractions, which are compared exactly, or ints, which are compared approximately (mathseq.py, almosteq). *)
Inductive mode := Exact | Ints.
(** numutil.py 35-66 *)
Definition almosteq (md : mode) (a b : Q) : bool :=
  if Qeq_bool a b then true
  else match md with
       | Exact => false
       | Ints => if Qeq_bool a 0 || Qeq_bool b 0 then false
                 else negb (Qle_bool (1 # 100000000) (Qabs (a - b) / (Qabs a + Qabs b)))
       end.

(** An element of the specification: a number, [...], or a list of repeating numbers. *)
Inductive elt := Num (q : Q) | Dots | Lst (l : list Q).

(** What `analyze` finds (mathseq.py, as cited at the function below). *)
Inductive desc :=
| Const (x0 : elt)
| Arith (x0 d : Q)
| Geom (x0 r : Q).
(** Result of a computation that may leave the modelled fragment. *)
Inductive res (A : Type) := Done (o : outcome A) | Unmodelled.
Arguments Done {A} o.
Arguments Unmodelled {A}.
(** One computation after another (no code in /repo). *)
Definition rbind {A B} (x : res A) (f : A -> res B) : res B :=
  match x with Done (Ok a) => f a | Done (Raise e) => Done (Raise e) | Unmodelled => Unmodelled end.

(** mathseq.py 284-289 *)
Definition analyze2 (a0 a1 : Q) : desc :=
  let d1 := a1 - a0 in
  if Qeq_bool d1 0 then Const (Num a0) else Arith a0 d1.
(** mathseq.py 290-320 *)
Definition analyze3 (md : mode) (a0 a1 a2 : Q) : res desc :=
  let d1 := a1 - a0 in
  let d2 := a2 - a1 in
  if Qeq_bool d2 d1 && Qeq_bool d1 0 then Done (Ok (Const (Num a0)))
  else if almosteq md d2 d1 then
    Done (Ok (Arith a0 (if Qeq_bool d1 d2 then d1 else (d1 + d2) / 2)))
  else
    let nz := negb (Qeq_bool a0 0) && negb (Qeq_bool a1 0) && negb (Qeq_bool a2 0) in
    let r1 := a1 / a0 in
    let r2 := a2 / a1 in
    if nz && almosteq md r2 r1 then
      Done (Ok (Geom a0 (match md with
                         | Ints => if Qeq_bool (inject_Z (Qfloor r1)) r1 && Qeq_bool (inject_Z (Qfloor r2)) r2
                                   then inject_Z (Qfloor r1) else (r1 + r2) / 2
                         | Exact => (r1 + r2) / 2
                         end)))
    else if negb (Qeq_bool (Qabs a0) 1) && negb (Qeq_bool a1 0) && negb (Qeq_bool a2 0) then Unmodelled
    else Done (Raise SyntaxError).
(** the comprehension at mathseq.py 322, over [window(3, spec)] *)
Fixpoint analyze_triplets (md : mode) (spec : list Q) : res (list desc) :=
  match spec with
  | a0 :: ((a1 :: a2 :: _) as spec') =>
      rbind (analyze3 md a0 a1 a2) (fun d =>
      rbind (analyze_triplets md spec') (fun ds => Done (Ok (d :: ds))))
  | _ => Done (Ok [])
  end.
(** mathseq.py 324-327, comparing the type and the parameter with those of the first *)
Definition agrees (md : mode) (first d : desc) : bool :=
  match first, d with
  | Const _, Const _ => true
  | Arith _ k, Arith _ k' => almosteq md k' k
  | Geom _ k, Geom _ k' => almosteq md k' k
  | _, _ => false
  end.
(** All items as numbers, if they are. *)
Fixpoint numbers (spec : list elt) : option (list Q) :=
  match spec with
  | [] => Some []
  | Num q :: spec' => match numbers spec' with Some l => Some (q :: l) | None => None end
  | _ => None
  end.
(** mathseq.py 279-331; [spec] is not empty.  Subtracting elements that are not
    numbers is a TypeError. *)
Definition analyze (md : mode) (spec : list elt) : res desc :=
  match spec with
  | [a0] => Done (Ok (Const a0))
  | _ =>
      match numbers spec with
      | None => Done (Raise TypeError)
      | Some [a0; a1] => Done (Ok (analyze2 a0 a1))
      | Some [a0; a1; a2] => analyze3 md a0 a1 a2
      | Some l =>
          rbind (analyze_triplets md l) (fun data =>
          match data with
          | first :: rest => if forallb (agrees md first) rest then Done (Ok first) else Done (Raise SyntaxError)
          | [] => Done (Raise ValueError)  (* not reached: at least two triplets *)
          end)
      end
  end.

(** mathseq.py 271-277 [is_almost_int]: for a Fraction, being an integer.  ([float(round(x))]
    is taken to be exact, i.e. fewer than 2**53 terms.) *)
Definition is_int (a : Q) : bool := Qeq_bool (inject_Z (Qfloor a)) a.
(** mathseq.py 335-359; [None] = no number of terms ([False] or [infty]): a SyntaxError
    at 397-400.  Geometric sequences need logarithms. *)
Definition nofterms (d : desc) (last : Q) : res (option Z) :=
  match d with
  | Const _ => Done (Ok None)
  | Arith x0 k =>
      let a := (last - x0) / k in
      if is_int a && negb (Qle_bool a 0) then Done (Ok (Some (1 + Qfloor a)%Z)) else Done (Ok None)
  | Geom _ _ => Unmodelled
  end.

(** mathseq.py 403-440: item [j] of the infinite sequence *)
Definition qpow (k : Q) (j : nat) : Q := Qpower k (Z.of_nat j).
(** Item j of what s() returns: mathseq.py 403-440 *)
Definition generate (d : desc) (j : nat) : elt :=
  match d with
  | Const x0 => x0
  | Arith x0 k => Num (x0 + inject_Z (Z.of_nat j) * k)
  | Geom x0 k => Num (if Qle_bool 1 (Qabs k) then x0 * qpow k j else x0 / qpow (1 / k) j)
  end.
(** mathseq.py 407-411 *)
Definition cyclic (initial : list elt) (repeating : list Q) (j : nat) : option elt :=
  match nth_error initial j with
  | Some x => Some x
  | None => option_map Num (nth_error repeating ((j - length initial) mod length repeating))
  end.

(** The element is `...`. *)
Definition is_dots (e : elt) : bool := match e with Dots => true | _ => false end.
(** [*spec, last = spec] *)
Fixpoint split_last {A} (l : list A) : option (list A * A) :=
  match l with
  | [] => None
  | [x] => Some ([], x)
  | x :: l' => match split_last l' with Some (i, y) => Some (x :: i, y) | None => None end
  end.
(** mathseq.py 362-369 *)
Definition iscyclic (spec : list elt) : outcome (option (list elt * list Q)) :=
  match split_last spec with
  | None => Raise AssertionError
  | Some (init, Lst []) => Raise SyntaxError
  | Some (init, Lst l) => Ok (Some (init, l))
  | Some _ => Ok None
  end.
(** mathseq.py 371-455.  The result gives item [j], [None] past the end. *)
Definition s (md : mode) (spec : list elt) : res (nat -> option elt) :=
  if negb (existsb is_dots spec) then
    match iscyclic spec with
    | Raise e => Done (Raise e)
    | Ok (Some _) => Done (Raise SyntaxError)
    | Ok None => Done (Ok (nth_error spec))
    end
  else
    match split_last spec with
    | None => Done (Raise ValueError)  (* not reached: spec contains Dots *)
    | Some ([], Dots) => Done (Raise SyntaxError)
    | Some (spec1, Dots) =>
        match iscyclic spec1 with
        | Raise e => Done (Raise e)
        | Ok (Some (init, rep)) => Done (Ok (cyclic init rep))
        | Ok None => rbind (analyze md spec1) (fun d => Done (Ok (fun j => Some (generate d j))))
        end
    | Some (spec1, last) =>
        match split_last spec1 with
        | None => Done (Raise ValueError)  (* not reached *)
        | Some ([], Dots) => Done (Raise SyntaxError)
        | Some (spec2, Dots) =>
            rbind (analyze md spec2) (fun d =>
            match last with
            | Num q =>
                rbind (nofterms d q) (fun n =>
                match n with
                | None => Done (Raise SyntaxError)
                | Some n => Done (Ok (fun j => if (Z.of_nat j <? n)%Z then Some (generate d j) else None))
                end)
            | _ => match d with Const _ => Done (Raise SyntaxError) | _ => Done (Raise TypeError) end
            end)
        | Some _ => Done (Raise SyntaxError)
        end
    end.
