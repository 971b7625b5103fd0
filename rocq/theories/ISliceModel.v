(** Model of [islice] (unpythonic/slicing.py 12-91) on finite iterables. *)
From Verif Require Import Base ItrModel.
From Coq Require Import ZArith List Bool.
Import ListNotations.
Open Scope Z_scope.

(** [itertools.islice(it, start, stop, step)] (built-in): every step-th item from
    start, before stop; negative start or stop or step < 1 raise ValueError. *)
Fixpoint every {A} (step wait : nat) (l : list A) : list A :=
  match l with
  | [] => []
  | x :: l' => match wait with O => x :: every step (step - 1) l' | S w => every step w l' end
  end.
(** The same as a function; the arguments that slicing.py 12-93 gives to it. *)
Definition islicef {A} (l : list A) (start stop step : option Z) : outcome (list A) :=
  let start := match start with Some k => k | None => 0 end in
  let step := match step with Some k => k | None => 1 end in
  if (start <? 0) || (match stop with Some k => k <? 0 | None => false end) || (step <? 1)
  then Raise ValueError
  else Ok (every (Z.to_nat step) 0
             (skipn (Z.to_nat start) (match stop with Some k => firstn (Z.to_nat k) l | None => l end))).

(** Python truthiness of an optional int. *)
Definition truthy (k : option Z) : bool := match k with Some k => negb (k =? 0) | None => false end.
(** Whether it is there and negative: slicing.py 12-93 *)
Definition neg (k : option Z) : bool := match k with Some k => k <? 0 | None => false end.
(** The number, or 0: slicing.py 12-93 *)
Definition val (k : option Z) : Z := match k with Some k => k | None => 0 end.

(** [islice1.__getitem__] with a slice (slicing.py 59-89); the iterator returned is
    consumed to the end.  [CountingIterator.count] after forcing is the length. *)
Definition islice_slice {A} (l : list A) (s : pyslice) : outcome (list A) :=
  let start := sl_start s in let stop := sl_stop s in let step := sl_step s in
  if truthy start && neg start && truthy stop && neg stop then
    islicef (butlastn (Z.to_nat (- val stop)) (lastn (Z.to_nat (- val start)) l)) None None step
  else if truthy start && neg start then
    let n := - val start in
    if negb (truthy stop) then islicef (lastn (Z.to_nat n) l) None stop step
    else
      let it := lastn (Z.to_nat n) l in
      let n_dropped := Z.max 0 (zlen l - n) in
      let stop := val stop - n_dropped in
      if stop <? 0 then Raise AssertionError else islicef it None (Some stop) step
  else if truthy stop && neg stop then
    islicef (butlastn (Z.to_nat (- val stop)) l) start None step
  else islicef l start stop step.

(** [islice1.__getitem__] with an int (slicing.py 89-91); [None] is the default of
    [first]. *)
Definition islice_index {A} (l : list A) (k : Z) : option A :=
  if k <? 0 then hd_error (lastn (Z.to_nat (- k)) l)
  else hd_error (firstn 1 (skipn (Z.to_nat k) l)).
