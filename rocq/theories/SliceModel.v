(** Model of the slice arithmetic of unpythonic/collections.py, lines 848-954. *)
From Verif Require Import Base.
From Coq Require Import ZArith Bool.
Open Scope Z_scope.

(** [_make_negidx_converter(length)] (collections.py 894-919), its argument
    validation.  Type checks on [length] are by Coq typing.  Not modelled: the
    [isinstance] checks. *)
Definition check_length (length : option Z) : outcome unit :=
  match length with
  | Some n => if n <=? 0 then Raise ValueError else Ok tt
  | None => Ok tt
  end.
(** The inner function [convert] (collections.py 905-918) for a non-None index. *)
Definition convert (length : option Z) (k : Z) : outcome Z :=
  match length with
  | Some n =>
      if negb ((- n <=? k) && (k <=? n)) then Raise IndexError
      else Ok (if k <? 0 then k mod n else k)
  | None => if k <? 0 then Raise ValueError else Ok k
  end.
(** [convert] on an optional index: None passes through (collections.py line 906). *)
Definition convert_opt (length : option Z) (k : option Z) : outcome (option Z) :=
  match k with
  | None => Ok None
  | Some k => omap Some (convert length k)
  end.

(** [_canonize_slice(s, length, wrap)] (collections.py 921-954). *)
Definition canonize_slice (s : pyslice) (length : option Z) : outcome (Z * Z * Z) :=
  let step := match sl_step s with Some k => k | None => 1 end in
  if step =? 0 then Raise ValueError else
  do _ <- check_length length;
  do start0 <- convert_opt length (sl_start s);
  do start <- match start0 with
              | Some k => Ok k
              | None => if 0 <? step then Ok 0
                        else match length with
                             | None => Raise ValueError
                             | Some _ => convert length (-1)
                             end
              end;
  do stop0 <- convert_opt length (sl_stop s);
  do stop <- match stop0 with
             | Some k => Ok k
             | None => if 0 <? step
                       then match length with None => Raise ValueError | Some n => Ok n end
                       else Ok (-1)
             end;
  Ok (start, stop, step).

(** The [s] argument of [in_slice]: a slice or an int. *)
Inductive slice_or_int : Type := SSlice (s : pyslice) | SInt (k : Z).

(** [in_slice(i, s, length)] (collections.py 848-875).  Python evaluates the
    conversion of [i] before looking at [s]. *)
Definition in_slice (i : Z) (s : slice_or_int) (length : option Z) : outcome bool :=
  do _ <- check_length length;
  do i <- convert length i;
  match s with
  | SInt k => do k <- convert length k; Ok (i =? k)
  | SSlice s =>
      do (start, stop, step) <- canonize_slice s length;
      let at_or_after_start := if 0 <? step then start <=? i else i <=? start in
      let before_stop := if 0 <? step then i <? stop else stop <? i in
      let on_grid := (i - start) mod step =? 0 in
      Ok (at_or_after_start && on_grid && before_stop)
  end.

(** [_index_in_slice(i, s, length, _validate=False)] for a slice [s]
    (collections.py 888-892).  [//] is floor division, as is [Z.div]. *)
Definition index_in_slice_novalidate (i : Z) (s : pyslice) (length : option Z) : outcome Z :=
  do (start, _, step) <- canonize_slice s length;
  do i <- convert length i;
  Ok ((i - start) / step).

(** [index_in_slice(i, s, length)] (collections.py 877-892) for a slice [s];
    [None] when [i] is not in the slice.  (For an int [s] the code raises
    TypeError in [_canonize_slice] when [i == s]; not modelled.) *)
Definition index_in_slice (i : Z) (s : pyslice) (length : option Z) : outcome (option Z) :=
  do b <- in_slice i (SSlice s) length;
  if b then omap Some (index_in_slice_novalidate i s length) else Ok None.
