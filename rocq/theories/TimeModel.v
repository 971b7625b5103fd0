(** Model of unpythonic/timeutil.py.  Numbers of seconds are exact rationals; floating point rounding
    is not modelled. *)
From Coq Require Import String ZArith QArith Qround List.
From Verif Require Import Base.
Import ListNotations.
Open Scope string_scope.
Open Scope Z_scope.
Open Scope list_scope.

(** timeutil.py 11-20 *)
Definition seconds_to_human (s : Q) : Z * Z * Z * Q :=
  let d := Qfloor (s / 86400) in
  let s := (s - inject_Z (d * 86400))%Q in
  let h := Qfloor (s / 3600) in
  let s := (s - inject_Z (h * 3600))%Q in
  let m := Qfloor (s / 60) in
  let s := (s - inject_Z (m * 60))%Q in
  (d, h, m, s).

(** A formatted piece of text: {n:d}, {n:02d} or a literal *)
Inductive piece := Dec (n : Z) | Dec2 (n : Z) | Lit (t : string).
(** int(s): truncation towards zero *)
Definition int_of (s : Q) : Z := if Qle_bool 0 s then Qfloor s else - Qfloor (- s).
(** timeutil.py 23-48 *)
Definition format_human_time (s : Q) : list piece :=
  let '(d, h, m, s) := seconds_to_human s in
  if (d =? 0) && (h =? 0) && (m =? 0) then
    [Dec (int_of s); Lit (if int_of s =? 1 then " second" else " seconds")]
  else
    (if 0 <? d then [Dec d; Lit (if 1 <? d then " days " else " day ")] else []) ++
    (if (0 <? d) || (0 <? h) then [Dec2 h; Lit ":"] else []) ++
    [Dec2 m; Lit ":"] ++
    [Dec2 (int_of s)].

(** ETAEstimator (timeutil.py 51-127); [keep_last = None]: unbounded *)
Record eta := mkEta { t1 : Q; t0 : Q; total : Z; completed : Z; que : list Q; keep_last : option nat }.
(** ETAEstimator.__init__: timeutil.py 72-77 *)
Definition eta_init (now : Q) (total : Z) (keep_last : option nat) : eta := mkEta now now total 0 [] keep_last.
(** collections.deque.append with maxlen: drops from the left *)
Definition deque_append (maxlen : option nat) (l : list Q) (x : Q) : list Q :=
  let l := l ++ [x] in
  match maxlen with None => l | Some n => skipn (length l - n) l end.
(** timeutil.py 83-89 *)
Definition tick (now : Q) (e : eta) : eta :=
  mkEta now (t0 e) (total e) (completed e + 1) (deque_append (keep_last e) (que e) (now - t1 e)%Q) (keep_last e).
(** The built-in [sum]. *)
Definition qsum (l : list Q) : Q := fold_left Qplus l 0%Q.
(** timeutil.py 91-113 *)
Definition estimate (e : eta) : outcome (option Q) :=
  if completed e =? 0 then Ok None
  else
    let remaining := total e - completed e in
    if remaining <=? 0 then Ok (Some 0%Q)
    else match que e with
         | [] => Raise ZeroDivisionError
         | _ => Ok (Some (inject_Z remaining * (qsum (que e) / inject_Z (Z.of_nat (length (que e))))))%Q
         end.
