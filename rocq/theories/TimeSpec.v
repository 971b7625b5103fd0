(** Specification for C65, C73. *)
From Coq Require Import String ZArith QArith Qround List.
From Verif Require Import Base TimeModel.
Import ListNotations.
Open Scope string_scope.
Open Scope Z_scope.
Open Scope list_scope.

(** How a person reads the text *)
Definition read (t : list piece) : option Z :=
  match t with
  | [Dec s; Lit " seconds"] => if s =? 1 then None else Some s
  | [Dec s; Lit " second"] => if s =? 1 then Some s else None
  | [Dec2 m; Lit ":"; Dec2 s] => Some (60 * m + s)
  | [Dec2 h; Lit ":"; Dec2 m; Lit ":"; Dec2 s] => Some (3600 * h + 60 * m + s)
  | [Dec d; Lit " day "; Dec2 h; Lit ":"; Dec2 m; Lit ":"; Dec2 s] => if d =? 1 then Some (86400 * d + 3600 * h + 60 * m + s) else None
  | [Dec d; Lit " days "; Dec2 h; Lit ":"; Dec2 m; Lit ":"; Dec2 s] => if d =? 1 then None else Some (86400 * d + 3600 * h + 60 * m + s)
  | _ => None
  end.
(** Two digits are enough where two digits are printed *)
Definition fits (p : piece) : Prop := match p with Dec2 n => 0 <= n < 60 | Dec n => 0 <= n | Lit _ => True end.

(** Ticks at the given times *)
Definition ticks (e : eta) (times : list Q) : eta := fold_left (fun e t => tick t e) times e.
(** The durations between consecutive times *)
Fixpoint durations (start : Q) (times : list Q) : list Q :=
  match times with [] => [] | t :: ts => (t - start)%Q :: durations t ts end.
(** The last [n] of a list *)
Definition lastn (n : option nat) (l : list Q) : list Q := match n with None => l | Some n => skipn (length l - n) l end.
Fixpoint sum (l : list Q) : Q := match l with [] => 0%Q | x :: l => (x + sum l)%Q end.
Definition mean (l : list Q) : Q := (sum l / inject_Z (Z.of_nat (length l)))%Q.
