(** C65, C73: times. *)
From Coq Require Import String ZArith QArith Qround List.
From Verif Require Import Base TimeModel TimeSpec TimeProofs.
Import ListNotations.
Open Scope string_scope.
Open Scope Z_scope.
Open Scope list_scope.

(** C65.  Days, hours, minutes and seconds add up, and are in their ranges (for negative numbers too). *)
Theorem C65_positional : forall s d h m r, seconds_to_human s = (d, h, m, r) ->
  (s == inject_Z (86400 * d + 3600 * h + 60 * m) + r)%Q /\ 0 <= h < 24 /\ 0 <= m < 60 /\ (0 <= r < 60)%Q.
Proof. exact human. Qed.
Print Assumptions C65_positional.

(** There is only one such answer. *)
Theorem C65_unique : forall s d h m r d' h' m' r',
  (s == inject_Z (86400 * d + 3600 * h + 60 * m) + r)%Q -> 0 <= h < 24 -> 0 <= m < 60 -> (0 <= r < 60)%Q ->
  (s == inject_Z (86400 * d' + 3600 * h' + 60 * m') + r')%Q -> 0 <= h' < 24 -> 0 <= m' < 60 -> (0 <= r' < 60)%Q ->
  d = d' /\ h = h' /\ m = m' /\ (r == r')%Q.
Proof. exact human_unique. Qed.
Print Assumptions C65_unique.

(** The text, for a nonnegative time, says the whole seconds, in fields that fit. *)
Theorem C65_format : forall s, (0 <= s)%Q ->
  read (format_human_time s) = Some (Qfloor s) /\ Forall fits (format_human_time s).
Proof. exact format_read. Qed.
Print Assumptions C65_format.

(** A negative time is shown as if it were positive. *)
Theorem C65_format_negative_refuted : format_human_time (-5) = format_human_time (86395) /\
  read (format_human_time (-5)) = Some 86395.
Proof. split; reflexivity. Qed.
Print Assumptions C65_format_negative_refuted.

Example C65_ex : exists r, seconds_to_human (180122 + (1 # 2)) = (2, 2, 2, r) /\ (r == 5 # 2)%Q.
Proof. eexists. split; reflexivity. Qed.
Example C65_ex2 : format_human_time 90061 = [Dec 1; Lit " day "; Dec2 1; Lit ":"; Dec2 1; Lit ":"; Dec2 1].
Proof. reflexivity. Qed.

(** C73.  The estimate is the number of remaining tasks times the mean duration of the last tasks (at
    most keep_last of them); None before the first tick, 0 when nothing remains. *)
Theorem C73_estimate_partial : forall now tot k times, k <> Some 0%nat ->
  let e := ticks (eta_init now tot k) times in
  let n := Z.of_nat (length times) in
  match times with
  | [] => estimate e = Ok None
  | _ => exists q, estimate e = Ok (Some q) /\
         (q == (if (tot <=? n)%Z then 0 else inject_Z (tot - n) * mean (lastn k (durations now times))))%Q
  end.
Proof. exact eta_estimate. Qed.
Print Assumptions C73_estimate_partial.

(** With no keep_last: the time from the start to the last tick, scaled. *)
Theorem C73_all : forall now tot times, times <> [] -> Z.of_nat (length times) < tot ->
  exists q, estimate (ticks (eta_init now tot None) times) = Ok (Some q) /\
  (q * inject_Z (Z.of_nat (length times)) == inject_Z (tot - Z.of_nat (length times)) * (last times now - now))%Q.
Proof. exact eta_all. Qed.
Print Assumptions C73_all.

(** keep_last=0 makes reading the estimate fail. *)
Theorem C73_keep_none_refuted : exists now tot times, estimate (ticks (eta_init now tot (Some 0%nat)) times) = Raise ZeroDivisionError.
Proof. exists 0%Q, 3, [1%Q]. reflexivity. Qed.
Print Assumptions C73_keep_none_refuted.

Example C73_ex : exists q, estimate (ticks (eta_init 10 5 (Some 2%nat)) [11; 14; 16]%Q) = Ok (Some q) /\ (q == 5)%Q.
Proof. eexists. split; reflexivity. Qed.
