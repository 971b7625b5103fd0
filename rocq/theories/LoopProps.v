(** C55: functional loops. *)
From Coq Require Import List.
From Verif Require Import Base LoopModel LoopSpec LoopProofs.
Import ListNotations.
Open Scope nat_scope.
Open Scope list_scope.

(** @looped and @breakably_looped end exactly when, and as, the loop does. *)
Theorem C55_looped : forall (V U : Type) (body : list V -> prog V U (list V)) u r u1,
  decisive body -> no_continue body ->
  ((exists fuel, looped fuel body u = Some (r, u1)) <-> loops body [] u r u1).
Proof. exact @looped_iff. Qed.
Print Assumptions C55_looped.

(** @looped_over: a for loop with an accumulator; loop() keeps the accumulator. *)
Theorem C55_looped_over : forall (V U X It : Type) (next : It -> itres (X:=X) (It:=It))
  (body : X -> V -> list V -> prog V U (jump_args V X)) it acc u r u1,
  (forall x acc rest, decisive (fun _ : unit => body x acc rest)) ->
  (forall x acc rest, no_continue (fun _ : unit => body x acc rest)) ->
  ((exists fuel, looped_over next fuel it acc body u = Some (r, u1)) <-> for_loop next body it acc [] u r u1).
Proof. exact @looped_over_iff. Qed.
Print Assumptions C55_looped_over.

(** @breakably_looped_over: the same with continue and break. *)
Theorem C55_breakably_looped_over : forall (V U X It : Type) (next : It -> itres (X:=X) (It:=It))
  (body : X -> V -> list V -> prog V U (jump_args V X)) it acc u r u1,
  (forall x acc rest, decisive (fun _ : unit => body x acc rest)) ->
  ((exists fuel, breakably_looped_over next fuel it acc body u = Some (r, u1)) <-> for_loop next body it acc [] u r u1).
Proof. exact @breakably_iff. Qed.
Print Assumptions C55_breakably_looped_over.

(** With a body that returns loop(g(x, acc)): the left fold. *)
Theorem C55_fold : forall (V U X : Type) (g : X -> V -> V) (l : list X) acc (u : U),
  exists fuel, looped_over list_next fuel l acc (fun x acc _ => Loop [g x acc] (fun r => hand_on r)) u =
    Some (Ok (fold_left (fun a x => g x a) l acc), u).
Proof. exact @fold_loop. Qed.
Print Assumptions C55_fold.

(** Continue skips an item and break stops with its value. *)
Theorem C55_continue_break : forall (V U X : Type) (g : X -> V -> V) (skip : X -> bool) (stop : X -> V -> option V) (l : list X) acc (u : U),
  exists fuel, breakably_looped_over list_next fuel l acc
    (fun x acc _ => match stop x acc with
                    | Some v => Brk v
                    | None => if skip x then Cnt [] (fun r => hand_on r) else Loop [g x acc] (fun r => hand_on r)
                    end) u =
    Some (Ok ((fix go l acc := match l with
                               | [] => acc
                               | x :: l => match stop x acc with
                                           | Some v => v
                                           | None => go l (if skip x then acc else g x acc)
                                           end
                               end) l acc), u).
Proof. exact @breakably_fold. Qed.
Print Assumptions C55_continue_break.

(** The answer is the same for any fuel that suffices. *)
Theorem C55_deterministic : forall (V U J L : Type) (do_loop : list V -> L -> outcome (rv (V:=V) J) * L) fuel fuel'
  (body : J -> prog V U J) cnt j u l x, fuel <= fuel' ->
  trampoline do_loop fuel body cnt j u l = Some x -> trampoline do_loop fuel' body cnt j u l = Some x.
Proof. intros V U J L do_loop. exact (@trampoline_mono V U J L do_loop). Qed.
Print Assumptions C55_deterministic.

(** A body with an effect, an extra argument, a skip and a break; and factorial by @looped. *)
Definition push (x : nat) : list nat -> list nat * nat := fun u => (u ++ [x], 0).
Definition demo (x acc : nat) (rest : list nat) : prog nat (list nat) (jump_args nat nat) :=
  Eff (push x) (fun _ => if Nat.eqb x 3 then Cnt [7] (fun r => hand_on r)
                         else if Nat.eqb x 5 then Brk (acc + hd 0 rest)
                         else Loop [acc + x] (fun r => hand_on r)).
Example C55_ex : (forall x acc rest, decisive (fun _ : unit => demo x acc rest)) /\
  breakably_looped_over list_next 10 [1; 2; 3; 5; 6] 0 demo [] = Some (Ok 10, [1; 2; 3; 5]) /\
  looped 10 (fun args => match args with
                         | [] => Loop [5; 1] (fun r => hand_on r)
                         | 0 :: acc :: _ => Ret (RVal acc)
                         | S n :: acc :: _ => Loop [n; S n * acc] (fun r => hand_on r)
                         | _ => Throw TypeError
                         end) tt = Some (Ok 120, tt).
Proof.
  split; [|split; reflexivity]. intros x acc rest [] u. unfold demo.
  destruct (Nat.eqb x 3) eqn:E3; [|destruct (Nat.eqb x 5) eqn:E5];
    eexists _, _; (eapply DecEff; [reflexivity|]); now constructor.
Qed.
