(** Proofs for C55. *)
From Coq Require Import List Lia.
From Verif Require Import Base LoopModel LoopSpec.
Import ListNotations.
Open Scope list_scope.

Section LoopProofs.
Context {V U : Type}.

Section Body.
Context {J L : Type}.
Variable do_loop do_cnt : list V -> L -> outcome (rv (V:=V) J) * L.
Definition of_call (o : outcome (rv (V:=V) J)) : bres (V:=V) J := match o with Ok r => BRet r | Raise e => BExc e end.
Lemma run_decides (p : prog V U J) u d u1 l : decides p u d u1 ->
  run_body do_loop do_cnt p u l =
  match d with
  | DLoop args => (of_call (fst (do_loop args l)), u1, snd (do_loop args l))
  | DCnt args => (of_call (fst (do_cnt args l)), u1, snd (do_cnt args l))
  | DBreak v => (BBrk v, u1, l)
  | DReturn v => (BRet (RVal v), u1, l)
  | DRaise e => (BExc e, u1, l)
  end.
Proof.
  induction 1 as [args k u Hk|args k u Hk|v u|v u|e u|g k u u1 v d u2 Hg Hd IH]; cbn; try reflexivity.
  - destruct (do_loop args l) as [r l1]. rewrite Hk. now destruct r.
  - destruct (do_cnt args l) as [r l1]. rewrite Hk. now destruct r.
  - rewrite Hg. exact IH.
Qed.
Lemma trampoline_mono fuel : forall fuel' (body : J -> prog V U J) cnt j u l x, fuel <= fuel' ->
  trampoline do_loop fuel body cnt j u l = Some x -> trampoline do_loop fuel' body cnt j u l = Some x.
Proof.
  induction fuel as [|fuel IH]; [discriminate|]. intros [|fuel'] body cnt j u l x Hle; [lia|]. cbn.
  destruct (run_body do_loop (cnt j) (body j) u l) as [[r u1] l1]. destruct r as [[v|j']|e|v]; auto.
  apply IH. lia.
Qed.
End Body.

(** looped *)
Lemma looped_complete (body : list V -> prog V U (list V)) args u r u1 : loops body args u r u1 ->
  exists fuel, trampoline looped_loop fuel body (fun _ => no_cnt) args u tt = Some (r, u1, tt).
Proof.
  induction 1 as [args u args' u1 r u2 Hd _ [fuel IH]|args u v u1 Hd|args u v u1 Hd|args u e u1 Hd].
  - exists (S fuel). cbn. now rewrite (run_decides _ _ _ _ _ _ tt Hd).
  - exists 1. cbn. now rewrite (run_decides _ _ _ _ _ _ tt Hd).
  - exists 1. cbn. now rewrite (run_decides _ _ _ _ _ _ tt Hd).
  - exists 1. cbn. now rewrite (run_decides _ _ _ _ _ _ tt Hd).
Qed.
Lemma looped_sound (body : list V -> prog V U (list V)) (HD : decisive body) (HC : no_continue body) fuel : forall args u r u1,
  trampoline looped_loop fuel body (fun _ => no_cnt) args u tt = Some (r, u1, tt) -> loops body args u r u1.
Proof.
  induction fuel as [|fuel IH]; [discriminate|]. intros args u r u1. cbn.
  destruct (HD args u) as (d & u2 & Hd). rewrite (run_decides _ _ _ _ _ _ tt Hd).
  destruct d as [args'|args'|v|v|e]; cbn.
  - intros H. eapply LpLoop; [exact Hd|]. now apply IH.
  - exfalso. exact (HC _ _ _ _ Hd).
  - intros E. injection E as <- <-. now apply LpBreak.
  - intros E. injection E as <- <-. now apply LpReturn.
  - intros E. injection E as <- <-. now apply LpRaise.
Qed.
Lemma looped_iff (body : list V -> prog V U (list V)) u r u1 : decisive body -> no_continue body ->
  ((exists fuel, looped fuel body u = Some (r, u1)) <-> loops body [] u r u1).
Proof.
  intros HD HC. split.
  - intros [fuel H]. unfold looped in H.
    destruct (trampoline looped_loop fuel body (fun _ => no_cnt) [] u tt) as [[[r' u'] []]|] eqn:E; [|discriminate].
    injection H as <- <-. eapply looped_sound; eauto.
  - intros H. destruct (looped_complete _ _ _ _ _ H) as [fuel E]. exists fuel. unfold looped. now rewrite E.
Qed.

(** looped_over *)
Context {X It : Type}.
Variable next : It -> itres (X:=X) (It:=It).
Variable body : X -> V -> list V -> prog V U (jump_args V X).
Let ubody : jump_args V X -> prog V U (jump_args V X) := fun '(x, acc, _, rest) => body x acc rest.

(** What the jump [(x, acc, acc, rest)] does, the iterator having been advanced *)
Definition from_call (cnt : jump_args V X -> list V -> It * V -> outcome (rv (V:=V) (jump_args V X)) * (It * V)) it acc rest u r u1 : Prop :=
  exists fuel, match next it with
  | IStop => Some (Ok acc, u)
  | IRaise e => Some (Raise e, u)
  | INext x it' => match trampoline (over_loop next) fuel ubody cnt (x, acc, acc, rest) u (it', acc) with
                   | Some (r, u, _) => Some (r, u) | None => None end
  end = Some (r, u1).

Section Kind.
Variable breakable : bool.
Let cnt : jump_args V X -> list V -> It * V -> outcome (rv (V:=V) (jump_args V X)) * (It * V) := if breakable then over_cnt next else (fun _ => no_cnt).

Lemma step_loop fuel j u u1 args it acc : run_body (over_loop next) (cnt j) (ubody j) u (it, acc) =
    (of_call (fst (over_loop next args (it, acc))), u1, snd (over_loop next args (it, acc))) ->
  trampoline (over_loop next) (S fuel) ubody cnt j u (it, acc) =
  let newacc := match args with a :: _ => a | [] => acc end in
  match next it with
  | IStop => Some (Ok newacc, u1, (it, newacc))
  | IRaise e => Some (Raise e, u1, (it, newacc))
  | INext x it' => trampoline (over_loop next) fuel ubody cnt (x, newacc, newacc, tl args) u1 (it', newacc)
  end.
Proof.
  intros E. cbn [trampoline]. rewrite E. cbn [over_loop]. now destruct (next it) as [x it'| |e].
Qed.

Lemma over_complete it acc rest u r u1 :
  (breakable = true \/ forall x acc rest, no_continue (fun _ : unit => body x acc rest)) ->
  for_loop next body it acc rest u r u1 -> from_call cnt it acc rest u r u1.
Proof.
  intros HC. unfold from_call.
  induction 1 as [it acc rest u E|it acc rest u e E|it acc rest u x it' acc' rest' u1 r u2 E Hd _ [fuel IH]
    |it acc rest u x it' u1 r u2 E Hd _ [fuel IH]|it acc rest u x it' rest' u1 r u2 E Hd _ [fuel IH]
    |it acc rest u x it' v u1 E Hd|it acc rest u x it' v u1 E Hd|it acc rest u x it' e u1 E Hd].
  - exists 0. now rewrite E.
  - exists 0. now rewrite E.
  - exists (S fuel). rewrite E. pose proof (run_decides (over_loop next) (cnt (x, acc, acc, rest)) _ _ _ _ (it', acc) Hd) as Hr.
    cbv iota in Hr. rewrite (step_loop fuel (x, acc, acc, rest) u u1 _ _ _ Hr). cbn [tl]. cbv zeta.
    destruct (next it'); exact IH.
  - exists (S fuel). rewrite E. pose proof (run_decides (over_loop next) (cnt (x, acc, acc, rest)) _ _ _ _ (it', acc) Hd) as Hr.
    cbv iota in Hr. rewrite (step_loop fuel (x, acc, acc, rest) u u1 _ _ _ Hr). cbn [tl]. cbv zeta.
    destruct (next it'); exact IH.
  - destruct HC as [HB|HC]; [|exfalso; exact (HC x acc rest tt _ _ _ Hd)].
    exists (S fuel). rewrite E. pose proof (run_decides (over_loop next) (cnt (x, acc, acc, rest)) _ _ _ _ (it', acc) Hd) as Hr.
    cbv iota in Hr. unfold cnt in Hr at 2 3. rewrite HB in Hr. unfold over_cnt in Hr.
    rewrite (step_loop fuel (x, acc, acc, rest) u u1 _ _ _ Hr). cbn [tl]. cbv zeta.
    destruct (next it'); exact IH.
  - exists 1. rewrite E. cbn [trampoline]. unfold ubody at 1. now rewrite (run_decides (over_loop next) (cnt (x, acc, acc, rest)) _ _ _ _ (it', acc) Hd).
  - exists 1. rewrite E. cbn [trampoline]. unfold ubody at 1. now rewrite (run_decides (over_loop next) (cnt (x, acc, acc, rest)) _ _ _ _ (it', acc) Hd).
  - exists 1. rewrite E. cbn [trampoline]. unfold ubody at 1. now rewrite (run_decides (over_loop next) (cnt (x, acc, acc, rest)) _ _ _ _ (it', acc) Hd).
Qed.

Lemma over_sound (HD : forall x acc rest, decisive (fun _ : unit => body x acc rest))
  (HC : breakable = true \/ forall x acc rest, no_continue (fun _ : unit => body x acc rest)) fuel : forall it acc rest u r u1,
  match next it with
  | IStop => Some (Ok acc, u)
  | IRaise e => Some (Raise e, u)
  | INext x it' => match trampoline (over_loop next) fuel ubody cnt (x, acc, acc, rest) u (it', acc) with
                   | Some (r, u, _) => Some (r, u) | None => None end
  end = Some (r, u1) -> for_loop next body it acc rest u r u1.
Proof.
  induction fuel as [|fuel IH]; intros it acc rest u r u1; destruct (next it) as [x it'| |e] eqn:E.
  - discriminate.
  - intros H. injection H as <- <-. now apply FlEnd.
  - intros H. injection H as <- <-. now apply FlBad.
  - destruct (HD x acc rest tt u) as (d & u2 & Hd). cbv beta in Hd.
    pose proof (run_decides (over_loop next) (cnt (x, acc, acc, rest)) _ _ _ _ (it', acc) Hd) as Hr.
    destruct d as [args|args|v|v|e].
    + rewrite (step_loop fuel (x, acc, acc, rest) u u2 _ _ _ Hr). cbv zeta. intros H. destruct args as [|a args].
      * eapply FlSkip; [exact E|exact Hd|]. apply IH. cbn [tl] in H. destruct (next it'); exact H.
      * eapply FlLoop; [exact E|exact Hd|]. apply IH. cbn [tl] in H. destruct (next it'); exact H.
    + destruct HC as [HB|HC']; [|exfalso; exact (HC' x acc rest tt _ _ _ Hd)].
      unfold cnt in Hr at 2 3. rewrite HB in Hr. unfold over_cnt in Hr.
      rewrite (step_loop fuel (x, acc, acc, rest) u u2 _ _ _ Hr). cbv zeta. intros H.
      eapply FlContinue; [exact E|exact Hd|]. apply IH. cbn [tl] in H. destruct (next it'); exact H.
    + cbn [trampoline]. unfold ubody at 1. rewrite Hr. intros H. injection H as <- <-. eapply FlBreak; eauto.
    + cbn [trampoline]. unfold ubody at 1. rewrite Hr. intros H. injection H as <- <-. eapply FlReturn; eauto.
    + cbn [trampoline]. unfold ubody at 1. rewrite Hr. intros H. injection H as <- <-. eapply FlRaise; eauto.
  - intros H. injection H as <- <-. now apply FlEnd.
  - intros H. injection H as <- <-. now apply FlBad.
Qed.
End Kind.

Lemma looped_over_iff it acc u r u1 :
  (forall x acc rest, decisive (fun _ : unit => body x acc rest)) ->
  (forall x acc rest, no_continue (fun _ : unit => body x acc rest)) ->
  ((exists fuel, looped_over next fuel it acc body u = Some (r, u1)) <-> for_loop next body it acc [] u r u1).
Proof.
  intros HD HC. split.
  - intros [fuel H]. exact (over_sound false HD (or_intror HC) fuel it acc [] u r u1 H).
  - intros H. exact (over_complete false it acc [] u r u1 (or_intror HC) H).
Qed.
Lemma breakably_iff it acc u r u1 :
  (forall x acc rest, decisive (fun _ : unit => body x acc rest)) ->
  ((exists fuel, breakably_looped_over next fuel it acc body u = Some (r, u1)) <-> for_loop next body it acc [] u r u1).
Proof.
  intros HD. split.
  - intros [fuel H]. exact (over_sound true HD (or_introl eq_refl) fuel it acc [] u r u1 H).
  - intros H. exact (over_complete true it acc [] u r u1 (or_introl eq_refl) H).
Qed.
End LoopProofs.

(** The iterator of a list *)
Definition list_next {X} (l : list X) : itres (X:=X) (It:=list X) := match l with [] => IStop | x :: l => INext x l end.
Lemma fold_loop {V U X} (g : X -> V -> V) (l : list X) acc (u : U) :
  exists fuel, looped_over list_next fuel l acc (fun x acc _ => Loop [g x acc] (fun r => hand_on r)) u =
    Some (Ok (fold_left (fun a x => g x a) l acc), u).
Proof.
  apply (looped_over_iff (U:=U) list_next).
  - intros x a r [] u'. exists (DLoop [g x a]), u'. now constructor.
  - intros x a r [] u' args u1 H. inversion H.
  - revert acc. induction l as [|x l IH]; intros acc; cbn.
    + now apply FlEnd.
    + eapply FlLoop; [reflexivity|now constructor|]. apply IH.
Qed.
Lemma breakably_fold {V U X} (g : X -> V -> V) (skip : X -> bool) (stop : X -> V -> option V) (l : list X) acc (u : U) :
  exists fuel, breakably_looped_over list_next fuel l acc
    (fun x acc _ => match stop x acc with
                    | Some v => Brk v
                    | None => if skip x then Cnt [] (fun r => hand_on r) else Loop [g x acc] (fun r => hand_on r)
                    end) u =
    Some (Ok ((fix go l acc := match l with
                               | [] => acc
                               | x :: l => match stop x acc with
                                           | Some v => v
                                           | None => go l (if skip x then acc else g x acc)
                                           end
                               end) l acc), u).
Proof.
  apply (breakably_iff (U:=U) list_next).
  - intros x a r [] u'. destruct (stop x a); [|destruct (skip x)]; eexists _, u'; now constructor.
  - revert acc. induction l as [|x l IH]; intros acc.
    + now apply FlEnd.
    + destruct (stop x acc) as [v|] eqn:E.
      * eapply FlBreak; [reflexivity|]. cbv beta. rewrite E. constructor.
      * destruct (skip x) eqn:Es.
        -- eapply FlContinue; [reflexivity| |apply IH]. cbv beta. rewrite E, Es. now constructor.
        -- eapply FlLoop; [reflexivity| |apply IH]. cbv beta. rewrite E, Es. now constructor.
Qed.
