(** C115: pickling. *)
From Coq Require Import String List Bool Arith ZArith.
From Verif Require Import Base PklModel PklSpec PklProofs.
Import ListNotations.
Open Scope string_scope.
Open Scope list_scope.
Open Scope nat_scope.

(** Whatever dumps makes of a value can be loaded, in the same or in another process, and gives a copy: sharing and
    cycles are kept, interned objects are the ones of the process, nothing else changes. *)
Theorem C115_round_trip_partial p q n v t : good p -> sound q -> all_supported p v -> dumps n p v = Ok t ->
  exists q' w m, loads q t = Ok (q', w) /\ copied p q q' v w m.
Proof. intros G S'. exact (round_trip p q G S' n v t). Qed.
Print Assumptions C115_round_trip_partial.
(** Everything that can be reached is copied. *)
Theorem C115_all p q q' v w m a : good p -> copied p q q' v w m -> reach p v a -> exists b, In (a, b) m.
Proof. exact (all_copied p q q' v w m a). Qed.
Print Assumptions C115_all.
(** dumps succeeds if the recursion may go as deep as there are objects. *)
Theorem C115_dumps_partial p n v : good p -> all_supported p v -> match v with Ref a => a < length (heap p) | _ => True end ->
  length (heap p) < n -> exists t, dumps n p v = Ok t.
Proof. exact (dumps_ok p n v). Qed.
Print Assumptions C115_dumps_partial.
(** A symbol, gensym, singleton or the empty frozendict that the process has is the one that is loaded. *)
Theorem C115_identity p q n a k c t : good p -> sound q -> all_supported p (Ref a) -> has_identity p a k -> reg q k = Some c ->
  dumps n p (Ref a) = Ok t ->
  exists q', loads q t = Ok (q', Ref c) /\ sound q' /\ forall l x, reg q l = Some x -> reg q' l = Some x.
Proof. exact (loaded_ident p q n a k c t). Qed.
Print Assumptions C115_identity.
(** Loaded twice: the interned objects are the same, the others are not. *)
Theorem C115_twice p q n v t q1 w1 q2 w2 : good p -> sound q -> all_supported p v -> dumps n p v = Ok t ->
  loads q t = Ok (q1, w1) -> loads q1 t = Ok (q2, w2) ->
  match v with
  | Ref a => ((exists k, has_identity p a k) -> w1 = w2) /\ ((forall k, ~ has_identity p a k) -> w1 <> w2)
  | _ => w1 = v /\ w2 = v
  end.
Proof. exact (loaded_twice p q n v t q1 w1 q2 w2). Qed.
Print Assumptions C115_twice.

(** A linked list that is longer than the recursion limit cannot be pickled. *)
Theorem C115_long_refuted : forall limit, exists p v, good p /\ all_supported p v /\
  match v with Ref a => a < length (heap p) | _ => True end /\ dumps limit p v = Raise RuntimeError.
Proof.
  intros n. exists (long n), (Ref 0). destruct (long_good n) as [G [_ A]]. split; [exact G|]. split; [apply A|].
  split; [rewrite long_len; apply Nat.lt_0_succ|]. unfold dumps. change (@nil nat) with (seq 0 0). rewrite long_deep by apply le_n. reflexivity.
Qed.
Print Assumptions C115_long_refuted.

(** ** Examples *)
Definition one : proc := mkproc
  [ Inst (Single "Nil") [];
    Inst Sym [("name", Str "foo")];
    Inst (Plain "cons") [("car", Ref 1); ("cdr", Ref 0); ("_immutable", Num 1)];
    Inst (Plain "cons") [("car", Ref 2); ("cdr", Ref 2); ("_immutable", Num 1)];
    Inst Fdict [("_data", Ref 5)];
    Dct [(Str "a", Ref 3); (Ref 1, Ref 8)];
    Inst Fdict [("_data", Ref 7)];
    Dct [];
    Inst Env [("_env", Ref 9); ("_finalized", Num 1)];
    Dct [(Str "me", Ref 8); (Str "e", Ref 6); (Str "g", Ref 10)];
    Inst Gsym [("uid", Num 77); ("label", Str "tabby")] ]
  [(KSingle "Nil", 0); (KSym (Str "foo"), 1); (KEmpty, 6); (KGsym (Num 77), 10)].
Definition two : proc := mkproc
  [ Inst (Plain "box") [("x", Num 5)]; Inst Sym [("name", Str "foo")]; Inst (Single "Nil") [] ]
  [(KSym (Str "foo"), 1); (KSingle "Nil", 2)].
Tactic Notation "each" ident(a) := do 14 (try (destruct a as [|a])); cbn; try discriminate.
Ltac regs H := unfold reg in H; cbn in H;
  repeat match type of H with
         | (if ?b then _ else _) = _ => let E := fresh in destruct b eqn:E; [try apply keqb_eq in E; subst|]
         | Some _ = Some _ => injection H as <-
         | None = Some _ => discriminate H
         end.
Lemma one_ok : good one /\ sound one /\ forall v, all_supported one v.
Proof.
  split; [split; [|split]|split; [split|]].
  - intros a [n|u|c|]; cbn [has_identity].
    + intros [d [E F]]. revert E. each a; intros E; try discriminate E. injection E as <-. cbn in F. injection F as <-. reflexivity.
    + intros [d [E F]]. revert E. each a; intros E; try discriminate E. injection E as <-. cbn in F. injection F as <-. reflexivity.
    + intros [d E]. revert E. each a; intros E; try discriminate E. injection E as <- _. reflexivity.
    + auto.
  - cbn. intros a E. injection E as <-. eexists. reflexivity.
  - intros a o E. revert E. each a; intros E; injection E as <-;
      (split; [intros b J; cbn in J; repeat (destruct J as [J|J]; [try discriminate J; injection J as <-; cbn; repeat constructor|]); contradiction|]);
      cbn; try (split; [repeat constructor; cbn; intuition discriminate|]).
    + exact I.
    + eexists; split; [reflexivity|exact I].
    + exact I.
    + exact I.
    + exact I.
    + intros k v [J|[J|[]]]; injection J as <- <-; cbn; [exact I|]. do 2 eexists. split; [reflexivity|exact I].
    + exact I.
    + intros k v [].
    + intros n. destruct (String.eqb_spec n "_env"); [intuition discriminate|]. destruct (String.eqb_spec n "_finalized"); intuition congruence.
    + intros k v [J|[J|[J|[]]]]; injection J as <- <-; cbn; exact I.
    + do 2 eexists. repeat (split; [reflexivity|]). split; exact I.
  - intros k a H. regs H; cbn; eexists; reflexivity.
  - intros k l a H H0. unfold reg in H, H0. cbn in H, H0.
    destruct (keqb k (KSingle "Nil")) eqn:A1; [|destruct (keqb k (KSym (Str "foo"))) eqn:A2; [|destruct (keqb k KEmpty) eqn:A3; [|destruct (keqb k (KGsym (Num 77))) eqn:A4]]]; try discriminate H;
    (destruct (keqb l (KSingle "Nil")) eqn:B1; [|destruct (keqb l (KSym (Str "foo"))) eqn:B2; [|destruct (keqb l KEmpty) eqn:B3; [|destruct (keqb l (KGsym (Num 77))) eqn:B4]]]); try discriminate H0; try congruence;
    repeat match goal with E : keqb _ _ = true |- _ => apply keqb_eq in E; subst end; reflexivity.
  - intros v a o _. each a; intros E; injection E as <-; exact I.
Qed.
Lemma two_ok : sound two.
Proof.
  split.
  - intros k a H. unfold reg in H. cbn in H. destruct (keqb k (KSym (Str "foo"))) eqn:A; [apply keqb_eq in A; subst; injection H as <-; eexists; reflexivity|].
    destruct (keqb k (KSingle "Nil")) eqn:B; [apply keqb_eq in B; subst; injection H as <-; eexists; reflexivity|discriminate].
  - intros k l a H H0. unfold reg in H, H0. cbn in H, H0.
    destruct (keqb k (KSym (Str "foo"))) eqn:A1; [|destruct (keqb k (KSingle "Nil")) eqn:A2]; try discriminate H;
    (destruct (keqb l (KSym (Str "foo"))) eqn:B1; [|destruct (keqb l (KSingle "Nil")) eqn:B2]); try discriminate H0; try congruence;
    repeat match goal with E : keqb _ _ = true |- _ => apply keqb_eq in E; subst end; reflexivity.
Qed.
(** A frozendict with a list in it that has a shared cell, and an environment that contains itself, a gensym and
    the empty frozendict: loaded into a process that has nil and the symbol foo, and into the same process. *)
Example C115_ex :
  good one /\ sound one /\ sound two /\ all_supported one (Ref 4) /\ (exists t, dumps 12 one (Ref 4) = Ok t) /\
  (do t <- dumps 12 one (Ref 4); omap (fun r => (snd r, skipn 3 (heap (fst r)))) (loads two t)) =
    Ok (Ref 3,
      [ Inst Fdict [("_data", Ref 4)];
        Dct [(Str "a", Ref 5); (Ref 1, Ref 8)];
        Inst (Plain "cons") [("car", Ref 6); ("cdr", Ref 6); ("_immutable", Num 1)];
        Inst (Plain "cons") [("car", Ref 1); ("cdr", Ref 2); ("_immutable", Num 1)];
        Dct [];
        Inst Env [("_env", Ref 9); ("_finalized", Num 1)];
        Dct [(Str "me", Ref 8); (Str "e", Ref 10); (Str "g", Ref 12)];
        Inst Fdict [("_data", Ref 11)];
        Dct [];
        Inst Gsym [("uid", Num 77); ("label", Str "tabby")] ]) /\
  (do t <- dumps 12 one (Ref 10); omap snd (loads one t)) = Ok (Ref 10) /\
  (do t <- dumps 12 one (Ref 6); omap snd (loads one t)) = Ok (Ref 6) /\
  has_identity one 10 (KGsym (Num 77)) /\ reg one (KGsym (Num 77)) = Some 10.
Proof.
  destruct one_ok as [G [S' A]]. split; [exact G|]. split; [exact S'|]. split; [exact two_ok|]. split; [apply A|].
  split; [eexists; vm_compute; reflexivity|]. repeat split; try (vm_compute; reflexivity). eexists. split; reflexivity.
Qed.

(** ** Where it fails: "all containers are pickleable (if their contents are)" *)
(** A ThreadLocalBox with a number in it cannot be pickled. *)
Definition boxed : proc := mkproc [Inst (Plain "ThreadLocalBox") [("storage", Ref 1); ("_default", Num 5)]; Inst Local []] [].
Theorem C115_threadlocal_refuted : good boxed /\ forall n, dumps (S (S n)) boxed (Ref 0) = Raise TypeError.
Proof.
  split; [|reflexivity]. split; [|split].
  - intros a [x|x|c|]; cbn [has_identity]; try (intros [d [E _]]; revert E; each a; discriminate); [intros [d E]; revert E; each a; discriminate|discriminate].
  - discriminate.
  - intros a o E. revert E. each a; intros E; injection E as <-;
      (split; [intros b J; cbn in J; repeat (destruct J as [J|J]; [try discriminate J; injection J as <-; cbn; repeat constructor|]); contradiction|]);
      cbn; (split; [repeat constructor; cbn; intuition discriminate|exact I]).
Qed.
Print Assumptions C115_threadlocal_refuted.
(** A Shim can be pickled, but not unpickled: its __getattr__ is called before it has its box. *)
Definition shim : proc := mkproc
  [ Inst Shim [("_shim_box", Ref 1); ("_shim_fallback", Num 0)]; Inst (Plain "box") [("x", Num 5)] ] [].
Theorem C115_shim_refuted : good shim /\
  exists t, (forall n, dumps (S (S (S n))) shim (Ref 0) = Ok t) /\ forall q, loads q t = Raise RuntimeError.
Proof.
  split; [split; [|split]|].
  - intros a [x|x|c|]; cbn [has_identity]; try (intros [d [E _]]; revert E; each a; discriminate); [intros [d E]; revert E; each a; discriminate|discriminate].
  - discriminate.
  - intros a o E. revert E. each a; intros E; injection E as <-;
      (split; [intros b J; cbn in J; repeat (destruct J as [J|J]; [try discriminate J; injection J as <-; cbn; repeat constructor|]); contradiction|]);
      cbn; (split; [repeat constructor; cbn; intuition discriminate|exact I]).
  - eexists. split; [intros n; reflexivity|]. intros q. apply shim_load.
Qed.
Print Assumptions C115_shim_refuted.
(** The documentation says that unpickling a singleton overwrites any existing instance data: attributes that the
    pickled instance did not have stay. *)
Definition bare : proc := mkproc [Inst (Single "Config") []] [(KSingle "Config", 0)].
Definition set_up : proc := mkproc [Inst (Single "Config") [("debug", Num 1)]] [(KSingle "Config", 0)].
Theorem C115_singleton_refuted : exists t, dumps 2 bare (Ref 0) = Ok t /\ loads set_up t = Ok (set_up, Ref 0) /\
  get [] "debug" = None.
Proof. eexists. repeat split. Qed.
Print Assumptions C115_singleton_refuted.
