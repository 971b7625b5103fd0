From Coq Require Import String List Bool Arith Lia.
From Verif Require Import DexModel DexSpec.
Import ListNotations.
Open Scope string_scope.
Open Scope list_scope.
Open Scope nat_scope.

Lemma sapp_assoc a b c : ((a ++ b) ++ c)%string = (a ++ (b ++ c))%string.
Proof. induction a; cbn; congruence. Qed.
Lemma sapp_nil a : (a ++ "")%string = a.
Proof. induction a; cbn; congruence. Qed.
Lemma concat_cons x l : String.concat "" (x :: l) = (x ++ String.concat "" l)%string.
Proof. destruct l; cbn; [rewrite sapp_nil|]; reflexivity. Qed.
Lemma concat_app (a b : list string) : String.concat "" (a ++ b) = (String.concat "" a ++ String.concat "" b)%string.
Proof. induction a as [|x a IH]; [reflexivity|]. change ((x :: a) ++ b) with (x :: (a ++ b)). rewrite !concat_cons, IH, sapp_assoc. reflexivity. Qed.
Section P.
Variable col : string -> string.
Variable h : heap.
Notation run := (describe_recursive col h).
Lemma instance_section e : instance e = true -> String.concat "" (describe_instance col e) = section col e.
Proof.
  intros I. unfold describe_instance, section. rewrite I, concat_app. f_equal; [destruct (traceback e); reflexivity|].
  destruct (String.eqb (message e) ""); [symmetry; apply sapp_nil | reflexivity].
Qed.
Lemma story_app a b : story col h (a ++ b) = (story col h a ++ story col h b)%string.
Proof. induction a as [|[w i] a IH]; auto. cbn. rewrite IH, !sapp_assoc. reflexivity. Qed.
Lemma report_snoc f rest w b : report col h f (rest ++ [(w, b)]) = (report col h f rest ++ between w ++ section col (h b))%string.
Proof. unfold report. rewrite story_app. cbn. rewrite sapp_nil, sapp_assoc. reflexivity. Qed.
Lemma no_prev_run i : (forall a w, ~ followed h a w i) -> forall n, exists l, run (S n) i = Some l /\ String.concat "" l = section col (h i).
Proof.
  intros H n. cbn. destruct (instance (h i)) eqn:I.
  - destruct (cause (h i)) as [c|] eqn:C; [destruct (H c Caused); constructor; auto|].
    destruct (suppress (h i)) eqn:S1; [eexists; split; [reflexivity | apply instance_section; auto]|].
    destruct (context (h i)) as [c|] eqn:X; [destruct (H c During); constructor; auto|]. eexists; split; [reflexivity | apply instance_section; auto].
  - eexists; split; [reflexivity|]. unfold section. rewrite I. reflexivity.
Qed.
Lemma followed_run a w b n l : followed h a w b -> run n a = Some l ->
  exists l', run (S n) b = Some l' /\ String.concat "" l' = (String.concat "" l ++ between w ++ section col (h b))%string.
Proof.
  intros F R. destruct F as [a b I C|a b I C S1 X]; cbn; rewrite I, C, ?S1, ?X, R; (eexists; split; [reflexivity|]);
    rewrite concat_app; f_equal; rewrite concat_cons, instance_section by auto; reflexivity.
Qed.
Lemma leads_run f rest e : leads h f rest e -> forall n, length rest < n -> exists l, run n e = Some l /\ String.concat "" l = report col h f rest.
Proof.
  induction 1 as [H|rest a w b H IH F]; intros n L.
  - destruct n as [|n]; [cbn in L; lia|]. destruct (no_prev_run f H n) as (l & R & E). exists l. split; auto. unfold report. cbn. rewrite sapp_nil. exact E.
  - rewrite app_length in L. cbn in L. destruct n as [|n]; [lia|]. destruct (IH n ltac:(lia)) as (l & R & E).
    destruct (followed_run a w b n l F R) as (l' & R' & E'). exists l'. split; auto. rewrite E', E, report_snoc. reflexivity.
Qed.
Lemma run_leads n : forall e l, run n e = Some l -> exists f rest, leads h f rest e /\ length rest < n.
Proof.
  induction n as [|n IH]; cbn; intros e l R; [discriminate|].
  assert (Next : forall c w, followed h c w e -> (exists l', run n c = Some l') -> exists f rest, leads h f rest e /\ length rest < S n).
  { intros c w F [l' R']. destruct (IH c l' R') as (f & rest & H & L). exists f, (rest ++ [(w, e)]). split; [econstructor; eauto | rewrite app_length; cbn; lia]. }
  assert (Root : (forall a w, ~ followed h a w e) -> exists f rest, leads h f rest e /\ length rest < S n)
    by (intros H; exists e, []; split; [constructor; auto | cbn; lia]).
  destruct (instance (h e)) eqn:I.
  - destruct (cause (h e)) as [c|] eqn:C.
    + destruct (run n c) as [l'|] eqn:R'; [|discriminate]. apply (Next c Caused); [constructor; auto | eauto].
    + destruct (suppress (h e)) eqn:S1; [apply Root; intros a w F; inversion F; congruence|].
      destruct (context (h e)) as [c|] eqn:X.
      * destruct (run n c) as [l'|] eqn:R'; [|discriminate]. apply (Next c During); [constructor; auto | eauto].
      * apply Root. intros a w F; inversion F; congruence.
  - apply Root. intros a w F; inversion F; congruence.
Qed.
Lemma described e text : (exists n, describe_exception col h n e = Some text) <-> exists f rest, leads h f rest e /\ text = report col h f rest.
Proof.
  unfold describe_exception. split.
  - intros [n R]. destruct (run n e) as [l|] eqn:E; [|discriminate]. injection R as <-. destruct (run_leads n e l E) as (f & rest & H & L).
    destruct (leads_run f rest e H n L) as (l' & R' & T). exists f, rest. split; auto. congruence.
  - intros (f & rest & H & ->). exists (S (length rest)). destruct (leads_run f rest e H (S (length rest)) ltac:(lia)) as (l & -> & <-). reflexivity.
Qed.
Lemma leads_unique f rest e : leads h f rest e -> forall f' rest', leads h f' rest' e -> f = f' /\ rest = rest'.
Proof.
  assert (U : forall a w b a' w', followed h a w b -> followed h a' w' b -> a = a' /\ w = w').
  { intros a w b a' w' F F'. destruct F; inversion F'; subst; split; congruence. }
  induction 1 as [H|rest a w b H IH F]; intros f' rest' L'; destruct L' as [H'|rest' a' w' b' L' F'].
  - auto.
  - destruct (H a' w' F').
  - destruct (H' a w F).
  - destruct (U _ _ _ _ _ F F') as [<- <-]. destruct (IH _ _ L') as [<- <-]. auto.
Qed.
Lemma enough f rest e : leads h f rest e -> forall n, describe_exception col h n e <> None <-> length rest < n.
Proof.
  intros H n. unfold describe_exception. split.
  - destruct (run n e) as [l|] eqn:E; [|congruence]. intros _. destruct (run_leads n e l E) as (f' & rest' & H' & L).
    destruct (leads_unique _ _ _ H _ _ H') as [_ ->]. exact L.
  - intros L. destruct (leads_run f rest e H n L) as (l & -> & _). discriminate.
Qed.
End P.

Definition plain (ca cx : option nat) (su : bool) (m : string) : exc := mkexc true ca cx su None m "E".
(** `raise e from e`: an exception that is its own cause *)
Definition circle : heap := fun _ => plain (Some 0) None true "m".
Lemma circle_never col n e : describe_exception col circle n e = None.
Proof.
  assert (H : describe_recursive col circle n e = None) by (revert e; induction n as [|n IH]; intros e; [reflexivity|]; cbn; rewrite IH; reflexivity).
  unfold describe_exception. rewrite H. reflexivity.
Qed.
(** Each exception was raised while the one before was being handled *)
Definition ladder : heap := fun i => match i with 0 => plain None None false "m" | S j => plain None (Some j) false "m" end.
Lemma long_chain_limit : forall n, exists (h : heap) e f rest, leads h f rest e /\ describe_exception (fun s => s) h n e = None.
Proof.
  intros n. exists ladder, n, 0. set (h := ladder).
  assert (L : forall k, exists rest, leads h 0 rest k /\ length rest = k).
  { induction k as [|k (rest & H & E)].
    - exists []. split; [constructor; intros a w F; inversion F; cbn in *; congruence | reflexivity].
    - exists (rest ++ [(During, S k)]). split; [econstructor; [exact H | apply f_context; reflexivity] | rewrite app_length; cbn; lia]. }
  destruct (L n) as (rest & H & E). exists rest. split; [exact H|].
  destruct (describe_exception (fun s => s) h n n) eqn:D; [|reflexivity].
  assert (X : length rest < n) by (apply (enough (fun s => s) h 0 rest n H n); congruence). lia.
Qed.
