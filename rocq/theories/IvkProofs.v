From Coq Require Import String List Arith Lia.
From Verif Require Import Base CondModel CondSpec CondProofs IvkModel.
Import ListNotations.
Open Scope list_scope.
Open Scope nat_scope.

Section P.
Context {V St : Type}.
Variable none : V.
Variable sub : nat -> nat -> bool.
Notation exec := (exec none sub).
Notation runs := (runs none sub).
Notation prog := (prog V St).
Notation st := (st V St).
Implicit Types (s : st) (p : prog) (r : res V).

Lemma matching_app c a (b : list (hblock V St)) : matching sub c (a ++ b) = matching sub c a ++ matching sub c b.
Proof. unfold matching. now rewrite concat_app, filter_app, map_app. Qed.
Lemma matching_enter c k : forall s, (forall hb, In (FHandlers hb) k -> matching sub c [hb] = []) ->
  matching sub c (hs (enter k s)) = matching sub c (hs s).
Proof.
  induction k as [|f k IH]; intros s H; [reflexivity|]. change (enter (f :: k) s) with (enter k (enter1 s f)).
  rewrite IH by (intros hb I; apply H; now right). destruct f as [hb|rb|h|kk]; try reflexivity.
  cbn [enter1 push_h hs]. change (hb :: hs s) with ([hb] ++ hs s). rewrite matching_app, (H hb) by now left. reflexivity.
Qed.
Theorem strategy k b n a c s f rest : (forall i, In i (rs s) -> i < length (blocks s)) ->
  matching sub c (hs s) = invoker n a :: rest -> assoc n b = Some f ->
  (forall rb, In (FRestarts rb) k -> assoc n rb = None) -> (forall hb, In (FHandlers hb) k -> matching sub c [hb] = []) ->
  exists s1, usr s1 = usr s /\ hs s1 = hs s /\ rs s1 = length (blocks s) :: rs s /\
    (exists l, blocks s1 = blocks s ++ [b] ++ l) /\
    forall r r' s', runs (f a) s1 r s' -> restart_result r r' -> runs (WithRestarts b (inside k (Signal c))) s r' (pop_r s').
Proof.
  intros W M Hf Hk Hh. set (me := length (blocks s)).
  assert (F : find_restart n (enter k (push_r b s)) = Some (me, n)).
  { apply find_enter; auto.
    - cbn. rewrite app_length. cbn. lia.
    - cbn. rewrite app_length. cbn. intros x [<-|Hx]; [lia|]. specialize (W x Hx). lia.
    - unfold find_restart. cbn [rs push_r find].
      assert (B0 : block (push_r b s) (length (blocks s)) = b).
      { unfold block. cbn. rewrite app_nth2 by lia. now rewrite Nat.sub_diag. }
      now rewrite B0, Hf. }
  assert (R : runs (Signal c) (enter k (push_r b s)) (RInvoke me n a) (enter k (push_r b s))).
  { eapply signal_first; [rewrite matching_enter by exact Hh; exact M | exists 1; cbn; now rewrite F | intros [v E]; discriminate]. }
  exists (mkSt (hs s) (hver (enter k (push_r b s)) + handler_blocks k) (me :: rs s) (blocks (enter k (push_r b s))) (usr (enter k (push_r b s)))).
  cbn [usr hs rs blocks]. split; [now rewrite enter_usr|]. split; [reflexivity|]. split; [reflexivity|]. split.
  - destruct (enter_blocks k (push_r b s)) as [l E]. exists l. rewrite E. cbn. now rewrite <- app_assoc.
  - intros r r' s' H Rr. eapply transfer_result; eauto.
Qed.
(** The usual way of use *)
Theorem use_constant k ts n a c s : (forall i, In i (rs s) -> i < length (blocks s)) -> existsb (sub (ctype c)) ts = true ->
  (forall rb, In (FRestarts rb) k -> assoc n rb = None) -> (forall hb, In (FHandlers hb) k -> matching sub c [hb] = []) ->
  exists s', usr s' = usr s /\ hs s' = hs s /\ rs s' = rs s /\
    runs (WithHandlers [(ts, invoker n a)] (WithRestarts [(n, fun v => Ret v)] (inside k (Signal c)))) s (RVal a) s'.
Proof.
  intros W M Hk Hh.
  destruct (strategy k [(n, fun v => Ret v)] n a c (push_h [(ts, invoker n a)] s) (fun v => Ret v) (matching sub c (hs s)))
    as (s1 & U & H & R & (l & B) & G); auto.
  - cbn [push_h hs]. change ([(ts, invoker n a)] :: hs s) with ([[(ts, invoker n a)]] ++ hs s). rewrite matching_app. unfold matching at 1. cbn. now rewrite M.
  - cbn. now rewrite String.eqb_refl.
  - exists (pop_h (pop_r s1)). cbn. rewrite U, H, R. cbn. repeat split.
    apply runs_handlers. eapply G; [apply runs_ret|]. right. split; [discriminate|reflexivity].
Qed.
Lemma no_restart n a s : find_restart n s = None -> matching sub (mkCond ControlErrorType PError None) (hs s) = [] -> runs (Invoke n a) s (RExc ControlError) s.
Proof.
  intros F M. assert (H : runs no_such_restart s (RExc ControlError) s).
  { unfold no_such_restart, error. eapply runs_bind; [apply signal_unmatched; exact M | apply runs_raise]. }
  destruct H as [fuel H]. exists (S fuel). cbn. rewrite F. exact H.
Qed.
Theorem missing n a c s rest : matching sub c (hs s) = invoker n a :: rest -> find_restart n s = None ->
  matching sub (mkCond ControlErrorType PError None) (hs s) = [] -> runs (Signal c) s (RExc ControlError) s.
Proof. intros M F E. eapply signal_first; [exact M | apply no_restart; auto | intros [v X]; discriminate]. Qed.
Lemma offer_loops (n : string) (a : V) m s ce :
  (forall fuel, fuel < m -> exec fuel (Run (Invoke n a)) s = None) ->
  forall later l rest ver, hver s = ver -> matching sub ce (l :: later) = invoker n a :: rest -> forall fuel, fuel <= m -> exec fuel (Offer ce l later ver) s = None.
Proof.
  intros IHm. induction later as [|b later IHl]; intros l; induction l as [|[ts h] l IH]; intros rest ver Hv M fuel L; (destruct fuel as [|fuel]; [reflexivity|]); cbn [CondModel.exec].
  - discriminate.
  - rewrite matching_cons in M. cbn [filter fst] in M. unfold matches. destruct (existsb (sub (ctype ce)) ts); cbn [map snd app] in M.
    + injection M as -> _. unfold invoker at 1. rewrite IHm by lia. reflexivity.
    + rewrite <- matching_cons in M. eapply IH; eauto. lia.
  - rewrite matching_cons in M. cbn [filter map app] in M. rewrite Hv, Nat.eqb_refl. eapply IHl; eauto. lia.
  - rewrite matching_cons in M. cbn [filter fst] in M. unfold matches. destruct (existsb (sub (ctype ce)) ts); cbn [map snd app] in M.
    + injection M as -> _. unfold invoker at 1. rewrite IHm by lia. reflexivity.
    + rewrite <- matching_cons in M. eapply IH; eauto. lia.
Qed.
Theorem loops n a s rest : find_restart n s = None -> matching sub (mkCond ControlErrorType PError None) (hs s) = invoker n a :: rest ->
  forall fuel, exec fuel (Run (Invoke n a)) s = None.
Proof.
  intros F M. induction fuel as [fuel IH] using lt_wf_ind. destruct fuel as [|fuel]; [reflexivity|]. cbn [CondModel.exec]. rewrite F.
  unfold no_such_restart, error. destruct fuel as [|fuel]; [reflexivity|]. cbn [CondModel.exec]. destruct fuel as [|fuel]; [reflexivity|]. cbn [CondModel.exec].
  erewrite (offer_loops n a fuel s); [reflexivity | | reflexivity | | lia].
  - intros g L. apply IH. lia.
  - rewrite matching_cons. cbn [filter map app]. exact M.
Qed.
Theorem signal_loops n a c s rest rest' : find_restart n s = None -> matching sub c (hs s) = invoker n a :: rest ->
  matching sub (mkCond ControlErrorType PError None) (hs s) = invoker n a :: rest' -> forall r s', ~ runs (Signal c) s r s'.
Proof.
  intros F M M' r s' [[|fuel] H]; [discriminate|]. cbn [CondModel.exec] in H.
  rewrite (offer_loops n a fuel s c) with (rest := rest) in H; [discriminate | | reflexivity | | lia].
  - intros g _. eapply loops; eauto.
  - rewrite matching_cons. cbn [filter map app]. exact M.
Qed.
End P.
