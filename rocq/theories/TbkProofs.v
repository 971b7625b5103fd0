From Verif Require Import Base TbkModel TbkSpec.
From Coq Require Import List Bool ZArith Lia.
Import ListNotations.
Open Scope nat_scope.

Lemma collect_skipn fuel st d : length st < fuel + d -> collect fuel st d = skipn d st.
Proof.
  revert d. induction fuel as [|fuel IH]; intros d L; cbn [collect].
  - symmetry. apply skipn_all2. lia.
  - destruct (nth_error st d) as [f|] eqn:E.
    + rewrite IH by lia. clear IH L. revert d E. induction st as [|g st IH]; intros [|d] E; cbn in *; try discriminate.
      * injection E as ->. reflexivity.
      * apply IH. auto.
    + apply nth_error_None in E. symmetry. apply skipn_all2. lia.
Qed.
Lemma chain_up_root nxt l : root_level (chain_up nxt l) = match rev (chain_up nxt l) with tb :: _ => Some tb | [] => None end.
Proof. reflexivity. Qed.
Lemma chain_entries l : forall nxt, entries (match rev (chain_up nxt l) with tb :: _ => Some tb | [] => nxt end) = rev l ++ entries nxt.
Proof.
  induction l as [|f l IH]; intros nxt; cbn [chain_up rev app]; auto.
  specialize (IH (Some (TB nxt f))).
  assert (entries (match rev (chain_up (Some (TB nxt f)) l) ++ [TB nxt f] with tb :: _ => Some tb | [] => nxt end)
          = entries (match rev (chain_up (Some (TB nxt f)) l) with tb :: _ => Some tb | [] => Some (TB nxt f) end)) as ->.
  { destruct (rev (chain_up (Some (TB nxt f)) l)); reflexivity. }
  rewrite IH, <- app_assoc. destruct nxt; reflexivity.
Qed.
Lemma root_entries l : entries (root_level (chain_up None l)) = rev l.
Proof. unfold root_level. rewrite (chain_entries l None). apply app_nil_r. Qed.

Lemma write_spec h r f x : nth_error h r = Some x -> length (write h r f) = length h /\
  (forall q, q <> r -> nth_error (write h r f) q = nth_error h q) /\ nth_error (write h r f) r = Some (f x).
Proof.
  intros E. unfold write. rewrite E. revert r E. induction h as [|y h IH]; intros [|r] E; cbn in *; try discriminate.
  - injection E as ->. repeat split. intros [|q]; cbn; congruence.
  - destruct (IH r E) as (L & O & N). repeat split; auto. intros [|q] NE; cbn; auto.
Qed.

Lemma equip_ok st h r n : r < length h -> exists h',
  equip_with_traceback (mkframe EquipF 0 :: st) h (PExc r) (Z.of_nat n) = Done h' (PExc r) /\
  changed h h' r (fun x x' => cause x' = cause x /\ protocol x' = protocol x /\ entries (trace x') = rev (skipn n (mkframe EquipF 209 :: st))).
Proof.
  intros L. unfold equip_with_traceback. destruct (Z.ltb_spec (Z.of_nat n) 0); [lia|]. rewrite Nat2Z.id.
  cbn [at_line fn]. rewrite collect_skipn by lia. eexists. split; [reflexivity|].
  destruct (nth_error h r) as [x|] eqn:E; [|apply nth_error_None in E; lia].
  set (f := fun x => _). destruct (write_spec h r f x E) as (Le & O & N). split; [auto|]. split; [auto|].
  exists x, (f x). repeat split; auto. cbn. apply root_entries.
Qed.

Lemma equip_invalid st h n : (forall x, (forall r, x <> PExc r) -> equip_with_traceback st h x n = Fail h (RPy TypeError)) /\
  ((n < 0)%Z -> forall r, equip_with_traceback st h (PExc r) n = Fail h (RPy ValueError)).
Proof.
  split.
  - intros x N. destruct x as [|r| |]; auto. destruct (N r eq_refl).
  - intros L r. unfold equip_with_traceback. destruct (Z.ltb_spec n 0); auto. lia.
Qed.

Section Signal.
Variable ctor : nat -> option exn.
Variable run_handlers : heap -> nat -> res unit.
Variable is_warning : nat -> bool.

Lemma canonize_instance err h c x h' r : instance ctor h x h' r -> canonize ctor err h c x = Done h' (PExc r) /\ r < length h'.
Proof.
  intros [r' L|k K]; cbn; [auto|]. rewrite K. cbn. split; auto. rewrite app_length. cbn. lia.
Qed.
Lemma instance_grows h x h' r : instance ctor h x h' r -> length h <= length h'.
Proof. intros [|k K]; auto. rewrite app_length. lia. Qed.
Lemma canonize_cause err h c y h' q : cause_of ctor h y h' q ->
  exists w, canonize ctor err h c y = Done h' w /\ (match w with PExc q => Some q | _ => None end) = q /\ length h <= length h'.
Proof.
  intros [|y' h'' q' I]; [exists PNone; auto|]. destruct (canonize_instance err h c _ _ _ I) as [E _]. exists (PExc q').
  repeat split; auto. eapply instance_grows; eauto.
Qed.
Lemma canonize_invalid err h c x : invalid ctor x -> canonize ctor err h c x = err h c.
Proof. destruct x as [| |k|]; cbn; try contradiction; auto. intros ->. auto. Qed.

Lemma prepare_ok below st h x y h1 r h2 q p n : instance ctor h x h1 r -> cause_of ctor h1 y h2 q ->
  exists h3, prepare_signal_instance ctor below st h x y p (Z.of_nat n) = Done h3 (PExc r) /\
  changed h2 h3 r (signaled q p (rev (skipn n (mkframe EquipF 209 :: at_line 228 st)))).
Proof.
  intros I C. unfold prepare_signal_instance. destruct (canonize_instance (fun h0 x0 => let (h4, r0) := alloc h0 (mkexc ControlErrorC (Some x0) None None None) in below (enter CanonizeF 222 st) h4 (PExc r0)) h x _ _ _ I) as [-> L].
  cbn [bind]. destruct (canonize_cause (fun h0 x0 => let (h4, r0) := alloc h0 (mkexc ControlErrorC (Some x0) None None None) in below (enter CanonizeF 223 st) h4 (PExc r0)) h1 (PExc r) _ _ _ C) as (w & -> & Ew & G).
  cbn [bind]. rewrite Ew. destruct (nth_error h2 r) as [e|] eqn:E; [|apply nth_error_None in E; lia].
  set (f := fun x0 => mkexc _ _ q _ _). destruct (write_spec h2 r f e E) as (Le & O & N).
  destruct (equip_ok (at_line 228 st) (write h2 r f) r n) as (h3 & Eq & Len & Oth & x0 & x' & X & X' & A1 & A2 & A3 & A4 & A5); [lia|].
  exists h3. split; [exact Eq|]. split; [congruence|]. split; [intros z NZ; rewrite Oth, O; auto|].
  rewrite N in X. injection X as <-. exists e, x'. repeat split; auto; cbn in *; congruence.
Qed.
Lemma signal_ok below st h x y h1 r h2 q po f0 : instance ctor h x h1 r -> cause_of ctor h1 y h2 q ->
  exists h3, signal_ ctor run_handlers below (f0 :: st) h x y po = bind (run_handlers h3 r) (fun h _ => Done h (PExc r)) /\
  changed h2 h3 r (signaled q (match po with Some p => p | None => SignalF end) (rev st)).
Proof.
  intros I C. unfold signal_. set (p := match po with Some p => p | None => SignalF end).
  destruct (prepare_ok below (enter PrepareF 182 (f0 :: st)) h x y h1 r h2 q p 3 I C) as (h3 & E & Ch).
  change (Z.of_nat 3) with 3%Z in E. rewrite E. cbn [bind]. exists h3. split; auto.
Qed.

Lemma raise_error_ok below st h x y h1 r h2 q p f0 : instance ctor h x h1 r -> cause_of ctor h1 y h2 q ->
  exists h3, raise_error ctor run_handlers below (f0 :: st) h x y p = after_error run_handlers h3 r /\
  changed h2 h3 r (signaled q p (rev (mkframe (fn f0) 789 :: st))).
Proof.
  intros I C. unfold raise_error. destruct (signal_ok below (mkframe (fn f0) 789 :: st) h x y h1 r h2 q (Some p) (mkframe SignalF 0) I C) as (h3 & E & Ch).
  exists h3. split; [|exact Ch]. unfold enter. cbn [at_line]. rewrite E. unfold after_error. destruct (run_handlers h3 r); reflexivity.
Qed.
Lemma error_ok below st h x y h1 r h2 q f0 : instance ctor h x h1 r -> cause_of ctor h1 y h2 q ->
  exists h3, error_ ctor run_handlers below (f0 :: st) h x y = after_error run_handlers h3 r /\
  changed h2 h3 r (signaled q ErrorF (rev ([mkframe RaiseErrorF 789; mkframe (fn f0) 746] ++ st))).
Proof. intros I C. unfold error_. apply (raise_error_ok below (mkframe (fn f0) 746 :: st) h x y h1 r h2 q ErrorF (mkframe RaiseErrorF 0) I C). Qed.

(** the error about an invalid condition *)
Lemma below_ok n st h r : r < length h -> exists h3, below ctor run_handlers (S n) st h (PExc r) = after_error run_handlers h3 r /\
  changed h h3 r (signaled None ErrorF (rev ([mkframe RaiseErrorF 789; mkframe ErrorF 746] ++ at_line 220 st))).
Proof.
  intros L. cbn [below]. unfold enter. apply (error_ok (below ctor run_handlers n) (at_line 220 st) h (PExc r) PNone h r h None (mkframe ErrorF 0)); constructor; auto.
Qed.
Lemma signal_invalid n st h x y po f0 : invalid ctor x ->
  exists h3, signal_ ctor run_handlers (below ctor run_handlers (S n)) (f0 :: st) h x y po = after_error run_handlers h3 (length h) /\
  changed (h ++ [mkexc ControlErrorC (Some x) None None None]) h3 (length h)
    (signaled None ErrorF (rev ([mkframe RaiseErrorF 789; mkframe ErrorF 746; mkframe CanonizeF 220; mkframe PrepareF 222; mkframe (fn f0) 182] ++ st))).
Proof.
  intros I. unfold signal_, prepare_signal_instance. rewrite canonize_invalid by auto. unfold alloc.
  destruct (below_ok n (enter CanonizeF 222 (enter PrepareF 182 (f0 :: st))) (h ++ [mkexc ControlErrorC (Some x) None None None]) (length h)) as (h3 & E & C).
  { rewrite app_length. cbn. lia. }
  rewrite E. exists h3. split; [|exact C]. unfold after_error. destruct (run_handlers h3 (length h)); reflexivity.
Qed.
Lemma signal_invalid_cause n st h x y po f0 h1 r : instance ctor h x h1 r -> invalid ctor y ->
  exists h3, signal_ ctor run_handlers (below ctor run_handlers (S n)) (f0 :: st) h x y po = after_error run_handlers h3 (length h1) /\
  changed (h1 ++ [mkexc ControlErrorC (Some (PExc r)) None None None]) h3 (length h1)
    (signaled None ErrorF (rev ([mkframe RaiseErrorF 789; mkframe ErrorF 746; mkframe CanonizeF 220; mkframe PrepareF 223; mkframe (fn f0) 182] ++ st))).
Proof.
  intros I V. unfold signal_, prepare_signal_instance.
  destruct (canonize_instance (fun h0 x0 => let (h4, r0) := alloc h0 (mkexc ControlErrorC (Some x0) None None None) in below ctor run_handlers (S n) (enter CanonizeF 222 (enter PrepareF 182 (f0 :: st))) h4 (PExc r0)) h x _ _ _ I) as [-> L].
  cbn [bind]. rewrite canonize_invalid by auto. unfold alloc.
  destruct (below_ok n (enter CanonizeF 223 (enter PrepareF 182 (f0 :: st))) (h1 ++ [mkexc ControlErrorC (Some (PExc r)) None None None]) (length h1)) as (h3 & E & C).
  { rewrite app_length. cbn. lia. }
  rewrite E. exists h3. split; [|exact C]. unfold after_error. destruct (run_handlers h3 (length h1)); reflexivity.
Qed.
Lemma error_api st h x y h1 r h2 q : instance ctor h x h1 r -> cause_of ctor h1 y h2 q ->
  exists h3, error ctor run_handlers st h x y = after_error run_handlers h3 r /\
  changed h2 h3 r (signaled q ErrorF (rev st ++ [mkframe ErrorF 746; mkframe RaiseErrorF 789])).
Proof.
  intros I C. destruct (error_ok (below ctor run_handlers 2) st h x y h1 r h2 q (mkframe ErrorF 0) I C) as (h3 & E & Ch).
  exists h3. split; [exact E|]. cbn [rev app fn] in Ch. rewrite <- app_assoc in Ch. exact Ch.
Qed.
Lemma cerror_api st h x y h1 r h2 q : instance ctor h x h1 r -> cause_of ctor h1 y h2 q ->
  exists h3, cerror ctor run_handlers st h x y = after_error run_handlers h3 r /\
  changed h2 h3 r (signaled q CerrorF (rev st ++ [mkframe CerrorF 782; mkframe RaiseErrorF 789])).
Proof.
  intros I C. destruct (raise_error_ok (below ctor run_handlers 2) (mkframe CerrorF 782 :: st) h x y h1 r h2 q CerrorF (mkframe RaiseErrorF 0) I C) as (h3 & E & Ch).
  exists h3. split; [exact E|]. cbn [rev app fn] in Ch. rewrite <- app_assoc in Ch. exact Ch.
Qed.
Lemma signal_api st h x y h1 r h2 q : instance ctor h x h1 r -> cause_of ctor h1 y h2 q ->
  exists h3, signal ctor run_handlers st h x y =
     match run_handlers h3 r with Done h _ => Done h (PExc r) | Fail h e => Fail h e end /\
  changed h2 h3 r (signaled q SignalF (rev st)).
Proof. intros I C. apply (signal_ok (below ctor run_handlers 2) st h x y h1 r h2 q None (mkframe SignalF 0) I C). Qed.
Lemma warn_api st h x y h1 r h2 q : instance ctor h x h1 r -> cause_of ctor h1 y h2 q ->
  exists h3, warn ctor run_handlers is_warning st h x y =
     match run_handlers h3 r with
     | Done h4 _ => Done h4 (if is_object x && match nth_error h4 r with Some e => is_warning (cls e) | None => false end
                             then EmitObject r else EmitText x, hd_error st)
     | Fail h e => Fail h e
     end /\
  changed h2 h3 r (signaled q WarnF (rev st ++ [mkframe WarnF 846])).
Proof.
  intros I C. destruct (signal_ok (below ctor run_handlers 2) (mkframe WarnF 846 :: st) h x y h1 r h2 q (Some WarnF) (mkframe SignalF 0) I C) as (h3 & E & Ch).
  exists h3. split; [|exact Ch]. unfold warn, enter, call_user. cbn [at_line fn]. rewrite E.
  destruct (run_handlers h3 r) as [h4 u|h4 e]; cbn [bind]; auto.
  assert (nth_error (mkframe WarnF 0 :: st) 1 = hd_error st) as -> by (destruct st; reflexivity).
  destruct I; reflexivity.
Qed.
Lemma invalid_api st h x y : invalid ctor x ->
  exists h3, signal ctor run_handlers st h x y = after_error run_handlers h3 (length h) /\
  changed (h ++ [mkexc ControlErrorC (Some x) None None None]) h3 (length h)
    (signaled None ErrorF (rev st ++ [mkframe SignalF 182; mkframe PrepareF 222; mkframe CanonizeF 220; mkframe ErrorF 746; mkframe RaiseErrorF 789])).
Proof.
  intros V. destruct (signal_invalid 1 st h x y None (mkframe SignalF 0) V) as (h3 & E & Ch).
  exists h3. split; [exact E|]. cbn [rev app fn] in Ch. rewrite <- !app_assoc in Ch. exact Ch.
Qed.
Lemma invalid_cause_api st h x y h1 r : instance ctor h x h1 r -> invalid ctor y ->
  exists h3, signal ctor run_handlers st h x y = after_error run_handlers h3 (length h1) /\
  changed (h1 ++ [mkexc ControlErrorC (Some (PExc r)) None None None]) h3 (length h1)
    (signaled None ErrorF (rev st ++ [mkframe SignalF 182; mkframe PrepareF 223; mkframe CanonizeF 220; mkframe ErrorF 746; mkframe RaiseErrorF 789])).
Proof.
  intros I V. destruct (signal_invalid_cause 1 st h x y None (mkframe SignalF 0) h1 r I V) as (h3 & E & Ch).
  exists h3. split; [exact E|]. cbn [rev app fn] in Ch. rewrite <- !app_assoc in Ch. exact Ch.
Qed.
Lemma none_api st h : signal ctor run_handlers st h PNone PNone = Fail h (RPy AttributeError).
Proof. reflexivity. Qed.
End Signal.
