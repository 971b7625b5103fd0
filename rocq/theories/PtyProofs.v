From Verif Require Import Base PtyModel PtySpec.
From Coq Require Import List Bool Arith Lia.
Import ListNotations.

Section Proofs.
Context {B : Type}.
Variable bufsize : nat.
Variable on_sock : option (list B).
Variable on_slave : bool.
Notation run := (run bufsize on_sock on_slave).
Notation step := (step bufsize on_sock on_slave).
Notation visits := (visits bufsize on_sock on_slave).
Notation visit_one := (visit_one bufsize on_sock on_slave).
Notation event := (event B).
Notation proxy := (proxy B).

Lemma run_snoc h e : run (h ++ [e]) = step (run h) e.
Proof. unfold PtyModel.run. now rewrite fold_left_app. Qed.

Definition scloses (h : list event) := existsb (fun e => match e with SlaveCloses => true | _ => false end) h.
Definition ccloses (h : list event) := existsb (fun e => match e with ClientCloses => true | _ => false end) h.
Lemma written_snoc h e : written (h ++ [e]) = written h ++ (if scloses h then [] else match e with SlaveWrites l => l | _ => [] end).
Proof.
  induction h as [|x h IH]; cbn; [destruct e; auto; now rewrite ?app_nil_r|].
  destruct x; cbn; auto. now rewrite IH, app_assoc.
Qed.
Lemma sent_snoc h e : sent (h ++ [e]) = sent h ++ (if ccloses h then [] else match e with ClientSends l => l | _ => [] end).
Proof.
  induction h as [|x h IH]; cbn; [destruct e; auto; now rewrite ?app_nil_r|].
  destruct x; cbn; auto. now rewrite IH, app_assoc.
Qed.

Lemma subseq_refl (l : list B) : subseq l l.
Proof. induction l; constructor; auto. Qed.
Lemma subseq_nil (l : list B) : subseq [] l.
Proof. induction l; constructor; auto. Qed.
Lemma subseq_app (a b c d : list B) : subseq a b -> subseq c d -> subseq (a ++ c) (b ++ d).
Proof. induction 1; cbn; auto; intros; constructor; auto. Qed.
Lemma subseq_firstn n (l : list B) : subseq (firstn n l) l.
Proof. revert n. induction l as [|x l IH]; intros [|n]; cbn; constructor; auto. apply subseq_nil. Qed.

(** what holds of the bytes of one direction: what was taken, pending, said *)
Definition Flow (alive all_taken : Prop) (took pending all : list B) : Prop :=
  exists done lost, done ++ lost ++ pending = all /\ subseq took done /\ (all_taken -> took = done) /\ (alive -> lost = []).
Definition alive (p : proxy) : Prop := running p = Looping \/ (running p = NoThread /\ fds_open p = true).
Definition gone (p : proxy) : bool := existsb (fun c => match c with SocketGone => true | _ => false end) (calls p).
(** [F]: all was taken; [W], [T]: all that was said by the slave and the client *)
Record Inv (A F : Prop) (W T : list B) (p : proxy) : Prop := {
  iout : Flow A F (to_client p) (pty_in p) W;
  iin : exists forwarded, to_slave p = forwarded ++ extra on_sock p /\ Flow True F forwarded (sock_in p) T;
  icalls : length (calls p) <= 1 /\ (calls p <> [] -> ~ alive p);
  ifds : fds_open p = false -> running p = NoThread;
  ione : on_sock = None -> gone p = false }.

Lemma flow_weaken (a a' f : Prop) t p w : (a' -> a) -> Flow a f t p w -> Flow a' f t p w.
Proof. intros I (d & l & E & S1 & F1 & A). exists d, l. repeat split; auto. Qed.
Lemma flow_say (a f : Prop) t p w l : Flow a f t p w -> Flow a f t (p ++ l) (w ++ l).
Proof. intros (d & k & E & S1 & F1 & A). exists d, k. repeat split; auto. rewrite <- E, <- !app_assoc. reflexivity. Qed.
Lemma flow_take (a f : Prop) t p w n k : a -> Flow a f t p w -> (f -> n <= k) ->
  Flow a f (t ++ firstn k (firstn n p)) (skipn n p) w.
Proof.
  intros HA (d & l & E & S1 & F1 & A) K. rewrite (A HA) in E. exists (d ++ firstn n p), []. cbn [app]. repeat split; auto.
  - now rewrite <- app_assoc, firstn_skipn.
  - apply subseq_app; auto. apply subseq_firstn.
  - intros HF. rewrite (F1 HF). f_equal. apply firstn_all2. rewrite firstn_length. specialize (K HF). lia.
Qed.
Lemma flow_lose (a a' f : Prop) t p w n : a -> ~ a' -> Flow a f t p w -> Flow a' f t (skipn n p) w.
Proof.
  intros HA N (d & l & E & S1 & F1 & A). rewrite (A HA) in E. exists d, (firstn n p). repeat split; auto; [|intros; contradiction].
  now rewrite firstn_skipn.
Qed.

Ltac inv_goal := split; cbn [to_client pty_in to_slave sock_in calls fds_open running].
Lemma no_calls A F W T p : Inv A F W T p -> running p = Looping -> calls p = [].
Proof. intros I L. destruct (icalls _ _ _ _ _ I) as [_ C]. destruct (calls p); auto. exfalso. apply C; [discriminate|]. now left. Qed.
Lemma not_alive p e : running p = Ended e -> ~ alive p.
Proof. intros E [H|[H _]]; congruence. Qed.

Lemma end_inv A F W T p e : Inv A F W T p -> running p = Looping -> Inv (alive (set_running p (Ended e))) F W T (set_running p (Ended e)).
Proof.
  intros I L. pose proof (no_calls _ _ _ _ _ I L) as NC. destruct I as [O (fw & E & Fl) C D N]. split; cbn [set_running to_client pty_in to_slave sock_in calls fds_open running] in *.
  - eapply flow_weaken; [|exact O]. intros Al. exfalso. eapply not_alive; [|exact Al]. reflexivity.
  - exists fw. auto.
  - rewrite NC. cbn. split; [lia|]. congruence.
  - intros X. specialize (D X). congruence.
  - auto.
Qed.
Lemma socket_inv A F W T p : Inv A F W T p -> running p = Looping -> Inv (alive (socket_disconnect on_sock p)) F W T (socket_disconnect on_sock p).
Proof.
  intros I L. unfold socket_disconnect. destruct on_sock as [w|] eqn:OS; [|now apply (end_inv A)].
  pose proof (no_calls _ _ _ _ _ I L) as NC. destruct I as [O (fw & E & Fl) C D N]. split; cbn [set_running to_client pty_in to_slave sock_in calls fds_open running] in *.
  - eapply flow_weaken; [|exact O]. intros Al. exfalso. eapply not_alive; [|exact Al]. reflexivity.
  - exists fw. split; [|exact Fl]. rewrite E. unfold extra. cbn [calls]. rewrite NC. cbn. rewrite OS. cbn. now rewrite app_nil_r.
  - rewrite NC. cbn. split; [lia|]. intros _. eapply not_alive. reflexivity.
  - intros X. specialize (D X). congruence.
  - congruence.
Qed.
Lemma slave_inv A F W T p : Inv A F W T p -> running p = Looping -> Inv (alive (slave_disconnect on_slave p)) F W T (slave_disconnect on_slave p).
Proof.
  intros I L. unfold slave_disconnect. destruct on_slave; [|now apply (end_inv A)].
  pose proof (no_calls _ _ _ _ _ I L) as NC. destruct I as [O (fw & E & Fl) C D N]. split; cbn [set_running to_client pty_in to_slave sock_in calls fds_open running] in *.
  - eapply flow_weaken; [|exact O]. intros Al. exfalso. eapply not_alive; [|exact Al]. reflexivity.
  - exists fw. split; [|exact Fl]. rewrite E. unfold extra. cbn [calls]. rewrite NC. reflexivity.
  - rewrite NC. cbn. split; [lia|]. intros _. eapply not_alive. reflexivity.
  - intros X. specialize (D X). congruence.
  - unfold gone. cbn [calls]. rewrite NC. auto.
Qed.
Lemma io_inv A F W T p e : Inv A F W T p -> running p = Looping -> Inv (alive (io_error on_sock p e)) F W T (io_error on_sock p e).
Proof. intros I L. destruct e; cbn [io_error]; [now apply (socket_inv A)|now apply (end_inv A)..]. Qed.
Lemma reads_le size (l : list B) : reads bufsize size l <= bufsize.
Proof. unfold reads. lia. Qed.
Lemma visit_inv F W T p v : Inv (alive p) F W T p -> running p = Looping -> (F -> full_visit bufsize v) ->
  Inv (alive (visit_one p v)) F W T (visit_one p v).
Proof.
  intros I L K. pose proof (no_calls _ _ _ _ _ I L) as NC. assert (AL : alive p) by now left.
  destruct v as [size k [e|]|size k [e|]]; cbn [PtyModel.visit_one full_visit] in *.
  - destruct (pty_in p) as [|b l] eqn:P; [destruct (slave_open p); [exact I|now apply (slave_inv (alive p))]|].
    rewrite <- P. apply (io_inv False); [|exact L]. destruct I as [O II C D N]. split; cbn [to_client pty_in to_slave sock_in calls fds_open running]; auto.
    eapply flow_lose; [exact AL|tauto|exact O].
  - destruct (pty_in p) as [|b l] eqn:P; [destruct (slave_open p); [exact I|now apply (slave_inv (alive p))]|].
    rewrite <- P. destruct I as [O II C D N]. split; cbn [to_client pty_in to_slave sock_in calls fds_open running]; auto.
    eapply flow_take; [exact AL|exact O|]. intros HF. pose proof (reads_le size (pty_in p)). specialize (K HF). lia.
  - now apply (io_inv (alive p)).
  - destruct (sock_in p) as [|b l] eqn:P; [destruct (client_open p); [exact I|now apply (socket_inv (alive p))]|].
    rewrite <- P. destruct I as [O (fw & E & Fl) C D N]. split; cbn [to_client pty_in to_slave sock_in calls fds_open running]; auto.
    exists (fw ++ firstn k (firstn (reads bufsize size (sock_in p)) (sock_in p))). split.
    + rewrite E. unfold extra. cbn [calls]. rewrite NC. cbn [existsb]. destruct on_sock; rewrite !app_nil_r; reflexivity.
    + eapply flow_take; [exact Logic.I|exact Fl|]. intros HF. pose proof (reads_le size (sock_in p)). specialize (K HF). lia.
Qed.
Lemma visits_inv F W T vs : forall p, Inv (alive p) F W T p -> running p = Looping -> (F -> forall v, In v vs -> full_visit bufsize v) ->
  Inv (alive (visits p vs)) F W T (visits p vs).
Proof.
  induction vs as [|v vs IH]; intros p I L K; cbn [PtyModel.visits]; auto.
  assert (I' : Inv (alive (visit_one p v)) F W T (visit_one p v)) by (apply visit_inv; auto; intros HF; apply K; cbn; auto).
  destruct (running (visit_one p v)) eqn:R; auto. apply IH; auto. intros HF v' IV. apply K; cbn; auto.
Qed.

(** the state of the two ends, and that the thread comes and goes once *)
Record Ends (h : list event) (p : proxy) : Prop := {
  eslave : slave_open p = negb (scloses h);
  eclient : client_open p = negb (ccloses h) }.
Lemma io_ends p e : slave_open (io_error on_sock p e) = slave_open p /\ client_open (io_error on_sock p e) = client_open p.
Proof. destruct e; cbn; auto. unfold socket_disconnect. destruct on_sock; auto. Qed.
Lemma visit_ends p v : slave_open (visit_one p v) = slave_open p /\ client_open (visit_one p v) = client_open p.
Proof.
  destruct v as [size k e|size k e]; cbn [PtyModel.visit_one].
  - destruct (pty_in p); [destruct (slave_open p) eqn:S1; auto; unfold slave_disconnect; destruct on_slave; auto|].
    destruct e; [|auto]. destruct (io_ends {| pty_in := skipn (reads bufsize size (b :: l)) (b :: l); sock_in := sock_in p; to_client := to_client p; to_slave := to_slave p; client_open := client_open p; slave_open := slave_open p; terminated := terminated p; running := running p; fds_open := fds_open p; calls := calls p |} i); auto.
  - destruct e; [apply io_ends|]. destruct (sock_in p); [destruct (client_open p) eqn:S1; auto; unfold socket_disconnect; destruct on_sock; auto|auto].
Qed.
Lemma visits_ends vs : forall p, slave_open (visits p vs) = slave_open p /\ client_open (visits p vs) = client_open p.
Proof.
  induction vs as [|v vs IH]; intros p; cbn [PtyModel.visits]; auto. destruct (visit_ends p v) as [A1 A2].
  destruct (running (visit_one p v)); auto. destruct (IH (visit_one p v)). split; congruence.
Qed.
Lemma scloses_snoc h e : scloses (h ++ [e]) = scloses h || match e with SlaveCloses => true | _ => false end.
Proof. unfold scloses. rewrite existsb_app. cbn. now rewrite orb_false_r. Qed.
Lemma ccloses_snoc h e : ccloses (h ++ [e]) = ccloses h || match e with ClientCloses => true | _ => false end.
Proof. unfold ccloses. rewrite existsb_app. cbn. now rewrite orb_false_r. Qed.

Lemma run_ends h : Ends h (run h).
Proof.
  induction h as [|e h IH] using rev_ind; [split; reflexivity|]. rewrite run_snoc. destruct IH as [S1 C1]. split; rewrite ?scloses_snoc, ?ccloses_snoc.
  - destruct e; cbn [PtyModel.step]; rewrite ?orb_false_r, ?orb_true_r; try (rewrite <- S1); auto.
    + destruct (slave_open (run h)) eqn:X; cbn; auto.
    + destruct (client_open (run h)) eqn:X; cbn; auto.
    + destruct (running (run h)); auto. destruct (fds_open (run h)); auto.
    + destruct (running (run h)); auto.
    + destruct (running (run h)); auto. destruct (terminated (run h)); auto.
    + destruct (running (run h)); auto. destruct (terminated (run h)); auto. apply visits_ends.
  - destruct e; cbn [PtyModel.step]; rewrite ?orb_false_r, ?orb_true_r; try (rewrite <- C1); auto.
    + destruct (slave_open (run h)) eqn:X; cbn; auto.
    + destruct (client_open (run h)) eqn:X; cbn; auto.
    + destruct (running (run h)); auto. destruct (fds_open (run h)); auto.
    + destruct (running (run h)); auto.
    + destruct (running (run h)); auto. destruct (terminated (run h)); auto.
    + destruct (running (run h)); auto. destruct (terminated (run h)); auto. apply visits_ends.
Qed.

Lemma inv_weaken (A A' F F' : Prop) W T p : (A' -> A) -> (F' -> F) -> Inv A F W T p -> Inv A' F' W T p.
Proof.
  intros HA HF [(d & l & E & S1 & F1 & Al) (fw & E2 & (d2 & l2 & E3 & S2 & F2 & Al2)) C D N]. split; auto.
  - exists d, l. repeat split; auto.
  - exists fw. split; auto. exists d2, l2. repeat split; auto.
Qed.
Lemma full_snoc (h : list event) e : full bufsize (h ++ [e]) -> full bufsize h.
Proof. intros F vs v I. apply F. apply in_or_app. auto. Qed.

Lemma run_inv (h : list event) : Inv (alive (run h)) (full bufsize h) (written h) (sent h) (run h).
Proof.
  induction h as [|e h IH] using rev_ind.
  - split.
    + exists [], []. repeat split; auto. constructor.
    + exists []. split; [unfold extra; cbn; destruct on_sock; reflexivity|]. exists [], []. repeat split; auto. constructor.
    + cbn. split; [lia|congruence].
    + discriminate.
    + reflexivity.
  - rewrite run_snoc, written_snoc, sent_snoc. destruct (run_ends h) as [ES EC].
    apply (inv_weaken (alive (run h)) (alive (run h)) (full bufsize h) (full bufsize (h ++ [e])) _ _ (run h)) in IH as IH'; [|auto|apply full_snoc].
    set (p := run h) in *. clearbody p.
    assert (KEEP : forall q, to_client q = to_client p -> pty_in q = pty_in p -> to_slave q = to_slave p -> sock_in q = sock_in p ->
              calls q = calls p -> (alive q -> alive p) -> (fds_open q = false -> running q = NoThread) ->
              Inv (alive q) (full bufsize (h ++ [e])) (written h) (sent h) q).
    { intros q E1 E2 E3 E4 E5 HA HD. destruct IH' as [O (fw & E6 & Fl) C D N]. split; rewrite ?E1, ?E2, ?E3, ?E4, ?E5; auto.
      - eapply flow_weaken; [|exact O]. exact HA.
      - exists fw. split; auto. rewrite E6. unfold extra. now rewrite E5.
      - destruct C as [C1 C2]. split; auto. intros X Y. exact (C2 X (HA Y)).
      - unfold gone in *. rewrite E5. auto. }
    assert (FD : fds_open p = false -> running p = NoThread) by apply (ifds _ _ _ _ _ IH').
    destruct e as [l|l| | | | | |vs]; cbn [PtyModel.step].
    + assert (sent h ++ (if ccloses h then [] else []) = sent h) as -> by (destruct (ccloses h); apply app_nil_r). rewrite ES.
      destruct (scloses h); cbn [negb]; [now rewrite app_nil_r|].
      destruct IH' as [O II C D N]. split; cbn [to_client pty_in to_slave sock_in calls fds_open running]; auto. now apply flow_say.
    + assert (written h ++ (if scloses h then [] else []) = written h) as -> by (destruct (scloses h); apply app_nil_r). rewrite EC.
      destruct (ccloses h); cbn [negb]; [now rewrite app_nil_r|].
      destruct IH' as [O (fw & E & Fl) C D N]. split; cbn [to_client pty_in to_slave sock_in calls fds_open running]; auto.
      exists fw. split; auto. now apply flow_say.
    + destruct (scloses h), (ccloses h); rewrite !app_nil_r; apply KEEP; auto.
    + destruct (scloses h), (ccloses h); rewrite !app_nil_r; apply KEEP; auto.
    + destruct (scloses h), (ccloses h); rewrite !app_nil_r; destruct (running p) eqn:R; auto; destruct (fds_open p) eqn:X;
        (apply KEEP; auto; unfold alive; cbn [running fds_open]; intuition congruence).
    + destruct (scloses h), (ccloses h); rewrite !app_nil_r; destruct (running p) eqn:R; auto;
        (apply KEEP; auto; unfold alive; cbn [running fds_open]; intuition congruence).
    + destruct (scloses h), (ccloses h); rewrite !app_nil_r; destruct (running p) eqn:R; auto; destruct (terminated p); auto;
        (apply KEEP; auto; unfold alive; cbn [running fds_open]; intuition congruence).
    + assert (FV : full bufsize (h ++ [Round vs]) -> forall v, In v vs -> full_visit bufsize v).
      { intros HF v IV. apply (HF vs v); auto. apply in_or_app. right. now left. }
      destruct (scloses h), (ccloses h); rewrite !app_nil_r; destruct (running p) eqn:R; auto; destruct (terminated p); try (apply visits_inv; auto);
        apply (end_inv (alive p)); auto.
Qed.

Definition same (p q : proxy) : Prop := to_client q = to_client p /\ to_slave q = to_slave p /\ calls q = calls p.
Lemma step_over p e : ~ alive p -> ~ alive (step p e) /\ same p (step p e).
Proof.
  unfold same. intros N. destruct e; cbn [PtyModel.step]; unfold alive in *; try (destruct (running p) eqn:?).
  all: repeat match goal with |- context [if ?b then _ else _] => destruct b eqn:? end; cbn [to_client to_slave calls running fds_open set_running]; intuition congruence.
Qed.
Lemma over h' : forall h, ~ alive (run h) -> same (run h) (run (h ++ h')).
Proof.
  induction h' as [|e h' IH]; intros h N; [rewrite app_nil_r; repeat split|].
  destruct (step_over (run h) e N) as [N' (A1 & A2 & A3)]. rewrite <- run_snoc in *.
  destruct (IH (h ++ [e]) N') as (B1 & B2 & B3). rewrite <- app_assoc in B1, B2, B3. cbn [app] in *. repeat split; congruence.
Qed.
Lemma ended_over h h' e : running (run h) = Ended e -> same (run h) (run (h ++ h')).
Proof. intros E. apply over. eapply not_alive. exact E. Qed.

Lemma looping_alive p : running p = Looping -> alive p.
Proof. now left. Qed.
Lemma carries h : full bufsize h ->
  (exists lost, to_client (run h) ++ lost ++ pty_in (run h) = written h /\ (running (run h) = Looping -> lost = [])) /\
  (exists forwarded, to_slave (run h) = forwarded ++ extra on_sock (run h) /\ forwarded ++ sock_in (run h) = sent h /\
     (running (run h) = Looping -> extra on_sock (run h) = [])).
Proof.
  intros F. pose proof (run_inv h) as I. pose proof (no_calls _ _ _ _ _ I) as NC. destruct I as [(d & l & E & S1 & F1 & A) (fw & E2 & (d2 & l2 & E3 & S2 & F2 & A2)) C D N]. split.
  - exists l. rewrite (F1 F). split; auto. intros R. apply A. now left.
  - exists fw. split; auto. split; [|intros R; unfold extra; rewrite (NC R); destruct on_sock; reflexivity]. rewrite (F2 F), <- E3, (A2 Logic.I). reflexivity.
Qed.
Lemma subseq_prefix (a b c : list B) : subseq a b -> subseq a (b ++ c).
Proof. intros H. rewrite <- (app_nil_r a). apply subseq_app; auto. apply subseq_nil. Qed.
Lemma order h : subseq (to_client (run h)) (written h) /\
  exists forwarded, to_slave (run h) = forwarded ++ extra on_sock (run h) /\ subseq forwarded (sent h).
Proof.
  destruct (run_inv h) as [(d & l & E & S1 & F1 & A) (fw & E2 & (d2 & l2 & E3 & S2 & F2 & A2)) C D N]. split.
  - rewrite <- E. now apply subseq_prefix.
  - exists fw. split; auto. rewrite <- E3. now apply subseq_prefix.
Qed.
Lemma once h : length (calls (run h)) <= 1.
Proof. apply (icalls _ _ _ _ _ (run_inv h)). Qed.

Lemma drain_client k : forall h, 0 < bufsize -> running (run h) = Looping -> terminated (run h) = false -> length (pty_in (run h)) <= k * bufsize ->
  to_client (run (h ++ repeat (Round [FromMaster bufsize bufsize None]) k)) = to_client (run h) ++ pty_in (run h).
Proof.
  induction k as [|k IH]; intros h Pos R T L; cbn [repeat].
  - destruct (pty_in (run h)); [|cbn in L; lia]. now rewrite !app_nil_r.
  - destruct (pty_in (run h)) as [|b l] eqn:P.
    + rewrite app_nil_r.
      assert (X : to_client (run (h ++ [Round [FromMaster bufsize bufsize None]])) = to_client (run h) /\
                  (running (run (h ++ [Round [FromMaster bufsize bufsize None]])) = Looping -> run (h ++ [Round [FromMaster bufsize bufsize None]]) = run h)).
      { rewrite run_snoc. cbn [PtyModel.step]. rewrite R, T. cbn [PtyModel.visits PtyModel.visit_one]. rewrite P.
        destruct (slave_open (run h)); [rewrite R; auto|]. unfold slave_disconnect. destruct on_slave; cbn; split; auto; discriminate. }
      destruct X as [X1 X2]. change (h ++ Round [FromMaster bufsize bufsize None] :: repeat (Round [FromMaster bufsize bufsize None]) k)
        with (h ++ [Round [FromMaster bufsize bufsize None]] ++ repeat (Round [FromMaster bufsize bufsize None]) k). rewrite app_assoc.
      destruct (running (run (h ++ [Round [FromMaster bufsize bufsize None]]))) eqn:R2.
      * assert (NA : ~ alive (run (h ++ [Round [FromMaster bufsize bufsize None]]))).
        { exfalso. revert R2. rewrite run_snoc. cbn [PtyModel.step]. rewrite R, T. cbn [PtyModel.visits PtyModel.visit_one]. rewrite P.
          destruct (slave_open (run h)); [rewrite R; congruence|]. unfold slave_disconnect. destruct on_slave; cbn; discriminate. }
        destruct (over (repeat (Round [FromMaster bufsize bufsize None]) k) _ NA) as [-> _]. exact X1.
      * rewrite IH; auto; rewrite (X2 eq_refl); auto; rewrite P; [now rewrite app_nil_r|cbn; lia].
      * assert (NA : ~ alive (run (h ++ [Round [FromMaster bufsize bufsize None]]))) by (eapply not_alive; exact R2).
        destruct (over (repeat (Round [FromMaster bufsize bufsize None]) k) _ NA) as [-> _]. exact X1.
    + change (h ++ Round [FromMaster bufsize bufsize None] :: repeat (Round [FromMaster bufsize bufsize None]) k)
        with (h ++ [Round [FromMaster bufsize bufsize None]] ++ repeat (Round [FromMaster bufsize bufsize None]) k). rewrite app_assoc.
      assert (X : run (h ++ [Round [FromMaster bufsize bufsize None]]) =
        mkproxy (skipn bufsize (b :: l)) (sock_in (run h)) (to_client (run h) ++ firstn bufsize (b :: l)) (to_slave (run h)) (client_open (run h)) (slave_open (run h))
          (terminated (run h)) (running (run h)) (fds_open (run h)) (calls (run h))).
      { rewrite run_snoc. cbn [PtyModel.step]. rewrite R, T. cbn [PtyModel.visits PtyModel.visit_one]. rewrite P. cbn [running].
        assert (RD : firstn (reads bufsize bufsize (b :: l)) (b :: l) = firstn bufsize (b :: l) /\ skipn (reads bufsize bufsize (b :: l)) (b :: l) = skipn bufsize (b :: l)).
        { unfold reads. destruct (Nat.le_gt_cases (length (b :: l)) bufsize).
          - replace (Nat.min (Nat.max 1 bufsize) (Nat.min bufsize (length (b :: l)))) with (length (b :: l)) by (cbn [length] in *; lia).
            rewrite !firstn_all, !skipn_all. now rewrite firstn_all2, skipn_all2 by lia.
          - replace (Nat.min (Nat.max 1 bufsize) (Nat.min bufsize (length (b :: l)))) with bufsize by lia. auto. }
        destruct RD as [-> ->]. rewrite R. f_equal; auto. cbn [to_client]. f_equal. rewrite firstn_firstn. f_equal. lia. }
      rewrite IH, X; cbn [to_client pty_in running terminated]; auto; rewrite ?X; cbn [to_client pty_in running terminated]; auto.
      * rewrite <- app_assoc, firstn_skipn. reflexivity.
      * rewrite skipn_length. lia.
Qed.
Lemma gone_socket h w vs k size : running (run h) = Looping -> terminated (run h) = false -> on_sock = Some w ->
  let noticed h' := running (run h') = Ended Returned /\ calls (run h') = [SocketGone] /\ to_slave (run h') = to_slave (run h) ++ w in
  (client_open (run h) = false -> sock_in (run h) = [] -> noticed (h ++ [Round (FromSocket size k None :: vs)])) /\
  noticed (h ++ [Round (FromSocket size k (Some ConnectionReset) :: vs)]) /\
  (pty_in (run h) <> [] -> noticed (h ++ [Round (FromMaster size k (Some ConnectionReset) :: vs)])).
Proof.
  intros R T OS noticed. pose proof (no_calls _ _ _ _ _ (run_inv h) R) as NC. unfold noticed. rewrite !run_snoc. cbn [PtyModel.step]. rewrite R, T. cbn [PtyModel.visits PtyModel.visit_one].
  split; [|split].
  - intros C S1. rewrite C, S1. unfold socket_disconnect. rewrite OS in *. cbn [running calls to_slave]. rewrite NC. cbn [app running calls to_slave]. auto.
  - cbn [io_error]. unfold socket_disconnect. rewrite OS in *. cbn [running calls to_slave]. rewrite NC. cbn [app running calls to_slave]. auto.
  - intros P. destruct (pty_in (run h)); [congruence|]. cbn [io_error]. unfold socket_disconnect. rewrite OS in *. cbn [running calls to_slave]. rewrite NC. cbn [app running calls to_slave]. auto.
Qed.
Lemma stops h vs : running (run h) = Looping -> let p := run (h ++ [Stop; Round vs; Join]) in
  running p = NoThread /\ fds_open p = false /\ same (run h) p.
Proof.
  intros R p. assert (p = step (step (step (run h) Stop) (Round vs)) Join) as ->.
  { unfold p, PtyModel.run. rewrite fold_left_app. reflexivity. }
  set (q := run h) in *. clearbody q. destruct q. cbn in R. subst. repeat split.
Qed.
End Proofs.
