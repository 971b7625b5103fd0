From Coq Require Import List Bool Arith ZArith Lia.
From Verif Require Import Base BaseProofs CollModel CollProofs MemoModel MemoSpec GmemoProofs.
Import ListNotations.
Open Scope nat_scope.

(** ** creation of memoized generators *)
Section CP.
Context {K : Type}.
Variable keqb : K -> K -> bool.
Hypothesis keqb_ok : forall a b, keqb a b = true <-> a = b.
Notation get := (dict_get keqb).
Record CInv (s : cst K) : Prop := {
  C_one : forall t u f f', t <> u -> ccalls s t = Some f -> ccalls s u = Some f' -> ckey f <> ckey f';
  C_res : forall k g, In (k, g) (cresults s) -> get (memos s) k = Some g;
  C_make : forall t k, ccalls s t = Some (CMake k) -> get (memos s) k = None;
  C_read : forall t k, ccalls s t = Some (CRead k) -> get (memos s) k <> None }.
Lemma CInv0 : CInv cst0.
Proof. constructor; simpl; try discriminate; try tauto. Qed.
Lemma cstep_inv s a s' : CInv s ->
  match a with CBegin t k => forall u f, ccalls s u = Some f -> ckey f <> k | CGo _ => True end ->
  cstep keqb s a = Some s' -> CInv s'.
Proof.
  intros [H1 H2 H3 H4] Ha Hs. destruct a as [t k|t]; cbn [cstep] in Hs.
  - destruct (ccalls s t) eqn:Ec; [discriminate|]. injection Hs as <-. constructor; simpl; auto.
    + intros a b f f' Hab. destruct (Nat.eq_dec a t) as [->|].
      * rewrite setf_eq, setf_ne by auto. intros [= <-] Hf'. simpl. intro E. eapply Ha; eauto.
      * rewrite (setf_ne _ _ _ a) by auto. intro Hf. destruct (Nat.eq_dec b t) as [->|].
        -- rewrite setf_eq. intros [= <-]. simpl. eapply Ha; eauto.
        -- rewrite setf_ne by auto. intro Hf'. apply (H1 a b); auto.
    + intros u k'. destruct (Nat.eq_dec u t) as [->|]; [rewrite setf_eq; discriminate|rewrite setf_ne by auto; eauto].
    + intros u k'. destruct (Nat.eq_dec u t) as [->|]; [rewrite setf_eq; discriminate|rewrite setf_ne by auto; eauto].
  - clear Ha. destruct (ccalls s t) as [f|] eqn:Ec; [|discriminate].
    assert (Hone : forall f1, ckey f1 = ckey f -> forall a b g g', a <> b ->
              setf (ccalls s) t (Some f1) a = Some g -> setf (ccalls s) t (Some f1) b = Some g' -> ckey g <> ckey g').
    { intros f1 Hk a b g g' Hab. destruct (Nat.eq_dec a t) as [->|].
      * rewrite setf_eq, setf_ne by auto. intros [= <-] Hg'. rewrite Hk. apply (H1 t b); auto.
      * rewrite (setf_ne _ _ _ a) by auto. intro Hg. destruct (Nat.eq_dec b t) as [->|].
        -- rewrite setf_eq. intros [= <-]. rewrite Hk. apply (H1 a t); auto.
        -- rewrite setf_ne by auto. intro Hg'. apply (H1 a b); auto. }
    destruct f as [k|k|k].
    + injection Hs as <-. destruct (get (memos s) k) eqn:Eg; constructor; simpl; auto; try (apply Hone; reflexivity).
      * intros u k'. destruct (Nat.eq_dec u t) as [->|]; [rewrite setf_eq; discriminate|rewrite setf_ne by auto; eauto].
      * intros u k'. destruct (Nat.eq_dec u t) as [->|]; [rewrite setf_eq; intros [= <-]; congruence|rewrite setf_ne by auto; eauto].
      * intros u k'. destruct (Nat.eq_dec u t) as [->|]; [rewrite setf_eq; intros [= <-]; congruence|rewrite setf_ne by auto; eauto].
      * intros u k'. destruct (Nat.eq_dec u t) as [->|]; [rewrite setf_eq; discriminate|rewrite setf_ne by auto; eauto].
    + injection Hs as <-. pose proof (H3 _ _ Ec) as Hn.
      constructor; simpl; auto; try (apply Hone; reflexivity).
      * intros k' g Hin. rewrite (get_set keqb keqb_ok). destruct (keqb k k') eqn:E; auto. apply keqb_ok in E. subst.
        apply H2 in Hin. congruence.
      * intros u k'. destruct (Nat.eq_dec u t) as [->|]; [rewrite setf_eq; discriminate|rewrite setf_ne by auto].
        intro Hu. rewrite (get_set keqb keqb_ok). destruct (keqb k k') eqn:E; eauto. apply keqb_ok in E. subst.
        exfalso. apply (H1 u t _ _ n Hu Ec). auto.
      * intros u k' Hu. rewrite (get_set keqb keqb_ok). destruct (keqb k k') eqn:E; [discriminate|].
        destruct (Nat.eq_dec u t) as [->|].
        -- rewrite setf_eq in Hu. injection Hu as <-. rewrite (keqb_refl keqb keqb_ok) in E. discriminate.
        -- rewrite setf_ne in Hu by auto. eauto.
    + destruct (get (memos s) k) as [g|] eqn:Eg; [|discriminate]. injection Hs as <-. constructor; simpl; auto.
      * intros a b f f' Hab. destruct (Nat.eq_dec a t) as [->|]; [rewrite setf_eq; discriminate|rewrite setf_ne by auto].
        intro Hf. destruct (Nat.eq_dec b t) as [->|]; [rewrite setf_eq; discriminate|rewrite setf_ne by auto]. intro Hf'.
        apply (H1 a b); auto.
      * intros k' g' Hin. apply in_app_or in Hin. destruct Hin as [Hin|[Hin|[]]]; auto. now injection Hin as <- <-.
      * intros u k'. destruct (Nat.eq_dec u t) as [->|]; [rewrite setf_eq; discriminate|rewrite setf_ne by auto; eauto].
      * intros u k'. destruct (Nat.eq_dec u t) as [->|]; [rewrite setf_eq; discriminate|rewrite setf_ne by auto; eauto].
Qed.
Lemma crun_inv acts : forall s s', CInv s -> no_overlap keqb s acts -> crun keqb s acts = Some s' -> CInv s'.
Proof.
  induction acts as [|a acts IH]; simpl; intros s s' HI Hn Hr. { congruence. }
  destruct (cstep keqb s a) as [s1|] eqn:E; [|discriminate]. destruct Hn as [Ha Hn].
  apply (IH s1); auto. apply (cstep_inv s a); auto.
Qed.
Lemma one_generator acts s k g g' : no_overlap keqb cst0 acts -> crun keqb cst0 acts = Some s ->
  In (k, g) (cresults s) -> In (k, g') (cresults s) -> g = g'.
Proof.
  intros Hn Hr H1 H2. pose proof (crun_inv _ _ _ CInv0 Hn Hr) as HI.
  apply (C_res s HI) in H1, H2. congruence.
Qed.
End CP.

(** ** memoize *)
Section MP.
Context {K V : Type}.
Variable keqb : K -> K -> bool.
Hypothesis keqb_ok : forall a b, keqb a b = true <-> a = b.
Variable body : nat -> K -> prog K V.
Notation get := (dict_get keqb).
Notation mst := (mst K V).
Notation frame := (frame K V).

Definition caller (k : K) (fs : list frame) : Prop :=
  match fs with
  | FTop (PCall k' _) :: _ | FRun _ (PCall k' _) :: _ => k' = k
  | _ => False
  end.
Definition want (f : frame) : option K :=
  match f with
  | FTop _ | FRun _ _ => None
  | FEnter k | FWait k | FCheck k | FStore k _ | FUnlock k | FRead k => Some k
  end.
Definition locks (f : frame) : nat := match f with FCheck _ | FRun _ _ | FStore _ _ | FUnlock _ => 1 | _ => 0 end.
Definition nlock (fs : list frame) : nat := list_sum (map locks fs).
Definition pkey (f : frame) : list K := match f with FRun k _ | FStore k _ => [k] | _ => [] end.
Definition prog_keys (fs : list frame) : list K := flat_map pkey fs.

Section Ranked.
Variable rank : K -> nat.
Hypothesis Hrank : forall n k, calls_below rank (rank k) (body n k).
Inductive code : list frame -> Prop :=
| CT p : code [FTop p]
| CR k p fs : calls_below rank (rank k) p -> caller k fs -> code fs -> code (FRun k p :: fs).
Definition stack_ok (fs : list frame) : Prop :=
  code fs \/ exists f k fs', fs = f :: fs' /\ want f = Some k /\ caller k fs' /\ code fs'.
Lemma rank_below k fs : caller k fs -> code fs -> forall k', In k' (prog_keys fs) -> rank k < rank k'.
Proof.
  intros Hc Hcode. revert k Hc. induction Hcode as [p|k0 p fs Hp Hc0 Hcode IH]; intros k Hc k'; simpl.
  - tauto.
  - destruct p as [r|k1 c]; simpl in Hc; [tauto|]. subst k1. destruct Hp as [Hlt _].
    intros [<-|Hin]; auto. specialize (IH k0 Hc0 k' Hin). lia.
Qed.
Lemma code_prog k fs : caller k fs -> code fs -> ~ In k (prog_keys fs).
Proof. intros H1 H2 H. apply (rank_below k fs H1 H2) in H. lia. Qed.

Record MInv (s : mst) : Prop := {
  M_stack : forall t, stack_ok (threads s t);
  M_lock : match mlock s with
           | None => forall t, nlock (threads s t) = 0
           | Some (t, c) => 0 < c /\ nlock (threads s t) = c /\ forall u, u <> t -> nlock (threads s u) = 0
           end;
  M_nodup : NoDup (runs s);
  M_runs : forall k, In k (runs s) -> get (mmemo s) k <> None \/ exists t, In k (prog_keys (threads s t));
  M_prog : forall t k, In k (prog_keys (threads s t)) -> get (mmemo s) k = None;
  M_has : forall t f, In f (threads s t) -> match f with FUnlock k | FRead k => get (mmemo s) k <> None | _ => True end;
  M_ans : forall k r, In (k, r) (answers s) -> get (mmemo s) k = Some r;
  M_memo : forall k, get (mmemo s) k <> None -> In k (runs s);
  M_progruns : forall t k, In k (prog_keys (threads s t)) -> In k (runs s) }.

Lemma MInv0 progs : MInv (mst0 progs).
Proof.
  constructor; simpl; auto; try tauto.
  - intro t. left. constructor.
  - constructor.
  - intros t f [<-|[]]. exact I.
Qed.
Lemma nlock_prog fs : nlock fs = 0 -> prog_keys fs = [].
Proof.
  induction fs as [|f fs IH]; simpl; auto. unfold nlock. simpl. fold (nlock fs). intro H.
  rewrite IH by lia. destruct f; simpl in *; auto; lia.
Qed.
Lemma nlock_cons f fs : nlock (f :: fs) = locks f + nlock fs. Proof. reflexivity. Qed.

(** replacing the stack of one thread, everything else but the memo etc. given *)
Lemma step_inv s t s' : MInv s -> mstep keqb body s t = Some s' -> MInv s'.
Proof.
  intros HI Hs. pose proof HI as [Hst Hlk Hnd Hrn Hpr Hhas Hans Hmm Hprr].
  unfold mstep in Hs. destruct (threads s t) as [|f fs] eqn:Et; [discriminate|].
  pose proof (Hst t) as Hok. rewrite Et in Hok.
  (* generic: change only the stack of t, prog keys and locks unchanged *)
  assert (Gen : forall fs' ans, stack_ok fs' -> nlock fs' = nlock (f :: fs) -> prog_keys fs' = prog_keys (f :: fs) ->
     (forall g, In g fs' -> match g with FUnlock k | FRead k => get (mmemo s) k <> None | _ => True end) ->
     (forall k r, In (k, r) ans -> get (mmemo s) k = Some r) ->
     MInv (mkmst (mmemo s) (mlock s) (setf (threads s) t fs') (runs s) ans)).
  { intros fs' ans A B C D E. constructor; simpl; auto.
    - intro u. destruct (Nat.eq_dec u t) as [->|]; [now rewrite setf_eq|rewrite setf_ne; auto].
    - destruct (mlock s) as [[o c]|].
      + destruct Hlk as (L1 & L2 & L3). split; auto. destruct (Nat.eq_dec o t) as [->|].
        * rewrite setf_eq. rewrite B, <- Et. split; auto. intros u Hu. rewrite setf_ne; auto.
        * rewrite setf_ne by auto. split; auto. intros u Hu. destruct (Nat.eq_dec u t) as [->|].
          -- rewrite setf_eq, B, <- Et. auto.
          -- rewrite setf_ne; auto.
      + intro u. destruct (Nat.eq_dec u t) as [->|]; [now rewrite setf_eq, B, <- Et|rewrite setf_ne; auto].
    - intros k Hk. destruct (Hrn k Hk) as [?|[u Hu]]; auto. right. exists u.
      destruct (Nat.eq_dec u t) as [->|]; [now rewrite setf_eq, C, <- Et|rewrite setf_ne; auto].
    - intros u k. destruct (Nat.eq_dec u t) as [->|]; [rewrite setf_eq, C, <- Et|rewrite setf_ne; auto]; apply Hpr.
    - intros u g. destruct (Nat.eq_dec u t) as [->|]; [rewrite setf_eq; exact (D g)|rewrite setf_ne by auto; exact (Hhas u g)].
    - intros u k. destruct (Nat.eq_dec u t) as [->|]; [rewrite setf_eq, C, <- Et|rewrite setf_ne; auto]; apply Hprr. }
  assert (Hin : forall g, In g fs -> match g with FUnlock k | FRead k => get (mmemo s) k <> None | _ => True end).
  { intros g Hg. apply (Hhas t g). rewrite Et. simpl; auto. }
  assert (Hansw : forall k r s1, want f = Some k -> locks f = 0 -> pkey f = [] -> get (mmemo s) k = Some r ->
     answer s t k r fs = Some s1 -> MInv s1).
  { intros k r s1 Hw Hl Hp Hg Ha. destruct Hok as [Hc|(f1 & k1 & fs1 & E & W & Hcl & Hcode)].
    { inversion Hc; subst; discriminate. }
    injection E as <- <-. assert (k1 = k) by congruence. subst k1.
    assert (Hnl : nlock (f :: fs) = nlock fs) by (rewrite nlock_cons, Hl; auto).
    assert (Hpk : prog_keys (f :: fs) = prog_keys fs) by (simpl; rewrite Hp; auto).
    assert (Ha' : forall k0 r0, In (k0, r0) (answers s ++ [(k, r)]) -> get (mmemo s) k0 = Some r0).
    { intros k0 r0 Hi. apply in_app_or in Hi. destruct Hi as [Hi|[Hi|[]]]; auto. now injection Hi as <- <-. }
    destruct fs as [|g fs]; [discriminate|]. destruct g; try discriminate; destruct p; try discriminate;
      injection Ha as <-; inversion Hcode; subst; apply Gen; auto.
    - left. constructor.
    - intros g [<-|[]]. exact I.
    - left. constructor; auto. match goal with H : calls_below _ _ (PCall _ _) |- _ => apply H end.
    - intros g [<-|Hg']; [exact I|]. exact (Hin g (or_intror Hg')). }
  assert (Hcall : code (f :: fs) -> forall k c, (f = FTop (PCall k c) \/ exists k0, f = FRun k0 (PCall k c)) ->
     MInv (with_thread s t (FEnter k :: f :: fs))).
  { intros Hc k c Hf. unfold with_thread. apply Gen; auto.
    - right. exists (FEnter k), k, (f :: fs). repeat split; auto. destruct Hf as [->|[k0 ->]]; simpl; auto.
    - intros g [<-|[<-|Hg]]; [exact I|destruct Hf as [->|[k0 ->]]; exact I|exact (Hin g Hg)]. }
  destruct f as [p|k|k|k|k p|k r|k|k].
  - (* FTop *) destruct p as [r|k c]; [discriminate|]. injection Hs as <-. apply Hcall with (c := c); auto.
    destruct Hok as [?|(f1 & k1 & fs1 & E & W & _)]; auto. injection E as <- <-. discriminate.
  - (* FEnter *) destruct (get (mmemo s) k) as [r|] eqn:Eg.
    + apply (Hansw k r s'); auto.
    + injection Hs as <-. unfold with_thread. apply Gen; auto.
      * right. destruct Hok as [Hc|(f1 & k1 & fs1 & E & W & Hcl & Hcode)]; [inversion Hc|].
        injection E as <- <-. injection W as <-. exists (FWait k), k, fs. auto.
      * intros g [<-|Hg]; [auto|exact (Hin g Hg)].
  - (* FWait *)
    assert (Hok' : stack_ok (FCheck k :: fs)).
    { right. destruct Hok as [Hc|(f1 & k1 & fs1 & E & W & Hcl & Hcode)]; [inversion Hc|].
      injection E as <- <-. injection W as <-. exists (FCheck k), k, fs. auto. }
    assert (Hgo : forall c, (match mlock s with None => c = 1 | Some (o, c0) => o = t /\ c = S c0 end) ->
       MInv (mkmst (mmemo s) (Some (t, c)) (setf (threads s) t (FCheck k :: fs)) (runs s) (answers s))).
    { intros c Hc. constructor; simpl; auto.
      - intro u. destruct (Nat.eq_dec u t) as [->|]; [now rewrite setf_eq|rewrite setf_ne; auto].
      - rewrite setf_eq. destruct (mlock s) as [[o c0]|].
        + destruct Hc as [-> ->]. destruct Hlk as (L1 & L2 & L3). split; [lia|]. rewrite Et in L2.
          split; [rewrite nlock_cons in *; simpl in *; lia|]. intros u Hu. rewrite setf_ne; auto.
        + subst c. split; [lia|]. split; [pose proof (Hlk t) as L; rewrite Et, nlock_cons in L; rewrite nlock_cons; simpl in *; lia|].
          intros u Hu. rewrite setf_ne; auto.
      - intros k0 Hk. destruct (Hrn k0 Hk) as [?|[u Hu]]; auto. right. exists u.
        destruct (Nat.eq_dec u t) as [->|]; [rewrite setf_eq; rewrite Et in Hu; auto|rewrite setf_ne; auto].
      - intros u k0. destruct (Nat.eq_dec u t) as [->|]; [rewrite setf_eq; intro Hu; apply (Hpr t); rewrite Et; auto|rewrite setf_ne; auto; apply Hpr].
      - intros u g. destruct (Nat.eq_dec u t) as [->|]; [rewrite setf_eq; intros [<-|Hg]; [auto|exact (Hin g Hg)]|rewrite setf_ne by auto; exact (Hhas u g)].
      - intros u k0. destruct (Nat.eq_dec u t) as [->|]; [rewrite setf_eq; intro Hu; apply (Hprr t); rewrite Et; auto|rewrite setf_ne; auto; apply Hprr]. }
    destruct (mlock s) as [[o c]|].
    + destruct (Nat.eqb_spec o t); [|discriminate]. injection Hs as <-. apply Hgo. auto.
    + injection Hs as <-. apply Hgo. auto.
  - (* FCheck *)
    destruct Hok as [Hc|(f1 & k1 & fs1 & E & W & Hcl & Hcode)]; [inversion Hc|].
    injection E as <- <-. injection W as <-.
    destruct (get (mmemo s) k) as [r|] eqn:Eg.
    + injection Hs as <-. unfold with_thread. apply Gen; auto.
      * right. exists (FUnlock k), k, fs. auto.
      * intros g [<-|Hg]; [congruence|exact (Hin g Hg)].
    + injection Hs as <-.
      assert (Hnr : ~ In k (runs s)).
      { intro Hk. destruct (Hrn k Hk) as [?|[u Hu]]; [congruence|].
        destruct (Nat.eq_dec u t) as [->|Hne].
        - rewrite Et in Hu. simpl in Hu. exact (code_prog k fs Hcl Hcode Hu).
        - assert (nlock (threads s u) = 0).
          { destruct (mlock s) as [[o c]|].
            - destruct Hlk as (L1 & L2 & L3). destruct (Nat.eq_dec o t) as [->|Ho]; auto.
              specialize (L3 t ltac:(auto)). rewrite Et in L3. rewrite nlock_cons in L3. simpl in L3. lia.
            - auto. }
          rewrite nlock_prog in Hu; auto. }
      constructor; simpl; auto.
      * intro u. destruct (Nat.eq_dec u t) as [->|]; [rewrite setf_eq; left; constructor; auto|rewrite setf_ne; auto].
      * assert (B : nlock (FRun k (body (length (runs s)) k) :: fs) = nlock (threads s t)) by (rewrite Et; reflexivity).
        destruct (mlock s) as [[o c]|].
        -- destruct Hlk as (L1 & L2 & L3). split; auto. destruct (Nat.eq_dec o t) as [->|].
           ++ rewrite setf_eq, B. split; auto. intros u Hu. rewrite setf_ne; auto.
           ++ rewrite setf_ne by auto. split; auto. intros u Hu. destruct (Nat.eq_dec u t) as [->|].
              ** rewrite setf_eq, B. auto.
              ** rewrite setf_ne; auto.
        -- intro u. destruct (Nat.eq_dec u t) as [->|]; [now rewrite setf_eq, B|rewrite setf_ne; auto].
      * clear - Hnd Hnr. induction (runs s) as [|x l IH]; simpl; [repeat constructor; auto|].
        inversion Hnd; subst. constructor. { rewrite in_app_iff. simpl in *. intuition congruence. }
        apply IH; auto. simpl in Hnr. tauto.
      * intros k0 Hk. apply in_app_or in Hk. destruct Hk as [Hk|[<-|[]]].
        -- destruct (Hrn k0 Hk) as [?|[u Hu]]; auto. right. exists u.
           destruct (Nat.eq_dec u t) as [->|]; [rewrite setf_eq; rewrite Et in Hu; simpl; auto|rewrite setf_ne; auto].
        -- right. exists t. rewrite setf_eq. simpl. auto.
      * intros u k0. destruct (Nat.eq_dec u t) as [->|]; [rewrite setf_eq|rewrite setf_ne; auto; apply Hpr].
        simpl. intros [<-|Hu]; auto. apply (Hpr t). rewrite Et. auto.
      * intros u g. destruct (Nat.eq_dec u t) as [->|]; [rewrite setf_eq; intros [<-|Hg]; [auto|exact (Hin g Hg)]|rewrite setf_ne by auto; exact (Hhas u g)].
      * intros k0 Hk. apply in_or_app. left. auto.
      * intros u k0. rewrite in_app_iff. destruct (Nat.eq_dec u t) as [->|]; [rewrite setf_eq|rewrite setf_ne; auto; left; eapply Hprr; eauto].
        simpl. intros [<-|Hu]; auto. left. apply (Hprr t). rewrite Et. auto.
  - (* FRun *)
    assert (Hc : code (FRun k p :: fs)).
    { destruct Hok as [?|(f1 & k1 & fs1 & E & W & _)]; auto. injection E as <- <-. discriminate. }
    destruct p as [r|k1 c].
    + injection Hs as <-. unfold with_thread. inversion Hc; subst. apply Gen; auto.
      * right. exists (FStore k r), k, fs. auto.
      * intros g [<-|Hg]; [auto|exact (Hin g Hg)].
    + injection Hs as <-. apply Hcall with (c := c); eauto.
  - (* FStore *)
    destruct Hok as [Hc|(f1 & k1 & fs1 & E & W & Hcl & Hcode)]; [inversion Hc|].
    injection E as <- <-. injection W as <-.
    injection Hs as <-.
    assert (Hk0 : get (mmemo s) k = None). { apply (Hpr t). rewrite Et. simpl. auto. }
    assert (Hmono : forall k0, get (mmemo s) k0 <> None -> get (dict_set keqb (mmemo s) k r) k0 = get (mmemo s) k0).
    { intros k0 H. rewrite (get_set keqb keqb_ok). destruct (keqb k k0) eqn:E; auto. apply keqb_ok in E. congruence. }
    assert (Hnew : get (dict_set keqb (mmemo s) k r) k = Some r).
    { now rewrite (get_set keqb keqb_ok), (keqb_refl keqb keqb_ok). }
    constructor; simpl.
    + intro u. destruct (Nat.eq_dec u t) as [->|]; [rewrite setf_eq; right; exists (FUnlock k), k, fs; auto|rewrite setf_ne; auto].
    + assert (B : nlock (FUnlock k :: fs) = nlock (threads s t)) by (rewrite Et; reflexivity).
      destruct (mlock s) as [[o c]|].
      * destruct Hlk as (L1 & L2 & L3). split; auto. destruct (Nat.eq_dec o t) as [->|].
        -- rewrite setf_eq, B. split; auto. intros u Hu. rewrite setf_ne; auto.
        -- rewrite setf_ne by auto. split; auto. intros u Hu. destruct (Nat.eq_dec u t) as [->|].
           ++ rewrite setf_eq, B. auto.
           ++ rewrite setf_ne; auto.
      * intro u. destruct (Nat.eq_dec u t) as [->|]; [now rewrite setf_eq, B|rewrite setf_ne; auto].
    + auto.
    + intros k0 Hk. destruct (keqb k k0) eqn:E. { apply keqb_ok in E. subst. left. congruence. }
      destruct (Hrn k0 Hk) as [Hm|[u Hu]]; [left; now rewrite Hmono|]. right. exists u.
      destruct (Nat.eq_dec u t) as [->|]; [rewrite setf_eq|rewrite setf_ne; auto].
      rewrite Et in Hu. simpl in *. destruct Hu as [->|]; auto. rewrite (keqb_refl keqb keqb_ok) in E. discriminate.
    + intros u k0 Hu. rewrite (get_set keqb keqb_ok). destruct (keqb k k0) eqn:E.
      * exfalso. apply keqb_ok in E. subst k0. destruct (Nat.eq_dec u t) as [->|].
        -- rewrite setf_eq in Hu. simpl in Hu. exact (code_prog k fs Hcl Hcode Hu).
        -- rewrite setf_ne in Hu by auto.
           assert (nlock (threads s u) = 0).
           { destruct (mlock s) as [[o c]|].
             - destruct Hlk as (L1 & L2 & L3). destruct (Nat.eq_dec o t) as [->|Ho]; auto.
               specialize (L3 t ltac:(auto)). rewrite Et in L3. rewrite nlock_cons in L3. simpl in L3. lia.
             - auto. }
           rewrite nlock_prog in Hu; auto.
      * destruct (Nat.eq_dec u t) as [->|]; [rewrite setf_eq in Hu|rewrite setf_ne in Hu by auto; eauto].
        apply (Hpr t). rewrite Et. simpl in *. auto.
    + intros u g. destruct (Nat.eq_dec u t) as [->|]; [rewrite setf_eq; intros [<-|Hg]|rewrite setf_ne by auto; intro Hg; apply Hhas in Hg].
      * congruence.
      * specialize (Hin g Hg). destruct g; auto; now rewrite Hmono.
      * destruct g; auto; now rewrite Hmono.
    + intros k0 r0 H. specialize (Hans k0 r0 H). rewrite Hmono; congruence.
    + intros k0. rewrite (get_set keqb keqb_ok). destruct (keqb k k0) eqn:E; auto.
      apply keqb_ok in E. subst k0. intros _. apply (Hprr t). rewrite Et. simpl. auto.
    + intros u k0 Hu. destruct (Nat.eq_dec u t) as [->|]; [rewrite setf_eq in Hu|rewrite setf_ne in Hu by auto; eapply Hprr; eauto].
      apply (Hprr t). rewrite Et. simpl in *. auto.
  - (* FUnlock *)
    destruct Hok as [Hc|(f1 & k1 & fs1 & E & W & Hcl & Hcode)]; [inversion Hc|].
    injection E as <- <-. injection W as <-. injection Hs as <-.
    assert (Hk : get (mmemo s) k <> None). { apply (Hhas t (FUnlock k)). rewrite Et. simpl; auto. }
    assert (B : nlock (threads s t) = S (nlock fs)) by (rewrite Et; reflexivity).
    constructor; simpl; auto.
    + intro u. destruct (Nat.eq_dec u t) as [->|]; [rewrite setf_eq; right; exists (FRead k), k, fs; auto|rewrite setf_ne; auto].
    + destruct (mlock s) as [[o c]|].
      * destruct Hlk as (L1 & L2 & L3). destruct (Nat.eq_dec o t) as [->|Ho]; [|specialize (L3 t ltac:(auto)); lia].
        rewrite B in L2. subst c. destruct (nlock fs) as [|n] eqn:En.
        -- intro u. destruct (Nat.eq_dec u t) as [->|]; [now rewrite setf_eq, nlock_cons, En|rewrite setf_ne; auto].
        -- split; [lia|]. rewrite setf_eq, nlock_cons, En. split; auto. intros u Hu. rewrite setf_ne; auto.
      * specialize (Hlk t). lia.
    + intros k0 Hk0. destruct (Hrn k0 Hk0) as [?|[u Hu]]; auto. right. exists u.
      destruct (Nat.eq_dec u t) as [->|]; [rewrite setf_eq; rewrite Et in Hu; auto|rewrite setf_ne; auto].
    + intros u k0. destruct (Nat.eq_dec u t) as [->|]; [rewrite setf_eq; intro Hu; apply (Hpr t); rewrite Et; auto|rewrite setf_ne; auto; apply Hpr].
    + intros u g. destruct (Nat.eq_dec u t) as [->|]; [rewrite setf_eq; intros [<-|Hg]; [auto|exact (Hin g Hg)]|rewrite setf_ne by auto; exact (Hhas u g)].
    + intros u k0. destruct (Nat.eq_dec u t) as [->|]; [rewrite setf_eq; intro Hu; apply (Hprr t); rewrite Et; auto|rewrite setf_ne; auto; apply Hprr].
  - (* FRead *) destruct (get (mmemo s) k) as [r|] eqn:Eg; [|discriminate]. apply (Hansw k r s'); auto.
Qed.
Lemma mrun_inv ts : forall s s', MInv s -> mrun keqb body s ts = Some s' -> MInv s'.
Proof.
  induction ts as [|t ts IH]; simpl; intros s s' HI Hr. { congruence. }
  destruct (mstep keqb body s t) as [s1|] eqn:E; [|discriminate]. apply (IH s1); auto. apply (step_inv s t); auto.
Qed.
Lemma m_once progs ts s : mrun keqb body (mst0 progs) ts = Some s -> NoDup (runs s).
Proof. intro H. apply (M_nodup s). eapply mrun_inv; eauto. apply MInv0. Qed.
Lemma m_consistent progs ts s k r r' : mrun keqb body (mst0 progs) ts = Some s ->
  In (k, r) (answers s) -> In (k, r') (answers s) -> r = r'.
Proof.
  intros H H1 H2. pose proof (mrun_inv _ _ _ (MInv0 progs) H) as HI. apply (M_ans s HI) in H1, H2. congruence.
Qed.
Lemma m_ran progs ts s k r : mrun keqb body (mst0 progs) ts = Some s -> In (k, r) (answers s) -> In k (runs s).
Proof.
  intros H H1. pose proof (mrun_inv _ _ _ (MInv0 progs) H) as HI. apply (M_memo s HI). apply (M_ans s HI) in H1. congruence.
Qed.
Lemma answer_some s t k r fs : caller k fs -> exists s', answer s t k r fs = Some s'.
Proof. unfold answer. destruct fs as [|[[]| | | |? []| | |]]; simpl; try tauto; eauto. Qed.
Lemma m_progress progs ts s t : mrun keqb body (mst0 progs) ts = Some s -> ~ finished s t ->
  exists u s', mstep keqb body s u = Some s'.
Proof.
  intros H Hnf. pose proof (mrun_inv _ _ _ (MInv0 progs) H) as [Hst Hlk Hnd Hrn Hpr Hhas Hans Hmm Hprr].
  assert (Go : forall u, (forall p, threads s u <> [FTop (PRet p)]) ->
     (forall k fs, threads s u = FWait k :: fs -> match mlock s with Some (o, _) => o = u | None => True end) ->
     exists s', mstep keqb body s u = Some s').
  { intros u Hnf' Hw. unfold mstep. destruct (threads s u) as [|f fs] eqn:Et.
    { pose proof (Hst u) as Hok. rewrite Et in Hok. destruct Hok as [Hc|(f & k & fs & E & _)]; [inversion Hc|discriminate]. }
    pose proof (Hst u) as Hok. rewrite Et in Hok.
    assert (Hwant : forall k, want f = Some k -> caller k fs).
    { intros k Hk. destruct Hok as [Hc|(f1 & k1 & fs1 & E & W & Hcl & _)]; [inversion Hc; subst; discriminate|].
      injection E as <- <-. congruence. }
    assert (Hhas' := Hhas u f). rewrite Et in Hhas'. specialize (Hhas' (or_introl eq_refl)).
    destruct f as [p|k|k|k|k p|k r|k|k].
    - destruct p; [|eauto]. destruct Hok as [Hc|(f1 & k1 & fs1 & E & W & _)].
      + inversion Hc; subst. exfalso. eapply Hnf'; eauto.
      + injection E as <- <-. discriminate.
    - destruct (get (mmemo s) k); [|eauto]. apply answer_some. auto.
    - specialize (Hw k fs eq_refl). destruct (mlock s) as [[o c]|]; [|eauto]. subst o. rewrite Nat.eqb_refl. eauto.
    - destruct (get (mmemo s) k); eauto.
    - destruct p; eauto.
    - eauto.
    - eauto.
    - destruct (get (mmemo s) k); [|congruence]. apply answer_some. auto. }
  destruct (mlock s) as [[o c]|].
  - exists o. apply Go; auto. destruct Hlk as (L1 & L2 & _). intros p E. rewrite E in L2. unfold nlock in L2. simpl in L2. lia.
  - exists t. apply Go; auto. intros p E. apply Hnf. unfold finished. now rewrite E.
Qed.
End Ranked.

(** ** the values are those of the plain function *)
Section Pure.
Variable b : K -> prog K V.
Hypothesis Hpure : forall n k, body n k = b k.
Definition implies (p q : prog K V) : Prop := forall r, plain b p r -> plain b q r.
(** values expected by the code in a stack *)
Fixpoint frames_ok (p0 : prog K V) (fs : list frame) : Prop :=
  match fs with
  | [] => False
  | FTop p :: fs' => fs' = [] /\ implies p p0
  | FRun k p :: fs' => implies p (b k) /\ caller k fs' /\ frames_ok p0 fs'
  | FStore k r :: fs' => plain b (b k) r /\ caller k fs' /\ frames_ok p0 fs'
  | (FEnter k | FWait k | FCheck k | FUnlock k | FRead k) :: fs' => caller k fs' /\ frames_ok p0 fs'
  end.
Record PInv (progs : nat -> prog K V) (s : mst) : Prop := {
  P_memo : forall k r, get (mmemo s) k = Some r -> plain b (b k) r;
  P_frames : forall t, frames_ok (progs t) (threads s t);
  P_ans : forall k r, In (k, r) (answers s) -> plain b (b k) r }.
Lemma PInv0 progs : PInv progs (mst0 progs).
Proof. constructor; simpl; try tauto; try discriminate. intro t. split; auto. intros r H. exact H. Qed.
Lemma answer_frames p0 k c r fs : plain b (b k) r -> 
  (frames_ok p0 (FTop (PCall k c) :: fs) -> frames_ok p0 (FTop (c r) :: fs)) /\
  (forall k0, frames_ok p0 (FRun k0 (PCall k c) :: fs) -> frames_ok p0 (FRun k0 (c r) :: fs)).
Proof.
  intro Hp. split; simpl.
  - intros [-> H]. split; auto. intros r' H'. apply H. econstructor; eauto.
  - intros k0 (H & H1 & H2). split; auto. intros r' H'. apply H. econstructor; eauto.
Qed.
Lemma pstep_inv progs s t s' : PInv progs s -> mstep keqb body s t = Some s' -> PInv progs s'.
Proof.
  intros [Hm Hf Ha] Hs. unfold mstep in Hs. pose proof (Hf t) as Ht. destruct (threads s t) as [|f fs] eqn:Et; [discriminate|].
  assert (Gen : forall fs' ml rn, frames_ok (progs t) fs' ->
     PInv progs (mkmst (mmemo s) ml (setf (threads s) t fs') rn (answers s))).
  { intros fs' ml rn H. constructor; simpl; auto. intro u. destruct (Nat.eq_dec u t) as [->|]; [now rewrite setf_eq|rewrite setf_ne; auto]. }
  assert (Hansw : forall k r s1, get (mmemo s) k = Some r -> caller k fs -> frames_ok (progs t) fs -> answer s t k r fs = Some s1 -> PInv progs s1).
  { intros k r s1 Hg Hc Hfr Han. apply Hm in Hg.
    assert (Ha' : forall k0 r0, In (k0, r0) (answers s ++ [(k, r)]) -> plain b (b k0) r0).
    { intros k0 r0 Hi. apply in_app_or in Hi. destruct Hi as [Hi|[Hi|[]]]; auto. now injection Hi as <- <-. }
    destruct fs as [|g fs]; [discriminate|]. destruct g; try discriminate; destruct p; try discriminate;
      injection Han as <-; simpl in Hc; subst; destruct (answer_frames (progs t) _ c r fs Hg) as [A B];
      constructor; simpl; auto; intro u; (destruct (Nat.eq_dec u t) as [->|]; [rewrite setf_eq|rewrite setf_ne; auto]).
    - now apply A.
    - now apply B. }
  destruct f as [p|k|k|k|k p|k r|k|k].
  - destruct p as [r|k c]; [discriminate|]. injection Hs as <-. apply Gen. split; [reflexivity|exact Ht].
  - destruct Ht as [Hc Hfr]. destruct (get (mmemo s) k) as [r|] eqn:Eg.
    + apply (Hansw k r); auto.
    + injection Hs as <-. apply Gen. split; auto.
  - destruct Ht as [Hc Hfr]. destruct (mlock s) as [[o c]|].
    + destruct (o =? t); [|discriminate]. injection Hs as <-. apply Gen. split; auto.
    + injection Hs as <-. apply Gen. split; auto.
  - destruct Ht as [Hc Hfr]. destruct (get (mmemo s) k) as [r|] eqn:Eg; injection Hs as <-; apply Gen.
    + split; auto.
    + simpl. rewrite Hpure. repeat split; auto. intros r H. exact H.
  - destruct p as [r|k1 c].
    + injection Hs as <-. apply Gen. destruct Ht as (H1 & H2 & H3). split; auto. apply H1. constructor.
    + injection Hs as <-. apply Gen. split; [reflexivity|exact Ht].
  - injection Hs as <-. destruct Ht as (H1 & H2 & H3). constructor; simpl; auto.
    + intros k0 r0. rewrite (get_set keqb keqb_ok). destruct (keqb k k0) eqn:E; auto. apply keqb_ok in E. subst. now intros [= <-].
    + intro u. destruct (Nat.eq_dec u t) as [->|]; [rewrite setf_eq; split; auto|rewrite setf_ne; auto].
  - destruct Ht as [Hc Hfr]. injection Hs as <-. apply Gen. split; auto.
  - destruct Ht as [Hc Hfr]. destruct (get (mmemo s) k) as [r|] eqn:Eg; [|discriminate]. apply (Hansw k r); auto.
Qed.
Lemma prun_inv progs ts : forall s s', PInv progs s -> mrun keqb body s ts = Some s' -> PInv progs s'.
Proof.
  induction ts as [|t ts IH]; simpl; intros s s' HI Hr. { congruence. }
  destruct (mstep keqb body s t) as [s1|] eqn:E; [|discriminate]. apply (IH s1); auto. apply (pstep_inv progs s t); auto.
Qed.
Lemma m_plain progs ts s : mrun keqb body (mst0 progs) ts = Some s ->
  (forall k r, In (k, r) (answers s) -> plain b (b k) r) /\
  (forall t r, threads s t = [FTop (PRet r)] -> plain b (progs t) r).
Proof.
  intro H. pose proof (prun_inv progs _ _ _ (PInv0 progs) H) as [Hm Hf Ha]. split; auto.
  intros t r E. specialize (Hf t). rewrite E in Hf. apply Hf. constructor.
Qed.
End Pure.
End MP.

(** ** reading the memo of a generator *)
Section Read.
Context {V G : Type}.
Lemma getitem_in (s : gst V G) k : (0 <= k < zlen (memo s))%Z ->
  forall r, nth_error (memo s) (Z.to_nat k) = Some r ->
  gm_getitem s k = r /\ gm_getitem s (k - zlen (memo s)) = r.
Proof.
  intros Hk r Hr. unfold gm_getitem.
  assert (E1 : ((zlen (memo s) <=? k) || (k <? - zlen (memo s)))%Z = false)
    by (apply orb_false_iff; split; [apply Z.leb_gt|apply Z.ltb_ge]; lia).
  assert (E2 : ((zlen (memo s) <=? k - zlen (memo s)) || (k - zlen (memo s) <? - zlen (memo s)))%Z = false)
    by (apply orb_false_iff; split; [apply Z.leb_gt|apply Z.ltb_ge]; lia).
  rewrite E1, E2. replace (k <? 0)%Z with false by (symmetry; apply Z.ltb_ge; lia).
  replace (k - zlen (memo s) <? 0)%Z with true by (symmetry; apply Z.ltb_lt; lia).
  replace (k - zlen (memo s) + zlen (memo s))%Z with k by lia.
  unfold znth. replace (k <? 0)%Z with false by (symmetry; apply Z.ltb_ge; lia). rewrite Hr. auto.
Qed.
Lemma getitem_out (s : gst V G) k : (zlen (memo s) <= k \/ k < - zlen (memo s))%Z -> gm_getitem s k = Raise IndexError.
Proof.
  intro H. unfold gm_getitem.
  replace ((zlen (memo s) <=? k) || (k <? - zlen (memo s)))%Z with true; auto.
  symmetry. apply orb_true_iff. rewrite Z.leb_le, Z.ltb_lt. auto.
Qed.
End Read.
(** ** Examples *)
Definition twice (o : outcome nat) : outcome nat := omap (fun x => x + x) o.
(** yield 1; me = powers(); while True: yield 2 * next(me) *)
Definition powers (g : nat) : gprog nat nat :=
  match g with O => GOut (Ok 1) 1 | S _ => GNext 10 (fun a => GOut (twice a) 1) end.
Lemma powers_productive : productive powers 0.
Proof.
  assert (H : forall n, exists items g ip, sequence_of powers 0 n = Some (items, g, ip) /\ length items = n /\ g = min n 1 /\ ip 10 = n - 1).
  { induction n as [|n (items & g & ip & H1 & H2 & H3 & H4)].
    - exists [], 0, (fun _ => 0). auto.
    - simpl. rewrite H1. destruct n as [|n]; subst g.
      + simpl. eexists _, _, _. split; [reflexivity|]. rewrite app_length, H2. simpl. auto.
      + cbn [powers Nat.min produce]. rewrite H4. destruct (nth_error items (S n - 1)) eqn:E.
        * eexists _, _, _. split; [reflexivity|]. rewrite app_length, H2, setf_eq. simpl. repeat split; lia.
        * apply nth_error_None in E. lia. }
  intros n E. destruct (H n) as (a & b & c & Q & _). congruence.
Qed.
Definition fib_body (n k : nat) : prog nat nat :=
  match k with
  | 0 => PRet (Ok 0)
  | 1 => PRet (Ok 1)
  | S (S m as m1) => PCall m1 (fun a => PCall m (fun b => PRet (do x <- a ; do y <- b ; Ok (x + y))))
  end.
Lemma getitem_spec {V G : Type} (resume : G -> gprog V G) (own : nat -> bool) (g : G) :
  productive resume g -> (forall g', uses_only own (resume g')) ->
  forall acts s k, one_user resume own (gst0 g) acts -> gmrun resume (gst0 g) acts = Some s ->
  ((0 <= k < gm_len s)%Z ->
     item resume g (Z.to_nat k) = Some (gm_getitem s k) /\ gm_getitem s (k - gm_len s) = gm_getitem s k)
  /\ ((gm_len s <= k \/ k < - gm_len s)%Z -> gm_getitem s k = Raise IndexError).
Proof.
  intros Hp Hu acts s k Ho Hr. split; [|apply getitem_out].
  intro Hk. unfold gm_len in *. destruct (nth_error (memo s) (Z.to_nat k)) as [r|] eqn:E.
  - destruct (getitem_in s k Hk r E) as [-> ->]. split; auto.
    eapply memo_items; eauto. eapply run_inv; eauto. apply Inv0.
  - apply nth_error_None in E. unfold zlen in Hk. lia.
Qed.

Lemma walk_ok {V} (vs : list V) : walk (map Ok vs) = Ok vs.
Proof. induction vs as [|v vs IH]; [reflexivity|]. cbn. now rewrite IH. Qed.
Lemma walk_raise {V} (vs : list V) x rest : walk (map Ok vs ++ Raise x :: rest) = Raise x.
Proof. induction vs as [|v vs IH]; [reflexivity|]. cbn. now rewrite IH. Qed.
Lemma getslice_spec {V G : Type} (s : gst V G) k :
  match range_slice (range0 (gm_len s)) k with
  | Raise x => gm_getslice s k = Raise x
  | Ok r =>
      (forall vs, map (gm_getitem s) (range_list r) = map Ok vs -> gm_getslice s k = Ok vs) /\
      (forall vs x rest, map (gm_getitem s) (range_list r) = map Ok vs ++ Raise x :: rest -> gm_getslice s k = Raise x)
  end.
Proof.
  unfold gm_getslice, gm_len. destruct (py_slice (memo s) k) as [rs|x] eqn:E.
  - destruct (py_slice_nth _ _ _ E) as (r & R & St & L & I & N). rewrite R. cbn [obind].
    assert (M : map (gm_getitem s) (range_list r) = rs).
    { apply nth_error_ext. intros i. rewrite nth_error_map.
      destruct (Z.ltb_spec (Z.of_nat i) (range_len r)) as [H|H].
      - specialize (N (Z.of_nat i) ltac:(lia)). pose proof (range_list_nth r (Z.of_nat i) St ltac:(lia)) as Q.
        unfold znth in N, Q. destruct (Z.ltb_spec (Z.of_nat i) 0); [lia|]. rewrite Nat2Z.id in N, Q. rewrite Q. cbn [option_map]. rewrite N.
        assert (B : (0 <= range_item r (Z.of_nat i) < zlen (memo s))%Z) by (apply I; eapply nth_error_In; exact Q).
        unfold gm_getitem. destruct (Z.leb_spec (zlen (memo s)) (range_item r (Z.of_nat i))); [lia|].
        destruct (Z.ltb_spec (range_item r (Z.of_nat i)) (- zlen (memo s))); [lia|]. cbn [orb].
        destruct (Z.ltb_spec (range_item r (Z.of_nat i)) 0); [lia|].
        destruct (znth_Some _ _ B) as [a A]. rewrite A. unfold znth in A. destruct (Z.ltb_spec (range_item r (Z.of_nat i)) 0); [lia|]. now rewrite A.
      - assert (A : nth_error rs i = None) by (apply nth_error_None; unfold zlen in L; lia).
        assert (B : nth_error (range_list r) i = None) by (apply nth_error_None; pose proof (range_list_length r St) as Q; unfold zlen in Q; lia).
        now rewrite A, B. }
    rewrite M. split; intros; subst rs; [rewrite H; apply walk_ok|rewrite H; apply walk_raise].
  - unfold py_slice in E. unfold range_slice.
    assert (RL : range_len (range0 (zlen (memo s))) = zlen (memo s)).
    { unfold range_len, range0. simpl. pose proof (zlen_nonneg (memo s)). destruct (Z.ltb_spec 0 (zlen (memo s))); [|lia]. rewrite Z.div_1_r. lia. }
    rewrite RL. destruct (slice_indices k (zlen (memo s))) as [[[a b] c]|y]; [discriminate|]. cbn in *. congruence.
Qed.
