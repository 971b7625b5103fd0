(** Proofs about the model of `with continuations`. *)
From Coq Require Import String List Bool Arith ZArith Lia.
From Verif Require Import Base BaseProofs McontModel McontSpec.
Import ListNotations.
Open Scope string_scope.
Open Scope list_scope.
Open Scope nat_scope.

(** * Scopes *)
Section Map.
Context {A B : Type} (f : A -> B).
Definition mf (fr : frame A) : frame B := mkframe (locs fr) (map (fun q => (fst q, f (snd q))) (vals fr)).
Definition ms (s : state A) : state B := mkstate (map mf (frs s)) (map f (out s)).

Lemma assoc_map x l : assoc x (map (fun q => (fst q, f (snd q))) l) = option_map f (assoc x l).
Proof. induction l as [|[y v] l IH]; cbn; [reflexivity|]. destruct (String.eqb x y); [reflexivity|exact IH]. Qed.
Lemma nth_map i (l : list (frame A)) : nth_error (map mf l) i = option_map mf (nth_error l i).
Proof. revert i. induction l as [|a l IH]; intros [|i]; cbn; auto. Qed.
Lemma lookup_map own s env x : lookup own (ms s) env x = omap f (lookup own s env x).
Proof.
  revert own. induction env as [|i up IH]; intros own; [reflexivity|].
  cbn [lookup]. unfold ms at 1. cbn [frs]. rewrite nth_map.
  destruct (nth_error (frs s) i) as [fr|]; cbn [option_map]; [|reflexivity].
  cbn [mf vals locs].
  destruct up as [|j up].
  - rewrite assoc_map. destruct (assoc x (vals fr)); reflexivity.
  - destruct (memb x (locs fr)); [|apply IH].
    rewrite assoc_map. destruct (assoc x (vals fr)); reflexivity.
Qed.
Lemma map_upd {X Y} (g : X -> Y) l i v : map g (upd l i v) = upd (map g l) i (g v).
Proof. revert i. induction l as [|a l IH]; intros [|i]; cbn; try reflexivity. f_equal. apply IH. Qed.
Lemma setv_map s i x v : setv (ms s) i x (f v) = ms (setv s i x v).
Proof.
  unfold setv. unfold ms at 1. cbn [frs]. rewrite nth_map. destruct (nth_error (frs s) i) as [fr|]; cbn [option_map]; [|reflexivity].
  unfold ms. cbn [frs out]. rewrite map_upd. reflexivity.
Qed.
Lemma assign_map s env x v : assign (ms s) env x (f v) = ms (assign s env x v).
Proof. destruct env; [reflexivity|]. apply setv_map. Qed.
Lemma assign_up_map s env x v : assign_up (ms s) env x (f v) = ms (assign_up s env x v).
Proof.
  induction env as [|i up IH]; [reflexivity|]. cbn [assign_up]. destruct up as [|j up]; [apply setv_map|].
  unfold ms at 1. cbn [frs]. rewrite nth_map. destruct (nth_error (frs s) i) as [fr|]; cbn [option_map]; [|reflexivity].
  cbn [locs mf]. destruct (memb x (locs fr)); [apply setv_map|apply IH].
Qed.
Lemma nonlocal_map s env x v : nonlocal (ms s) env x (f v) = ms (nonlocal s env x v).
Proof. destruct env as [|i [|j up]]; [reflexivity|apply setv_map|apply assign_up_map]. Qed.
Lemma print_map s v : print (ms s) (f v) = ms (print s v).
Proof. unfold print, ms. cbn. rewrite map_app. reflexivity. Qed.
Lemma combine_map (ps : list string) l :
  combine ps (map f l) = map (fun q => (fst q, f (snd q))) (combine ps l).
Proof. revert l. induction ps as [|p ps IH]; intros [|a l]; cbn; [reflexivity..|]. f_equal. apply IH. Qed.
Lemma skipn_map' n (l : list A) : skipn n (map f l) = map f (skipn n l).
Proof. revert l. induction n as [|n IH]; intros [|a l]; cbn; auto. Qed.
Lemma newframe_map ta tb ps star ign loc args cc :
  (forall l, tb (map f l) = f (ta l)) ->
  newframe tb ps star ign loc (map f args) (f cc) = option_map mf (newframe ta ps star ign loc args cc).
Proof.
  intros T. unfold newframe. rewrite map_length.
  destruct ign; [destruct (length args <=? 1); reflexivity|].
  destruct star as [x|].
  - destruct (length ps <=? length args); [|reflexivity]. cbn [option_map]. unfold mf; cbn [locs vals].
    rewrite map_app, combine_map, skipn_map', T. reflexivity.
  - destruct (length args =? length ps); [|reflexivity]. cbn [option_map]. unfold mf; cbn [locs vals].
    rewrite map_app, combine_map. reflexivity.
Qed.
Lemma alloc_map s fr : alloc (ms s) (mf fr) = (ms (fst (alloc s fr)), snd (alloc s fr)).
Proof. unfold alloc, ms. cbn. rewrite map_app, map_length. reflexivity. Qed.
End Map.

(** * The parts *)
Lemma tr_truth v : truth (tr v) = struth v.
Proof. destruct v; try reflexivity. destruct l; reflexivity. Qed.
Lemma tr_callable v : callable (tr v) = scallable v.
Proof. destruct v; reflexivity. Qed.
Lemma tr_iscont v : iscont (tr v) = match v with SVRest _ _ _ _ _ _ => true | _ => false end.
Proof. destruct v; reflexivity. Qed.
Lemma tr_unpack v : unpack (tr v) = (map tr (sunpack v), None).
Proof. destruct v; reflexivity. Qed.
Lemma tr_pack l : identity (map tr l) None = tr (spack l).
Proof. destruct l as [|a [|b l]]; reflexivity. Qed.
Lemma tr_none v : (match tr v with VNone => true | _ => false end) = match v with SVNone => true | _ => false end.
Proof. destruct v; reflexivity. Qed.
Scheme stmt_mind := Induction for stmt Sort Prop with block_mind := Induction for block Sort Prop.
Combined Scheme stmt_block_ind from stmt_mind, block_mind.
Lemma assigned_x : (forall s, assigned_t (xstmt s) = assigned s) /\ (forall b, assigned_tb (xblock b) = assigned_in b).
Proof.
  apply stmt_block_ind; intros; cbn; auto; congruence.
Qed.
Lemma assigned_xb b : forall o i r, assigned_tb (xbody o i r b) = assigned_b b.
Proof.
  induction b as [|s b IH]; intros o i r; cbn [xbody assigned_b].
  - destruct (i && negb r); reflexivity.
  - destruct s; cbn [assigned_tb];
      try (rewrite (proj1 assigned_x), IH; reflexivity).
    cbn. destruct c as [[|]|t [|] [|]]; destruct o; reflexivity.
Qed.

(** * Simulation *)
Definition R {A B} (f : A -> B) (rs : sres A) (rt : res B) : Prop :=
  match rs with
  | SDone a s => rt = Done (f a) (trs s)
  | SErr e s => rt = Err e (trs s)
  | SNoFuel => rt = NoFuel
  | SOdd _ => True
  end.
Lemma R_bind {A A' B B'} (f : A -> A') (g : B -> B') rs rt fs ft :
  R f rs rt -> (forall a s, R g (fs a s) (ft (f a) (trs s))) -> R g (sbind rs fs) (bind rt ft).
Proof. destruct rs; cbn; intros E H; try (rewrite E; cbn); auto. Qed.
Lemma bind_assoc {A B C} (r : res A) (f : A -> state value -> res B) (g : B -> state value -> res C) :
  bind (bind r f) g = bind r (fun a s => bind (f a s) g).
Proof. destruct r; reflexivity. Qed.
Lemma R_end {A} (f : A -> value) rs rt p env pcc cont :
  R (option_map f) rs rt ->
  R (option_map f) rs (bind rt (fun r s => match r with Some v => Done (Some v) s | None => exec (S p) s env pcc cont TNil end)).
Proof. destruct rs as [[a|] s|e s| |o]; cbn; intros E; try (rewrite E; reflexivity). exact I. Qed.
Lemma R_odd {A B} (f : A -> B) o rs rt : R f (oddly true o rs) rt.
Proof. exact I. Qed.
Lemma R_lift {A B} (f : A -> B) s o : R f (slift s o) (lift (trs s) (omap f o)).
Proof. destruct o; reflexivity. Qed.
Lemma R_lookup s env x : R tr (slift s (lookup true s env x)) (lift (trs s) (lookup true (trs s) env x)).
Proof. change (trs s) with (ms tr s). rewrite lookup_map. apply R_lift. Qed.
Definition tpcc (tail : sval) : option value := if is_ident tail then None else Some (tr tail).

Definition sim (n : nat) : Prop :=
  (forall s env e, R tr (seval true n s env e) (eval n (trs s) env (ytr e))) /\
  (forall s env l, R (map tr) (sevals true n s env l) (evals n (trs s) env (map ytr l))) /\
  (forall s f l c, R tr (scall true n s f l c) (call n (trs s) (tr f) (map tr l) (option_map tr c))) /\
  (forall s f l c, R tr (sloop true n s f l c) (tramp n (trs s) (tr f) (map tr l) (option_map tr c))) /\
  (forall s f l c, R tact (sstep true n s f l c) (raw n (trs s) (tr f) (map tr l) (option_map tr c))) /\
  (forall s env tail p b cont,
     R (option_map tact) (sexec true n s env tail p b) (exec n (trs s) env (tpcc tail) cont (xplace p b))) /\
  (forall s env tail t e cont, R tact (sret true n s env tail t e) (retx n (trs s) env (tpcc tail) cont (retexpr e))).

Lemma simulation n : (forall m, m < n -> sim m) -> sim n.
Proof.
  destruct n as [|n]; intros IH.
  { repeat split; intros; reflexivity. }
  destruct (IH n (Nat.lt_succ_diag_r n)) as (IE & IEs & IC & IL & IS & IX & IR).
  assert (E : forall s env e, R tr (seval true (S n) s env e) (eval (S n) (trs s) env (ytr e))).
  { intros s env e. destruct e; cbn [seval eval ytr]; try reflexivity.
    - apply R_lookup.
    - eapply R_bind; [apply IE|]. intros v s'. rewrite tr_iscont. reflexivity.
    - eapply R_bind; [apply IE|]. intros v s'. rewrite tr_none. reflexivity.
    - eapply R_bind; [apply IE|]. intros v s'. eapply R_bind; [apply IE|]. intros w s''. destruct v, w; reflexivity.
    - eapply R_bind; [apply IE|]. intros v s'. eapply R_bind; [apply IE|]. intros w s''. destruct v, w; reflexivity.
    - eapply R_bind; [apply IE|]. intros v s'. rewrite tr_truth. reflexivity.
    - eapply R_bind; [apply IE|]. intros v s'. rewrite tr_truth. destruct (struth v); apply IE.
    - eapply R_bind; [apply IE|]. intros v s'. rewrite tr_truth. destruct (struth v); [apply IE|reflexivity].
    - eapply R_bind; [apply IE|]. intros v s'. rewrite tr_truth. destruct (struth v); [reflexivity|apply IE].
    - eapply R_bind; [apply IE|]. intros v s'. eapply R_bind; [apply IEs|]. intros l s''.
      eapply (R_bind (option_map tr)).
      + destruct cc as [e'|]; [|reflexivity]. eapply R_bind; [apply IE|]. intros; reflexivity.
      + intros c s3. apply IC.
    - eapply R_bind; [apply IEs|]. intros; reflexivity. }
  assert (Es : forall s env l, R (map tr) (sevals true (S n) s env l) (evals (S n) (trs s) env (map ytr l))).
  { intros s env [|e l]; cbn [sevals evals map]; [reflexivity|].
    eapply R_bind; [apply IE|]. intros v s'. eapply R_bind; [apply IEs|]. intros; reflexivity. }
  assert (C : forall s f l c, R tr (scall true (S n) s f l c) (call (S n) (trs s) (tr f) (map tr l) (option_map tr c))).
  { intros s f l c. destruct f; cbn [scall call tr]; try reflexivity.
    - apply (IL s (SVFun ps star b env)).
    - apply (IL s (SVRest ts star fn b env f)).
    - pose proof (IS s SVIdent l c) as H. destruct n as [|n]; [reflexivity|].
      cbn [sstep raw tr] in *. destruct c as [k|]; [exact I|]. cbn [option_map]. rewrite tr_pack. reflexivity.
    - apply (IL s SVGetcc). }
  assert (L : forall s f l c, R tr (sloop true (S n) s f l c) (tramp (S n) (trs s) (tr f) (map tr l) (option_map tr c))).
  { intros s f l c. cbn [sloop tramp]. eapply R_bind; [apply IS|]. intros [v|g l' c'] s'; cbn [tact].
    - destruct v; reflexivity.
    - rewrite tr_callable. destruct (scallable g); [apply IL|reflexivity]. }
  assert (F : forall s ps star ign b env tail p l c,
    R tact (match newframe SVTuple ps star ign (assigned_b b) l (match c with Some k => k | None => SVIdent end) with
            | None => SErr TypeError s
            | Some fr => let (s, i) := alloc s fr in
                sbind (sexec true n s (i :: env) tail p b) (fun r s => SDone (match r with Some a => a | None => Final SVNone end) s)
            end)
      (match newframe VTuple ps star ign (assigned_b b) (map tr l) (match option_map tr c with Some k => k | None => VIdent end) with
       | None => Err TypeError (trs s)
       | Some fr => let (s, i) := alloc (trs s) fr in
           bind (exec n s (i :: env) (tpcc tail) None (xplace p b))
             (fun r s => Done (match r with Some v => v | None => VNone end) s)
       end)).
  { intros s ps star ign b env tail p l c.
    replace (match option_map tr c with Some k => k | None => VIdent end)
      with (tr (match c with Some k => k | None => SVIdent end)) by (destruct c; reflexivity).
    rewrite (newframe_map tr SVTuple VTuple) by reflexivity.
    destruct (newframe SVTuple ps star ign (assigned_b b) l _) as [fr|]; cbn [option_map]; [|reflexivity].
    change (trs s) with (ms tr s). rewrite alloc_map. unfold alloc. cbn [fst snd].
    eapply R_bind; [apply IX|]. intros [a|] s'; reflexivity. }
  assert (St : forall s f l c, R tact (sstep true (S n) s f l c) (raw (S n) (trs s) (tr f) (map tr l) (option_map tr c))).
  { intros s f l c. destruct f; cbn [sstep raw tr]; try reflexivity.
    - change (assigned_tb (xplace Body b)) with (assigned_tb (xbody true true false b)). rewrite assigned_xb.
      exact (F s ps star false b env SVIdent Body l c).
    - replace (assigned_tb (xplace (if fn then Body else TopRest) b)) with (assigned_b b)
        by (destruct fn; symmetry; apply assigned_xb).
      apply F.
    - destruct c as [k|]; [exact I|]. cbn [option_map]. rewrite tr_pack. reflexivity.
    - destruct c as [k|]; reflexivity.
    - destruct c as [k|]; [exact I|]. reflexivity. }
  assert (Rt : forall s env tail t e cont,
    R tact (sret true (S n) s env tail t e) (retx (S n) (trs s) env (tpcc tail) cont (retexpr e))).
  { intros s env tail t e cont.
    assert (O : forall k v s, R tact (SDone (go_on tail k v) s) (chain_conts (tpcc tail) (tr k) (tr v) (trs s))).
    { intros k v s'. unfold chain_conts. rewrite tr_unpack. unfold tpcc, go_on. destruct (is_ident tail); reflexivity. }
    assert (V : forall v s, R tact (sbind (slift s (lookup true s env "cc")) (fun k s => SDone (go_on tail k v) s))
      (bind (lift (trs s) (lookup true (trs s) env "cc")) (fun k s => chain_conts (tpcc tail) k (tr v) s))).
    { intros v s'. eapply R_bind; [apply R_lookup|]. intros k s''. apply O. }
    assert (D : R tact
      (sbind (slift s (lookup true s env "cc")) (fun k s =>
            sbind (seval true n s env e) (fun v s => SDone (go_on tail k v) s)))
      (retx (S n) (trs s) env (tpcc tail) cont (XData (ytr e)))).
    { cbn [retx]. eapply R_bind; [apply R_lookup|]. intros k s'. eapply R_bind; [apply IE|]. intros v s''. apply O. }
    destruct e; try exact D; cbn [sret].
    - cbn [retx retexpr retexpr_of ytr]. eapply R_bind; [apply IE|]. intros v s'. rewrite tr_truth. destruct (struth v); apply IR.
    - unfold retexpr. cbn [retexpr_of]. change (compound e2) with (may_call e2). destruct (may_call e2); [|exact D].
      cbn [retx]. eapply R_bind; [apply IE|]. intros v s'. rewrite tr_truth.
      destruct (struth v) eqn:T; [apply IR|]. destruct v as [| |[|]| | | | | | |]; try exact I; try discriminate T.
      apply (IR s' env tail t (EBool false)).
    - unfold retexpr. cbn [retexpr_of]. change (compound e2) with (may_call e2). destruct (may_call e2); [|exact D].
      cbn [retx]. eapply R_bind; [apply IE|]. intros v s'. rewrite tr_truth.
      destruct (struth v) eqn:T; [apply V|apply IR].
    - cbn [retx retexpr retexpr_of]. eapply R_bind; [apply IE|]. intros v s'. eapply R_bind; [apply IEs|]. intros l s''.
      replace (match option_map ytr cc with Some e => e | None => YVar "cc" end)
        with (ytr (match cc with Some e => e | None => EVar "cc" end)) by (destruct cc; reflexivity).
      eapply R_bind; [apply IE|]. intros k s3. destruct t; [exact I|]. cbn. unfold tpcc, seq. destruct (is_ident tail); reflexivity. }
  assert (C1 : forall p s env tail top rest m c, p <= n ->
    R (option_map tact) (scc1 true p s env top rest m c)
      (exec (S p) (trs s) env (tpcc tail) (Some (tr rest)) (TCons (xcall (negb top) m c) TNil))).
  { intros p s env tail top rest m c LE.
    destruct p as [|p]; [destruct top, c; reflexivity|].
    destruct (IH p ltac:(lia)) as (IEp & IEsp & ICp & _).
    destruct top, c as [|f args]; cbn [xcall negb]; cbn [scc1].
    - change (exec (S (S p)) (trs s) env (tpcc tail) (Some (tr rest)) (TCons (TTopNone m) TNil))
        with (bind (lift (trs s) (lookup true (trs s) env "cc")) (fun c s =>
                bind (call p s (tr rest) (repeat VNone m) (Some c)) (fun _ s => Done (@None value) s))).
      pose proof (R_lookup s env "cc") as H. unfold slift in H.
      destruct (lookup true s env "cc") as [[]|]; try exact I.
      cbn in H. rewrite H. cbn [bind]. replace (repeat VNone m) with (map tr (repeat SVNone m))
        by (clear; induction m; cbn; congruence).
      eapply R_bind; [apply (ICp s rest (repeat SVNone m) (Some SVIdent))|]. intros; reflexivity.
    - change (exec (S (S p)) (trs s) env (tpcc tail) (Some (tr rest)) (TCons (TTop (ytr f) (map ytr args)) TNil))
        with (bind (eval p (trs s) env (ytr f)) (fun f s => bind (evals p s env (map ytr args)) (fun args s =>
                bind (call p s f args (Some (tr rest))) (fun _ s => Done (@None value) s)))).
      eapply R_bind; [apply IEp|]. intros v s'. eapply R_bind; [apply IEsp|]. intros l s''.
      eapply R_bind; [apply (ICp s'' v l (Some rest))|]. intros; reflexivity.
    - change (exec (S (S p)) (trs s) env (tpcc tail) (Some (tr rest)) (TCons (TReturn (XCcNone m)) TNil))
        with (bind (bind (lift (trs s) (lookup true (trs s) env "cc")) (fun c s => Done (VJump (tr rest) (repeat VNone m) (Some c)) s))
                (fun v s => Done (Some v) s)).
      pose proof (R_lookup s env "cc") as H. unfold slift in H.
      destruct (lookup true s env "cc") as [[]|]; try exact I.
      cbn in H. rewrite H. cbn. replace (map tr (repeat SVNone m)) with (repeat VNone m)
        by (clear; induction m; cbn; congruence). reflexivity.
    - change (exec (S (S p)) (trs s) env (tpcc tail) (Some (tr rest)) (TCons (TReturn (XCc (ytr f) (map ytr args))) TNil))
        with (bind (bind (eval p (trs s) env (ytr f)) (fun f s => bind (evals p s env (map ytr args)) (fun args s =>
                Done (VJump f args (Some (tr rest))) s))) (fun v s => Done (Some v) s)).
      rewrite bind_assoc. eapply R_bind; [apply IEp|]. intros v s'.
      rewrite bind_assoc. eapply R_bind; [apply IEsp|]. intros; reflexivity. }
  assert (Cs : forall s env tail top rest m c,
    R (option_map tact) (scc true n s env top rest m c)
      (exec n (trs s) env (tpcc tail) (Some (tr rest)) (TCons (xsite (negb top) m c) TNil))).
  { intros s env tail top rest m c. destruct n as [|n']; [reflexivity|].
    destruct c as [c|t a b]; cbn [scc xsite].
    - apply C1. lia.
    - cbn [exec]. destruct (IH n' ltac:(lia)) as (IEp & _).
      eapply R_bind; [apply IEp|]. intros v s'. rewrite tr_truth.
      destruct n' as [|p]; [reflexivity|].
      pose proof (C1 p s' env tail top rest m (if struth v then a else b) ltac:(lia)) as H.
      replace (if struth v then TCons (xcall (negb top) m a) TNil else TCons (xcall (negb top) m b) TNil)
        with (TCons (xcall (negb top) m (if struth v then a else b)) TNil) by (destruct (struth v); reflexivity).
      exact (R_end tact _ _ p env (tpcc tail) (Some (tr rest)) H). }
  assert (X : forall s env tail p b cont,
     R (option_map tact) (sexec true (S n) s env tail p b) (exec (S n) (trs s) env (tpcc tail) cont (xplace p b))).
  { intros s env tail p b cont. destruct b as [|t b].
    - destruct p; cbn [sexec xplace xblock xbody owner inj negb andb exec]; try reflexivity.
      eapply R_bind; [apply (IR s env tail false ENone cont)|]. intros; reflexivity.
    - assert (Z : t = t -> xplace p (BCons t b) =
        match t with
        | SCallcc ts star c =>
            match p with
            | Inside _ => TCons TStray (xplace p b)
            | _ => TCons (TDefcont ts star (xbody true (inj p) false b)) (TCons (xsite (owner p) (arity ts star) c) TNil)
            end
        | SReturn e => TCons (xstmt t) (match p with Inside _ => xblock b | _ => xbody (owner p) (inj p) true b end)
        | t => TCons (xstmt t) (xplace p b)
        end) by (intros _; destruct p, t; reflexivity).
      rewrite (Z eq_refl). clear Z.
      destruct t; cbn [xstmt sexec exec].
      + eapply R_bind; [apply IE|]. intros v s'. change (trs s') with (ms tr s'). rewrite assign_map. apply IX.
      + eapply R_bind; [apply IE|]. intros v s'. change (trs s') with (ms tr s'). rewrite nonlocal_map. apply IX.
      + eapply R_bind; [apply IE|]. intros v s'. change (trs s') with (ms tr s'). rewrite print_map. apply IX.
      + eapply R_bind; [apply IE|]. intros v s'. apply IX.
      + eapply R_bind; [apply IE|]. intros v s'. rewrite tr_truth.
        replace (if struth v then xblock a else xblock b0) with (xplace (Inside (in_try p)) (if struth v then a else b0)) by (destruct (struth v); reflexivity).
        eapply R_bind; [apply IX|]. intros [r|] s''; cbn [option_map]; [reflexivity|apply IX].
      + eapply R_bind; [apply IE|]. intros v s'. rewrite tr_truth. destruct (struth v); [|apply IX].
        eapply R_bind; [apply (IX s' env tail (Inside (in_try p)) a)|]. intros [r|] s''; cbn [option_map]; [reflexivity|].
        replace (TCons (TWhile (ytr t) (xblock a)) (xplace p b)) with (xplace p (BCons (SWhile t a) b)) by (destruct p; reflexivity).
        apply IX.
      + assert (N : forall r s, R (option_map tact) (match r with Some a => SDone (Some a) s | None => sexec true n s env tail p b end)
          (match option_map tact r with Some v => Done (Some v) (trs s) | None => exec n (trs s) env (tpcc tail) cont (xplace p b) end)).
        { intros [r|] s'; [reflexivity|apply IX]. }
        pose proof (IX s env tail (Inside true) a cont) as A. cbn [xplace] in A.
        destruct (sexec true n s env tail (Inside true) a); cbn in A; try rewrite A; try exact I; try reflexivity; [apply N|].
        eapply R_bind; [apply (IX s0 env tail (Inside (in_try p)) h)|]. apply N.
      + reflexivity.
      + eapply R_bind; [apply (IR s env tail (in_try p) e cont)|]. intros; reflexivity.
      + change (VFun ps star false (xbody true true false b0) env None false) with (tr (SVFun ps star b0 env)).
        change (trs s) with (ms tr s). rewrite assign_map. apply IX.
      + assert (Y : (forall t, p <> Inside t) -> R (option_map tact)
          (sbind (slift s (lookup true s env "cc")) (fun k s =>
             let rest := SVRest ts star (match p with Body => true | _ => false end) b env (seq tail k) in
             let r := scc true n s env (match p with Top => true | _ => false end) rest (arity ts star) c in
             if is_ident tail then r else oddly true LosesTail r))
          (exec (S n) (trs s) env (tpcc tail) cont
             (TCons (TDefcont ts star (xbody true (inj p) false b)) (TCons (xsite (owner p) (arity ts star) c) TNil)))).
        { intros NI. cbn [exec]. eapply R_bind; [apply R_lookup|]. intros k s'. cbn zeta.
          destruct (is_ident tail) eqn:T; [|exact I].
          unfold seq. rewrite T.
          match goal with |- context [VFun ts star ?i ?d env ?q true] =>
            replace (VFun ts star i d env q true)
              with (tr (SVRest ts star (match p with Body => true | _ => false end) b env k)) end.
          2:{ cbn [tr]. f_equal; [destruct p; [now destruct (NI try)|reflexivity..]|]. destruct k; reflexivity. }
          replace (owner p) with (negb (match p with Top => true | _ => false end)) by (destruct p; [now destruct (NI try)|reflexivity..]).
          apply Cs. }
        destruct p; [reflexivity|apply Y; discriminate..]. }
  repeat split; assumption.
Qed.
Lemma sims n : sim n.
Proof. induction n as [n IH] using lt_wf_ind. apply simulation. exact IH. Qed.

(** * The strict machine is the documented one where it is not odd *)
Definition Q {A} (rs rt : sres A) : Prop := match rs with SOdd _ => True | r => rt = r end.
Lemma Q_refl {A} (r : sres A) : Q r r.
Proof. destruct r; reflexivity. Qed.
Lemma Q_bind {A B} rs rt (fs ft : A -> state sval -> sres B) :
  Q rs rt -> (forall a s, Q (fs a s) (ft a s)) -> Q (sbind rs fs) (sbind rt ft).
Proof. destruct rs; cbn; intros E H; try (rewrite E; cbn); auto. Qed.
Lemma Q_odd {A} o (rs rt : sres A) : Q (oddly true o rs) rt.
Proof. exact I. Qed.
Definition lax (n : nat) : Prop :=
  (forall s env e, Q (seval true n s env e) (seval false n s env e)) /\
  (forall s env l, Q (sevals true n s env l) (sevals false n s env l)) /\
  (forall s f l c, Q (scall true n s f l c) (scall false n s f l c)) /\
  (forall s f l c, Q (sloop true n s f l c) (sloop false n s f l c)) /\
  (forall s f l c, Q (sstep true n s f l c) (sstep false n s f l c)) /\
  (forall s env tail p b, Q (sexec true n s env tail p b) (sexec false n s env tail p b)) /\
  (forall s env tail t e, Q (sret true n s env tail t e) (sret false n s env tail t e)) /\
  (forall s env top rest m c, Q (scc true n s env top rest m c) (scc false n s env top rest m c)) /\
  (forall s env top rest m c, Q (scc1 true n s env top rest m c) (scc1 false n s env top rest m c)).
Ltac qbind := lazymatch goal with |- Q (sbind _ _) _ => eapply Q_bind; [|intros ? ?] end.
Lemma lax_step n : (forall m, m < n -> lax m) -> lax n.
Proof.
  destruct n as [|n]; intros IH.
  { repeat split; intros; reflexivity. }
  destruct (IH n (Nat.lt_succ_diag_r n)) as (IE & IEs & IC & IL & IS & IX & IR & ICC & IC1).
  repeat split.
  - intros s env e. destruct e; cbn [seval]; repeat (first [qbind | apply Q_refl | apply IE | apply IEs | apply IC| exact I]).
    1,2: match goal with |- Q (if ?c then _ else _) _ => destruct c end; [apply IE || apply Q_refl..].
    destruct cc; repeat (first [qbind | apply Q_refl | apply IE | apply IEs | apply IC| exact I]).
  - intros s env [|e l]; cbn [sevals]; repeat (first [qbind | apply Q_refl | apply IE | apply IEs| exact I]).
  - intros s f l c. destruct f; cbn [scall]; repeat (first [qbind | apply Q_refl | apply IL | apply IS| exact I]).
    destruct a; repeat (first [qbind | apply Q_refl | apply IL | apply IS| exact I]).
  - intros s f l c. cbn [sloop]. eapply Q_bind; [apply IS|]. intros [v|g l' c'] s'; [apply Q_refl|].
    destruct (scallable g); [apply IL|apply Q_refl].
  - intros s f l c. destruct f; cbn [sstep]; try apply Q_refl.
    + destruct (newframe _ _ _ _ _ _ _); [|apply Q_refl]. destruct (alloc s f). repeat (first [qbind | apply Q_refl | apply IX| exact I]).
    + destruct (newframe _ _ _ _ _ _ _) as [fr|]; [|apply Q_refl]. destruct (alloc s fr). repeat (first [qbind | apply Q_refl | apply IX| exact I]).
    + destruct c; [exact I|apply Q_refl].
    + destruct c; [exact I|apply Q_refl].
  - intros s env tail p b. destruct b as [|t b]; cbn [sexec].
    + destruct p; repeat (first [qbind | apply Q_refl | apply IR| exact I]).
    + destruct t; try (repeat (first [qbind | apply Q_refl | apply IE | apply IX | apply IR| exact I])).
      * destruct a1; repeat (first [qbind | apply Q_refl | apply IE | apply IX | apply IR| exact I]).
      * match goal with |- Q (if ?c then _ else _) _ => destruct c end; [|apply IX].
        qbind; [apply IX|]. match goal with |- Q (match ?r with _ => _ end) _ => destruct r end; [apply Q_refl|apply IX].
      * assert (N : forall (r : option act) s, Q (match r with Some a => SDone (Some a) s | None => sexec true n s env tail p b end)
          (match r with Some a => SDone (Some a) s | None => sexec false n s env tail p b end)).
        { intros [r|] s'; [apply Q_refl|apply IX]. }
        pose proof (IX s env tail (Inside true) a) as A.
        destruct (sexec true n s env tail (Inside true) a); cbn in A; try rewrite A; try exact I; try reflexivity; [apply N|].
        eapply Q_bind; [apply IX|]. intros; apply N.
      * destruct p; [apply Q_refl|..];
          (eapply Q_bind; [apply Q_refl|]; intros k s'; cbn zeta; destruct (is_ident tail); [apply ICC|exact I]).
  - intros s env tail t e.
    destruct e; cbn [sret]; repeat (first [qbind | apply Q_refl | apply IE | apply IEs | apply IR| exact I]).
    + destruct (may_call e2); repeat (first [qbind | apply Q_refl | apply IE | apply IR | exact I]).
      destruct (struth a); [apply IR|]. destruct a as [| |[|]| | | | | | |]; try exact I. apply IR.
    + destruct (may_call e2); repeat (first [qbind | apply Q_refl | apply IE | apply IR | exact I]).
      destruct (struth a); [apply Q_refl|apply IR].
    + destruct t; [exact I|apply Q_refl].
  - intros s env top rest m c. destruct c as [c|t a b]; cbn [scc]; [apply IC1|].
    eapply Q_bind; [apply IE|]. intros v s'. destruct n as [|p]; [apply Q_refl|].
    destruct (IH p ltac:(lia)) as (_ & _ & _ & _ & _ & _ & _ & _ & I1). apply I1.
  - intros s env top rest m c. destruct c as [|f args]; cbn [scc1].
    + destruct (lookup true s env "cc") as [[]|]; try exact I.
      destruct top; [|apply Q_refl]. repeat (first [qbind | apply Q_refl | apply IC| exact I]).
    + eapply Q_bind; [apply IE|]. intros v s'. eapply Q_bind; [apply IEs|]. intros l s''.
      destruct top; [|apply Q_refl]. repeat (first [qbind | apply Q_refl | apply IC| exact I]).
Qed.
Lemma laxs n : lax n.
Proof. induction n as [n IH] using lt_wf_ind. apply lax_step. exact IH. Qed.

Theorem meaning b t n r : expand b = Ok t -> tres (option_map tact) (srun true n b) = Some r ->
  run n t = r /\ srun false n b = srun true n b.
Proof.
  unfold expand. destruct (_ || _); [discriminate|]. intros [= <-] H. split.
  - destruct (sims n) as (_ & _ & _ & _ & _ & X & _).
    specialize (X (start SVIdent) [0] SVIdent Top b None). unfold srun in H.
    destruct (sexec true n (start SVIdent) [0] SVIdent Top b); cbn in H, X; try discriminate; injection H as <-; exact X.
  - destruct (laxs n) as (_ & _ & _ & _ & _ & X & _). specialize (X (start SVIdent) [0] SVIdent Top b). unfold srun in *.
    destruct (sexec true n (start SVIdent) [0] SVIdent Top b); cbn in H, X; try discriminate; exact X.
Qed.

(** * Enough fuel is enough *)
Definition M {A} (r r' : res A) : Prop := match r with NoFuel => True | r => r' = r end.
Lemma M_refl {A} (r : res A) : M r r.
Proof. destruct r; reflexivity. Qed.
Lemma M_bind {A B} r r' (f f' : A -> state value -> res B) :
  M r r' -> (forall a s, M (f a s) (f' a s)) -> M (bind r f) (bind r' f').
Proof. destruct r; cbn; intros E H; try (rewrite E; cbn); auto. Qed.
Definition mono (n : nat) : Prop :=
  (forall s env e, M (eval n s env e) (eval (S n) s env e)) /\
  (forall s env l, M (evals n s env l) (evals (S n) s env l)) /\
  (forall s f l c, M (call n s f l c) (call (S n) s f l c)) /\
  (forall s f l c, M (tramp n s f l c) (tramp (S n) s f l c)) /\
  (forall s f l c, M (raw n s f l c) (raw (S n) s f l c)) /\
  (forall s env pcc cont b, M (exec n s env pcc cont b) (exec (S n) s env pcc cont b)) /\
  (forall s env pcc cont x, M (retx n s env pcc cont x) (retx (S n) s env pcc cont x)).
Ltac mbind := lazymatch goal with |- M (bind _ _) _ => eapply M_bind; [|intros ? ?] end.
Lemma mono_step n : (forall m, m < n -> mono m) -> mono n.
Proof.
  destruct n as [|n]; intros IH.
  { repeat split; intros; exact I. }
  destruct (IH n (Nat.lt_succ_diag_r n)) as (IE & IEs & IC & IL & IS & IX & IR).
  repeat split.
  - intros s env e. remember (S n) as k eqn:K. destruct e; rewrite K at 1; cbn [eval]; subst k;
      repeat (first [mbind | apply M_refl | apply IE | apply IEs | apply IC]).
    1,2: match goal with |- M (if ?c then _ else _) _ => destruct c end; [apply IE || apply M_refl..].
    destruct cc; repeat (first [mbind | apply M_refl | apply IE | apply IEs | apply IC]).
  - intros s env l. remember (S n) as k eqn:K. destruct l; rewrite K at 1; cbn [evals]; subst k;
      repeat (first [mbind | apply M_refl | apply IE | apply IEs]).
  - intros s f l c. remember (S n) as k eqn:K. destruct f; rewrite K at 1; cbn [call]; subst k;
      repeat (first [mbind | apply M_refl | apply IL | apply IS]).
  - intros s f l c. remember (S n) as k eqn:K. rewrite K at 1; cbn [tramp]; subst k.
    eapply M_bind; [apply IS|]. intros v s'. destruct v; try apply M_refl. destruct (callable v); [apply IL|apply M_refl].
  - intros s f l c. remember (S n) as k eqn:K. destruct f; rewrite K at 1; cbn [raw]; subst k; try apply M_refl.
    destruct (newframe _ _ _ _ _ _ _) as [fr|]; [|apply M_refl]. destruct (alloc s fr). repeat (first [mbind | apply M_refl | apply IX]).
  - intros s env pcc cont b. remember (S n) as k eqn:K. destruct b as [|t b]; rewrite K at 1; cbn [exec]; subst k; [apply M_refl|].
    destruct t; try (repeat (first [mbind | apply M_refl | apply IE | apply IX | apply IR])).
    + destruct a1; repeat (first [mbind | apply M_refl | apply IX]).
    + match goal with |- M (if ?c then _ else _) _ => destruct c end; [|apply IX].
      mbind; [apply IX|]. match goal with |- M (match ?r with _ => _ end) _ => destruct r end; [apply M_refl|apply IX].
    + assert (N : forall (r : option value) s, M (match r with Some v => Done (Some v) s | None => exec n s env pcc cont b end)
        (match r with Some v => Done (Some v) s | None => exec (S n) s env pcc cont b end)).
      { intros [r|] s'; [apply M_refl|apply IX]. }
      pose proof (IX s env pcc cont a) as A.
      destruct (exec n s env pcc cont a); cbn [M] in A; try rewrite A; try exact I; [apply N|].
      eapply M_bind; [apply IX|]. intros; apply N.
    + destruct n as [|p]; [exact I|]. destruct (IH p ltac:(lia)) as (JE & JEs & JC & _).
      eapply M_bind; [apply JE|]. intros v s'. eapply M_bind; [apply JEs|]. intros l s''.
      destruct cont as [kk|]; [|apply M_refl]. eapply M_bind; [apply JC|]. intros; apply IX.
    + destruct n as [|p]; [exact I|]. destruct (IH p ltac:(lia)) as (JE & JEs & JC & _).
      destruct cont as [kk|]; [|apply M_refl]. eapply M_bind; [apply M_refl|]. intros v s'.
      eapply M_bind; [apply JC|]. intros; apply IX.
  - intros s env pcc cont x. remember (S n) as k eqn:K. destruct x; rewrite K at 1; cbn [retx]; subst k;
      try (repeat (first [mbind | apply M_refl | apply IE | apply IEs | apply IR])).
    match goal with |- M (if ?c then _ else _) _ => destruct c end; [apply M_refl|apply IR].
Qed.
Lemma monos n : mono n.
Proof. induction n as [n IH] using lt_wf_ind. apply mono_step. exact IH. Qed.
Theorem run_fuel b n m : run n b <> NoFuel -> n <= m -> run m b = run n b.
Proof.
  intros H L. induction L as [|m L IH]; [reflexivity|].
  destruct (monos m) as (_ & _ & _ & _ & _ & X & _). specialize (X (start VIdent) [0] None None b).
  unfold run in *. rewrite <- IH in H |- *. destruct (exec m _ _ _ _ _); [exact X|exact X|congruence].
Qed.

(** * What expand accepts *)
Lemma stray_x : (forall s, stray (xstmt s) = negb (match s with SCallcc _ _ _ => false | _ => placed s end)) /\
  (forall b, stray_b (xblock b) = negb (placed_in b) /\ forall o i r, stray_b (xbody o i r b) = negb (placed_b b)).
Proof.
  apply stmt_block_ind; intros; cbn [xstmt stray placed]; try reflexivity.
  - rewrite (proj1 H), (proj1 H0), negb_andb. reflexivity.
  - apply (proj1 H).
  - rewrite (proj1 H), (proj1 H0), negb_andb. reflexivity.
  - apply (proj2 H).
  - split; [reflexivity|]. intros o i r. cbn [xbody]. destruct (i && negb r); reflexivity.
  - destruct H0 as [H1 H2]. split.
    + cbn [xblock stray_b placed_in]. rewrite H, H1, negb_andb. reflexivity.
    + intros o i r. cbn [xbody placed_b]. rewrite negb_andb. destruct s; cbn [stray_b];
        try (rewrite H, H2; reflexivity).
      cbn [stray_b stray placed negb]. rewrite H2. destruct c as [[|]|t [|] [|]], o; cbn; rewrite ?orb_false_r; reflexivity.
Qed.
Lemma out_ret_x : (forall s, out_ret (xstmt s) = has_ret s) /\ (forall b, out_ret_b (xblock b) = has_ret_b b).
Proof. apply stmt_block_ind; intros; cbn; auto; congruence. Qed.
Lemma out_ret_xb b r : out_ret_b (xbody false false r b) = existsb has_ret (before_cc (stmts b)).
Proof.
  revert r. induction b as [|s b IH]; intros r; [reflexivity|].
  cbn [xbody stmts before_cc]. destruct s; cbn [is_cc existsb out_ret_b];
    try (rewrite (proj1 out_ret_x), IH; reflexivity).
  destruct c as [[|]|t [|] [|]]; reflexivity.
Qed.
Lemma top_ret_in b : top_ret b = existsb is_ret (stmts b).
Proof. induction b as [|s b IH]; [reflexivity|]. cbn. rewrite IH. reflexivity. Qed.
Lemma cc_last_in b : cc_last b = true <-> exists l s, stmts b = l ++ [s] /\ is_cc s = true.
Proof.
  induction b as [|s b IH]; cbn [cc_last stmts].
  - split; [discriminate|]. intros (l & s & E & _). destruct l; discriminate E.
  - rewrite orb_true_iff, IH. split.
    + intros [H|(l & t & E & C)].
      * destruct s; try discriminate. destruct b; [|discriminate]. exists [], (SCallcc ts star c). split; reflexivity.
      * exists (s :: l), t. rewrite E. split; [reflexivity|exact C].
    + intros (l & t & E & C). destruct l as [|u l]; cbn in E; injection E as E1 E2.
      * subst. left. destruct t; try discriminate. destruct b; [reflexivity|discriminate].
      * right. exists l, t. split; [exact E2|exact C].
Qed.
Lemma expand_allowed b : (exists t, expand b = Ok t) <-> allowed b.
Proof.
  unfold expand. cbn zeta.
  rewrite (proj2 (proj2 stray_x b)), out_ret_xb, top_ret_in.
  transitivity (existsb is_ret (stmts b) = false /\ cc_last b = false /\ placed_b b = true /\
    existsb has_ret (before_cc (stmts b)) = false).
  { destruct (existsb is_ret (stmts b)), (cc_last b), (placed_b b), (existsb has_ret (before_cc (stmts b))); cbn;
      split; try (intros [t E]; discriminate E); try (intros (? & ? & ? & ?); discriminate); eauto. }
  unfold allowed. split.
  - intros (A & B & C & D). split; [exact C|]. split; [|split].
    + intros e I. assert (X : existsb is_ret (stmts b) = true) by (apply existsb_exists; exists (SReturn e); auto). congruence.
    + intros s I. destruct (has_ret s) eqn:H; [|reflexivity].
      assert (X : existsb has_ret (before_cc (stmts b)) = true) by (apply existsb_exists; exists s; auto). congruence.
    + intros l s E. destruct (is_cc s) eqn:H; [|reflexivity].
      assert (X : cc_last b = true) by (apply cc_last_in; exists l, s; auto). congruence.
  - intros (A & B & C & D). split; [|split; [|split]].
    + destruct (existsb is_ret (stmts b)) eqn:X; [|reflexivity]. apply existsb_exists in X. destruct X as (s & I & R').
      destruct s; try discriminate. destruct (B _ I).
    + destruct (cc_last b) eqn:X; [|reflexivity]. apply cc_last_in in X. destruct X as (l & s & E & H). rewrite (D _ _ E) in H. discriminate.
    + exact A.
    + destruct (existsb has_ret (before_cc (stmts b))) eqn:X; [|reflexivity]. apply existsb_exists in X. destruct X as (s & I & H).
      rewrite (C _ I) in H. discriminate.
Qed.
Theorem expand_accepts b : (allowed b /\ exists t, expand b = Ok t) \/ (~ allowed b /\ expand b = Raise SyntaxError).
Proof.
  destruct (expand b) as [t|e] eqn:E.
  - left. split; [apply expand_allowed|]; eauto.
  - right. split.
    + intros A. apply expand_allowed in A. destruct A as [t A]. congruence.
    + rewrite <- E. unfold expand in *. destruct (_ || _ || _ || _); [reflexivity|discriminate].
Qed.

(** * Where no tail call and no other call_cc[] follows a call_cc[], only calls of identity are odd *)
Fixpoint gv (v : sval) : Prop :=
  match v with
  | SVTuple l | SVValues l => (fix all (l : list sval) : Prop := match l with [] => True | v :: l => gv v /\ all l end) l
  | SVFun _ _ b _ => fine_b b = true
  | SVRest _ _ _ b _ tail => calm_b b = true /\ gv tail
  | SVSeq _ _ => False
  | _ => True
  end.
Definition gvs (l : list sval) : Prop := Forall gv l.
Lemma gvs_fix l : (fix all (l : list sval) : Prop := match l with [] => True | v :: l => gv v /\ all l end) l <-> gvs l.
Proof. induction l as [|v l IH]; split; [constructor|trivial|intros [A B]; constructor; [exact A|apply IH, B]|]. intros H. inversion H; subst. split; [|apply IH]; assumption. Qed.
Definition gf (fr : frame sval) : Prop := Forall (fun q => gv (snd q)) (vals fr).
Definition gs (s : state sval) : Prop := Forall gf (frs s) /\ gvs (out s).
Definition gact (a : act) : Prop :=
  match a with Final v => gv v | Next f l c => gv f /\ gvs l /\ (forall k, c = Some k -> gv k) end.

Lemma assoc_in x l v : @assoc sval x l = Some v -> In (x, v) l.
Proof.
  induction l as [|[y w] l IH]; cbn; [discriminate|]. destruct (String.eqb_spec x y) as [->|]; [|auto].
  intros [= ->]. auto.
Qed.
Lemma gv_assoc x l v : Forall (fun q => gv (snd q)) l -> @assoc sval x l = Some v -> gv v.
Proof. intros F H. apply assoc_in in H. rewrite Forall_forall in F. exact (F _ H). Qed.
Lemma gf_nth fs i fr : Forall gf fs -> nth_error fs i = Some fr -> gf fr.
Proof. intros F H. rewrite Forall_forall in F. apply F. eapply nth_error_In; eauto. Qed.
Lemma gv_lookup s env x v own : gs s -> lookup own s env x = Ok v -> gv v.
Proof.
  intros [G _]. revert own. induction env as [|i up IH]; intros own; cbn [lookup]; [discriminate|].
  destruct (nth_error (frs s) i) as [fr|] eqn:E; [|discriminate].
  pose proof (gf_nth _ _ _ G E) as GF.
  assert (A : forall e, match assoc x (vals fr) with Some v => Ok v | None => Raise e end = Ok v -> gv v).
  { intros e. destruct (assoc x (vals fr)) eqn:X; [|discriminate]. intros [= <-]. eapply gv_assoc; eauto. }
  destruct up as [|j up]; [apply A|].
  destruct (memb x (locs fr)); [apply A|apply IH].
Qed.
Lemma Forall_upd {A} (P : A -> Prop) l i a : Forall P l -> P a -> Forall P (upd l i a).
Proof. intros F H. revert i. induction F as [|b l B F IH]; intros [|i]; cbn; constructor; auto. Qed.
Lemma gs_setv s i x v : gs s -> gv v -> gs (setv s i x v).
Proof.
  intros [G O] V. unfold setv. destruct (nth_error (frs s) i) as [fr|] eqn:E; [|split; assumption].
  split; [|exact O]. apply Forall_upd; [exact G|]. constructor; [exact V|]. exact (gf_nth _ _ _ G E).
Qed.
Lemma gs_assign s env x v : gs s -> gv v -> gs (assign s env x v).
Proof. destruct env; cbn; auto using gs_setv. Qed.
Lemma gs_assign_up s env x v : gs s -> gv v -> gs (assign_up s env x v).
Proof.
  intros G V. induction env as [|i up IH]; [exact G|]. cbn [assign_up]. destruct up as [|j up]; [apply gs_setv; assumption|].
  destruct (nth_error (frs s) i); [|exact G]. destruct (memb x (locs f)); [apply gs_setv; assumption|exact IH].
Qed.
Lemma gs_nonlocal s env x v : gs s -> gv v -> gs (nonlocal s env x v).
Proof. intros G V. destruct env as [|i [|j up]]; [exact G|apply gs_setv; assumption|apply gs_assign_up; assumption]. Qed.
Lemma gs_print s v : gs s -> gv v -> gs (print s v).
Proof. intros [G O] V. split; [exact G|]. apply Forall_app. split; [exact O|constructor; [exact V|constructor]]. Qed.
Lemma gf_combine (ps : list string) l : gvs l -> Forall (fun q => gv (snd q)) (combine ps l).
Proof. intros G. revert ps. induction G as [|a l A G IH]; intros [|p ps]; cbn; constructor; auto. Qed.
Lemma gvs_skipn n l : gvs l -> gvs (skipn n l).
Proof. intros H. revert n. induction H; intros [|n]; cbn; try constructor; auto; apply IHForall. Qed.
Lemma gf_newframe ps star ign loc l cc fr : gvs l -> gv cc -> newframe SVTuple ps star ign loc l cc = Some fr -> gf fr.
Proof.
  intros L C. unfold newframe. destruct ign.
  - destruct (length l <=? 1); [|discriminate]. intros [= <-]. repeat constructor. exact C.
  - destruct star as [x|].
    + destruct (length ps <=? length l); [|discriminate]. intros [= <-]. apply Forall_app. split; [apply gf_combine, L|].
      constructor; [|constructor; [exact C|constructor]]. cbn. apply gvs_fix, gvs_skipn, L.
    + destruct (length l =? length ps); [|discriminate]. intros [= <-]. apply Forall_app. split; [apply gf_combine, L|].
      constructor; [exact C|constructor].
Qed.
Lemma gs_alloc s fr : gs s -> gf fr -> gs (fst (alloc s fr)).
Proof. intros [G O] F. split; [|exact O]. apply Forall_app. split; [exact G|constructor; [exact F|constructor]]. Qed.
Lemma gvs_unpack v : gv v -> gvs (sunpack v).
Proof. destruct v; cbn; intros H; try (constructor; [exact H|constructor]). apply gvs_fix, H. Qed.
Lemma gv_pack l : gvs l -> gv (spack l).
Proof. intros G. destruct G as [|a l A G]; [exact I|]. destruct G; [exact A|]. apply (proj2 (gvs_fix (a :: _))). repeat constructor; assumption. Qed.

Ltac bands := repeat match goal with H : _ && _ = true |- _ => apply andb_true_iff in H; destruct H end.
Lemma calm_fine :
  (forall s, calm s = true -> fine s = true) /\
  (forall b, calm_b b = true -> fine_in b = true /\ fine_b b = true).
Proof.
  apply stmt_block_ind; intros; cbn [calm fine calm_b fine_in fine_b] in *; bands; auto.
  all: try (repeat match goal with A : _ = true -> _ /\ _, B : _ = true |- _ => specialize (A B); destruct A end;
    repeat match goal with A : ?x = true |- context [?x] => rewrite A end; reflexivity).
  - destruct (H0 H2) as [C D]. rewrite (H H1), C. split; [reflexivity|].
    destruct s; try (cbn [andb]; exact D). discriminate H1.
Qed.

Definition G {A} (P : A -> Prop) (r : sres A) : Prop :=
  match r with
  | SDone a s => P a /\ gs s
  | SErr _ s => gs s
  | SNoFuel => True
  | SOdd o => o = CallsIdent
  end.
Lemma G_bind {A B} (P : A -> Prop) (P' : B -> Prop) r f :
  G P r -> (forall a s, P a -> gs s -> G P' (f a s)) -> G P' (sbind r f).
Proof. destruct r; cbn; auto. intros [H1 H2] H. auto. Qed.
Lemma G_lookup s env x : gs s -> G gv (slift s (lookup true s env x)).
Proof. intros H. destruct (lookup true s env x) eqn:E; [|exact H]. split; [|exact H]. eapply gv_lookup; eauto. Qed.
Definition code (tail : sval) (p : place) (b : block) : Prop :=
  if is_ident tail && negb (in_try p) then (match p with Inside _ => fine_in b | _ => fine_b b end) = true
  else calm_b b = true.
Lemma calm_code tail p b : calm_b b = true -> code tail p b.
Proof. intros H. unfold code. destruct (is_ident tail && negb (in_try p)); [|exact H]. destruct (proj2 calm_fine b H). destruct p; assumption. Qed.

Definition goodrun (n : nat) : Prop :=
  (forall s env e, gs s -> fine_e e = true -> G gv (seval true n s env e)) /\
  (forall s env l, gs s -> forallb fine_e l = true -> G gvs (sevals true n s env l)) /\
  (forall s f l c, gs s -> gv f -> gvs l -> (forall k, c = Some k -> gv k) -> G gv (scall true n s f l c)) /\
  (forall s f l c, gs s -> gv f -> gvs l -> (forall k, c = Some k -> gv k) -> G gv (sloop true n s f l c)) /\
  (forall s f l c, gs s -> gv f -> gvs l -> (forall k, c = Some k -> gv k) -> G gact (sstep true n s f l c)) /\
  (forall s env tail p b, gs s -> gv tail -> code tail p b ->
     G (fun r => forall a, r = Some a -> gact a) (sexec true n s env tail p b)) /\
  (forall s env tail t e, gs s -> gv tail -> no_and e = true -> fine_e e = true ->
     (is_ident tail && negb t = false -> no_tail_call e = true) ->
     G gact (sret true n s env tail t e)) /\
  (forall s env top rest m c, gs s -> gv rest -> fine_site c = true ->
     G (fun r => forall a, r = Some a -> gact a) (scc true n s env top rest m c)) /\
  (forall s env top rest m c, gs s -> gv rest -> fine_call c = true ->
     G (fun r => forall a, r = Some a -> gact a) (scc1 true n s env top rest m c)).
Lemma goodrun_step n : (forall m, m < n -> goodrun m) -> goodrun n.
Proof.
  destruct n as [|n]; intros IH.
  { repeat split; intros; exact I. }
  destruct (IH n (Nat.lt_succ_diag_r n)) as (IE & IEs & IC & IL & IS & IX & IR & ICC & IC1).
  repeat split.
  - intros s env e H FE. destruct e; cbn [seval]; cbn [fine_e] in FE; bands; try (split; [exact I|exact H]).
    + apply G_lookup, H.
    + eapply G_bind; [apply IE; assumption|]. intros v s' V S'. split; [exact I|exact S'].
    + eapply G_bind; [apply IE; assumption|]. intros v s' V S'. split; [exact I|exact S'].
    + eapply G_bind; [apply IE; assumption|]. intros v s' V S'. eapply G_bind; [apply IE; assumption|]. intros w s'' W S''.
      destruct v, w; cbn; auto.
    + eapply G_bind; [apply IE; assumption|]. intros v s' V S'. eapply G_bind; [apply IE; assumption|]. intros w s'' W S''.
      destruct v, w; cbn; auto.
    + eapply G_bind; [apply IE; assumption|]. intros v s' V S'. split; [exact I|exact S'].
    + eapply G_bind; [apply IE; assumption|]. intros v s' V S'. destruct (struth v); apply IE; assumption.
    + eapply G_bind; [apply IE; assumption|]. intros v s' V S'. destruct (struth v); [apply IE; assumption|split; assumption].
    + eapply G_bind; [apply IE; assumption|]. intros v s' V S'. destruct (struth v); [split; assumption|apply IE; assumption].
    + split; [|exact H]. cbn. repeat (apply andb_true_iff; split); assumption || reflexivity.
    + eapply G_bind; [apply IE; assumption|]. intros f s1 F S1. eapply G_bind; [apply IEs; assumption|]. intros l s2 L S2.
      eapply (G_bind (fun c => forall k, c = Some k -> gv k)).
      * destruct cc as [e'|]; [|split; [discriminate|exact S2]]. eapply G_bind; [apply IE; assumption|].
        intros k s3 K S3. split; [intros k' [= <-]; exact K|exact S3].
      * intros c s3 C S3. apply IC; assumption.
    + eapply G_bind; [apply IEs; assumption|]. intros l s' L S'. split; [apply gvs_fix, L|exact S'].
  - intros s env [|e l] H FE; cbn [sevals]; [split; [constructor|exact H]|]. cbn [forallb] in FE. bands.
    eapply G_bind; [apply IE; assumption|]. intros v s' V S'. eapply G_bind; [apply IEs; assumption|]. intros l' s'' L S''.
    split; [constructor; assumption|exact S''].
  - intros s f l c H F L C. destruct f; cbn [scall]; try exact H; try (apply IL; assumption).
    + eapply G_bind; [apply IS; assumption|]. intros [v|g l' c'] s' A S'; [split; assumption|].
      destruct A as (A1 & A2 & A3). apply IL; assumption.
    + destruct F.
  - intros s f l c H F L C. cbn [sloop]. eapply G_bind; [apply IS; assumption|].
    intros [v|g l' c'] s' A S'; [split; assumption|]. destruct A as (A1 & A2 & A3).
    destruct (scallable g); [apply IL; assumption|exact S'].
  - intros s f l c H F L C.
    assert (CC : gv (match c with Some k => k | None => SVIdent end)) by (destruct c; [apply C; reflexivity|exact I]).
    destruct f; cbn [sstep]; try exact H.
    + destruct (newframe _ _ _ _ _ _ _) as [fr|] eqn:N; [|exact H].
      pose proof (gs_alloc s fr H (gf_newframe _ _ _ _ _ _ _ L CC N)) as GA. destruct (alloc s fr) as [s1 i].
      eapply G_bind; [apply IX; [exact GA|exact I|exact F]|]. intros r s2 R' S2. split; [|exact S2].
      destruct r; [apply R'; reflexivity|exact I].
    + destruct F as [F1 F2]. destruct (newframe _ _ _ _ _ _ _) as [fr|] eqn:N; [|exact H].
      pose proof (gs_alloc s fr H (gf_newframe _ _ _ _ _ _ _ L CC N)) as GA. destruct (alloc s fr) as [s1 i].
      eapply G_bind; [apply IX; [exact GA|exact F2|apply calm_code, F1]|]. intros r s2 R' S2. split; [|exact S2].
      destruct r; [apply R'; reflexivity|exact I].
    + destruct c as [k|]; [reflexivity|]. split; [apply gv_pack, L|exact H].
    + destruct c as [k|]; [|exact H]. split; [|exact H]. repeat split; [exact CC|constructor; assumption|discriminate].
    + destruct F.
  - intros s env tail p b H T K. destruct b as [|t b]; cbn [sexec].
    + destruct p; try (split; [discriminate|exact H]).
      eapply G_bind; [apply IR; [exact H|exact T|reflexivity..]|]. intros a s' A S'. split; [intros a' [= <-]; exact A|exact S'].
    + assert (K' : match t with SCallcc _ _ _ => True | _ => code tail p b end).
      { unfold code in *. destruct (is_ident tail && negb (in_try p)).
        - destruct p; cbn [fine_in fine_b] in K; destruct t; try exact I; apply andb_true_iff in K; apply K.
        - cbn [calm_b] in K. apply andb_true_iff in K. destruct t; try exact I; apply K. }
      assert (F : match t with SCallcc _ _ _ => True | _ => fine t = true end).
      { unfold code in K. destruct (is_ident tail && negb (in_try p)).
        - destruct p; cbn [fine_in fine_b] in K; destruct t; try exact I; apply andb_true_iff in K; apply K.
        - cbn [calm_b] in K. apply andb_true_iff in K. destruct t; try exact I; apply (proj1 calm_fine), K. }
      assert (KC : is_ident tail && negb (in_try p) = false -> calm t = true).
      { intros N. unfold code in K. rewrite N in K. cbn [calm_b] in K. apply andb_true_iff in K. apply K. }
      assert (IN : forall b, (fine_in b = true) -> (is_ident tail && negb (in_try p) = false -> calm_b b = true) ->
        code tail (Inside (in_try p)) b).
      { intros b' A B. unfold code. cbn [in_try]. destruct (is_ident tail && negb (in_try p)); auto. }
      destruct t; cbn [fine calm] in F, KC; bands.
      * eapply G_bind; [apply IE; assumption|]. intros v s' V S'. apply IX; [apply gs_assign; assumption|assumption..].
      * eapply G_bind; [apply IE; assumption|]. intros v s' V S'. apply IX; [apply gs_nonlocal; assumption|assumption..].
      * eapply G_bind; [apply IE; assumption|]. intros v s' V S'. apply IX; [apply gs_print; assumption|assumption..].
      * eapply G_bind; [apply IE; assumption|]. intros v s' V S'. apply IX; assumption.
      * eapply G_bind; [apply IE; assumption|]. intros v s' V S'.
        assert (KI : code tail (Inside (in_try p)) (if struth v then a else b0)).
        { destruct (struth v); (apply IN; [assumption|intros N; specialize (KC N); bands; assumption]). }
        eapply G_bind; [apply IX; assumption|]. intros r s'' R' S''.
        destruct r as [a'|]; [split; assumption|apply IX; assumption].
      * eapply G_bind; [apply IE; assumption|]. intros v s' V S'. destruct (struth v); [|apply IX; assumption].
        eapply G_bind; [apply IX; [assumption|assumption|apply IN; [assumption|intros N; specialize (KC N); bands; assumption]]|].
        intros r s'' R' S''. destruct r as [a'|]; [split; assumption|apply IX; assumption].
      * assert (NX : forall (r : option act) s, (forall a, r = Some a -> gact a) -> gs s ->
          G (fun r => forall a, r = Some a -> gact a)
            (match r with Some a => SDone (Some a) s | None => sexec true n s env tail p b end)).
        { intros [r|] s' A B; [split; assumption|apply IX; assumption]. }
        pose proof (IX s env tail (Inside true) a H T) as A.
        specialize (A ltac:(apply calm_code; assumption)).
        destruct (sexec true n s env tail (Inside true) a); cbn in A; try exact A; [apply NX; apply A|].
        eapply G_bind; [apply IX; [assumption|assumption|apply IN; [assumption|intros N; specialize (KC N); bands; assumption]]|].
        intros r s'' R' S''. apply NX; assumption.
      * exact H.
      * eapply G_bind; [apply IR; [exact H|exact T|assumption|assumption|]|].
        { intros N. specialize (KC N). bands. assumption. }
        intros a s' A S'. split; [intros a' [= <-]; exact A|exact S'].
      * apply IX; [apply gs_assign; [exact H|exact F]|assumption..].
      * destruct p; [exact H|..];
          (eapply G_bind; [apply G_lookup, H|]; intros k s' KV S'; cbn zeta;
           unfold code in K; cbn [in_try negb] in K, KC; destruct (is_ident tail) eqn:TI;
             [|discriminate (KC eq_refl)];
           cbn [andb] in K; cbn [fine_b] in K; apply andb_true_iff in K; destruct K as [K1 K2];
           apply ICC; [exact S'| |exact K1];
           unfold seq; rewrite TI; split; [exact K2|exact KV]).
  - intros s env tail t e H T NA FE N.
    assert (O : forall k v s, gv k -> gv v -> gs s -> G gact (SDone (go_on tail k v) s)).
    { intros k v s' KV V S'. split; [|exact S']. pose proof (gvs_unpack v V). unfold go_on.
      destruct (is_ident tail); cbn; repeat split; auto; try discriminate. intros k' [= <-]. exact KV. }
    assert (GV : forall v s, gv v -> gs s ->
      G gact (sbind (slift s (lookup true s env "cc")) (fun k s => SDone (go_on tail k v) s))).
    { intros v s' V S'. eapply G_bind; [apply G_lookup, S'|]. intros k s'' KV S''. apply O; assumption. }
    assert (D : G gact (sbind (slift s (lookup true s env "cc")) (fun k s =>
            sbind (seval true n s env e) (fun v s => SDone (go_on tail k v) s)))).
    { eapply G_bind; [apply G_lookup, H|]. intros k s' K S'. eapply G_bind; [apply IE; assumption|]. intros v s'' V S''.
      apply O; assumption. }
    destruct e; try exact D; cbn [sret]; cbn [no_and fine_e no_tail_call] in NA, FE, N; bands.
    + eapply G_bind; [apply IE; assumption|]. intros v s' V S'.
      destruct (struth v); (apply IR; [exact S'|exact T|assumption|assumption|]);
        intros X; specialize (N X); bands; assumption.
    + apply negb_true_iff in NA. rewrite NA. exact D.
    + destruct (may_call e2); [|exact D]. cbn [negb orb] in NA, N.
      eapply G_bind; [apply IE; assumption|]. intros v s' V S'. destruct (struth v); [apply GV; assumption|].
      apply IR; assumption.
    + destruct (is_ident tail && negb t) eqn:TI; [|discriminate (N eq_refl)].
      apply andb_true_iff in TI. destruct TI as [TI TT]. apply negb_true_iff in TT. subst t.
      eapply G_bind; [apply IE; assumption|]. intros f s1 F S1. eapply G_bind; [apply IEs; assumption|]. intros l s2 L S2.
      eapply G_bind; [apply IE; [assumption|destruct cc; [assumption|reflexivity]]|]. intros k s3 K S3. split; [|exact S3].
      unfold seq. rewrite TI. cbn. repeat split; [exact F|exact L|]. intros k' [= <-]. exact K.
  - intros s env top rest m c H RV N. destruct c as [c|t a b]; cbn [scc]; cbn [fine_site] in N; bands.
    + apply IC1; assumption.
    + eapply G_bind; [apply IE; assumption|]. intros v s' V S'. destruct n as [|q]; [exact I|].
      destruct (IH q ltac:(lia)) as (_ & _ & _ & _ & _ & _ & _ & _ & J1). apply J1; [exact S'|exact RV|].
      destruct (struth v); assumption.
  - intros s env top rest m c H RV N. destruct c as [|f args]; [discriminate N|]. cbn [scc1]. cbn [fine_call] in N. bands.
    eapply G_bind; [apply IE; assumption|]. intros v s1 V S1. eapply G_bind; [apply IEs; assumption|]. intros l s2 L S2.
    assert (RK : forall k, Some rest = Some k -> gv k) by (intros k [= <-]; exact RV).
    destruct top.
    + eapply G_bind; [apply IC; assumption|]. intros w s3 W S3. split; [discriminate|exact S3].
    + split; [|exact S2]. intros a [= <-]. repeat split; assumption.
Qed.
Lemma goodruns n : goodrun n.
Proof. induction n as [n IH] using lt_wf_ind. apply goodrun_step. exact IH. Qed.
Theorem fragment b n o : fine_b b = true -> srun true n b = SOdd o -> o = CallsIdent.
Proof.
  intros F E. destruct (goodruns n) as (_ & _ & _ & _ & _ & X & _).
  assert (S0 : gs (start SVIdent)) by (split; repeat constructor).
  specialize (X (start SVIdent) [0] SVIdent Top b S0 I F). unfold srun in E. rewrite E in X. exact X.
Qed.
Theorem fragment_meaning b t n : fine_b b = true -> expand b = Ok t ->
  srun true n b = SOdd CallsIdent \/
  (tres (option_map tact) (srun false n b) = Some (run n t) /\ srun true n b = srun false n b).
Proof.
  intros F E. destruct (srun true n b) eqn:X.
  4:{ left. rewrite (fragment b n o F X). reflexivity. }
  all: right; edestruct (meaning b t n) as [A B]; [exact E|rewrite X; reflexivity|];
    rewrite B, X; split; [rewrite A; reflexivity|reflexivity].
Qed.
