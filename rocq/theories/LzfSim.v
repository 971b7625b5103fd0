(** Expanded code computes what call by name does. *)
From Coq Require Import String List ZArith Bool Arith Lia.
From Verif Require Import Base LzfModel LzfSpec LzfProofs.
Import ListNotations.
Open Scope string_scope.
Open Scope list_scope.
Open Scope nat_scope.

Section Sim.
Variable prim : nat -> list data -> outcome data.
Variable globals : string -> option (list string * ex).
Variable builtins : string -> option nat.
Notation name := (LzfSpec.name prim globals builtins).
Notation demand := (LzfSpec.demand prim globals builtins).
Notation deep := (LzfSpec.deep prim globals builtins).
Notation ev := (LzfModel.ev prim globals builtins).
Notation nname := (LzfSpec.nname globals builtins).
Notation lname := (LzfModel.lname globals builtins).
Notation napply := (apply_prim prim (fun c => NC c) (fun l => NT (map Now l))).
Notation nwhole := (nwhole prim globals builtins).
Notation nhead := (nhead prim globals builtins).
Notation nused := (nused prim globals builtins).
Notation nargument := (nargument prim globals builtins).
Notation narg := (narg prim globals builtins).
Notation nvalue := (nvalue prim globals builtins).
Notation ncall := (ncall prim globals builtins).

(** ** The equations of [ev] *)
Definition frc (k : nat) (v : lval) : H lval :=
  match v with
  | LProm p => fun h =>
      match nth_error h p with
      | None => None
      | Some c =>
          match cache c with
          | Some o => Some (o, h)
          | None => match ev k (cenv c) (code c) h with None => None | Some (o, h) => Some (o, upd h p o) end
          end
      end
  | _ => ret v
  end.
Definition larg (k : nat) (env : lenv) (st : bool * tx) : H (list lval) :=
  bind (ev k env (snd st)) (fun v => if fst st then match v with LT l => ret l | _ => fail TypeError end else ret [v]).
Definition lcall (k : nat) (f : lval) (vs : list lval) : H lval :=
  match f with
  | LClo ps b env' => if Nat.eqb (length ps) (length vs) then ev k (combine ps vs ++ env') b else fail TypeError
  | LBuiltin o => bind (mapH (lforce (frc k)) vs) (fun vs => lift (apply_prim prim LC LT o (map ldata vs)))
  | _ => bind (mapH (lforce (frc k)) vs) (fun _ => fail TypeError)
  end.
Lemma ev_S k env t :
  ev (S k) env t =
  match t with
  | TConst c => ret (LC c)
  | TName x => lift (lname env x)
  | TPrim o l => bind (mapH (ev k env) l) (fun vs => lift (apply_prim prim LC LT o (map ldata vs)))
  | TIf t a b => bind (ev k env t) (fun v => if truthy (ldata v) then ev k env a else ev k env b)
  | TLam ps b => ret (LClo ps b env)
  | TTup l => bind (mapH (ev k env) l) (fun vs => ret (LT vs))
  | TSub v i =>
      bind (ev k env v) (fun v => bind (ev k env i) (fun i =>
        match v with LT l => lift (item l (ldata i)) | _ => fail TypeError end))
  | TLet x v b => bind (ev k env v) (fun v => ev k ((x, v) :: env) b)
  | TForce t => bind (ev k env t) (lforce (frc k))
  | TForce1 t => bind (ev k env t) (frc k)
  | TLazy t => fun h => Some (Ok (LProm (length h)), h ++ [mkcell env t None 0])
  | TMfa f l => bind (ev k env f) (fun f => bind (mapH (larg k env) l) (fun vss => lcall k f (concat vss)))
  end.
Proof. destruct t; reflexivity. Qed.

(** ** Related values.  [G] has for each promise the expression and scope it stands for. *)
Section Rel.
Variable G : list (nenv * ex).
Inductive rv : nval -> lval -> Prop :=
| RC c : rv (NC c) (LC c)
| RT l l' : rlist l l' -> rv (NT l) (LT l')
| RClo ps b env env' : fine b = true -> renv env env' -> rv (NClo ps b env) (LClo ps (vis Full b) env')
| RB o : rv (NBuiltin o) (LBuiltin o)
with rs : susp -> lval -> Prop :=
| RNow v l : rv v l -> rs (Now v) l
| RLater env e p : nth_error G p = Some (env, e) -> rs (Later env e) (LProm p)
with rlist : list susp -> list lval -> Prop :=
| RNil : rlist [] []
| RCons s v l l' : rs s v -> rlist l l' -> rlist (s :: l) (v :: l')
with renv : nenv -> lenv -> Prop :=
| RENil : renv [] []
| RECons x s v l l' : rs s v -> renv l l' -> renv ((x, s) :: l) ((x, v) :: l').
Lemma rlist_F2 l l' : rlist l l' <-> Forall2 rs l l'.
Proof. split; induction 1; constructor; auto. Qed.
Lemma assoc_r env env' : renv env env' -> forall x,
  match assoc x env, assoc x env' with Some v, Some s => rs v s | None, None => True | _, _ => False end.
Proof. induction 1; intros y; cbn; [exact I|]. destruct (String.eqb x y); [assumption|apply IHrenv]. Qed.
Lemma renv_app env env' : renv env env' -> forall l l', renv l l' -> renv (l ++ env) (l' ++ env').
Proof. intros H. induction 1; cbn; [exact H|]. constructor; auto. Qed.
Lemma renv_combine ps : forall vs ss, Forall2 rs vs ss -> renv (combine ps vs) (combine ps ss).
Proof. induction ps as [|p ps IH]; intros vs ss []; cbn; constructor; auto. Qed.
Lemma rlist_now l l' : Forall2 rv l l' -> rlist (map Now l) l'.
Proof. induction 1; cbn; constructor; auto. now constructor. Qed.
End Rel.
Scheme rv_i := Induction for rv Sort Prop with rs_i := Induction for rs Sort Prop
with rlist_i := Induction for rlist Sort Prop with renv_i := Induction for renv Sort Prop.
Combined Scheme rv_ind' from rv_i, rs_i, rlist_i, renv_i.
Definition ext (G G' : list (nenv * ex)) : Prop := exists l, G' = G ++ l.
Lemma ext_refl G : ext G G.
Proof. exists []. now rewrite app_nil_r. Qed.
Lemma ext_trans G1 G2 G3 : ext G1 G2 -> ext G2 G3 -> ext G1 G3.
Proof. intros [l ->] [l' ->]. exists (l ++ l'). now rewrite app_assoc. Qed.
Lemma r_ext G G' : ext G G' ->
  (forall v l, rv G v l -> rv G' v l) /\ (forall s l, rs G s l -> rs G' s l) /\
  (forall l l', rlist G l l' -> rlist G' l l') /\ (forall l l', renv G l l' -> renv G' l l').
Proof.
  intros [l0 ->].
  apply (rv_ind' G (fun v l _ => rv (G ++ l0) v l) (fun s l _ => rs (G ++ l0) s l) (fun l l' _ => rlist (G ++ l0) l l')
    (fun l l' _ => renv (G ++ l0) l l')); try (intros; constructor; auto; fail).
  intros env e p H. constructor. rewrite nth_error_app1; [exact H|]. apply nth_error_Some. congruence.
Qed.
Lemma rv_ext G G' v l : ext G G' -> rv G v l -> rv G' v l.
Proof. intros E. apply (r_ext _ _ E). Qed.
Lemma rs_ext G G' v l : ext G G' -> rs G v l -> rs G' v l.
Proof. intros E. apply (r_ext _ _ E). Qed.
Lemma renv_ext G G' v l : ext G G' -> renv G v l -> renv G' v l.
Proof. intros E. apply (r_ext _ _ E). Qed.
(** whole values have no promises in them *)
Lemma data_rv G :
  (forall v l, rv G v l -> whole v -> ldata l = ndata v) /\ (forall s l, rs G s l -> forall v, s = Now v -> whole v -> ldata l = ndata v) /\
  (forall l l', rlist G l l' -> wholes l -> map ldata l' = map sdatum l) /\ (forall l l', renv G l l' -> True).
Proof.
  apply (rv_ind' G (fun v l _ => whole v -> ldata l = ndata v) (fun s l _ => forall v, s = Now v -> whole v -> ldata l = ndata v)
    (fun l l' _ => wholes l -> map ldata l' = map sdatum l) (fun l l' _ => True)); auto.
  - intros l l' _ IH Hw. inversion Hw; subst. cbn [ndata ldata]. f_equal. auto.
  - intros v v' _ IH v2 [= <-]. exact IH.
  - intros; discriminate.
  - intros v s l l' _ IH _ IHl Hw. inversion Hw; subst. cbn. f_equal; auto.
Qed.
Definition rw (G : list (nenv * ex)) (s : susp) (l : lval) : Prop := exists v, s = Now v /\ rv G v l /\ whole v.
Definition rh (G : list (nenv * ex)) (s : susp) (l : lval) : Prop := exists v, s = Now v /\ rv G v l.

(** ** Promises that are kept *)
Definition hok (G : list (nenv * ex)) (h : heap) : Prop :=
  length G = length h /\
  forall p env e c, nth_error G p = Some (env, e) -> nth_error h p = Some c ->
    renv G env (cenv c) /\ code c = vis Full e /\ fine e = true /\
    (forall o, cache c = Some o -> exists o', gives (fun k => name k Whole env e) o' /\ orel (rw G) o' o) /\
    runs c = match cache c with Some _ => 1 | None => 0 end.
(** nothing has happened to the promises that take more than [j] steps by name *)
Definition kept (j : nat) (G : list (nenv * ex)) (h h' : heap) : Prop :=
  forall p env e, nth_error G p = Some (env, e) -> name j Whole env e = None -> nth_error h' p = nth_error h p.
Lemma kept_refl j G h : kept j G h h.
Proof. intros p env e _ _. reflexivity. Qed.
Lemma kept_trans j G G' h h' h2 : ext G G' -> kept j G h h' -> kept j G' h' h2 -> kept j G h h2.
Proof.
  intros [l ->] H1 H2 p env e HG Hn. rewrite <- (H1 p env e HG Hn). apply (H2 p env e); [|exact Hn].
  rewrite nth_error_app1; [exact HG|]. apply nth_error_Some. congruence.
Qed.
Lemma kept_le i j G h h' : i <= j -> kept i G h h' -> kept j G h h'.
Proof.
  intros L H p env e HG Hn. apply (H p env e HG). destruct (name i Whole env e) eqn:E; [|reflexivity].
  rewrite (name_mono _ _ _ i j _ _ _ _ E L) in Hn. discriminate.
Qed.

Definition evt {A} (m : nat -> H A) (h : heap) (o : outcome A) (h' : heap) : Prop :=
  exists k0, forall k, k0 <= k -> m k h = Some (o, h').
Definition sim {A B} (j : nat) (R : list (nenv * ex) -> B -> A -> Prop) (m : nat -> H A) (G : list (nenv * ex)) (h : heap) (o : outcome B) : Prop :=
  exists G' h' o', evt m h o' h' /\ kept j G h h' /\ hok G' h' /\ ext G G' /\ orel (R G') o o'.

Lemma sim_ret {j} {A B} (R : list (nenv * ex) -> B -> A -> Prop) G h a b : hok G h -> R G b a -> sim j R (fun _ => ret a) G h (Ok b).
Proof. intros Hh HR. exists G, h, (Ok a). split; [exists 0; reflexivity|]. split; [apply kept_refl|]. split; [exact Hh|]. split; [apply ext_refl|exact HR]. Qed.
Lemma sim_lift {j} {A B} (R : list (nenv * ex) -> B -> A -> Prop) G h o o' : hok G h -> orel (R G) o o' -> sim j R (fun _ => lift o') G h o.
Proof. intros Hh HR. exists G, h, o'. split; [exists 0; reflexivity|]. split; [apply kept_refl|]. split; [exact Hh|]. split; [apply ext_refl|exact HR]. Qed.
Lemma sim_S {j} {A B} (R : list (nenv * ex) -> B -> A -> Prop) (m body : nat -> H A) G h o :
  (forall k, m (S k) = body k) -> sim j R body G h o -> sim j R m G h o.
Proof.
  intros E [G' [h' [o' [[k0 Hk] H]]]]. exists G', h', o'. split; [|exact H]. exists (S k0). intros [|k] L; [lia|]. rewrite E. apply Hk. lia.
Qed.
Lemma sim_bind {j} {A B C D} (R1 : list (nenv * ex) -> B -> A -> Prop) (R : list (nenv * ex) -> D -> C -> Prop)
    (mo : O B) (fo : B -> O D) (m : nat -> H A) (f : nat -> A -> H C) G h o :
  obind mo fo = Some o ->
  (forall o1, mo = Some o1 -> sim j R1 m G h o1) ->
  (forall b G' h' a o2, ext G G' -> hok G' h' -> R1 G' b a -> mo = Some (Ok b) -> fo b = Some o2 -> sim j R (fun k => f k a) G' h' o2) ->
  sim j R (fun k => bind (m k) (f k)) G h o.
Proof.
  intros E H1 H2. apply obind_some in E as [[x [E ->]]|[b [E Ef]]].
  - destruct (H1 _ E) as [G' [h' [o' [[k0 Hk] [Hu [Hh [He Ho]]]]]]]. destruct o' as [a|y]; [destruct Ho|]. cbn in Ho. subst y.
    exists G', h', (Raise x). split; [|split; [exact Hu|split; [exact Hh|split; [exact He|reflexivity]]]].
    exists k0. intros k L. unfold bind. now rewrite Hk.
  - destruct (H1 _ E) as [G' [h' [o' [[k0 Hk] [Hu [Hh [He Ho]]]]]]]. destruct o' as [a|y]; [|destruct Ho]. cbn in Ho.
    destruct (H2 _ _ _ _ _ He Hh Ho E Ef) as [G2 [h2 [o2 [[k2 Hk2] [Hu2 [Hh2 [He2 Ho2]]]]]]].
    exists G2, h2, o2. split; [|split; [eapply kept_trans; eauto|split; [exact Hh2|split; [eapply ext_trans; eauto|exact Ho2]]]].
    exists (max k0 k2). intros k L. unfold bind. rewrite Hk by lia. apply Hk2. lia.
Qed.
Lemma mapH_cons {A B} (f : A -> H B) a l : mapH f (a :: l) = bind (f a) (fun b => bind (mapH f l) (fun bs => ret (b :: bs))).
Proof. reflexivity. Qed.
Lemma sim_map {j} {A B C D} (P : C -> A -> Prop) (R : list (nenv * ex) -> D -> B -> Prop) (fo : C -> O D) (f : nat -> A -> H B) cs las :
  (forall G G' d b, ext G G' -> R G d b -> R G' d b) ->
  Forall2 P cs las -> forall G h o,
  mapE fo cs = Some o -> hok G h ->
  (forall c a G' h' o1, P c a -> ext G G' -> hok G' h' -> fo c = Some o1 -> sim j R (fun k => f k a) G' h' o1) ->
  sim j (fun G => Forall2 (R G)) (fun k => mapH (f k) las) G h o.
Proof.
  intros Hext. induction 1 as [|c a cs las HP _ IH]; intros G h o E Hh Hf; cbn [mapE] in E.
  - injection E as <-. apply sim_ret; [exact Hh|constructor].
  - replace (fun k => mapH (f k) (a :: las)) with (fun k => bind (f k a) (fun b => bind (mapH (f k) las) (fun bs => ret (b :: bs)))) by reflexivity.
    apply (sim_bind R _ (fo c) (fun b => obind (mapE fo cs) (fun bs => pure (b :: bs))) (fun k => f k a) _ G h o E).
    + intros o1 E1. apply (Hf c a); auto. apply ext_refl.
    + intros d G' h' b o2 He Hh' HR _ E2.
      apply (sim_bind (fun G => Forall2 (R G)) _ (mapE fo cs) (fun bs => pure (d :: bs)) (fun k => mapH (f k) las) (fun k bs => ret (b :: bs)) G' h' o2 E2).
      * intros o1 E1. apply IH; auto. intros c' a' G2 h2 o3 HP' He' Hh2 E3. apply (Hf c' a'); auto. eapply ext_trans; eauto.
      * intros ds G2 h2 bs o3 He2 Hh2 HF _ E3. injection E3 as <-. apply sim_ret; [exact Hh2|]. constructor; [eapply Hext; eauto|exact HF].
Qed.
Lemma rs_ext' G G' d b : ext G G' -> rs G d b -> rs G' d b.
Proof. apply rs_ext. Qed.
Lemma rw_ext G G' d b : ext G G' -> rw G d b -> rw G' d b.
Proof. intros E [v [-> [H W]]]. exists v. split; [reflexivity|]. split; [eapply rv_ext; eauto|exact W]. Qed.
Lemma sim_weak {j} {A B} (R R' : list (nenv * ex) -> B -> A -> Prop) m G h o :
  (forall G b a, R G b a -> R' G b a) -> sim j R m G h o -> sim j R' m G h o.
Proof.
  intros HR [G' [h' [o' [E [Hu [Hh [He Ho]]]]]]]. exists G', h', o'. split; [exact E|]. split; [exact Hu|]. split; [exact Hh|]. split; [exact He|].
  destruct o, o'; cbn in *; auto.
Qed.

Lemma upd_nth h p o : forall q, nth_error (upd h p o) q =
  match nth_error h q with None => None | Some c => if Nat.eqb p q then Some (mkcell (cenv c) (code c) (Some o) (S (runs c))) else Some c end.
Proof.
  revert p. induction h as [|c h IH]; intros [|p] [|q]; cbn; try reflexivity.
  - destruct (nth_error h q); reflexivity.
  - apply IH.
Qed.
Lemma upd_length h p o : length (upd h p o) = length h.
Proof. revert p. induction h; intros [|p]; cbn; auto. Qed.
Lemma hok_upd G h p env e o o' : hok G h -> nth_error G p = Some (env, e) ->
  gives (fun k => name k Whole env e) o -> orel (rw G) o o' -> (forall c, nth_error h p = Some c -> cache c = None) -> hok G (upd h p o').
Proof.
  intros [HL HH] HG Hg Ho Hc0. split; [now rewrite upd_length|]. intros q env2 e2 c HG2 Hc. rewrite upd_nth in Hc.
  destruct (nth_error h q) as [c0|] eqn:Eq; [|discriminate]. destruct (HH _ _ _ _ HG2 Eq) as [R1 [R2 [R3 [R4 R5]]]].
  destruct (Nat.eqb p q) eqn:Epq.
  - apply Nat.eqb_eq in Epq. subst q. rewrite HG in HG2. injection HG2 as <- <-. injection Hc as <-. cbn. rewrite (Hc0 _ Eq) in R5. split; [exact R1|]. split; [exact R2|]. split; [exact R3|]. split; [intros o2 [= <-]; eauto|now rewrite R5].
  - injection Hc as <-. repeat split; auto.
Qed.
Lemma hok_push G h env e lenv : hok G h -> renv G env lenv -> fine e = true ->
  hok (G ++ [(env, e)]) (h ++ [mkcell lenv (vis Full e) None 0]).
Proof.
  intros [HL HH] HR Hf. assert (E : ext G (G ++ [(env, e)])) by (eexists; reflexivity).
  split; [rewrite !app_length; cbn; lia|]. intros p env2 e2 c HG Hc.
  destruct (Nat.lt_ge_cases p (length G)) as [L|L].
  - rewrite nth_error_app1 in HG by exact L. rewrite nth_error_app1 in Hc by lia. destruct (HH _ _ _ _ HG Hc) as [R1 [R2 [R3 [R4 R5]]]].
    split; [eapply renv_ext; eauto|]. split; [exact R2|]. split; [exact R3|]. split; [|exact R5]. intros o Ho. destruct (R4 _ Ho) as [o' [G1 O1]].
    exists o'. split; [exact G1|]. destruct o', o; cbn in *; auto. eapply rw_ext; eauto.
  - rewrite nth_error_app2 in HG by exact L. rewrite nth_error_app2 in Hc by lia. rewrite <- HL in Hc.
    destruct (p - length G) as [|n]; [|destruct n; discriminate]. cbn in HG, Hc. injection HG as <- <-. injection Hc as <-. cbn.
    split; [eapply renv_ext; eauto|]. repeat split; auto. discriminate.
Qed.

(** ** Arguments *)
Fixpoint ex_rec' (P : ex -> Prop) (HN : forall e, (match e with ETup _ => False | _ => True end) -> P e)
    (HT : forall l, Forall P l -> P (ETup l)) (e : ex) : P e :=
  match e with
  | ETup l => HT l ((fix all (l : list ex) : Forall P l :=
       match l with [] => Forall_nil _ | e :: l => Forall_cons _ (ex_rec' P HN HT e) (all l) end) l)
  | e => HN e I
  end.
Lemma lazyrec_vis e : (match e with ETup _ => False | _ => True end) -> lazyrec (vis Full e) = TLazy (vis Full e).
Proof. destruct e; try contradiction; reflexivity. Qed.
Lemma delay_sim {j} e : forall G h env lenv, fine e = true -> hok G h -> renv G env lenv ->
  sim j rs (fun k => ev k lenv (lazyrec (vis Full e))) G h (Ok (delay env e)).
Proof.
  induction e as [e He|l IH] using ex_rec'; intros G h env lenv Hf Hh HR.
  - rewrite lazyrec_vis by exact He. replace (delay env e) with (Later env e) by (destruct e; tauto).
    exists (G ++ [(env, e)]), (h ++ [mkcell lenv (vis Full e) None 0]), (Ok (LProm (length h))).
    split; [exists 1; intros [|k] L; [lia|reflexivity]|].
    split; [intros p env0 e0 HG _; rewrite nth_error_app1; [reflexivity|]; destruct Hh as [<- _]; apply nth_error_Some; congruence|].
    split; [now apply hok_push|]. split; [eexists; reflexivity|].
    cbn. constructor. rewrite nth_error_app2 by (destruct Hh; lia). replace (length h - length G) with 0 by (destruct Hh; lia). reflexivity.
  - cbn [vis lazyrec delay]. eapply (sim_S _ _ (fun k => bind (mapH (ev k lenv) (map lazyrec (map (vis Full) l))) (fun vs => ret (LT vs)))); [intros; now rewrite ev_S|].
    apply (sim_bind (fun G => Forall2 (rs G)) rs (Some (Ok (map (delay env) l))) (fun ss => Some (Ok (Now (NT ss))))
       (fun k => mapH (ev k lenv) (map lazyrec (map (vis Full) l))) (fun k vs => ret (LT vs)) G h _ eq_refl).
    + intros o1 [= <-].
      apply (sim_map (fun e t => t = lazyrec (vis Full e) /\ In e l) rs (fun e => Some (Ok (delay env e))) (fun k => ev k lenv) l).
      * apply rs_ext'.
      * clear. assert (X : forall l0, (forall e, In e l0 -> In e l) -> Forall2 (fun e t => t = lazyrec (vis Full e) /\ In e l) l0 (map lazyrec (map (vis Full) l0))).
        { induction l0 as [|e l0 IHl]; cbn; constructor; auto. } apply X; auto.
      * clear. induction l as [|e l IHl]; [reflexivity|]. cbn [mapE]. rewrite IHl. reflexivity.
      * exact Hh.
      * intros e t G' h' o1 [-> Hin] He' Hh' [= <-]. rewrite Forall_forall in IH. cbn [fine] in Hf. rewrite forallb_forall in Hf.
        apply IH; auto. eapply renv_ext; eauto.
    + intros ss G' h' vs o2 He' Hh' HF _ [= <-]. apply sim_ret; [exact Hh'|]. constructor. constructor. now apply rlist_F2.
Qed.

(** ** The simulation *)
Definition vuse (u : use) (e : ex) : tx := match u with Whole => vis Full e | Head => vis Flat e | Ref => vis Off e end.
Definition suit (u : use) (e : ex) : bool := match u with Whole => true | Head => container e | Ref => isref e end.
Definition ruse (u : use) : list (nenv * ex) -> susp -> lval -> Prop := match u with Whole => rw | Head => rh | Ref => rs end.
Definition simN (k : nat) : Prop := forall j, pred k <= j -> forall u env e o G h lenv,
  name k u env e = Some o -> fine e = true -> suit u e = true -> hok G h -> renv G env lenv ->
  sim j (ruse u) (fun k => ev k lenv (vuse u e)) G h o.
Definition simD (k : nat) : Prop := forall j, pred k <= j -> forall s o G h l,
  demand k s = Some o -> hok G h -> rs G s l -> sim j rh (fun k => frc k l) G h o.
Definition simV (k : nat) : Prop := forall j, pred k <= j -> forall s o G h l,
  nvalue k s = Some o -> hok G h -> rs G s l -> sim j rw (fun k => lforce (frc k) l) G h o.
Lemma least {A} (f : nat -> option A) k o : f 0 = None -> f k = Some o -> exists K o', K < k /\ f K = None /\ f (S K) = Some o'.
Proof.
  intros H0. revert o. induction k as [|k IH]; intros o E; [congruence|].
  destruct (f k) as [o'|] eqn:Ek; [destruct (IH _ eq_refl) as [K [o2 [? ?]]]; exists K, o2; split; [lia|assumption]|].
  exists k, o. auto.
Qed.
Lemma later_sim j k env e o G h p : k <= j -> (forall K, K <= k -> simN K) -> name k Whole env e = Some o -> hok G h -> nth_error G p = Some (env, e) ->
  sim j rw (fun k => frc k (LProm p)) G h o.
Proof.
  intros Hj HN E Hh HG. pose proof Hh as [HL HH].
  assert (Hp : p < length h) by (rewrite <- HL; apply nth_error_Some; congruence).
  destruct (nth_error h p) as [c|] eqn:Ec; [|apply nth_error_None in Ec; lia].
  destruct (HH _ _ _ _ HG Ec) as [R1 [R2 [R3 [R4 R5]]]].
  destruct (cache c) as [oc|] eqn:Eca.
  - destruct (R4 _ eq_refl) as [o' [[k0 G1] O1]].
    assert (o' = o) by (eapply name_det; [apply (G1 k0); lia|exact E]). subst o'.
    exists G, h, oc. split; [|split; [apply kept_refl|split; [exact Hh|split; [apply ext_refl|exact O1]]]].
    exists 0. intros k1 _. cbn [frc]. now rewrite Ec, Eca.
  - destruct (least (fun k => name k Whole env e) k o eq_refl E) as [K [o1 [LK [EK ES]]]].
    assert (o1 = o) by (eapply name_det; eauto). subst o1.
    destruct (HN (S K) LK K (le_n _) Whole env e o G h (cenv c) ES R3 eq_refl Hh R1) as [G' [h' [o' [[k0 Hk] [Hu [Hh' [He Ho]]]]]]].
    exists G', (upd h' p o'), o'. split; [|split; [|split; [|split; [exact He|exact Ho]]]].
    + exists k0. intros k1 L. cbn [frc]. rewrite Ec, Eca, R2. cbn [vuse] in Hk. now rewrite Hk.
    + intros q env0 e0 HG0 Hn. rewrite upd_nth. destruct (Nat.eqb_spec p q) as [<-|Hne].
      * rewrite HG in HG0. injection HG0 as <- <-. rewrite (name_mono _ _ _ _ _ _ _ _ _ E Hj) in Hn. discriminate.
      * assert (Hu' : kept j G h h') by (apply (kept_le K); [lia|exact Hu]). rewrite (Hu' q env0 e0 HG0 Hn). destruct (nth_error h q); reflexivity.
    + eapply hok_upd; [exact Hh'| | |exact Ho|].
      * destruct He as [l ->]. rewrite nth_error_app1; [exact HG|]. apply nth_error_Some. congruence.
      * exists k. intros k1 L. exact (name_mono _ _ _ _ _ _ _ _ _ E L).
      * intros c0 Hc0. rewrite (Hu p env e HG EK), Ec in Hc0. injection Hc0 as <-. exact Eca.
Qed.
Lemma rv_frc G v l k : rv G v l -> frc k l = ret l.
Proof. now destruct 1. Qed.
Lemma simD_S k : (forall K, K <= k -> simN K) -> simD (S k).
Proof.
  intros HN j Hj s o G h l E Hh HR. rewrite demand_S in E. destruct HR as [v l Hv|env e p HG].
  - injection E as <-. replace (fun k => frc k l) with (fun _ : nat => @ret lval l) by (destruct Hv; reflexivity).
    apply sim_ret; [exact Hh|]. exists v. auto.
  - eapply sim_weak; [|eapply later_sim; eauto]. intros G0 b a [v [-> [H _]]]. exists v. auto.
Qed.
Lemma simV_of k : simD k -> (forall j K, k = S j -> K <= j -> simN K) ->
  (forall j l ls o G h, pred (pred k) <= j -> mapE (nvalue (pred k)) l = Some o -> hok G h -> rlist G l ls -> k <> 0 -> sim j (fun G => Forall2 (rw G)) (fun k => mapH (lforce (frc k)) ls) G h o) ->
  simV k.
Proof.
  intros HD HN HL i Hi s o G h l E Hh HR. destruct k as [|j]; [discriminate|]. cbn [pred] in HL, Hi. unfold LzfProofs.nvalue in E.
  apply obind_some in E as [[x [E ->]]|[s' [E E2]]].
  - rewrite demand_S in E. destruct HR as [v l Hv|env e p HG]; [discriminate|].
    apply (later_sim i j env e (Raise x) G h p Hi (fun K => HN _ K eq_refl) E Hh HG).
  - rewrite demand_S in E. destruct HR as [v l Hv|env e p HG].
    + injection E as <-. rewrite deep_S in E2. destruct Hv as [c|vl ls Hl|ps b env env' Hb Henv|n]; cbn [lforce frc].
      * injection E2 as <-. apply sim_ret; [exact Hh|]. exists (NC c). repeat split; constructor.
      * apply (sim_bind (fun G => Forall2 (rw G)) rw (mapE (nvalue j) vl) (fun l => pure (Now (NT l))) (fun k => mapH (lforce (frc k)) ls) (fun k l => ret (LT l)) G h o E2).
        -- intros o1 E1. apply HL with (l := vl); auto. lia.
        -- intros vs G' h' ls' o2 He Hh' HF _ [= <-]. apply sim_ret; [exact Hh'|]. exists (NT vs). split; [reflexivity|].
           clear -HF. split; constructor.
           ++ apply rlist_F2. eapply F2_impl; [|exact HF]. intros s a [v [-> [H _]]]. now constructor.
           ++ induction HF as [|s a l l' [v [-> [_ W]]] _ IH]; constructor; auto.
      * injection E2 as <-. apply sim_ret; [exact Hh|]. exists (NClo ps b env). repeat split; constructor; auto.
      * injection E2 as <-. apply sim_ret; [exact Hh|]. exists (NBuiltin n). repeat split; constructor.
    + destruct (later_sim i j env e _ G h p Hi (fun K => HN _ K eq_refl) E Hh HG) as [G' [h' [o' [Ev [Hu [Hh' [He Ho]]]]]]].
      destruct o' as [a|]; [|destruct Ho]. cbn in Ho. destruct Ho as [v [-> [Hv W]]].
      apply deep_whole_n in E2; [|exact W]. subst o. exists G', h', (Ok a). split; [exact Ev|]. split; [exact Hu|]. split; [exact Hh'|]. split; [exact He|].
      exists v. auto.
Qed.
Lemma simV_list j k l ls o G h : pred k <= j -> simV k -> mapE (nvalue k) l = Some o -> hok G h -> rlist G l ls ->
  sim j (fun G => Forall2 (rw G)) (fun k => mapH (lforce (frc k)) ls) G h o.
Proof.
  intros Hj HV E Hh HR. apply (sim_map (rs G) rw (nvalue k) (fun k => lforce (frc k)) l ls) with (1 := rw_ext); auto.
  - now apply rlist_F2.
  - intros s a G' h' o1 Hs He Hh' E1. apply (HV j Hj s o1 G' h' a); auto. eapply rs_ext; eauto.
Qed.

Lemma data_list G l ls : Forall2 (rw G) l ls -> map ldata ls = map sdatum l.
Proof.
  induction 1 as [|s a l ls [v [-> [H W]]] _ IH]; [reflexivity|]. cbn. f_equal; [|exact IH]. now apply (data_rv G).
Qed.
Lemma apply_sim {j} G h o vs : hok G h ->
  sim j rw (fun _ => lift (apply_prim prim LC LT o vs)) G h (match napply o vs with Ok v => Ok (Now v) | Raise x => Raise x end).
Proof.
  intros Hh. apply sim_lift; [exact Hh|].
  assert (QC : forall c, rv G (NC c) (LC c) /\ whole (NC c)) by (intros; split; constructor).
  assert (QT : forall l l', Forall2 (fun a b => rv G a b /\ whole a) l l' -> rv G (NT (map Now l)) (LT l') /\ whole (NT (map Now l))).
  { intros l l' HF. split; constructor.
    - apply rlist_now. eapply F2_impl; [|exact HF]. now intros ? ? [].
    - apply wholes_Forall. induction HF as [|? ? ? ? []]; constructor; auto. }
  pose proof (apply_rel prim (fun a b => rv G a b /\ whole a) (fun c => NC c) (fun l => NT (map Now l)) LC LT o vs QC QT) as Q.
  unfold orel in *. destruct (napply o vs) as [v|x], (apply_prim prim LC LT o vs) as [v'|x']; auto.
  exists v. split; [reflexivity|exact Q].
Qed.
Lemma apply_some o vs o2 : obind (Some (napply o vs)) (fun v => pure (Now v)) = Some o2 ->
  o2 = match napply o vs with Ok v => Ok (Now v) | Raise x => Raise x end.
Proof. destruct (napply o vs); cbn; intros [= <-]; reflexivity. Qed.

Hypothesis globals_fine : forall x ps b, globals x = Some (ps, b) -> fine b = true.
Definition rvw (G : list (nenv * ex)) (v : nval) (l : lval) : Prop := rv G v l /\ whole v.
Lemma rvw_ext G G' v l : ext G G' -> rvw G v l -> rvw G' v l.
Proof. intros E [H W]. split; [eapply rv_ext; eauto|exact W]. Qed.
Lemma data_rvw G v l : rvw G v l -> ldata l = ndata v.
Proof. intros [H W]. now apply (data_rv G). Qed.
Lemma data_rvws G l ls : Forall2 (rvw G) l ls -> map ldata ls = map ndata l.
Proof. induction 1 as [|v a l ls H _ IH]; [reflexivity|]. cbn. f_equal; [eapply data_rvw; eauto|exact IH]. Qed.
Lemma sim_conv {j} {A B C} (R : list (nenv * ex) -> B -> A -> Prop) (R' : list (nenv * ex) -> C -> A -> Prop) m G h (mo : O B) (f : B -> O C) o :
  obind mo f = Some o -> (forall o1, mo = Some o1 -> sim j R m G h o1) ->
  (forall G b a o2, R G b a -> f b = Some o2 -> exists c, o2 = Ok c /\ R' G c a) -> sim j R' m G h o.
Proof.
  intros E H1 H2. apply obind_some in E as [[x [E ->]]|[b [E Ef]]].
  - destruct (H1 _ E) as [G' [h' [o' [Ev [Hu [Hh [He Ho]]]]]]]. exists G', h', o'. split; [exact Ev|]. split; [exact Hu|]. split; [exact Hh|]. split; [exact He|].
    destruct o'; exact Ho.
  - destruct (H1 _ E) as [G' [h' [o' [Ev [Hu [Hh [He Ho]]]]]]]. exists G', h', o'. split; [exact Ev|]. split; [exact Hu|]. split; [exact Hh|]. split; [exact He|].
    destruct o' as [a|]; [|destruct Ho]. destruct (H2 _ _ _ _ Ho Ef) as [c [-> Hc]]. exact Hc.
Qed.
Lemma whole_sim j k env e o G h lenv : pred k <= j -> simN k -> nwhole k env e = Some o -> fine e = true -> hok G h -> renv G env lenv ->
  sim j rvw (fun k => ev k lenv (vis Full e)) G h o.
Proof.
  intros Hj HN E Hf Hh HR. eapply (sim_conv rw rvw); [exact E| |].
  - intros o1 E1. exact (HN j Hj Whole env e o1 G h lenv E1 Hf eq_refl Hh HR).
  - intros G0 b a o2 [v [-> [H W]]] [= <-]. exists v. split; [reflexivity|]. split; auto.
Qed.
Lemma head_sim j k env e o G h lenv : pred k <= j -> simN k -> nhead k env e = Some o -> fine e = true -> container e = true -> hok G h -> renv G env lenv ->
  sim j rv (fun k => ev k lenv (vis Flat e)) G h o.
Proof.
  intros Hj HN E Hf Hc Hh HR. eapply (sim_conv rh rv); [exact E| |].
  - intros o1 E1. exact (HN j Hj Head env e o1 G h lenv E1 Hf Hc Hh HR).
  - intros G0 b a o2 [v [-> H]] [= <-]. exists v. split; [reflexivity|exact H].
Qed.
Lemma argument_sim j k env e o G h lenv : pred k <= j -> simN k -> nargument k env e = Some o -> fine e = true -> hok G h -> renv G env lenv ->
  sim j rs (fun k => ev k lenv (if isref e then vis Off e else lazyrec (vis Full e))) G h o.
Proof.
  intros Hj HN E Hf Hh HR. unfold LzfProofs.nargument in E. destruct (isref e) eqn:Er.
  - exact (HN j Hj Ref env e o G h lenv E Hf Er Hh HR).
  - injection E as <-. now apply delay_sim.
Qed.
Definition umode (u : use) : mode := match u with Whole => Full | Head => Flat | Ref => Off end.
Lemma ref_sim j k u (REF : O susp) o t G h lenv : pred k <= j -> simD k -> simV k ->
  obind REF (nused k u) = Some o -> (forall o1, REF = Some o1 -> sim j rs (fun k => ev k lenv t) G h o1) ->
  sim j (ruse u) (fun k => ev k lenv (f_ (umode u) t)) G h o.
Proof.
  intros Hj HD HV E H1. destruct u; cbn [umode f_ ruse LzfProofs.nused] in *.
  - eapply (sim_S _ _ (fun k => bind (ev k lenv t) (lforce (frc k)))); [intros; now rewrite ev_S|].
    apply (sim_bind rs rw REF _ _ _ G h o E H1). intros s G' h' a o2 He Hh HR _ E2. now apply (HV j Hj s).
  - eapply (sim_S _ _ (fun k => bind (ev k lenv t) (frc k))); [intros; now rewrite ev_S|].
    apply (sim_bind rs rh REF _ _ _ G h o E H1). intros s G' h' a o2 He Hh HR _ E2. now apply (HD j Hj s).
  - apply (sim_conv rs rs _ _ _ _ _ _ E H1). intros G0 b a o2 HR [= <-]. eauto.
Qed.
Lemma call_sim j k f lf ss ls o G h : pred k <= j -> simN k -> simV k -> ncall k f ss = Some o -> rv G f lf -> rlist G ss ls -> hok G h ->
  sim j rw (fun k => lcall k lf ls) G h o.
Proof.
  intros Hj HN HV E Hf Hs Hh. pose proof (F2_length _ _ _ (proj1 (rlist_F2 _ _ _) Hs)) as HL.
  destruct Hf as [c|fl fl' Hl|ps b env env' Hb Henv|n]; cbn [LzfProofs.ncall lcall] in *.
  - apply (sim_bind _ rw _ _ _ _ G h o E (fun o1 E1 => simV_list j k ss ls o1 G h Hj HV E1 Hh Hs)).
    intros vs G' h' ls' o2 He Hh' HF _ [= <-]. apply sim_lift; [exact Hh'|reflexivity].
  - apply (sim_bind _ rw _ _ _ _ G h o E (fun o1 E1 => simV_list j k ss ls o1 G h Hj HV E1 Hh Hs)).
    intros vs G' h' ls' o2 He Hh' HF _ [= <-]. apply sim_lift; [exact Hh'|reflexivity].
  - rewrite <- HL. destruct (length ps =? length ss).
    + apply (HN j Hj Whole (combine ps ss ++ env) b o G h (combine ps ls ++ env') E Hb eq_refl Hh).
      apply renv_app; [exact Henv|]. apply renv_combine. now apply rlist_F2.
    + injection E as <-. apply sim_lift; [exact Hh|reflexivity].
  - apply (sim_bind _ rw _ _ _ _ G h o E (fun o1 E1 => simV_list j k ss ls o1 G h Hj HV E1 Hh Hs)).
    intros vs G' h' ls' o2 He Hh' HF _ E2. apply apply_some in E2. subst o2. rewrite (data_list _ _ _ HF). now apply apply_sim.
Qed.
Definition varg (se : bool * ex) : bool * tx :=
  (fst se,
   let t := if isref (snd se) then vis Off (snd se) else vis Full (snd se) in
   if fst se then (if is_literal_container t then lazyrec t else t) else if isref (snd se) then t else lazyrec t).
Lemma lit_vis e : is_literal_container (vis Full e) = match e with ETup _ => true | _ => false end.
Proof. destruct e; reflexivity. Qed.
Lemma arg_sim j k env se o G h lenv : pred k <= j -> simN k -> narg k env se = Some o ->
  (if fst se then negb (isref (snd se)) else true) = true -> fine (snd se) = true -> hok G h -> renv G env lenv ->
  sim j (fun G => Forall2 (rs G)) (fun k => larg k lenv (varg se)) G h o.
Proof.
  intros Hj HN E Hs Hf Hh HR. destruct se as [[] e]; cbn [fst snd LzfProofs.narg] in *; unfold larg, varg; cbn [fst snd]; cbn zeta.
  - destruct (isref e) eqn:Er; [discriminate|]. rewrite lit_vis.
    assert (GN : (exists l, e = ETup l) \/ (match e with ETup _ => true | _ => false end) = false) by (destruct e; eauto).
    destruct GN as [[l ->]|GN].
    + injection E as <-.
      apply (sim_bind rs (fun G => Forall2 (rs G)) (Some (Ok (delay env (ETup l)))) (fun s => match s with Now (NT l) => Some (Ok l) | _ => None end)
        (fun k => ev k lenv (lazyrec (vis Full (ETup l)))) _ G h _ eq_refl).
      * intros o1 [= <-]. exact (delay_sim (ETup l) G h env lenv Hf Hh HR).
      * intros s G' h' a o2 He Hh' Hs' _ E2. destruct Hs' as [v a Hv|]; [|discriminate]. destruct Hv; try discriminate.
        injection E2 as <-. apply sim_ret; [exact Hh'|]. now apply rlist_F2.
    + rewrite GN.
      assert (E' : obind (nwhole k env e) (fun v => match v with NT l => pure l | _ => Some (Raise TypeError) end) = Some o)
        by (destruct e; try discriminate; exact E).
      apply (sim_bind rvw _ (nwhole k env e) _ _ _ G h o E').
      * intros o1 E1. now apply (whole_sim j k env).
      * intros v G' h' a o2 He Hh' [Hv _] _ E2. destruct Hv; injection E2 as <-;
          try (apply sim_lift; [exact Hh'|reflexivity]). apply sim_ret; [exact Hh'|]. now apply rlist_F2.
  - apply (sim_bind rs _ (nargument k env e) (fun s => pure [s]) _ _ G h o E).
    + intros o1 E1. pose proof (argument_sim j k env e o1 G h lenv Hj HN E1 Hf Hh HR) as Q. destruct (isref e); exact Q.
    + intros s G' h' a o2 He Hh' Hs' _ [= <-]. apply sim_ret; [exact Hh'|]. repeat constructor. exact Hs'.
Qed.
Lemma forall_fine l : forallb fine l = true -> Forall2 (fun e t => t = vis Full e /\ fine e = true) l (map (vis Full) l).
Proof. induction l as [|e l IH]; cbn; intros H; constructor; apply andb_true_iff in H as [H1 H2]; auto. Qed.
Lemma list_sim j k env l o G h lenv : pred k <= j -> simN k -> mapE (nwhole k env) l = Some o -> forallb fine l = true -> hok G h -> renv G env lenv ->
  sim j (fun G => Forall2 (rvw G)) (fun k => mapH (ev k lenv) (map (vis Full) l)) G h o.
Proof.
  intros Hj HN E Hf Hh HR.
  apply (sim_map (fun e t => t = vis Full e /\ fine e = true) rvw (nwhole k env) (fun k => ev k lenv) l) with (1 := rvw_ext); auto.
  - now apply forall_fine.
  - intros e t G' h' o1 [-> Hfe] He Hh' E1. apply (whole_sim j k env); auto. eapply renv_ext; eauto.
Qed.
Lemma F2_concat {A B} (R : A -> B -> Prop) l l' : Forall2 (Forall2 R) l l' -> Forall2 R (concat l) (concat l').
Proof. induction 1; cbn; [constructor|]. apply Forall2_app; auto. Qed.
Lemma simN_S k : simN k -> simD k -> simV k -> simN (S k).
Proof.
  intros HN HD HV j Hj' u env e o G h lenv E Hf Hs Hh HR. rewrite name_S in E. cbn [pred] in Hj'. assert (Hj : pred k <= j) by lia.
  destruct e as [c|x|p l|t a b|ps b|l|w i|f l|x w b].
  - destruct u; try discriminate. injection E as <-. eapply sim_S; [intros; cbn [vuse vis]; now rewrite ev_S|].
    apply sim_ret; [exact Hh|]. exists (NC c). repeat split; constructor.
  - replace (vuse u (EName x)) with (f_ (umode u) (TName x)) by (destruct u; reflexivity).
    apply (ref_sim j k u _ _ _ _ _ _ Hj HD HV E). intros o1 [= <-].
    eapply sim_S; [intros; now rewrite ev_S|]. apply sim_lift; [exact Hh|].
    unfold LzfSpec.nname, LzfModel.lname. pose proof (assoc_r G _ _ HR x) as P. destruct (assoc x env), (assoc x lenv); try contradiction; [exact P|].
    destruct (globals x) as [[ps b]|] eqn:Eg.
    + cbn. constructor. constructor; [eapply globals_fine; eauto|constructor].
    + destruct (builtins x); cbn; [|reflexivity]. repeat constructor.
  - destruct u; try discriminate. eapply sim_S; [intros; cbn [vuse vis]; now rewrite ev_S|].
    apply (sim_bind (fun G => Forall2 (rvw G)) rw _ _ _ _ G h o E).
    + intros o1 E1. now apply (list_sim j k env).
    + intros vs G' h' ls o2 He Hh' HF _ E2. apply apply_some in E2. subst o2. rewrite (data_rvws _ _ _ HF). now apply apply_sim.
  - destruct u; try discriminate. cbn [fine] in Hf. rewrite !andb_true_iff in Hf. destruct Hf as [[F1 F2] F3].
    eapply sim_S; [intros; cbn [vuse vis]; now rewrite ev_S|].
    apply (sim_bind rvw rw _ _ _ _ G h o E).
    + intros o1 E1. now apply (whole_sim j k env).
    + intros v G' h' lv o2 He Hh' Hv _ E2. rewrite (data_rvw _ _ _ Hv).
      destruct (truthy (ndata v)).
      * apply (HN j Hj Whole env a o2 G' h' lenv E2 F2 eq_refl Hh'). eapply renv_ext; eauto.
      * apply (HN j Hj Whole env b o2 G' h' lenv E2 F3 eq_refl Hh'). eapply renv_ext; eauto.
  - destruct u; try discriminate. injection E as <-. eapply sim_S; [intros; cbn [vuse vis]; now rewrite ev_S|].
    apply sim_ret; [exact Hh|]. exists (NClo ps b env). split; [reflexivity|]. split; constructor; auto.
  - destruct u; try discriminate. eapply sim_S; [intros; cbn [vuse vis]; now rewrite ev_S|].
    apply (sim_bind (fun G => Forall2 (rvw G)) rw _ _ _ _ G h o E).
    + intros o1 E1. now apply (list_sim j k env).
    + intros vs G' h' ls o2 He Hh' HF _ [= <-]. apply sim_ret; [exact Hh'|]. exists (NT (map Now vs)). split; [reflexivity|]. clear -HF. split; constructor.
      * apply rlist_now. eapply F2_impl; [|exact HF]. now intros ? ? [].
      * apply wholes_Forall. induction HF as [|? ? ? ? []]; constructor; auto.
  - cbn [fine] in Hf. rewrite !andb_true_iff in Hf. destruct Hf as [[F1 F2] F3].
    replace (vuse u (ESub w i)) with (f_ (umode u) (TSub (vis Flat w) (vis Full i))) by (destruct u; reflexivity).
    set (REF := obind (nhead k env w) (fun v => obind (nwhole k env i) (fun i =>
        match v with NT l => Some (item l (ndata i)) | _ => Some (Raise TypeError) end))).
    assert (E' : obind REF (nused k u) = Some o).
    { unfold REF. rewrite <- E. destruct (nhead k env w) as [[v|y]|]; cbn [obind]; try reflexivity.
      destruct (nwhole k env i) as [[w'|y]|]; cbn [obind]; try reflexivity. destruct v; reflexivity. }
    apply (ref_sim j k u _ _ _ _ _ _ Hj HD HV E'). intros o1 E1. clear E E'. unfold REF in E1.
    eapply sim_S; [intros; now rewrite ev_S|].
    apply (sim_bind rv rs _ _ _ _ G h o1 E1).
    + intros o2 E2. now apply (head_sim j k env).
    + intros v G' h' lv o2 He Hh' Hv _ E2.
      assert (HR' : renv G' env lenv) by (eapply renv_ext; eauto).
      apply (sim_bind rvw rs _ _ _ _ G' h' o2 E2).
      * intros o3 E3. now apply (whole_sim j k env).
      * intros w' G2 h2 lj o3 He2 Hh2 Hw _ E3. rewrite (data_rvw _ _ _ Hw). apply (rv_ext G' G2) in Hv; [|exact He2].
        destruct Hv; injection E3 as <-; try (apply sim_lift; [exact Hh2|reflexivity]).
        apply sim_lift; [exact Hh2|]. apply item_rel. now apply rlist_F2.
  - cbn [fine] in Hf. rewrite andb_true_iff in Hf. destruct Hf as [F1 F2].
    assert (HC : forall (Rf : list (nenv * ex) -> nval -> lval -> Prop) (t : tx) (mf : O nval), (forall G v l, Rf G v l -> rv G v l) ->
        obind mf (fun f => obind (mapE (narg k env) l) (fun ss => ncall k f (concat ss))) = Some o ->
        (forall o1, mf = Some o1 -> sim j Rf (fun k => ev k lenv t) G h o1) ->
        sim j rw (fun k => ev k lenv (TMfa t (map varg l))) G h o).
    { intros Rf t mf HRf E0 H1. eapply sim_S; [intros; now rewrite ev_S|].
      apply (sim_bind Rf rw _ _ _ _ G h o E0 H1). intros fv G' h' lf o2 He Hh' Hfv _ E2. apply HRf in Hfv.
      assert (HR' : renv G' env lenv) by (eapply renv_ext; eauto).
      apply (sim_bind (fun G => Forall2 (Forall2 (rs G))) rw _ _ _ _ G' h' o2 E2).
      - intros o3 E3. apply (sim_map (fun se st => st = varg se /\ (if fst se then negb (isref (snd se)) else true) = true /\ fine (snd se) = true)
          (fun G => Forall2 (rs G)) (narg k env) (fun k => larg k lenv) l); auto.
        + intros G0 G1 d b0 He0 HF0. eapply F2_impl; [|exact HF0]. intros. eapply rs_ext; eauto.
        + clear -F2. induction l as [|se l IH]; cbn; constructor; cbn in F2; rewrite !andb_true_iff in F2; destruct F2 as [[? ?] ?]; auto.
        + intros se st G2 h2 o4 [-> [K1 K2]] He2 Hh2 E4. apply (arg_sim j k env); auto. eapply renv_ext; eauto.
      - intros ss G2 h2 ls o3 He2 Hh2 HF _ E3. apply (call_sim j k fv lf (concat ss)); auto; [eapply rv_ext; eauto|].
        apply rlist_F2. now apply F2_concat. }
    destruct u; try discriminate.
    + apply (HC rvw (vis Full f) (nwhole k env f)); auto; [now intros ? ? ? []|]. intros o1 E1. now apply (whole_sim j k env).
    + apply (sim_weak rw rh); [intros G0 b a [v [-> [H _]]]; exists v; auto|].
      apply (HC rv (vis Flat f) (nhead k env f)); auto. intros o1 E1. now apply (head_sim j k env).
  - destruct u; try discriminate. cbn [fine] in Hf. rewrite andb_true_iff in Hf. destruct Hf as [F1 F2].
    eapply sim_S; [intros; cbn [vuse vis]; now rewrite ev_S|].
    apply (sim_bind rs rw _ _ _ _ G h o E).
    + intros o1 E1. now apply (argument_sim j k env).
    + intros s G' h' ls o2 He Hh' Hs' _ E2. apply (HN j Hj Whole ((x, s) :: env) b o2 G' h' ((x, ls) :: lenv) E2 F2 eq_refl Hh').
      constructor; [exact Hs'|]. eapply renv_ext; eauto.
Qed.
Lemma sim_all k : forall K, K <= k -> simN K /\ simD K /\ simV K.
Proof.
  induction k as [|k IH].
  - intros K L. replace K with 0 by lia. split; [|split].
    + intros j Hj u env e o G h lenv E. discriminate.
    + intros j Hj s o G h l E. discriminate.
    + intros j Hj s o G h l E. discriminate.
  - intros K L. destruct (Nat.eq_dec K (S k)) as [->|]; [|apply IH; lia]. destruct (IH k (le_n _)) as [IN [ID IV]].
    split; [now apply simN_S|]. assert (HD : simD (S k)) by (apply simD_S; intros K' L'; now apply IH). split; [exact HD|].
    apply simV_of; [exact HD|intros j K' [= <-] L'; now apply IH|]. intros j l ls o G h Hj E Hh HR _. now apply (simV_list j k l).
Qed.
Lemma hok_nil : hok [] [].
Proof. split; [reflexivity|]. intros [] ? ? ? H; discriminate H. Qed.

(** ** More fuel does not change a result *)
Definition hle {A} (m m' : H A) : Prop := forall h r, m h = Some r -> m' h = Some r.
Lemma hle_refl {A} (m : H A) : hle m m.
Proof. intros h r E. exact E. Qed.
Lemma hle_bind {A B} (m m' : H A) (f f' : A -> H B) : hle m m' -> (forall a, hle (f a) (f' a)) -> hle (bind m f) (bind m' f').
Proof.
  intros H1 H2 h r E. unfold bind in *. destruct (m h) as [[o h1]|] eqn:Em; [|discriminate]. rewrite (H1 _ _ Em).
  destruct o; [now apply H2|exact E].
Qed.
Lemma hle_map {A B} (f f' : A -> H B) l : (forall a, hle (f a) (f' a)) -> hle (mapH f l) (mapH f' l).
Proof.
  intros Hf. induction l as [|a l IH]; [apply hle_refl|]. rewrite !mapH_cons. apply hle_bind; [apply Hf|]. intros b.
  apply hle_bind; [exact IH|]. intros; apply hle_refl.
Qed.
Fixpoint lval_rec' (P : lval -> Prop) (HN : forall v, (match v with LT _ => False | _ => True end) -> P v)
    (HT : forall l, Forall P l -> P (LT l)) (v : lval) : P v :=
  match v with
  | LT l => HT l ((fix all (l : list lval) : Forall P l :=
       match l with [] => Forall_nil _ | e :: l => Forall_cons _ (lval_rec' P HN HT e) (all l) end) l)
  | v => HN v I
  end.
Lemma hle_force f f' : (forall v, hle (f v) (f' v)) -> forall v, hle (lforce f v) (lforce f' v).
Proof.
  intros Hf v. induction v as [v Hn|l IH] using lval_rec'.
  - destruct v; try contradiction; apply Hf.
  - cbn [lforce]. apply hle_bind; [|intros; apply hle_refl]. induction IH as [|v l Hv _ IH]; [apply hle_refl|].
    rewrite !mapH_cons. apply hle_bind; [exact Hv|]. intros b. apply hle_bind; [exact IH|]. intros; apply hle_refl.
Qed.
Lemma ev_le k : forall env t, hle (ev k env t) (ev (S k) env t).
Proof.
  induction k as [|k IH]; [intros env t h r E; discriminate|].
  assert (F : forall v, hle (frc k v) (frc (S k) v)).
  { intros []; try apply hle_refl. intros h r E. cbn [frc] in *. destruct (nth_error h p) as [c|]; [|discriminate].
    destruct (cache c); [exact E|]. destruct (ev k (cenv c) (code c) h) as [[o h']|] eqn:Ee; [|discriminate]. now rewrite (IH _ _ _ _ Ee). }
  pose proof (hle_force _ _ F) as FF.
  intros env t. rewrite (ev_S k), (ev_S (S k)). destruct t; try apply hle_refl;
    repeat first [apply hle_bind; [|intros ?] | apply hle_map; intros ? | apply IH | apply FF | apply F | apply hle_refl].
  - destruct (truthy (ldata a)); apply IH.
  - unfold lcall. destruct a; try (apply hle_bind; [apply hle_map; intros; apply FF|intros; apply hle_refl]).
    destruct (length ps =? length (concat a0)); [apply IH|apply hle_refl].
Qed.
Lemma ev_mono k k' env t h r : ev k env t h = Some r -> k <= k' -> ev k' env t h = Some r.
Proof. intros E. induction 1; [exact E|]. now apply ev_le. Qed.
Lemma frc_mono k k' v h r : frc k v h = Some r -> k <= k' -> frc k' v h = Some r.
Proof.
  intros E L. destruct v; try exact E. cbn [frc] in *. destruct (nth_error h p) as [c|]; [|discriminate].
  destruct (cache c); [exact E|]. destruct (ev k (cenv c) (code c) h) as [[o h']|] eqn:Ee; [|discriminate]. now rewrite (ev_mono _ _ _ _ _ _ Ee L).
Qed.

(** ** The other way round *)
Definition cosim {A B} (R : list (nenv * ex) -> B -> A -> Prop) (M : nat -> O B) (G : list (nenv * ex)) (r : outcome A * heap) : Prop :=
  exists G' o, gives M o /\ hok G' (snd r) /\ ext G G' /\ orel (R G') o (fst r).
Lemma cosim_const {A B} (R : list (nenv * ex) -> B -> A -> Prop) G h o o' : hok G h -> orel (R G) o o' -> cosim R (fun _ => Some o) G (o', h).
Proof. intros Hh HR. exists G, o. split; [apply gives_const|]. split; [exact Hh|]. split; [apply ext_refl|exact HR]. Qed.
Lemma cosim_S {A B} (R : list (nenv * ex) -> B -> A -> Prop) (M body : nat -> O B) G r :
  (forall k, M (S k) = body k) -> cosim R body G r -> cosim R M G r.
Proof. intros E [G' [o [Hg H]]]. exists G', o. split; [eapply gives_S; eauto|exact H]. Qed.
Lemma cosim_weak {A B} (R R' : list (nenv * ex) -> B -> A -> Prop) M G r :
  (forall G b a, R G b a -> R' G b a) -> cosim R M G r -> cosim R' M G r.
Proof.
  intros HR [G' [o [E [Hh [He Ho]]]]]. exists G', o. split; [exact E|]. split; [exact Hh|]. split; [exact He|].
  destruct o, r as [[] ?]; cbn in *; auto.
Qed.
Lemma cosim_bind {A B C D} (R1 : list (nenv * ex) -> B -> A -> Prop) (R : list (nenv * ex) -> D -> C -> Prop)
    (m : H A) (f : A -> H C) (M : nat -> O B) (fo : nat -> B -> O D) G h r :
  bind m f h = Some r ->
  (forall r1, m h = Some r1 -> cosim R1 M G r1) ->
  (forall b a G' h', R1 G' b a -> ext G G' -> hok G' h' -> f a h' = Some r -> cosim R (fun k => fo k b) G' r) ->
  cosim R (fun k => obind (M k) (fo k)) G r.
Proof.
  unfold bind. intros E H1 H2. destruct (m h) as [[[a|x] h1]|] eqn:Em; [| |discriminate].
  - destruct (H1 _ eq_refl) as [G' [o [Hg [Hh [He Ho]]]]]. destruct o as [b|]; [|destruct Ho]. cbn in Ho.
    destruct (H2 b a G' h1 Ho He Hh E) as [G2 [o2 [Hg2 [Hh2 [He2 Ho2]]]]].
    exists G2, o2. split; [eapply gives_bind; eauto|]. split; [exact Hh2|]. split; [eapply ext_trans; eauto|exact Ho2].
  - injection E as <-. destruct (H1 _ eq_refl) as [G' [o [Hg [Hh [He Ho]]]]]. destruct o as [b|y]; [destruct Ho|]. cbn in Ho. subst y.
    exists G', (Raise x). split; [now apply gives_raise|]. split; [exact Hh|]. split; [exact He|reflexivity].
Qed.
Lemma cosim_conv {A B C} (R : list (nenv * ex) -> B -> A -> Prop) (R' : list (nenv * ex) -> C -> A -> Prop) M (f : nat -> B -> O C) G r :
  cosim R M G r -> (forall G b a, R G b a -> exists c, gives (fun k => f k b) (Ok c) /\ R' G c a) -> cosim R' (fun k => obind (M k) (f k)) G r.
Proof.
  intros [G' [o [Hg [Hh [He Ho]]]]] H2. destruct r as [[a|x] h']; destruct o as [b|y]; try destruct Ho; cbn in *.
  - destruct (H2 _ _ _ Ho) as [c [Hc HR]]. exists G', (Ok c). split; [eapply gives_bind; eauto|]. split; [exact Hh|]. split; [exact He|exact HR].
  - exists G', (Raise y). split; [now apply gives_raise|]. split; [exact Hh|]. split; [exact He|reflexivity].
Qed.
Lemma cosim_map {A B C D} (P : C -> A -> Prop) (R : list (nenv * ex) -> D -> B -> Prop) (fo : nat -> C -> O D) (f : A -> H B) cs las :
  (forall G G' d b, ext G G' -> R G d b -> R G' d b) ->
  Forall2 P cs las -> forall G h r,
  mapH f las h = Some r -> hok G h ->
  (forall c a G' h' r1, P c a -> ext G G' -> hok G' h' -> f a h' = Some r1 -> cosim R (fun k => fo k c) G' r1) ->
  cosim (fun G => Forall2 (R G)) (fun k => mapE (fo k) cs) G r.
Proof.
  intros Hext. induction 1 as [|c a cs las HP _ IH]; intros G h r E Hh Hf.
  - injection E as <-. apply cosim_const; [exact Hh|constructor].
  - rewrite mapH_cons in E. cbn [mapE].
    apply (cosim_bind R _ (f a) _ (fun k => fo k c) (fun k b => obind (mapE (fo k) cs) (fun bs => pure (b :: bs))) G h r E).
    + intros r1 E1. apply (Hf c a G h r1); auto. apply ext_refl.
    + intros d b G' h' HR He Hh' E2.
      apply (cosim_bind (fun G => Forall2 (R G)) _ (mapH f las) _ (fun k => mapE (fo k) cs) (fun k bs => pure (d :: bs)) G' h' r E2).
      * intros r1 E1. apply (IH G' h'); auto. intros c' a' G2 h2 r3 HP' He' Hh2 E3. apply (Hf c' a' G2 h2); auto. eapply ext_trans; eauto.
      * intros ds bs G2 h2 HF He2 Hh2 E3. injection E3 as <-. apply cosim_const; [exact Hh2|]. constructor; [eapply Hext; eauto|exact HF].
Qed.
Lemma deep_whole_gives :
  (forall v, whole v -> gives (fun k => deep k (Now v)) (Ok (Now v))) /\
  (forall l, wholes l -> gives (fun k => mapE (nvalue k) l) (Ok l)).
Proof.
  apply (whole_ind' (fun v _ => gives (fun k => deep k (Now v)) (Ok (Now v))) (fun l _ => gives (fun k => mapE (nvalue k) l) (Ok l))).
  - intros c. apply (gives_S _ (fun _ => pure (Now (NC c)))); [reflexivity|apply gives_const].
  - intros l _ IH. apply (gives_S _ (fun k => obind (mapE (nvalue k) l) (fun l => pure (Now (NT l))))); [reflexivity|].
    apply (gives_bind _ (fun _ l => pure (Now (NT l))) l _ IH), gives_const.
  - intros ps b env. apply (gives_S _ (fun _ => pure (Now (NClo ps b env)))); [reflexivity|apply gives_const].
  - intros o. apply (gives_S _ (fun _ => pure (Now (NBuiltin o)))); [reflexivity|apply gives_const].
  - apply gives_const.
  - intros v l _ IH _ IHl. cbn [mapE].
    apply (gives_bind (fun k => nvalue k (Now v)) (fun k b => obind (mapE (nvalue k) l) (fun bs => pure (b :: bs))) (Now v)).
    + apply (gives_bind (fun k => demand k (Now v)) (fun k => deep k) (Now v)); [|exact IH].
      apply (gives_S _ (fun _ => pure (Now v))); [reflexivity|apply gives_const].
    + apply (gives_bind _ (fun k bs => pure (Now v :: bs)) l _ IHl), gives_const.
Qed.

Definition coN (k : nat) : Prop := forall u env e G h r lenv,
  ev k lenv (vuse u e) h = Some r -> fine e = true -> suit u e = true -> hok G h -> renv G env lenv ->
  cosim (ruse u) (fun k => name k u env e) G r.
Definition coD (k : nat) : Prop := forall s G h l r, frc k l h = Some r -> hok G h -> rs G s l -> cosim rh (fun k => demand k s) G r.
Definition coV (k : nat) : Prop := forall s G h l r, lforce (frc k) l h = Some r -> hok G h -> rs G s l -> cosim rw (fun k => nvalue k s) G r.
Lemma later_co k env e G h p r : coN k -> frc k (LProm p) h = Some r -> hok G h -> nth_error G p = Some (env, e) ->
  cosim rw (fun k => name k Whole env e) G r.
Proof.
  intros HN E Hh HG. pose proof Hh as [HL HH]. pose proof E as E0. cbn [frc] in E.
  destruct (nth_error h p) as [c|] eqn:Ec; [|discriminate].
  destruct (HH _ _ _ _ HG Ec) as [R1 [R2 [R3 [R4 R5]]]].
  assert (Hg : exists o, gives (fun k => name k Whole env e) o).
  { destruct (cache c) as [oc|] eqn:Eca; [destruct (R4 _ eq_refl) as [o' [G1 O1]]; eauto|].
    destruct (ev k (cenv c) (code c) h) as [[o' h']|] eqn:Ee; [|discriminate]. rewrite R2 in Ee.
    destruct (HN Whole env e G h _ (cenv c) Ee R3 eq_refl Hh R1) as [G' [o [Hg _]]]. eauto. }
  destruct Hg as [o [k0 Hg]]. pose proof (Hg k0 (le_n _)) as En.
  destruct (later_sim k0 k0 env e o G h p (le_n _) (fun K L => proj1 (sim_all k0 K L)) En Hh HG) as [G' [h' [o' [[k1 Hk] [_ [Hh' [He Ho]]]]]]].
  specialize (Hk (max k k1) ltac:(lia)). rewrite (frc_mono k (max k k1) _ _ _ E0 ltac:(lia)) in Hk. injection Hk as ->.
  exists G', o. split; [now exists k0|]. split; [exact Hh'|]. split; [exact He|exact Ho].
Qed.
Lemma coD_of k : coN k -> coD k.
Proof.
  intros HN s G h l r E Hh HR. destruct HR as [v l Hv|env e p HG].
  - rewrite (rv_frc _ _ _ _ Hv) in E. injection E as <-. eapply (cosim_S _ _ (fun _ => pure (Now v))); [reflexivity|].
    apply cosim_const; [exact Hh|]. exists v. auto.
  - eapply (cosim_S _ _ (fun k => name k Whole env e)); [reflexivity|]. apply (cosim_weak rw rh).
    + intros G0 b a [v [-> [H _]]]. exists v. auto.
    + eapply later_co; eauto.
Qed.
Lemma coV_of k : coN k -> coV k.
Proof.
  intros HN s G h l. revert s G h. induction l as [v Hn|l IH] using lval_rec'; intros s G h r E Hh HR.
  - assert (E' : frc k v h = Some r) by (destruct v; tauto || exact E). clear E.
    destruct HR as [nv v Hv|env e p HG].
    + unfold LzfProofs.nvalue. apply (cosim_conv rw rw).
      * eapply (cosim_S _ _ (fun _ => pure (Now nv))); [reflexivity|]. rewrite (rv_frc _ _ _ _ Hv) in E'. injection E' as <-.
        apply cosim_const; [exact Hh|]. exists nv. split; [reflexivity|]. split; [exact Hv|]. destruct Hv; try contradiction; constructor.
      * intros G0 b a [w [-> [H W]]]. exists (Now w). split; [now apply deep_whole_gives|]. exists w. auto.
    + unfold LzfProofs.nvalue. apply (cosim_conv rw rw).
      * eapply (cosim_S _ _ (fun k => name k Whole env e)); [reflexivity|]. eapply later_co; eauto.
      * intros G0 b a [w [-> [H W]]]. exists (Now w). split; [now apply deep_whole_gives|]. exists w. auto.
  - inversion HR as [nv l0 Hv|]; subst. inversion Hv as [|vl l0 Hl| |]; subst. cbn [lforce] in E. unfold LzfProofs.nvalue.
    assert (Q : cosim rw (fun k => obind (mapE (nvalue k) vl) (fun l => pure (Now (NT l)))) G r).
    { apply (cosim_bind (fun G => Forall2 (rw G)) rw _ _ (fun k => mapE (nvalue k) vl) (fun k l => pure (Now (NT l))) G h r E).
      - intros r1 E1. apply (cosim_map (fun s a => rs G s a /\ In a l) rw nvalue (lforce (frc k)) vl l rw_ext) with (h := h); auto.
        + apply rlist_F2 in Hl. clear -Hl. assert (X : forall l0, (forall a, In a l0 -> In a l) -> forall vl, Forall2 (rs G) vl l0 -> Forall2 (fun s a => rs G s a /\ In a l) vl l0).
          { intros l0 H. intros vl0 HF. induction HF; constructor; [split; [assumption|apply H; now left]|]. apply IHHF. intros; apply H; now right. }
          apply X; auto.
        + intros s a G' h' r2 [Hs Hin] He Hh' E2. rewrite Forall_forall in IH. apply (IH a Hin s G' h'); auto. eapply rs_ext; eauto.
      - intros vs ls G' h' HF He Hh' E2. injection E2 as <-. apply cosim_const; [exact Hh'|]. exists (NT vs). split; [reflexivity|].
        clear -HF. split; constructor.
        + apply rlist_F2. eapply F2_impl; [|exact HF]. intros s a [v [-> [H _]]]. now constructor.
        + induction HF as [|s a l l' [v [-> [_ W]]] _ IH]; constructor; auto. }
    destruct Q as [G' [o [Hg Hr]]]. exists G', o. split; [|exact Hr].
    apply (gives_bind (fun k => demand k (Now (NT vl))) (fun k => deep k) (Now (NT vl))).
    + apply (gives_S _ (fun _ => pure (Now (NT vl)))); [reflexivity|apply gives_const].
    + eapply gives_S; [|exact Hg]. reflexivity.
Qed.
Lemma coV_list k l ls r G h : coV k -> mapH (lforce (frc k)) ls h = Some r -> hok G h -> rlist G l ls ->
  cosim (fun G => Forall2 (rw G)) (fun k => mapE (nvalue k) l) G r.
Proof.
  intros HV E Hh HR. apply (cosim_map (rs G) rw nvalue (lforce (frc k)) l ls rw_ext) with (h := h); auto.
  - now apply rlist_F2.
  - intros s a G' h' o1 Hs He Hh' E1. apply (HV s G' h' a); auto. eapply rs_ext; eauto.
Qed.
Lemma mapE_pure {A B} (f : A -> B) l : mapE (fun a => pure (f a)) l = pure (map f l).
Proof. induction l as [|a l IH]; [reflexivity|]. cbn. now rewrite IH. Qed.
Lemma gives_det {A} (m : nat -> O A) o o' : gives m o -> gives m o' -> o = o'.
Proof. intros [k1 H1] [k2 H2]. specialize (H1 (max k1 k2) ltac:(lia)). specialize (H2 (max k1 k2) ltac:(lia)). congruence. Qed.
Lemma delay_co e : forall k G h env lenv r, fine e = true -> hok G h -> renv G env lenv -> ev k lenv (lazyrec (vis Full e)) h = Some r ->
  cosim rs (fun _ => pure (delay env e)) G r.
Proof.
  induction e as [e He|l IH] using ex_rec'; intros k G h env lenv r Hf Hh HR E.
  - rewrite lazyrec_vis in E by exact He. replace (delay env e) with (Later env e) by (destruct e; tauto).
    destruct k as [|k]; [discriminate|]. rewrite ev_S in E. injection E as <-.
    exists (G ++ [(env, e)]), (Ok (Later env e)). split; [apply gives_const|]. cbn [fst snd].
    split; [now apply hok_push|]. split; [eexists; reflexivity|].
    cbn. constructor. rewrite nth_error_app2 by (destruct Hh; lia). replace (length h - length G) with 0 by (destruct Hh; lia). reflexivity.
  - cbn [vis lazyrec delay] in *. destruct k as [|k]; [discriminate|]. rewrite ev_S in E.
    assert (Q : cosim rs (fun k => obind (mapE (fun e => pure (delay env e)) l) (fun ss => pure (Now (NT ss)))) G r).
    { apply (cosim_bind (fun G => Forall2 (rs G)) rs _ _ (fun k => mapE (fun e => pure (delay env e)) l) (fun k ss => pure (Now (NT ss))) G h r E).
      - intros r1 E1.
        apply (cosim_map (fun e t => t = lazyrec (vis Full e) /\ In e l) rs (fun _ e => pure (delay env e)) (ev k lenv) l
          (map lazyrec (map (vis Full) l)) rs_ext') with (h := h); auto.
        + clear. assert (X : forall l0, (forall e, In e l0 -> In e l) -> Forall2 (fun e t => t = lazyrec (vis Full e) /\ In e l) l0 (map lazyrec (map (vis Full) l0))).
          { induction l0 as [|e l0 IHl]; cbn; constructor; auto. } apply X; auto.
        + intros e t G' h' r2 [-> Hin] He Hh' E2. rewrite Forall_forall in IH. cbn [fine] in Hf. rewrite forallb_forall in Hf.
          apply (IH e Hin k G' h' env lenv r2); auto. eapply renv_ext; eauto.
      - intros ss vs G' h' HF He Hh' E2. injection E2 as <-. apply cosim_const; [exact Hh'|]. constructor. constructor. now apply rlist_F2. }
    rewrite mapE_pure in Q. exact Q.
Qed.
Lemma whole_co k env e G h lenv r : coN k -> ev k lenv (vis Full e) h = Some r -> fine e = true -> hok G h -> renv G env lenv ->
  cosim rvw (fun k => nwhole k env e) G r.
Proof.
  intros HN E Hf Hh HR. apply (cosim_conv rw rvw (fun k => name k Whole env e) (fun _ => get_now)).
  - exact (HN Whole env e G h r lenv E Hf eq_refl Hh HR).
  - intros G0 b a [v [-> [H W]]]. exists v. split; [apply gives_const|]. split; auto.
Qed.
Lemma head_co k env e G h lenv r : coN k -> ev k lenv (vis Flat e) h = Some r -> fine e = true -> container e = true -> hok G h -> renv G env lenv ->
  cosim rv (fun k => nhead k env e) G r.
Proof.
  intros HN E Hf Hc Hh HR. apply (cosim_conv rh rv (fun k => name k Head env e) (fun _ => get_now)).
  - exact (HN Head env e G h r lenv E Hf Hc Hh HR).
  - intros G0 b a [v [-> H]]. exists v. split; [apply gives_const|exact H].
Qed.
Lemma argument_co k env e G h lenv r : coN k -> ev k lenv (if isref e then vis Off e else lazyrec (vis Full e)) h = Some r ->
  fine e = true -> hok G h -> renv G env lenv -> cosim rs (fun k => nargument k env e) G r.
Proof.
  intros HN E Hf Hh HR. unfold LzfProofs.nargument. destruct (isref e) eqn:Er.
  - exact (HN Ref env e G h r lenv E Hf Er Hh HR).
  - eapply delay_co; eauto.
Qed.
Lemma ref_co k u (REF : nat -> O susp) t G h lenv r : coD k -> coV k ->
  (forall r1, u <> Ref -> ev k lenv t h = Some r1 -> cosim rs REF G r1) ->
  (forall r1, u = Ref -> ev (S k) lenv t h = Some r1 -> cosim rs REF G r1) ->
  ev (S k) lenv (f_ (umode u) t) h = Some r ->
  cosim (ruse u) (fun k => obind (REF k) (nused k u)) G r.
Proof.
  intros HD HV H1 H2 E. destruct u; cbn [umode f_ ruse LzfProofs.nused] in *.
  - rewrite ev_S in E. apply (cosim_bind rs rw _ _ REF (fun k => nvalue k) G h r E).
    + intros r1. apply H1. discriminate.
    + intros s a G' h' HR He Hh E2. now apply (HV s G' h' a).
  - rewrite ev_S in E. apply (cosim_bind rs rh _ _ REF (fun k => demand k) G h r E).
    + intros r1. apply H1. discriminate.
    + intros s a G' h' HR He Hh E2. now apply (HD s G' h' a).
  - apply (cosim_conv rs rs REF (fun _ s => pure s)); [now apply H2|]. intros G0 b a HR. exists b. split; [apply gives_const|exact HR].
Qed.
Lemma apply_co G h o vs : hok G h ->
  cosim rw (fun _ => obind (Some (napply o vs)) (fun v => pure (Now v))) G (apply_prim prim LC LT o vs, h).
Proof.
  intros Hh. destruct (apply_sim (j := 0) G h o vs Hh) as [G' [h' [o' [[k0 Hk] [_ [Hh' [He Ho]]]]]]]. injection (Hk k0 (le_n _)) as <- <-.
  exists G', (match napply o vs with Ok v => Ok (Now v) | Raise x => Raise x end). split; [|auto].
  exists 0. intros. destruct (napply o vs); reflexivity.
Qed.
Lemma call_co k f lf ss ls G h r : coN k -> coV k -> lcall k lf ls h = Some r -> rv G f lf -> rlist G ss ls -> hok G h ->
  cosim rw (fun k => ncall k f ss) G r.
Proof.
  intros HN HV E Hf Hs Hh. pose proof (F2_length _ _ _ (proj1 (rlist_F2 _ _ _) Hs)) as HL.
  destruct Hf as [c|fl fl' Hl|ps b env env' Hb Henv|n]; cbn [LzfProofs.ncall lcall] in *.
  - apply (cosim_bind (fun G => Forall2 (rw G)) rw _ _ (fun k => mapE (nvalue k) ss) (fun _ _ => Some (Raise TypeError)) G h r E (fun r1 E1 => coV_list k ss ls r1 G h HV E1 Hh Hs)).
    intros vs ls' G' h' HF He Hh' E2. injection E2 as <-. apply cosim_const; [exact Hh'|reflexivity].
  - apply (cosim_bind (fun G => Forall2 (rw G)) rw _ _ (fun k => mapE (nvalue k) ss) (fun _ _ => Some (Raise TypeError)) G h r E (fun r1 E1 => coV_list k ss ls r1 G h HV E1 Hh Hs)).
    intros vs ls' G' h' HF He Hh' E2. injection E2 as <-. apply cosim_const; [exact Hh'|reflexivity].
  - rewrite <- HL in E. destruct (length ps =? length ss).
    + apply (HN Whole (combine ps ss ++ env) b G h r (combine ps ls ++ env') E Hb eq_refl Hh).
      apply renv_app; [exact Henv|]. apply renv_combine. now apply rlist_F2.
    + injection E as <-. apply cosim_const; [exact Hh|reflexivity].
  - apply (cosim_bind (fun G => Forall2 (rw G)) rw _ _ (fun k => mapE (nvalue k) ss) (fun _ vs => obind (Some (napply n (map sdatum vs))) (fun v => pure (Now v))) G h r E (fun r1 E1 => coV_list k ss ls r1 G h HV E1 Hh Hs)).
    intros vs ls' G' h' HF He Hh' E2. rewrite (data_list _ _ _ HF) in E2. injection E2 as <-. now apply apply_co.
Qed.
Lemma arg_co k env se G h lenv r : coN k -> larg k lenv (varg se) h = Some r ->
  (if fst se then negb (isref (snd se)) else true) = true -> fine (snd se) = true -> hok G h -> renv G env lenv ->
  cosim (fun G => Forall2 (rs G)) (fun k => narg k env se) G r.
Proof.
  intros HN E Hs Hf Hh HR. destruct se as [[] e]; cbn [fst snd LzfProofs.narg] in *; unfold larg, varg in E; cbn [fst snd] in E; cbn zeta in E.
  - destruct (isref e) eqn:Er; [discriminate|]. rewrite lit_vis in E.
    assert (GN : (exists l, e = ETup l) \/ (match e with ETup _ => true | _ => false end) = false) by (destruct e; eauto).
    destruct GN as [[l ->]|GN].
    + unfold bind in E. destruct (ev k lenv (lazyrec (vis Full (ETup l))) h) as [[o1 h1]|] eqn:E1; [|discriminate].
      destruct (delay_co (ETup l) k G h env lenv _ Hf Hh HR E1) as [G' [o [Hg [Hh' [He Ho]]]]]. cbn [fst snd] in *.
      pose proof (gives_det _ _ _ Hg (gives_const _)) as ->. destruct o1 as [a|]; [|destruct Ho]. cbn in Ho.
      inversion Ho as [v a0 Hv|]; subst. inversion Hv as [|vl ls Hl| |]; subst. injection E as <-.
      exists G', (Ok (map (delay env) l)). split; [apply gives_const|]. split; [exact Hh'|]. split; [exact He|]. now apply rlist_F2.
    + rewrite GN in E.
      assert (Q : cosim (fun G => Forall2 (rs G)) (fun k => obind (nwhole k env e) (fun v => match v with NT l => pure l | _ => Some (Raise TypeError) end)) G r).
      { apply (cosim_bind rvw _ _ _ (fun k => nwhole k env e) (fun _ v => match v with NT l => pure l | _ => Some (Raise TypeError) end) G h r E).
        - intros r1 E1. now apply (whole_co k env e G h lenv).
        - intros v a G' h' [Hv _] He Hh' E2. destruct Hv; injection E2 as <-; apply cosim_const; try exact Hh'; try reflexivity. now apply rlist_F2. }
      destruct e; try discriminate; exact Q.
  - apply (cosim_bind rs _ _ _ (fun k => nargument k env e) (fun _ s => pure [s]) G h r E).
    + intros r1 E1. assert (E3 : ev k lenv (if isref e then vis Off e else lazyrec (vis Full e)) h = Some r1) by (destruct (isref e); exact E1).
      now apply (argument_co k env e G h lenv).
    + intros s a G' h' Hs' He Hh' E2. injection E2 as <-. apply cosim_const; [exact Hh'|]. repeat constructor. exact Hs'.
Qed.
Lemma list_co k env l r G h lenv : coN k -> mapH (ev k lenv) (map (vis Full) l) h = Some r -> forallb fine l = true -> hok G h -> renv G env lenv ->
  cosim (fun G => Forall2 (rvw G)) (fun k => mapE (nwhole k env) l) G r.
Proof.
  intros HN E Hf Hh HR.
  apply (cosim_map (fun e t => t = vis Full e /\ fine e = true) rvw (fun k => nwhole k env) (ev k lenv) l _ rvw_ext (forall_fine l Hf) G h r E Hh).
  intros e t G' h' r1 [-> Hfe] He Hh' E1. apply (whole_co k env e G' h' lenv); auto. eapply renv_ext; eauto.
Qed.
Lemma obind_assoc {A B C} (m : O A) (f : A -> O B) (g : B -> O C) : obind (obind m f) g = obind m (fun a => obind (f a) g).
Proof. destruct m as [[]|]; reflexivity. Qed.
Lemma name_ref k u env e : isref e = true -> name (S k) u env e = obind (name (S k) Ref env e) (nused k u).
Proof.
  intros Hr. rewrite !name_S. destruct e as [c|x|p l0|t a b|ps b|l0|e1 e2|f l0|x w b]; try discriminate.
  - destruct (nname env x); reflexivity.
  - destruct (nhead k env e1) as [[v|y]|]; cbn [obind]; try reflexivity.
    destruct (nwhole k env e2) as [[j|y]|]; cbn [obind]; try reflexivity. destruct v; try reflexivity. destruct (item l (ndata j)); reflexivity.
Qed.
Lemma vuse_ref u e : isref e = true -> vuse u e = f_ (umode u) (vis Off e).
Proof. destruct e, u; try discriminate; reflexivity. Qed.
Lemma gives_pred {A} (m : nat -> O A) o : gives m o -> gives (fun k => m (S k)) o.
Proof. intros [k0 H]. exists k0. intros. apply H. lia. Qed.
Lemma coRef_S k env e G h lenv r : coN k -> ev (S k) lenv (vis Off e) h = Some r -> fine e = true -> isref e = true -> hok G h -> renv G env lenv ->
  cosim rs (fun k => name (S k) Ref env e) G r.
Proof.
  intros HN E Hf Hr Hh HR. destruct e as [c|x|p l|t a b|ps b|l|w i|f l|x w b]; try discriminate; cbn [vis f_] in E; rewrite ev_S in E.
  - injection E as <-.
    assert (Q : cosim rs (fun _ => Some (nname env x)) G (lname lenv x, h)).
    { apply cosim_const; [exact Hh|]. unfold LzfSpec.nname, LzfModel.lname. pose proof (assoc_r G _ _ HR x) as P. destruct (assoc x env), (assoc x lenv); try contradiction; [exact P|].
      destruct (globals x) as [[ps b]|] eqn:Eg.
      + cbn. constructor. constructor; [eapply globals_fine; eauto|constructor].
      + destruct (builtins x); cbn; [|reflexivity]. repeat constructor. }
    destruct Q as [G' [o [[k0 Hg] Hx]]]. exists G', o. split; [|exact Hx]. exists 0. intros k1 _. rewrite name_S. injection (Hg k0 (le_n _)) as <-.
    destruct (nname env x); reflexivity.
  - cbn [fine] in Hf. rewrite !andb_true_iff in Hf. destruct Hf as [[F1 F2] F3].
    assert (Q : cosim rs (fun k => obind (nhead k env w) (fun v => obind (nwhole k env i) (fun i =>
        match v with NT l => Some (item l (ndata i)) | _ => Some (Raise TypeError) end))) G r).
    { apply (cosim_bind rv rs _ _ (fun k => nhead k env w) (fun k v => obind (nwhole k env i) (fun i =>
        match v with NT l => Some (item l (ndata i)) | _ => Some (Raise TypeError) end)) G h r E).
      - intros r1 E1. now apply (head_co k env w G h lenv).
      - intros v lv G' h' Hv He Hh' E2. assert (HR' : renv G' env lenv) by (eapply renv_ext; eauto).
        apply (cosim_bind rvw rs _ _ (fun k => nwhole k env i) (fun k i =>
          match v with NT l => Some (item l (ndata i)) | _ => Some (Raise TypeError) end) G' h' r E2).
        + intros r1 E1. now apply (whole_co k env i G' h' lenv).
        + intros j lj G2 h2 Hj He2 Hh2 E3. rewrite (data_rvw _ _ _ Hj) in E3. apply (rv_ext G' G2) in Hv; [|exact He2].
          destruct Hv; injection E3 as <-; try (apply cosim_const; [exact Hh2|reflexivity]).
          apply cosim_const; [exact Hh2|]. apply item_rel. now apply rlist_F2. }
    destruct Q as [G' [o [[k0 Hg] Hx]]]. exists G', o. split; [|exact Hx]. exists k0. intros k1 L. rewrite name_S. rewrite <- (Hg k1 L).
    destruct (nhead k1 env w) as [[v|y]|]; cbn [obind]; try reflexivity.
    destruct (nwhole k1 env i) as [[j|y]|]; cbn [obind]; try reflexivity. destruct v; try reflexivity. destruct (item l (ndata j)); reflexivity.
Qed.
Lemma coN_S k : coN k -> coN (S k).
Proof.
  intros HN u env e G h r lenv E Hf Hs Hh HR. pose proof (coD_of k HN) as HD. pose proof (coV_of k HN) as HV.
  destruct (isref e) eqn:Er.
  { rewrite vuse_ref in E by exact Er.
    apply (cosim_S _ _ (fun k => obind (name (S k) Ref env e) (nused k u))); [intros; now apply name_ref|].
    apply (ref_co k u _ (vis Off e) G h lenv r HD HV); [| |exact E].
    - intros r1 _ E1. destruct (HN Ref env e G h r1 lenv E1 Hf Er Hh HR) as [G' [o [Hg Hx]]]. exists G', o. split; [now apply (gives_pred (fun k => name k Ref env e))|exact Hx].
    - intros r1 _ E1. now apply (coRef_S k env e G h lenv). }
  destruct e as [c|x|p l|t a b|ps b|l|w i|f l|x w b]; try discriminate;
    try (destruct u; [cbn [vuse vis] in E; rewrite ev_S in E|cbn in Hs; congruence|cbn in Hs; congruence]).
  - injection E as <-. apply (cosim_S _ _ (fun k => pure (Now (NC c)))); [intros; now rewrite name_S|].
    apply cosim_const; [exact Hh|]. exists (NC c). repeat split; constructor.
  - eapply cosim_S; [intros; now rewrite name_S|].
    apply (cosim_bind (fun G => Forall2 (rvw G)) rw _ _ (fun k => mapE (nwhole k env) l) (fun _ vs => obind (Some (napply p (map ndata vs))) (fun v => pure (Now v))) G h r E).
    + intros r1 E1. now apply (list_co k env l r1 G h lenv).
    + intros vs ls G' h' HF He Hh' E2. rewrite (data_rvws _ _ _ HF) in E2. injection E2 as <-. now apply apply_co.
  - cbn [fine] in Hf. rewrite !andb_true_iff in Hf. destruct Hf as [[F1 F2] F3].
    eapply cosim_S; [intros; now rewrite name_S|].
    apply (cosim_bind rvw rw _ _ (fun k => nwhole k env t) (fun k v => if truthy (ndata v) then name k Whole env a else name k Whole env b) G h r E).
    + intros r1 E1. now apply (whole_co k env t G h lenv).
    + intros v lv G' h' Hv He Hh' E2. rewrite (data_rvw _ _ _ Hv) in E2. assert (HR' : renv G' env lenv) by (eapply renv_ext; eauto).
      destruct (truthy (ndata v)).
      * exact (HN Whole env a G' h' r lenv E2 F2 eq_refl Hh' HR').
      * exact (HN Whole env b G' h' r lenv E2 F3 eq_refl Hh' HR').
  - injection E as <-. apply (cosim_S _ _ (fun k => pure (Now (NClo ps b env)))); [intros; now rewrite name_S|].
    apply cosim_const; [exact Hh|]. exists (NClo ps b env). split; [reflexivity|]. split; constructor; auto.
  - eapply cosim_S; [intros; now rewrite name_S|].
    apply (cosim_bind (fun G => Forall2 (rvw G)) rw _ _ (fun k => mapE (nwhole k env) l) (fun _ vs => pure (Now (NT (map Now vs)))) G h r E).
    + intros r1 E1. now apply (list_co k env l r1 G h lenv).
    + intros vs ls G' h' HF He Hh' E2. injection E2 as <-. apply cosim_const; [exact Hh'|]. exists (NT (map Now vs)). split; [reflexivity|]. clear -HF. split; constructor.
      * apply rlist_now. eapply F2_impl; [|exact HF]. now intros ? ? [].
      * apply wholes_Forall. induction HF as [|? ? ? ? []]; constructor; auto.
  - cbn [fine] in Hf. rewrite andb_true_iff in Hf. destruct Hf as [F1 F2].
    assert (HC : forall (Rf : list (nenv * ex) -> nval -> lval -> Prop) (t : tx) (mf : nat -> O nval), (forall G v l, Rf G v l -> rv G v l) ->
        ev (S k) lenv (TMfa t (map varg l)) h = Some r ->
        (forall r1, ev k lenv t h = Some r1 -> cosim Rf mf G r1) ->
        cosim rw (fun k => obind (mf k) (fun f => obind (mapE (narg k env) l) (fun ss => ncall k f (concat ss)))) G r).
    { intros Rf t mf HRf E0 H1. rewrite ev_S in E0.
      apply (cosim_bind Rf rw _ _ mf (fun k f => obind (mapE (narg k env) l) (fun ss => ncall k f (concat ss))) G h r E0 H1).
      intros fv lf G' h' Hfv He Hh' E2. apply HRf in Hfv.
      assert (HR' : renv G' env lenv) by (eapply renv_ext; eauto).
      apply (cosim_bind (fun G => Forall2 (Forall2 (rs G))) rw _ _ (fun k => mapE (narg k env) l) (fun k ss => ncall k fv (concat ss)) G' h' r E2).
      - intros r1 E3. apply (cosim_map (fun se st => st = varg se /\ (if fst se then negb (isref (snd se)) else true) = true /\ fine (snd se) = true)
          (fun G => Forall2 (rs G)) (fun k => narg k env) (larg k lenv) l (map varg l)) with (h := h'); auto.
        + intros G0 G1 d b0 He0 HF0. eapply F2_impl; [|exact HF0]. intros. eapply rs_ext; eauto.
        + clear -F2. induction l as [|se l IH]; cbn; constructor; cbn in F2; rewrite !andb_true_iff in F2; destruct F2 as [[? ?] ?]; auto.
        + intros se st G2 h2 r4 [-> [K1 K2]] He2 Hh2 E4. apply (arg_co k env se G2 h2 lenv); auto. eapply renv_ext; eauto.
      - intros ss ls G2 h2 HF He2 Hh2 E3. apply (call_co k fv lf (concat ss) (concat ls) G2 h2); auto; [eapply rv_ext; eauto|].
        apply rlist_F2. now apply F2_concat. }
    destruct u; try discriminate.
    + eapply cosim_S; [intros; now rewrite name_S|].
      apply (HC rvw (vis Full f) (fun k => nwhole k env f)); auto; [now intros ? ? ? []|]. intros r1 E1. now apply (whole_co k env f G h lenv).
    + eapply cosim_S; [intros; now rewrite name_S|].
      apply (cosim_weak rw rh); [intros G0 b a [v [-> [H _]]]; exists v; auto|].
      apply (HC rv (vis Flat f) (fun k => nhead k env f)); auto. intros r1 E1. now apply (head_co k env f G h lenv).
  - cbn [fine] in Hf. rewrite andb_true_iff in Hf. destruct Hf as [F1 F2].
    eapply cosim_S; [intros; now rewrite name_S|].
    apply (cosim_bind rs rw _ _ (fun k => nargument k env w) (fun k s => name k Whole ((x, s) :: env) b) G h r E).
    + intros r1 E1. now apply (argument_co k env w G h lenv).
    + intros s ls G' h' Hs' He Hh' E2. apply (HN Whole ((x, s) :: env) b G' h' r ((x, ls) :: lenv) E2 F2 eq_refl Hh').
      constructor; [exact Hs'|]. eapply renv_ext; eauto.
Qed.
Lemma co_all k : coN k.
Proof. induction k as [|k IH]; [|now apply coN_S]. intros u env e G h r lenv E. discriminate. Qed.

Lemma run_name e : fine e = true -> forall o,
  (exists k, run prim globals builtins k e = Some o) <-> (exists k, by_name prim globals builtins k e = Some o).
Proof.
  intros Hf o. unfold run, by_name. split; intros [k E].
  - destruct (ev k [] (vis Full e) []) as [[r h]|] eqn:Ee; [|discriminate].
    destruct (co_all k Whole [] e [] [] _ [] Ee Hf eq_refl hok_nil (RENil [])) as [G' [o' [[k0 Hg] [_ [_ Ho]]]]]. cbn [fst] in Ho.
    exists k0. rewrite (Hg k0 (le_n _)). destruct r as [v|x], o' as [s|y]; cbn in Ho; try contradiction.
    + destruct Ho as [w [-> [Hv Hw]]]. injection E as <-. now rewrite (proj1 (data_rv G') _ _ Hv Hw).
    + now subst.
  - destruct (name k Whole [] e) as [o1|] eqn:En; [|discriminate].
    destruct (sim_all k k (le_n _)) as [HN _]. destruct (HN (pred k) (le_n _) Whole [] e o1 [] [] [] En Hf eq_refl hok_nil (RENil [])) as [G' [h' [o' [[k0 Hk] [_ [_ [_ Ho]]]]]]].
    exists k0. specialize (Hk k0 (le_n _)). cbn [vuse] in Hk. rewrite Hk. destruct o1 as [s|x], o' as [v|y]; cbn in Ho; try contradiction.
    + destruct Ho as [w [-> [Hv Hw]]]. injection E as <-. now rewrite (proj1 (data_rv G') _ _ Hv Hw).
    + now subst.
Qed.
Lemma run_once e : fine e = true -> forall k l, evaluations prim globals builtins k e = Some l -> forall n, In n l -> n <= 1.
Proof.
  intros Hf k l E n Hn. unfold evaluations in E. destruct (ev k [] (vis Full e) []) as [[r h]|] eqn:Ee; [|discriminate]. injection E as <-.
  destruct (co_all k Whole [] e [] [] _ [] Ee Hf eq_refl hok_nil (RENil [])) as [G' [o' [_ [[HL HH] _]]]]. cbn [snd] in *.
  apply in_map_iff in Hn as [c [<- Hc]]. apply In_nth_error in Hc as [p Hp].
  destruct (nth_error G' p) as [[env e0]|] eqn:EG.
  - destruct (HH _ _ _ _ EG Hp) as [_ [_ [_ [_ ->]]]]. destruct (cache c); auto.
  - apply nth_error_None in EG. assert (p < length h) by (apply nth_error_Some; congruence). lia.
Qed.
Lemma run_strict e : fine e = true -> forall k v, strict prim globals builtins k [] e = Some (Ok v) ->
  exists k', run prim globals builtins k' e = Some (Ok (sdata v)).
Proof.
  intros Hf k v E. apply run_name; [exact Hf|]. destruct (strict_found prim globals builtins k [] e v [] E ltac:(constructor)) as [[v' [[k0 Hg] [HA HW]]] _].
  exists k0. unfold by_name. rewrite (Hg k0 (le_n _)). now rewrite (proj1 (data_av _ _ _) _ _ HA HW).
Qed.
End Sim.
