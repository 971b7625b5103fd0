(** Proofs about envify. *)
From Coq Require Import String List ZArith Bool Arith Lia.
From Verif Require Import Base BaseProofs CollModel CollSpec CollProofs EnvModel EnvSpec EnvProofs EvfModel EvfSpec.
Import ListNotations.
Open Scope string_scope.
Open Scope list_scope.
Open Scope nat_scope.

Section ExInd.
Variable P : ex -> Prop.
Hypothesis HNum : forall z, P (Num z).
Hypothesis HVar : forall x, P (Var x).
Hypothesis HPrim : forall o l, Forall P l -> P (Prim o l).
Hypothesis HCall : forall f l, P f -> Forall P l -> P (Call f l).
Hypothesis HLam : forall ps ds b, Forall P ds -> P b -> P (Lam ps ds b).
Hypothesis HAsg : forall x e, P e -> P (Asg x e).
Hypothesis HComp : forall b x l, P b -> P l -> P (Comp b x l).
Hypothesis HEGet : forall en x, P (EGet en x).
Hypothesis HESet : forall en x e, P (ESet en x e).
Hypothesis HEComp : forall b en x l, P (EComp b en x l).
Hypothesis HEDo : forall en ps b, P (EDo en ps b).
Definition ex_ind' : forall e, P e := fix go (e : ex) : P e :=
  let gos := fix gos (l : list ex) : Forall P l := match l with [] => Forall_nil _ | e :: l => Forall_cons _ (go e) (gos l) end in
  match e with
  | Num z => HNum z
  | Var x => HVar x
  | Prim o l => HPrim o l (gos l)
  | Call f l => HCall f l (go f) (gos l)
  | Lam ps ds b => HLam ps ds b (gos ds) (go b)
  | Asg x e => HAsg x e (go e)
  | Comp b x l => HComp b x l (go b) (go l)
  | EGet en x => HEGet en x
  | ESet en x e => HESet en x e
  | EComp b en x l => HEComp b en x l
  | EDo en ps b => HEDo en ps b
  end.
End ExInd.
Section StmInd.
Variable P : stm -> Prop.
Hypothesis HExpr : forall e, P (Expr e).
Hypothesis HAssign : forall x e, P (Assign x e).
Hypothesis HReturn : forall e, P (Return e).
Hypothesis HIf : forall e a b, Forall P a -> Forall P b -> P (If e a b).
Hypothesis HFor : forall x e b, Forall P b -> P (For x e b).
Hypothesis HDef : forall f decos ps ds b, Forall P b -> P (Def f decos ps ds b).
Hypothesis HNonlocal : forall xs, P (Nonlocal xs).
Hypothesis HEAssign : forall en x e, P (EAssign en x e).
Hypothesis HEFor : forall en x e b, P (EFor en x e b).
Hypothesis HEInit : forall en ps, P (EInit en ps).
Definition stm_ind' : forall s, P s := fix go (s : stm) : P s :=
  let gos := fix gos (l : list stm) : Forall P l := match l with [] => Forall_nil _ | e :: l => Forall_cons _ (go e) (gos l) end in
  match s with
  | Expr e => HExpr e
  | Assign x e => HAssign x e
  | Return e => HReturn e
  | If e a b => HIf e a b (gos a) (gos b)
  | For x e b => HFor x e b (gos b)
  | Def f decos ps ds b => HDef f decos ps ds b (gos b)
  | Nonlocal xs => HNonlocal xs
  | EAssign en x e => HEAssign en x e
  | EFor en x e b => HEFor en x e b
  | EInit en ps => HEInit en ps
  end.
End StmInd.

Lemma mem_app x a b : mem x (a ++ b) = mem x a || mem x b.
Proof. apply existsb_app. Qed.

Section Sim.
Variable W : Type.
Variable prim : nat -> list data -> W -> outcome data * W.
Variable user : string -> bool.
Variable fresh : nat -> string.
Hypothesis fresh_user : forall n, user (fresh n) = false.
Hypothesis fresh_inj : forall m n, fresh m = fresh n -> m = n.
Notation fine := (fine user).
Notation fines := (fines user).
Notation plain := (plain user).
Notation tr := (tr fresh).
Notation trs := (trs fresh).
Notation look := (dict_get String.eqb).

(** * Ghost information about frames: the variables, those that are in the env object, the name of that *)
Record ginfo := mkG { gl : list string; gp : list string; ge : option string }.
Fixpoint near (G : list ginfo) (c : list nat) (P : ginfo -> bool) : nat :=
  match c with
  | [] => 0
  | i :: c => match nth_error G i with Some g => if P g then i else near G c P | None => 0 end
  end.
Definition hasl (x : string) (g : ginfo) : bool := mem x (gl g).
Definition hase (en : string) (g : ginfo) : bool := match ge g with Some e => String.eqb en e | None => false end.
Definition valid (G : list ginfo) (c : list nat) : Prop := Forall (fun i => i < length G) c.
Definition ext (G G' : list ginfo) : Prop := exists X, G' = G ++ X.
Lemma ext_refl G : ext G G. Proof. exists []. now rewrite app_nil_r. Qed.
Lemma ext_trans G1 G2 G3 : ext G1 G2 -> ext G2 G3 -> ext G1 G3.
Proof. intros [X ->] [Y ->]. exists (X ++ Y). now rewrite app_assoc. Qed.
Lemma ext_nth G G' i g : ext G G' -> nth_error G i = Some g -> nth_error G' i = Some g.
Proof. intros [X ->] H. rewrite nth_error_app1; [exact H|]. apply nth_error_Some. congruence. Qed.
Lemma ext_nth_lt G G' i : ext G G' -> i < length G -> nth_error G' i = nth_error G i.
Proof. intros [X ->] H. now rewrite nth_error_app1. Qed.
Lemma ext_len G G' : ext G G' -> length G <= length G'.
Proof. intros [X ->]. rewrite app_length. lia. Qed.
Lemma valid_ext G G' c : ext G G' -> valid G c -> valid G' c.
Proof. intros E. apply Forall_impl. intros i H. pose proof (ext_len _ _ E). lia. Qed.
Lemma near_ext G G' c P : ext G G' -> valid G c -> near G' c P = near G c P.
Proof. intros E V. induction V as [|i c H V IH]; [reflexivity|]. cbn. now rewrite (ext_nth_lt _ _ _ E H), IH. Qed.
Lemma near_valid G c P : 0 < length G -> valid G c -> near G c P < length G.
Proof.
  intros L V. induction V as [|i c H V IH]; [exact L|]. cbn. destruct (nth_error G i) as [g|] eqn:E; [|exact L]. destruct (P g); assumption.
Qed.
Lemma near_cons G i c P g : nth_error G i = Some g -> near G (i :: c) P = if P g then i else near G c P.
Proof. intros E. cbn. now rewrite E. Qed.

Definition resolves (G : list ginfo) (bs : list (string * string)) (c : list nat) (x : string) : Prop :=
  match look bs x with
  | Some en => exists g, nth_error G (near G c (hasl x)) = Some g /\ In x (gp g) /\ ge g = Some en /\ near G c (hase en) = near G c (hasl x)
               /\ exists k, en = fresh k
  | None => forall g, nth_error G (near G c (hasl x)) = Some g -> ~ In x (gp g)
  end.
Lemma resolves_ext G G' bs c x : 0 < length G -> ext G G' -> valid G c -> resolves G bs c x -> resolves G' bs c x.
Proof.
  intros L E V. unfold resolves. destruct (look bs x) as [en|].
  - intros (g & H1 & H2 & H3 & H4 & H5). exists g. rewrite !(near_ext G G') by assumption. repeat split; auto. now apply (ext_nth G).
  - intros H g. rewrite (near_ext G G') by assumption. rewrite (ext_nth_lt _ _ _ E) by (now apply near_valid). apply H.
Qed.
Definition ctx (G : list ginfo) (d : nat) (bs : list (string * string)) (V : list string) (c : list nat) (U : string -> Prop) : Prop :=
  nth_error G 0 = Some (mkG [] [] None) /\ valid G c /\ (forall x, user x = true -> U x -> resolves G bs c x) /\
  (forall x en, look bs x = Some en -> mem x V = true) /\
  (forall i g k, In i c -> nth_error G i = Some g -> ge g = Some (fresh k) -> k < d).
Lemma zero_len (G : list ginfo) g : nth_error G 0 = Some g -> 0 < length G.
Proof. destruct G; [discriminate|]. cbn. lia. Qed.
Lemma ctx_ext G G' d bs V c U : ext G G' -> ctx G d bs V c U -> ctx G' d bs V c U.
Proof.
  intros E (Z & Va & R & D & K). pose proof (zero_len _ _ Z) as L. split; [eapply ext_nth; eassumption|]. split; [eapply valid_ext; eassumption|]. split; [|split; [exact D|]].
  - intros x H1 H2. eapply resolves_ext; eauto.
  - intros i g k I N. apply (K i g k I). rewrite <- (ext_nth_lt G G'); [exact N|exact E|]. unfold valid in Va. rewrite Forall_forall in Va. auto.
Qed.
Lemma ctx_sub G d bs V c (U U' : string -> Prop) : (forall x, U' x -> U x) -> ctx G d bs V c U -> ctx G d bs V c U'.
Proof. intros S (L & Va & R & D & K). split; [exact L|]. split; [exact Va|]. split; [auto|]. auto. Qed.

(** * Related values *)
Definition good_params (ps : list string) : Prop := forallb plain ps = true /\ distinct ps = true.
Definition brel (G : list ginfo) (ps : list string) (b b' : body) (c : list nat) : Prop :=
  exists d bs V, good_params ps /\
  match b with
  | BE b => fine (ps ++ V) b = true /\ ctx G d bs V c (fun x => ~ In x ps /\ uses x b = true) /\
      b' = BE (match ps with [] => tr d bs b | _ => EDo (fresh d) ps (tr (S d) (bind_params ps (fresh d) bs) b) end)
  | BS b => forallb (fines (ps ++ V)) b = true /\
      forallb (fun x => mem x ps || negb (mem x V)) (minus (flat_map stored b) (flat_map declared b)) = true /\
      ctx G d bs V c (fun _ => True) /\
      b' = BS (match ps with [] => map (trs d bs) b | _ => EInit (fresh d) ps :: map (trs (S d) (bind_params ps (fresh d) bs)) b end)
  end.
Lemma brel_ext G G' ps b b' c : ext G G' -> brel G ps b b' c -> brel G' ps b b' c.
Proof.
  intros E (d & bs & V & H). exists d, bs, V. destruct H as [H0 H]. split; [exact H0|]. destruct b.
  - destruct H as (H1 & H2 & H3). split; [exact H1|]. split; [|exact H3]. eapply ctx_ext; eassumption.
  - destruct H as (H1 & H2 & H3 & H4). split; [exact H1|]. split; [exact H2|]. split; [|exact H4]. eapply ctx_ext; eassumption.
Qed.
Inductive vrel (G : list ginfo) : value -> value -> Prop :=
| vr_none : vrel G VNone VNone
| vr_int z : vrel G (VInt z) (VInt z)
| vr_list l l' : Forall2 (vrel G) l l' -> vrel G (VList l) (VList l')
| vr_fun ps ds ds' b b' c : Forall2 (vrel G) ds ds' -> brel G ps b b' c -> vrel G (VFun ps ds b c) (VFun ps ds' b' c).
Lemma vrel_ext G G' : ext G G' -> forall v v', vrel G v v' -> vrel G' v v'.
Proof.
  intros E. fix go 3. intros v v' H. destruct H as [|z|l l' F|ps ds ds' b b' c F B].
  - constructor.
  - constructor.
  - apply vr_list. revert l l' F. fix gos 3. intros l l' F. destruct F as [|a a' r r' Ha F]; constructor; [exact (go _ _ Ha)|exact (gos _ _ F)].
  - apply vr_fun; [|exact (brel_ext _ _ _ _ _ _ E B)].
    revert ds ds' F. fix gos 3. intros l l' F. destruct F as [|a a' r r' Ha F]; constructor; [exact (go _ _ Ha)|exact (gos _ _ F)].
Qed.
Lemma vrels_ext G G' l l' : ext G G' -> Forall2 (vrel G) l l' -> Forall2 (vrel G') l l'.
Proof. intros E F. induction F; constructor; auto. eapply vrel_ext; eassumption. Qed.
Lemma vrel_proj G : forall v v', vrel G v v' -> proj v = proj v'.
Proof.
  fix go 3. intros v v' H. destruct H as [|z|l l' F|ps ds ds' b b' c F B]; try reflexivity.
  cbn [proj].
  assert (E : forall r r', Forall2 (vrel G) r r' ->
    (fix projs (l : list value) : option (list data) :=
         match l with
         | [] => Some []
         | v :: l => match proj v, projs l with Some d, Some r => Some (d :: r) | _, _ => None end
         end) r =
    (fix projs (l : list value) : option (list data) :=
         match l with
         | [] => Some []
         | v :: l => match proj v, projs l with Some d, Some r => Some (d :: r) | _, _ => None end
         end) r').
  { fix gos 3. intros r r' Fr. destruct Fr as [|a a' r r' Ha Fr]; [reflexivity|]. cbn. rewrite (go _ _ Ha), (gos _ _ Fr). reflexivity. }
  now rewrite (E l l' F).
Qed.
Lemma vrel_inj G : forall d, vrel G (inj d) (inj d).
Proof.
  fix go 1. intros [|z|l]; try constructor. induction l; constructor; auto.
Qed.
Lemma vrel_truthy G v v' : vrel G v v' -> truthy v = truthy v'.
Proof. intros H. destruct H as [| |l l' F|]; try reflexivity. destruct F; reflexivity. Qed.

(** * Related states *)
Definition orel (G : list ginfo) (a b : option value) : Prop :=
  match a, b with Some v, Some w => vrel G v w | None, None => True | _, _ => False end.
Record frel (G : list ginfo) (i : nat) (g : ginfo) (f f' : frame) : Prop := {
  fr_locals : locals f = gl g;
  fr_params : params f = gp g;
  fr_user : forall x, user x = true -> mem x (locals f') = mem x (gl g);
  fr_fresh : forall k, mem (fresh k) (locals f') = hase (fresh k) g;
  fr_vars : forall x, user x = true -> ~ In x (gp g) -> orel G (look (vars f) x) (look (vars f') x);
  fr_env : match ge g with
           | None => gp g = []
           | Some en => (exists k, en = fresh k) /\ look (vars f') en = Some (VEnv i) /\
               exists e, eobj f' = Some e /\ finalized e = false /\
                 forall x, In x (gp g) -> plain x = true /\ exists v w, look (vars f) x = Some v /\ bound e x = Some w /\ vrel G v w
           end }.
Definition SR (G : list ginfo) (s t : st W) : Prop :=
  world s = world t /\ nth_error G 0 = Some (mkG [] [] None) /\
  forall i, match nth_error G i, nth_error (frames s) i, nth_error (frames t) i with
            | Some g, Some f, Some f' => frel G i g f f'
            | None, None, None => True
            | _, _, _ => False
            end.
Lemma orel_ext G G' a b : ext G G' -> orel G a b -> orel G' a b.
Proof. intros E. destruct a, b; cbn; auto. now apply vrel_ext. Qed.
Lemma frel_ext G G' i g f f' : ext G G' -> frel G i g f f' -> frel G' i g f f'.
Proof.
  intros E [H1 H2 H3 H4 H5 H6]. constructor; auto.
  - intros x U N. eapply orel_ext; eauto.
  - destruct (ge g); [|exact H6]. destruct H6 as (K & A & e & B & F & C). split; [exact K|]. split; [exact A|]. exists e. split; [exact B|]. split; [exact F|].
    intros x I. destruct (C x I) as (P & v & w & L & Bd & R). split; [exact P|]. exists v, w. split; [exact L|]. split; [exact Bd|]. eapply vrel_ext; eauto.
Qed.
Lemma SR_len G s t : SR G s t -> length (frames s) = length G /\ length (frames t) = length G.
Proof.
  intros (_ & _ & F). split.
  - destruct (Nat.lt_trichotomy (length (frames s)) (length G)) as [H|[H|H]]; [|exact H|]; exfalso.
    + specialize (F (length (frames s))). rewrite (proj2 (nth_error_None (frames s) _)) in F by lia.
      destruct (nth_error G (length (frames s))) eqn:E; [exact F|]. apply nth_error_None in E. lia.
    + specialize (F (length G)). rewrite (proj2 (nth_error_None G _)) in F by lia.
      destruct (nth_error (frames s) (length G)) eqn:E; [exact F|]. apply nth_error_None in E. lia.
  - destruct (Nat.lt_trichotomy (length (frames t)) (length G)) as [H|[H|H]]; [|exact H|]; exfalso.
    + specialize (F (length (frames t))). rewrite (proj2 (nth_error_None (frames t) _)) in F by lia.
      destruct (nth_error G (length (frames t))) eqn:E; [destruct (nth_error (frames s) _); exact F|]. apply nth_error_None in E. lia.
    + specialize (F (length G)). rewrite (proj2 (nth_error_None G _)) in F by lia.
      destruct (nth_error (frames s) (length G)); [exact F|]. destruct (nth_error (frames t) (length G)) eqn:E; [exact F|]. apply nth_error_None in E. lia.
Qed.
Lemma SR_frame G s t i g : SR G s t -> nth_error G i = Some g ->
  exists f f', nth_error (frames s) i = Some f /\ nth_error (frames t) i = Some f' /\ frel G i g f f'.
Proof.
  intros (_ & _ & F) N. specialize (F i). rewrite N in F. destruct (nth_error (frames s) i) as [f|]; [|contradiction].
  destruct (nth_error (frames t) i) as [f'|]; [|contradiction]. exists f, f'. auto.
Qed.
Lemma SR_near G s t c x : SR G s t -> user x = true -> nearest (frames s) c x = near G c (hasl x) /\ nearest (frames t) c x = near G c (hasl x).
Proof.
  intros (_ & _ & F) U. induction c as [|i c [IH1 IH2]]; [auto|]. cbn. specialize (F i). destruct (nth_error G i) as [g|].
  - destruct (nth_error (frames s) i) as [f|]; [|contradiction]. destruct (nth_error (frames t) i) as [f'|]; [|contradiction].
    rewrite (fr_user _ _ _ _ _ F x U), (fr_locals _ _ _ _ _ F), IH1, IH2. auto.
  - destruct (nth_error (frames s) i); [contradiction|]. destruct (nth_error (frames t) i); [contradiction|]. auto.
Qed.
Lemma SR_near_e G s t c k : SR G s t -> nearest (frames t) c (fresh k) = near G c (hase (fresh k)).
Proof.
  intros (_ & _ & F). induction c as [|i c IH]; [reflexivity|]. cbn. specialize (F i). destruct (nth_error G i) as [g|].
  - destruct (nth_error (frames s) i) as [f|]; [|contradiction]. destruct (nth_error (frames t) i) as [f'|]; [|contradiction].
    now rewrite (fr_fresh _ _ _ _ _ F k), IH.
  - destruct (nth_error (frames s) i); [contradiction|]. destruct (nth_error (frames t) i); [contradiction|]. reflexivity.
Qed.
Lemma upd_eq {A} (l : list A) i x : i < length l -> nth_error (upd l i x) i = Some x.
Proof. revert i. induction l as [|a l IH]; intros [|i] H; cbn in *; [lia|lia|reflexivity|]. apply IH. lia. Qed.
Lemma upd_ne {A} (l : list A) i j x : i <> j -> nth_error (upd l i x) j = nth_error l j.
Proof. revert i j. induction l as [|a l IH]; intros [|i] [|j] H; cbn; auto; congruence. Qed.
Lemma SR_upd G s t i g f f' : SR G s t -> nth_error G i = Some g -> frel G i g f f' ->
  SR G (mkS (upd (frames s) i f) (world s)) (mkS (upd (frames t) i f') (world t)).
Proof.
  intros S N R. destruct (SR_len _ _ _ S) as [L1 L2]. assert (L : i < length G) by (apply nth_error_Some; congruence).
  destruct S as (Wd & Z & F). split; [exact Wd|]. split; [exact Z|]. intros j. cbn [frames]. destruct (Nat.eq_dec i j) as [->|D].
  - rewrite N, !upd_eq by lia. exact R.
  - rewrite !upd_ne by exact D. apply F.
Qed.
Lemma SR_alloc G s t g f f' : SR G s t -> frel (G ++ [g]) (length G) g f f' ->
  SR (G ++ [g]) (mkS (frames s ++ [f]) (world s)) (mkS (frames t ++ [f']) (world t)).
Proof.
  intros S R. destruct (SR_len _ _ _ S) as [L1 L2]. destruct S as (Wd & Z & F). split; [exact Wd|]. split; [now apply (ext_nth G); [exists [g]|]|].
  intros j. cbn [frames]. specialize (F j). destruct (Nat.lt_trichotomy j (length G)) as [H|[H|H]].
  - rewrite !nth_error_app1 by lia. destruct (nth_error G j), (nth_error (frames s) j), (nth_error (frames t) j); auto. apply (frel_ext G); [now exists [g]|exact F].
  - subst j. rewrite (nth_error_app2 G), (nth_error_app2 (frames s)), (nth_error_app2 (frames t)), L1, L2, Nat.sub_diag by lia. exact R.
  - rewrite !(proj2 (nth_error_None _ _)); auto; rewrite app_length; cbn; lia.
Qed.

(** * Simulation *)
Definition sim {A B} (R : list ginfo -> A -> B -> Prop) (G : list ginfo) (m : M W A) (n : M W B) : Prop := forall s t, SR G s t ->
  match m s, n t with
  | None, None => True
  | Some (Ok a, s'), Some (Ok b, t') => exists G', ext G G' /\ SR G' s' t' /\ R G' a b
  | Some (Raise x, s'), Some (Raise y, t') => x = y /\ exists G', ext G G' /\ SR G' s' t'
  | _, _ => False
  end.
Lemma sim_bind {A B A' B'} (R : list ginfo -> A -> B -> Prop) (R' : list ginfo -> A' -> B' -> Prop) G m n f h :
  sim R G m n -> (forall G' a b, ext G G' -> R G' a b -> sim R' G' (f a) (h b)) -> sim R' G (mbind m f) (mbind n h).
Proof.
  intros H K s t S. specialize (H s t S). unfold mbind. destruct (m s) as [[[a|x] s']|], (n t) as [[[b|y] t']|]; try contradiction; auto.
  destruct H as (G' & E & S' & r). specialize (K G' a b E r s' t' S'). destruct (f a s') as [[[a'|x] s'']|], (h b t') as [[[b'|y] t'']|]; try contradiction; auto.
  - destruct K as (G'' & E' & K). exists G''. split; [eapply ext_trans; eassumption|exact K].
  - destruct K as (-> & G'' & E' & K). split; [reflexivity|]. exists G''. split; [eapply ext_trans; eassumption|exact K].
Qed.
Lemma sim_ret {A B} (R : list ginfo -> A -> B -> Prop) G a b : R G a b -> sim R G (ret a) (ret b).
Proof. intros H s t S. cbn. exists G. split; [apply ext_refl|]. auto. Qed.
Lemma sim_raise {A B} (R : list ginfo -> A -> B -> Prop) G x : sim R G (@raise W A x) (@raise W B x).
Proof. intros s t S. cbn. split; [reflexivity|]. exists G. split; [apply ext_refl|exact S]. Qed.
Lemma sim_weaken {A B} (R R' : list ginfo -> A -> B -> Prop) G m n : (forall G a b, R G a b -> R' G a b) -> sim R G m n -> sim R' G m n.
Proof.
  intros H K s t S. specialize (K s t S). destruct (m s) as [[[a|x] s']|], (n t) as [[[b|y] t']|]; try contradiction; auto.
  destruct K as (G' & E & S' & r). exists G'. auto.
Qed.
Definition any {A B} (G : list ginfo) (a : A) (b : B) : Prop := True.
Definition vrels (G : list ginfo) := Forall2 (vrel G).
(** a step of the target alone *)
Lemma sim_right {A B C} (R : list ginfo -> A -> B -> Prop) G (m : M W A) (n : M W C) (h : C -> M W B) b :
  (forall s t, SR G s t -> n t = Some (Ok b, t)) -> sim R G m (h b) -> sim R G m (mbind n h).
Proof. intros H K s t S. specialize (K s t S). unfold mbind. now rewrite (H s t S). Qed.
Lemma sim_left {A B C} (R : list ginfo -> A -> B -> Prop) G (m : M W C) (f : C -> M W A) (n : M W B) a :
  (forall s t, SR G s t -> m s = Some (Ok a, s)) -> sim R G (f a) n -> sim R G (mbind m f) n.
Proof. intros H K s t S. specialize (K s t S). unfold mbind. now rewrite (H s t S). Qed.

Lemma nz G s t : SR G s t -> 0 < length G.
Proof. intros (_ & Z & _). destruct G; [discriminate Z|]. cbn. lia. Qed.
Lemma get_plain G bs c x : 0 < length G -> valid G c -> user x = true -> look bs x = None -> resolves G bs c x ->
  sim vrel G (get_var W c x) (get_var W c x).
Proof.
  intros L V U E R s t S. unfold resolves in R. rewrite E in R. unfold get_var. destruct (SR_near _ _ _ c x S U) as [-> ->].
  destruct (nth_error G (near G c (hasl x))) as [g|] eqn:N; [|apply nth_error_None in N; pose proof (near_valid G c (hasl x) L V); lia].
  destruct (SR_frame _ _ _ _ _ S N) as (f & f' & -> & -> & F). pose proof (fr_vars _ _ _ _ _ F x U (R g eq_refl)) as O.
  destruct (look (vars f) x), (look (vars f') x); try contradiction; cbn.
  - exists G. split; [apply ext_refl|]. auto.
  - split; [reflexivity|]. exists G. split; [apply ext_refl|exact S].
Qed.
Lemma set_plain G bs c x v w : 0 < length G -> valid G c -> user x = true -> look bs x = None -> resolves G bs c x -> vrel G v w ->
  sim any G (set_var W c x v) (set_var W c x w).
Proof.
  intros L V U E R Vr s t S. unfold resolves in R. rewrite E in R. unfold set_var, put_frame. destruct (SR_near _ _ _ c x S U) as [-> ->].
  destruct (nth_error G (near G c (hasl x))) as [g|] eqn:N; [|apply nth_error_None in N; pose proof (near_valid G c (hasl x) L V); lia].
  destruct (SR_frame _ _ _ _ _ S N) as (f & f' & -> & -> & F). cbn. exists G. split; [apply ext_refl|]. split; [|exact I].
  apply SR_upd with (g := g); [exact S|exact N|]. destruct F as [H1 H2 H3 H4 H5 H6]. constructor; cbn; auto.
  - intros y Uy Ny. rewrite !(get_set String.eqb eqb_ok). destruct (String.eqb x y); [exact Vr|]. now apply H5.
  - destruct (ge g) as [en|]; [|exact H6]. destruct H6 as (K & A & e & B & F & C). split; [exact K|]. split.
    + rewrite (get_set String.eqb eqb_ok). destruct (String.eqb x en) eqn:Q; [|exact A]. apply String.eqb_eq in Q. destruct K as [k ->].
      subst x. now rewrite fresh_user in U.
    + exists e. split; [exact B|]. split; [exact F|]. intros y I. destruct (C y I) as (P & a & b & L1 & Bd & Rl). split; [exact P|].
      exists a, b. rewrite (get_set String.eqb eqb_ok). destruct (String.eqb x y) eqn:Q; [|auto]. apply String.eqb_eq in Q. subst y. now apply (R g eq_refl) in I.
Qed.

(** parameters: in the target they are attributes *)
Lemma plain_parts x : plain x = true -> user x = true /\ ~ In x class_attrs /\ ~ In x reserved_names /\ ~ In x direct_write /\ mem x ["self"; "cls"] = false.
Proof.
  unfold plain. rewrite !andb_true_iff, !negb_true_iff. intros ((((A & B) & C) & D) & E). rewrite <- !EnvProofs.mem_false. auto.
Qed.
Lemma get_env G bs c x en : valid G c -> user x = true -> look bs x = Some en -> resolves G bs c x ->
  forall s t, SR G s t -> exists i, get_var W c en t = Some (Ok (VEnv i), t) /\
    exists g f f' e v w, nth_error G i = Some g /\ nth_error (frames s) i = Some f /\ nth_error (frames t) i = Some f' /\ frel G i g f f' /\
      In x (gp g) /\ nearest (frames s) c x = i /\ eobj f' = Some e /\ finalized e = false /\ plain x = true /\
      look (vars f) x = Some v /\ bound e x = Some w /\ vrel G v w.
Proof.
  intros V U E R s t S. unfold resolves in R. rewrite E in R. destruct R as (g & N & I & Ge & Nr & k & ->).
  destruct (SR_frame _ _ _ _ _ S N) as (f & f' & F1 & F2 & F). pose proof (fr_env _ _ _ _ _ F) as P. rewrite Ge in P.
  destruct P as (_ & A & e & B & Fi & C). destruct (C x I) as (P & v & w & L & Bd & Vr). exists (near G c (hasl x)). split.
  - unfold get_var. rewrite (SR_near_e _ _ _ _ _ S), Nr, F2, A. reflexivity.
  - exists g, f, f', e, v, w. destruct (SR_near _ _ _ c x S U) as [Nx _]. repeat (split; [assumption|]). assumption.
Qed.
Lemma upd_same {A} (l : list A) i x : nth_error l i = Some x -> upd l i x = l.
Proof. revert i. induction l as [|a l IH]; intros [|i] H; cbn in *; try discriminate; [congruence|]. now rewrite IH. Qed.
Lemma get_param G bs c x en : valid G c -> user x = true -> look bs x = Some en -> resolves G bs c x ->
  sim vrel G (get_var W c x) (mbind (get_var W c en) (fun o => env_read W o x)).
Proof.
  intros V U E R s t S. destruct (get_env G bs c x en V U E R s t S) as (i & Ge & g & f & f' & e & v & w & N & F1 & F2 & F & I & Nx & Eo & Fi & P & L & Bd & Vr).
  unfold mbind. rewrite Ge. unfold get_var. rewrite Nx, F1, L. unfold env_read, with_env. rewrite F2, Eo. apply plain_parts in P as (_ & P & _).
  unfold env_getattr. apply EnvProofs.mem_false in P. rewrite P. cbn [isid negb]. unfold bound in Bd. rewrite Bd. cbn [as_value].
  exists G. split; [apply ext_refl|]. split; [|exact Vr]. replace (mkF (locals f') (params f') (vars f') (Some e)) with f' by (destruct f'; cbn in *; congruence).
  rewrite upd_same by exact F2. destruct t. exact S.
Qed.
(** both forms of writing to an env: the state that results *)
Lemma env_setattr_plain (e : envst value) x w : plain x = true -> finalized e = false ->
  env_setattr isid direct e x w = (Ok RNone, with_binds e (dict_set String.eqb (binds e) x w)).
Proof.
  intros P F. apply plain_parts in P as (_ & _ & P1 & P2 & _). unfold env_setattr. apply EnvProofs.mem_false in P1, P2. rewrite P1, P2, F. reflexivity.
Qed.
Lemma SR_param G s t i g f f' e x v w : SR G s t -> nth_error G i = Some g -> nth_error (frames s) i = Some f -> nth_error (frames t) i = Some f' ->
  frel G i g f f' -> In x (gp g) -> eobj f' = Some e -> vrel G v w ->
  SR G (mkS (upd (frames s) i (mkF (locals f) (params f) (dict_set String.eqb (vars f) x v) (eobj f))) (world s))
       (mkS (upd (frames t) i (mkF (locals f') (params f') (vars f') (Some (with_binds e (dict_set String.eqb (binds e) x w))))) (world t)).
Proof.
  intros S N F1 F2 F I Eo Vr. apply SR_upd with (g := g); [exact S|exact N|]. destruct F as [H1 H2 H3 H4 H5 H6]. constructor; cbn; auto.
  - intros y Uy Ny. rewrite (get_set String.eqb eqb_ok). destruct (String.eqb x y) eqn:Q; [|now apply H5]. apply String.eqb_eq in Q. congruence.
  - destruct (ge g) as [en|]; [|rewrite H6 in I; contradiction]. destruct H6 as (K & A & e' & B & Fi & C). rewrite Eo in B. injection B as <-.
    split; [exact K|]. split; [exact A|]. eexists. split; [reflexivity|]. split; [exact Fi|]. intros y Iy. destruct (C y Iy) as (P & a & b & L & Bd & Rl).
    split; [exact P|]. unfold bound. cbn. rewrite !(get_set String.eqb eqb_ok). destruct (String.eqb x y); [exists v, w; auto|]. exists a, b. auto.
Qed.
Lemma set_param G bs c x en v w o : valid G c -> user x = true -> look bs x = Some en -> resolves G bs c x -> vrel G v w ->
  (forall s t, SR G s t -> get_var W c en t = Some (Ok o, t)) ->
  sim any G (set_var W c x v) (env_write W o x w) /\
  sim (fun G _ r => r = w) G (set_var W c x v) (env_put W o x w).
Proof.
  intros V U E R Vr Ho.
  assert (H : forall s t, SR G s t -> exists s' t' r, set_var W c x v s = Some (Ok tt, s') /\ env_write W o x w t = Some (Ok r, t') /\ env_put W o x w t = Some (Ok w, t') /\ SR G s' t').
  { intros s t S. destruct (get_env G bs c x en V U E R s t S) as (i & Ge & g & f & f' & e & v0 & w0 & N & F1 & F2 & F & I & Nx & Eo & Fi & P & L & Bd & Vr0).
    rewrite (Ho s t S) in Ge. injection Ge as ->. eexists. eexists. eexists. split; [unfold set_var, put_frame; rewrite Nx, F1; reflexivity|].
    unfold env_write, env_put, with_env. rewrite F2, Eo. unfold env_set.
    assert (Hx : has e x = true) by (apply (has_bound e x); congruence). rewrite Hx. cbn [negb]. rewrite (env_setattr_plain e x w P Fi).
    split; [reflexivity|]. split; [reflexivity|]. eapply SR_param; eassumption. }
  split; intros s t S; destruct (H s t S) as (s' & t' & r & A & B & C & D); rewrite A; [rewrite B|rewrite C]; exists G; (split; [apply ext_refl|]); (split; [exact D|]); [exact I|reflexivity].
Qed.
Lemma is_param_none G bs c x : 0 < length G -> valid G c -> user x = true -> look bs x = None -> resolves G bs c x ->
  forall s t, SR G s t -> is_param W c x s = Some (Ok false, s) .
Proof.
  intros L V U E R s t S. unfold resolves in R. rewrite E in R. unfold is_param. destruct (SR_near _ _ _ c x S U) as [-> _].
  destruct (nth_error G (near G c (hasl x))) as [g|] eqn:N; [|apply nth_error_None in N; pose proof (near_valid G c (hasl x) L V); lia].
  destruct (SR_frame _ _ _ _ _ S N) as (f & f' & -> & _ & F). rewrite (fr_params _ _ _ _ _ F). now rewrite (proj2 (EnvProofs.mem_false _ _) (R g eq_refl)).
Qed.
Lemma is_param_some G bs c x en : valid G c -> user x = true -> look bs x = Some en -> resolves G bs c x ->
  forall s t, SR G s t -> is_param W c x s = Some (Ok true, s).
Proof.
  intros V U E R s t S. destruct (get_env G bs c x en V U E R s t S) as (i & Ge & g & f & f' & e & v & w & N & F1 & F2 & F & I & Nx & _).
  unfold is_param. rewrite Nx, F1, (fr_params _ _ _ _ _ F). now rewrite (proj2 (EnvProofs.mem_in _ _) I).
Qed.
Lemma param_obj G bs c x en : valid G c -> user x = true -> look bs x = Some en -> resolves G bs c x ->
  exists o, forall G', ext G G' -> forall s t, SR G' s t -> get_var W c en t = Some (Ok o, t).
Proof.
  intros V U E R. pose proof R as R0. unfold resolves in R. rewrite E in R. destruct R as (g & N & I & Ge & Nr & k & ->). exists (VEnv (near G c (hasl x))).
  intros G' Ex s t S. unfold get_var. rewrite (SR_near_e _ _ _ _ _ S), (near_ext G G') by assumption. rewrite Nr.
  destruct (SR_frame _ _ _ _ _ S (ext_nth _ _ _ _ Ex N)) as (f & f' & F1 & F2 & F). pose proof (fr_env _ _ _ _ _ F) as P. rewrite Ge in P.
  destruct P as (_ & A & _). rewrite F2, A. reflexivity.
Qed.
Lemma prim_sim G o l l' : vrels G l l' -> sim vrel G (do_prim W prim o l) (do_prim W prim o l').
Proof.
  intros F s t S. unfold do_prim. rewrite (vrel_proj G _ _ (vr_list G l l' F)). destruct (proj (VList l')) as [[| |r]|]; try (split; [reflexivity|]; exists G; split; [apply ext_refl|exact S]).
  destruct S as (Wd & Z & Fr). rewrite Wd. destruct (prim o r (world t)) as [[d|x] w].
  - exists G. split; [apply ext_refl|]. split; [|apply vrel_inj]. split; [reflexivity|]. auto.
  - split; [reflexivity|]. exists G. split; [apply ext_refl|]. split; [reflexivity|]. auto.
Qed.
Lemma items_sim G v v' : vrel G v v' -> sim vrels G (items W v) (items W v').
Proof. intros H. destruct H; try apply sim_raise. now apply sim_ret. Qed.
Lemma each_sim G f h l l' : vrels G l l' -> (forall G' v w, ext G G' -> vrel G' v w -> sim vrel G' (f v) (h w)) ->
  sim vrels G (each W f l) (each W h l').
Proof.
  intros F. revert G F. assert (X : forall G l l', vrels G l l' -> forall G', ext G G' -> (forall G' v w, ext G G' -> vrel G' v w -> sim vrel G' (f v) (h w)) -> sim vrels G' (each W f l) (each W h l')).
  { clear l l'. intros G l l' F. induction F as [|v w l l' Hv F IH]; intros G' E H; cbn; [apply sim_ret; constructor|].
    eapply sim_bind; [apply H; [exact E|]; eapply vrel_ext; eassumption|]. intros G1 a b E1 Ra.
    eapply sim_bind; [apply IH; [eapply ext_trans; eassumption|exact H]|]. intros G2 r r' E2 Rr. apply sim_ret. constructor; [eapply vrel_ext; eassumption|exact Rr]. }
  intros G F H. apply (X G l l' F); [apply ext_refl|exact H].
Qed.

(** a new frame without env *)
Lemma frel_new G i ls : (forall k, mem (fresh k) ls = false) -> frel G i (mkG ls [] None) (mkF ls [] [] None) (mkF ls [] [] None).
Proof. intros H. constructor; cbn; auto. Qed.
Lemma alloc_sim G g f f' : (forall i, frel (G ++ [g]) i g f f') ->
  sim (fun G' i j => i = length G /\ j = length G /\ G' = G ++ [g]) G (alloc W f) (alloc W f').
Proof.
  intros H s t S. unfold alloc. destruct (SR_len _ _ _ S) as [L1 L2]. exists (G ++ [g]). split; [now exists [g]|]. split; [|now rewrite L1, L2].
  apply SR_alloc; [exact S|]. apply H.
Qed.
(** the context inside it *)
Lemma ctx_plain G d bs V c (U : string -> Prop) ls : ctx G d bs V c U -> (forall x, In x ls -> mem x V = false) ->
  ctx (G ++ [mkG ls [] None]) d bs V (length G :: c) U.
Proof.
  intros C Hl. pose proof C as C0. destruct C as (Z & Va & R & D & K). pose proof (zero_len _ _ Z) as L. assert (E : ext G (G ++ [mkG ls [] None])) by now exists [mkG ls [] None].
  assert (Nn : nth_error (G ++ [mkG ls [] None]) (length G) = Some (mkG ls [] None)) by (rewrite nth_error_app2, Nat.sub_diag by lia; reflexivity).
  split; [eapply ext_nth; eassumption|]. split; [constructor; [rewrite app_length; cbn; lia|eapply valid_ext; eassumption]|]. split; [|split; [exact D|]].
  - intros x Ux HU. pose proof (resolves_ext _ _ _ _ _ L E Va (R x Ux HU)) as Q. unfold resolves in *. destruct (look bs x) as [en|] eqn:Lx.
    + rewrite !(near_cons _ _ _ _ _ Nn). unfold hasl at 1 3, hase at 1. cbn [gl ge].
      destruct (mem x ls) eqn:M; [apply EnvProofs.mem_in in M; apply Hl in M; rewrite (D x en Lx) in M; discriminate M|]. exact Q.
    + rewrite (near_cons _ _ _ _ _ Nn). unfold hasl at 1. cbn [gl]. destruct (mem x ls); [|exact Q]. intros g Ng. rewrite Nn in Ng. injection Ng as <-. intros [].
  - intros i g k [<-|I] N Gk; [rewrite Nn in N; injection N as <-; discriminate Gk|]. apply (K i g k I); [|exact Gk].
    rewrite <- (ext_nth_lt G (G ++ [mkG ls [] None])); [exact N|exact E|]. unfold valid in Va. rewrite Forall_forall in Va. auto.
Qed.
(** a new frame with an env *)
Lemma look_params ps en bs x : look (bind_params ps en bs) x = if mem x ps then Some en else look bs x.
Proof.
  unfold bind_params. induction ps as [|p ps IH]; [reflexivity|]. cbn. rewrite (String.eqb_sym x p). destruct (String.eqb p x); [reflexivity|exact IH].
Qed.
Lemma ctx_params G d bs V c (U : string -> Prop) ls ps : ctx G d bs V c (fun x => ~ In x ps /\ U x) ->
  (forall x, In x ps -> In x ls) -> (forall x, In x ls -> In x ps \/ mem x V = false) ->
  let g := mkG ls ps (Some (fresh d)) in
  ctx (G ++ [g]) (S d) (bind_params ps (fresh d) bs) (ps ++ V) (length G :: c) U.
Proof.
  intros C Hp Hl g. destruct C as (Z & Va & R & D & K). pose proof (zero_len _ _ Z) as L. assert (E : ext G (G ++ [g])) by now exists [g].
  assert (Nn : nth_error (G ++ [g]) (length G) = Some g) by (rewrite nth_error_app2, Nat.sub_diag by lia; reflexivity).
  split; [eapply ext_nth; eassumption|]. split; [constructor; [rewrite app_length; cbn; lia|eapply valid_ext; eassumption]|]. split; [|split].
  - intros x Ux HU. unfold resolves. rewrite look_params. destruct (mem x ps) eqn:M.
    + apply EnvProofs.mem_in in M. exists g. rewrite !(near_cons _ _ _ _ _ Nn). unfold hasl at 1 3, hase at 1. subst g. cbn [gl ge].
      rewrite (proj2 (EnvProofs.mem_in x ls)) by auto. rewrite String.eqb_refl. repeat split; auto. now exists d.
    + apply EnvProofs.mem_false in M. pose proof (resolves_ext _ _ _ _ _ L E Va (R x Ux (conj M HU))) as Q. unfold resolves in Q. destruct (look bs x) as [en|] eqn:Lx.
      * rewrite !(near_cons _ _ _ _ _ Nn). unfold hasl at 1 3. subst g. cbn [gl].
        destruct (mem x ls) eqn:Mx; [apply EnvProofs.mem_in in Mx; apply Hl in Mx as [Mx|Mx]; [contradiction|rewrite (D x en Lx) in Mx; discriminate Mx]|].
        destruct Q as (g' & Q1 & Q2 & Q3 & Q4 & k & ->). exists g'. unfold hase at 1. cbn [ge].
        destruct (String.eqb (fresh k) (fresh d)) eqn:Qk; [|repeat split; auto; now exists k]. exfalso. apply String.eqb_eq, fresh_inj in Qk. subst k.
        assert (B : In (near (G ++ [mkG ls ps (Some (fresh d))]) c (hasl x)) c \/ near (G ++ [mkG ls ps (Some (fresh d))]) c (hasl x) = 0).
        { clear. generalize (G ++ [mkG ls ps (Some (fresh d))]). intros H. induction c as [|i c IH]; [now right|]. cbn. destruct (nth_error H i); [|now right].
          destruct (hasl x g); [left; now left|]. destruct IH; [left; now right|now right]. }
        destruct B as [B|B].
        -- assert (Lt : near (G ++ [mkG ls ps (Some (fresh d))]) c (hasl x) < length G) by (unfold valid in Va; rewrite Forall_forall in Va; auto).
           rewrite (ext_nth_lt G _ _ E Lt) in Q1. specialize (K _ _ d B Q1 Q3). lia.
        -- rewrite B, (ext_nth _ _ _ _ E Z) in Q1. injection Q1 as <-. discriminate Q3.
      * rewrite (near_cons _ _ _ _ _ Nn). unfold hasl at 1. subst g. cbn [gl]. destruct (mem x ls); [|exact Q]. intros g' Ng. rewrite Nn in Ng. injection Ng as <-. exact M.
  - intros x en. rewrite look_params, mem_app. destruct (mem x ps) eqn:M; [reflexivity|]. cbn. apply D.
  - intros i g' k [<-|I] N Gk.
    + rewrite Nn in N. injection N as <-. subst g. cbn in Gk. injection Gk as Gk. apply fresh_inj in Gk. lia.
    + enough (k < d) by lia. apply (K i g' k I); [|exact Gk]. rewrite <- (ext_nth_lt G (G ++ [g])); [exact N|exact E|]. unfold valid in Va. rewrite Forall_forall in Va. auto.
Qed.
Lemma ctx_defaults G d bs V c (U : string -> Prop) ps en : ctx G d bs V c U ->
  ctx G (S d) (bind_params ps en bs) (ps ++ V) c (fun x => ~ In x ps /\ U x).
Proof.
  intros (Z & Va & R & D & K). split; [exact Z|]. split; [exact Va|]. split; [|split].
  - intros x Ux [N HU]. specialize (R x Ux HU). unfold resolves in *. rewrite look_params. apply EnvProofs.mem_false in N. now rewrite N.
  - intros x e. rewrite look_params, mem_app. destruct (mem x ps); [reflexivity|]. cbn. apply D.
  - intros i g k I N Gk. specialize (K i g k I N Gk). lia.
Qed.
Lemma ctx_resolves G d bs V c (U : string -> Prop) x : ctx G d bs V c U -> user x = true -> U x -> resolves G bs c x.
Proof. intros (_ & _ & R & _). auto. Qed.
Lemma ctx_valid G d bs V c (U : string -> Prop) : ctx G d bs V c U -> 0 < length G /\ valid G c.
Proof. intros (Z & Va & _). split; [eapply zero_len; exact Z|exact Va]. Qed.
Lemma ctx_none G d bs V c (U : string -> Prop) x : ctx G d bs V c U -> mem x V = false -> look bs x = None.
Proof. intros (_ & _ & _ & D & _) H. destruct (look bs x) eqn:E; [|reflexivity]. rewrite (D _ _ E) in H. discriminate H. Qed.
Lemma sim_right' {A B C} (R : list ginfo -> A -> B -> Prop) G (m : M W A) (n : M W C) (h : C -> M W B) :
  (forall t, exists b, n t = Some (Ok b, t)) -> (forall b, sim R G m (h b)) -> sim R G m (mbind n h).
Proof. intros H K s t S. destruct (H t) as [b E]. specialize (K b s t S). unfold mbind. now rewrite E. Qed.
Lemma sim_then {A B C} (R' : list ginfo -> A -> B -> Prop) (R : list ginfo -> C -> B -> Prop) G (m : M W A) (n : M W B) v :
  sim R' G m n -> (forall G' a b, ext G G' -> R' G' a b -> R G' v b) -> sim R G (mbind m (fun _ => ret v)) n.
Proof.
  intros H K s t S. specialize (H s t S). unfold mbind, ret. destruct (m s) as [[[a|x] s']|], (n t) as [[[b|y] t']|]; try contradiction; auto.
  destruct H as (G' & E & S' & r). exists G'. split; [exact E|]. split; [exact S'|]. eapply K; eassumption.
Qed.
Lemma is_param_any c x t : exists b, is_param W c x t = Some (Ok b, t).
Proof. unfold is_param. destruct (nth_error _ _); eexists; reflexivity. Qed.

Section Calls.
Variables ap ap' : value -> list value -> M W value.
Hypothesis Hap : forall G v v' l l', vrel G v v' -> vrels G l l' -> sim vrel G (ap v l) (ap' v' l').
Notation ev := (eval W prim true ap).
Notation ev' := (eval W prim false ap').
Notation evs := (evals W prim true ap).
Notation evs' := (evals W prim false ap').
Definition E_ok (e : ex) : Prop := forall G d bs V c, fine V e = true -> ctx G d bs V c (fun x => uses x e = true) -> sim vrel G (ev e c) (ev' (tr d bs e) c).
Lemma evals_sim l : Forall E_ok l -> forall G d bs V c, forallb (fine V) l = true -> ctx G d bs V c (fun x => existsb (uses x) l = true) ->
  sim vrels G (evs l c) (evs' (map (tr d bs) l) c).
Proof.
  induction 1 as [|e l He Hl IH]; intros G d bs V c F C; cbn; [apply sim_ret; constructor|]. cbn in F. apply andb_true_iff in F as [F1 F2].
  eapply sim_bind; [apply (He G d bs V c F1); eapply ctx_sub; [|exact C]; intros x Hx; cbn; now rewrite Hx|].
  intros G1 v w E1 Rv. eapply sim_bind.
  - apply (IH G1 d bs V c F2). eapply ctx_ext; [exact E1|]. eapply ctx_sub; [|exact C]. intros x Hx. cbn. rewrite Hx. apply orb_true_r.
  - intros G2 r r' E2 Rr. apply sim_ret. constructor; [eapply vrel_ext; eassumption|exact Rr].
Qed.
Lemma no_uses ps ds (x : string) : forallb (fun p => negb (existsb (uses p) ds)) ps = true -> existsb (uses x) ds = true -> ~ In x ps.
Proof. intros H U I. rewrite forallb_forall in H. specialize (H x I). rewrite U in H. discriminate H. Qed.
Lemma eval_sim : forall e, E_ok e.
Proof.
  apply ex_ind'; unfold E_ok.
  - intros z G d bs V c F C. apply sim_ret. constructor.
  - intros x G d bs V c F C. cbn in F. destruct (ctx_valid _ _ _ _ _ _ C) as [L Va].
    assert (R : resolves G bs c x) by (eapply ctx_resolves; [exact C|exact F|]; cbn; apply String.eqb_refl).
    cbn [tr]. destruct (look bs x) as [en|] eqn:E; cbn [eval]; [now apply (get_param G bs)|now apply (get_plain G bs)].
  - intros o l Hl G d bs V c F C. cbn in F.
    change (sim vrel G (mbind (evs l c) (do_prim W prim o)) (mbind (evs' (map (tr d bs) l) c) (do_prim W prim o))).
    eapply sim_bind; [apply (evals_sim l Hl G d bs V c F C)|]. intros G1 r r' E1 Rr. now apply prim_sim.
  - intros f l Hf Hl G d bs V c F C. cbn in F. apply andb_true_iff in F as [F1 F2].
    change (sim vrel G (mbind (ev f c) (fun v => mbind (evs l c) (ap v))) (mbind (ev' (tr d bs f) c) (fun v => mbind (evs' (map (tr d bs) l) c) (ap' v)))).
    eapply sim_bind; [apply (Hf G d bs V c F1); eapply ctx_sub; [|exact C]; intros x Hx; cbn; now rewrite Hx|]. intros G1 v v' E1 Rv.
    eapply sim_bind; [apply (evals_sim l Hl G1 d bs V c F2); eapply ctx_ext; [exact E1|]; eapply ctx_sub; [|exact C]; intros x Hx; cbn; rewrite Hx; apply orb_true_r|].
    intros G2 r r' E2 Rr. apply Hap; [eapply vrel_ext; eassumption|exact Rr].
  - intros ps ds b Hds Hb G d bs V c F C. cbn in F. rewrite !andb_true_iff in F. destruct F as ((((F1 & F2) & F3) & F4) & F5).
    assert (Cb : ctx G d bs V c (fun x => ~ In x ps /\ uses x b = true)).
    { eapply ctx_sub; [|exact C]. intros x [N Hx]. cbn. apply EnvProofs.mem_false in N. rewrite N, Hx. apply orb_true_r. }
    assert (Cd : ctx G d bs V c (fun x => existsb (uses x) ds = true)).
    { eapply ctx_sub; [|exact C]. intros x Hx. cbn. now rewrite Hx. }
    cbn [tr]. destruct ps as [|p ps].
    + change (sim vrel G (mbind (evs ds c) (fun vs => ret (VFun [] vs (BE b) c))) (mbind (evs' (map (tr d bs) ds) c) (fun vs => ret (VFun [] vs (BE (tr d bs b)) c)))).
      eapply sim_bind; [apply (evals_sim ds Hds G d bs V c F3 Cd)|]. intros G1 r r' E1 Rr. apply sim_ret. apply vr_fun; [exact Rr|].
      exists d, bs, V. split; [split; assumption|]. split; [exact F5|]. split; [|reflexivity]. eapply ctx_ext; eassumption.
    + set (q := p :: ps) in *. cbv zeta.
      change (sim vrel G (mbind (evs ds c) (fun vs => ret (VFun q vs (BE b) c)))
        (mbind (evs' (map (tr (S d) (bind_params q (fresh d) bs)) ds) c) (fun vs => ret (VFun q vs (BE (EDo (fresh d) q (tr (S d) (bind_params q (fresh d) bs) b))) c)))).
      eapply sim_bind.
      * apply (evals_sim ds Hds G (S d) (bind_params q (fresh d) bs) (q ++ V) c F3). eapply ctx_sub; [|apply ctx_defaults; exact Cd].
        intros x Hx. split; [eapply no_uses; eassumption|exact Hx].
      * intros G1 r r' E1 Rr. apply sim_ret. apply vr_fun; [exact Rr|].
        exists d, bs, V. split; [split; assumption|]. split; [exact F5|]. split; [|reflexivity]. eapply ctx_ext; eassumption.
  - intros x e He G d bs V c F C. cbn in F. apply andb_true_iff in F as [F1 F2]. destruct (ctx_valid _ _ _ _ _ _ C) as [L Va].
    assert (R : resolves G bs c x) by (eapply ctx_resolves; [exact C|exact F1|]; cbn; now rewrite String.eqb_refl).
    assert (Ce : ctx G d bs V c (fun x => uses x e = true)).
    { eapply ctx_sub; [|exact C]. intros y Hy. cbn. rewrite Hy. apply orb_true_r. }
    cbn [tr]. destruct (look bs x) as [en|] eqn:E; cbn [eval].
    + apply (sim_left vrel G (is_param W c x) _ _ true); [intros s t S; now apply (is_param_some G bs c x en Va F1 E R s t)|]. cbn [andb].
      destruct (param_obj G bs c x en Va F1 E R) as [o Ho].
      apply (sim_right vrel G _ (get_var W c en) _ o); [intros s t S; apply (Ho G (ext_refl G) s t S)|].
      eapply sim_bind; [apply (He G d bs V c F2 Ce)|]. intros G1 v w E1 Rv.
      destruct (set_param G1 bs c x en v w o) as [_ H]; [eapply valid_ext; eassumption|exact F1|exact E|eapply resolves_ext; eassumption|exact Rv|intros s t S; apply (Ho G1 E1 s t S)|].
      eapply sim_then; [exact H|]. intros G2 a b0 E2 ->. eapply vrel_ext; eassumption.
    + apply (sim_left vrel G (is_param W c x) _ _ false); [intros s t S; now apply (is_param_none G bs c x L Va F1 E R s t)|]. cbn [andb].
      apply sim_right'; [apply is_param_any|]. intros b. eapply sim_bind; [now apply (get_plain G bs)|]. intros G1 a a' E1 Ra.
      eapply sim_bind; [apply (He G1 d bs V c F2); eapply ctx_ext; eassumption|]. intros G2 v v' E2 Rv.
      apply prim_sim. constructor; [eapply vrel_ext; eassumption|]. constructor; [exact Rv|constructor].
  - intros b x l Hb Hl G d bs V c F C. cbn in F. rewrite !andb_true_iff, negb_true_iff in F. destruct F as (((F1 & F2) & F3) & F4).
    pose proof (ctx_none _ _ _ _ _ _ x C F2) as Nx. cbn [tr]. rewrite Nx. cbn [eval].
    eapply sim_bind; [apply (Hl G d bs V c F4); eapply ctx_sub; [|exact C]; intros y Hy; cbn; rewrite Hy; apply orb_true_r|]. intros G1 v v' E1 Rv.
    eapply sim_bind; [apply items_sim; exact Rv|]. intros G2 vs vs' E2 Rvs.
    eapply sim_bind; [apply (alloc_sim G2 (mkG [x] [] None)); intros i; apply frel_new; intros k; cbn; destruct (String.eqb (fresh k) x) eqn:Q; [apply String.eqb_eq in Q; rewrite <- Q, fresh_user in F1; discriminate F1|reflexivity]|].
    intros G3 i j E3 (-> & -> & ->).
    assert (C3 : ctx (G2 ++ [mkG [x] [] None]) d bs V (length G2 :: c) (fun y => uses y (Comp b x l) = true)).
    { apply ctx_plain; [eapply ctx_ext; [eapply (ext_trans _ G1); [exact E1|exact E2]|exact C]|]. intros y [<-|[]]. exact F2. }
    eapply sim_bind; [|intros G4 r r' E4 Rr; apply sim_ret; constructor; exact Rr].
    apply each_sim; [eapply vrels_ext; eassumption|]. intros G4 a a' E4 Ra. pose proof (ctx_ext _ _ _ _ _ _ _ E4 C3) as C4.
    destruct (ctx_valid _ _ _ _ _ _ C4) as [L4 Va4].
    eapply sim_bind; [apply (set_plain G4 bs); auto; eapply ctx_resolves; [exact C4|exact F1|]; cbn; rewrite String.eqb_refl, orb_true_r; reflexivity|].
    intros G5 _ _ E5 _. apply (Hb G5 d bs V (length G2 :: c) F3). eapply ctx_ext; [exact E5|]. eapply ctx_sub; [|exact C4]. intros y Hy. cbn. now rewrite Hy.
  - intros en x G d bs V c F. discriminate F.
  - intros en x e G d bs V c F. discriminate F.
  - intros b en x l G d bs V c F. discriminate F.
  - intros en ps b G d bs V c F. discriminate F.
Qed.
Lemma evals_ok l G d bs V c : forallb (fine V) l = true -> ctx G d bs V c (fun x => existsb (uses x) l = true) ->
  sim vrels G (evs l c) (evs' (map (tr d bs) l) c).
Proof. apply evals_sim. apply Forall_forall. intros e _. apply eval_sim. Qed.

(** * Statements *)
Notation xs := (exec W prim true ap).
Notation xs' := (exec W prim false ap').
Notation xss := (execs W prim true ap).
Notation xss' := (execs W prim false ap').
Definition S_ok (s : stm) : Prop := forall G d bs V c, fines V s = true -> ctx G d bs V c (fun _ => True) -> sim orel G (xs s c) (xs' (trs d bs s) c).
Lemma execs_sim l : Forall S_ok l -> forall G d bs V c, forallb (fines V) l = true -> ctx G d bs V c (fun _ => True) ->
  sim orel G (xss l c) (xss' (map (trs d bs) l) c).
Proof.
  induction 1 as [|e l He Hl IH]; intros G d bs V c F C; cbn; [apply sim_ret; exact I|]. cbn in F. apply andb_true_iff in F as [F1 F2].
  eapply sim_bind; [apply (He G d bs V c F1 C)|]. intros G1 [v|] [w|] E1 Rv; try contradiction; [apply sim_ret; exact Rv|].
  apply (IH G1 d bs V c F2). eapply ctx_ext; eassumption.
Qed.
Lemma until_sim G f h l l' : vrels G l l' -> (forall G' v w, ext G G' -> vrel G' v w -> sim orel G' (f v) (h w)) ->
  sim orel G (until W f l) (until W h l').
Proof.
  intros F. revert G F. assert (X : forall G l l', vrels G l l' -> forall G', ext G G' -> (forall G' v w, ext G G' -> vrel G' v w -> sim orel G' (f v) (h w)) -> sim orel G' (until W f l) (until W h l')).
  { clear l l'. intros G l l' F. induction F as [|v w l l' Hv F IH]; intros G' E H; cbn; [apply sim_ret; exact I|].
    eapply sim_bind; [apply H; [exact E|]; eapply vrel_ext; eassumption|]. intros G1 [a|] [b|] E1 Ra; try contradiction; [apply sim_ret; exact Ra|].
    apply IH; [eapply ext_trans; eassumption|exact H]. }
  intros G F H. apply (X G l l' F); [apply ext_refl|exact H].
Qed.
Lemma decorate_sim fs fs' : forall G v v', vrels G fs fs' -> vrel G v v' -> sim vrel G (decorate W ap fs v) (decorate W ap' fs' v').
Proof.
  intros G v v' F. revert v v'. induction F as [|f f' fs fs' Hf F IH]; intros v v' Rv; cbn; [now apply sim_ret|].
  eapply sim_bind; [apply IH; exact Rv|]. intros G1 a a' E1 Ra. apply Hap; [eapply vrel_ext; eassumption|]. constructor; [exact Ra|constructor].
Qed.
Lemma ctx_all G d bs V c (U : string -> Prop) : ctx G d bs V c (fun _ => True) -> ctx G d bs V c U.
Proof. apply ctx_sub. auto. Qed.
Lemma assign_sim G d bs V c x v w o : ctx G d bs V c (fun _ => True) -> user x = true -> vrel G v w ->
  (forall en, look bs x = Some en -> o = mbind (get_var W c en) (fun o => env_write W o x w)) ->
  (look bs x = None -> o = mbind (set_var W c x w) (fun _ => ret VNone)) ->
  sim any G (set_var W c x v) o.
Proof.
  intros C U Rv H1 H2. destruct (ctx_valid _ _ _ _ _ _ C) as [L Va]. pose proof (ctx_resolves _ _ _ _ _ _ x C U I) as R.
  destruct (look bs x) as [en|] eqn:E.
  - rewrite (H1 en eq_refl). destruct (param_obj G bs c x en Va U E R) as [e He].
    apply (sim_right any G _ (get_var W c en) _ e); [intros s t S; apply (He G (ext_refl G) s t S)|].
    destruct (set_param G bs c x en v w e) as [H _]; auto. intros s t S. apply (He G (ext_refl G) s t S).
  - rewrite (H2 eq_refl). pose proof (set_plain G bs c x v w L Va U E R Rv) as H. intros s t S. specialize (H s t S). unfold mbind.
    destruct (set_var W c x v s) as [[[a|y] s']|], (set_var W c x w t) as [[[b|z] t']|]; auto.
Qed.
Lemma mbind_assoc {A B C} (m : M W A) (f : A -> M W B) (h : B -> M W C) t : mbind (mbind m f) h t = mbind m (fun a => mbind (f a) h) t.
Proof. unfold mbind. destruct (m t) as [[[a|x] s']|]; reflexivity. Qed.
Lemma sim_eq {A B} (R : list ginfo -> A -> B -> Prop) G (m : M W A) (n n' : M W B) : (forall t, n t = n' t) -> sim R G m n -> sim R G m n'.
Proof. intros H K s t S. rewrite <- H. now apply K. Qed.
Lemma exec_sim : forall s, S_ok s.
Proof.
  apply stm_ind'; unfold S_ok.
  - intros e G d bs V c F C. cbn in F |- *. eapply sim_bind; [apply (eval_sim e G d bs V c F); now apply ctx_all|]. intros G1 v w E1 _. now apply sim_ret.
  - intros x e G d bs V c F C. cbn in F. apply andb_true_iff in F as [F1 F2]. cbn [trs]. destruct (look bs x) as [en|] eqn:E; cbn [exec];
      (eapply sim_bind; [apply (eval_sim e G d bs V c F2); now apply ctx_all|]); intros G1 v w E1 Rv.
    + eapply sim_eq; [intros t; apply mbind_assoc|]. eapply sim_bind; [|intros G2 ? ? _ _; now apply sim_ret].
      eapply (assign_sim G1 d bs V c x v w); [eapply ctx_ext; eassumption|exact F1|exact Rv| |congruence]. intros en' E'. rewrite E in E'. now injection E' as <-.
    + eapply sim_bind; [|intros G2 ? ? _ _; now apply sim_ret]. destruct (ctx_valid _ _ _ _ _ _ (ctx_ext _ _ _ _ _ _ _ E1 C)) as [L Va].
      apply (set_plain G1 bs); auto. eapply ctx_resolves; [eapply ctx_ext; eassumption|exact F1|exact I].
  - intros e G d bs V c F C. cbn in F |- *. eapply sim_bind; [apply (eval_sim e G d bs V c F); now apply ctx_all|]. intros G1 v w E1 Rv. now apply sim_ret.
  - intros e a b Ha Hb G d bs V c F C. cbn in F. rewrite !andb_true_iff in F. destruct F as ((F1 & F2) & F3).
    change (sim orel G (mbind (ev e c) (fun v => if truthy v then xss a c else xss b c))
      (mbind (ev' (tr d bs e) c) (fun v => if truthy v then xss' (map (trs d bs) a) c else xss' (map (trs d bs) b) c))).
    eapply sim_bind; [apply (eval_sim e G d bs V c F1); now apply ctx_all|]. intros G1 v w E1 Rv. rewrite (vrel_truthy _ _ _ Rv).
    destruct (truthy w); [apply (execs_sim a Ha G1 d bs V c F2)|apply (execs_sim b Hb G1 d bs V c F3)]; eapply ctx_ext; eassumption.
  - intros x e b Hb G d bs V c F C. cbn in F. rewrite !andb_true_iff in F. destruct F as ((F1 & F2) & F3). cbn [trs].
    destruct (look bs x) as [en|] eqn:E.
    + change (sim orel G (mbind (ev e c) (fun v => mbind (items W v) (until W (fun v => mbind (set_var W c x v) (fun _ => xss b c)))))
        (mbind (ev' (tr d bs e) c) (fun v => mbind (items W v) (until W (fun v => mbind (get_var W c en) (fun o => mbind (env_write W o x v) (fun _ => xss' (map (trs d bs) b) c))))))).
      eapply sim_bind; [apply (eval_sim e G d bs V c F2); now apply ctx_all|]. intros G1 v w E1 Rv.
      eapply sim_bind; [apply items_sim; exact Rv|]. intros G2 r r' E2 Rr. apply until_sim; [exact Rr|]. intros G3 a a' E3 Ra.
      assert (C3 : ctx G3 d bs V c (fun _ => True)) by (eapply ctx_ext; [|exact C]; eapply ext_trans; [exact E1|]; eapply ext_trans; eassumption).
      eapply sim_eq; [intros t; apply mbind_assoc|]. eapply sim_bind.
      * eapply (assign_sim G3 d bs V c x a a'); [exact C3|exact F1|exact Ra| |congruence]. intros en' E'. rewrite E in E'. now injection E' as <-.
      * intros G4 ? ? E4 _. apply (execs_sim b Hb G4 d bs V c F3). eapply ctx_ext; eassumption.
    + change (sim orel G (mbind (ev e c) (fun v => mbind (items W v) (until W (fun v => mbind (set_var W c x v) (fun _ => xss b c)))))
        (mbind (ev' (tr d bs e) c) (fun v => mbind (items W v) (until W (fun v => mbind (set_var W c x v) (fun _ => xss' (map (trs d bs) b) c)))))).
      eapply sim_bind; [apply (eval_sim e G d bs V c F2); now apply ctx_all|]. intros G1 v w E1 Rv.
      eapply sim_bind; [apply items_sim; exact Rv|]. intros G2 r r' E2 Rr. apply until_sim; [exact Rr|]. intros G3 a a' E3 Ra.
      assert (C3 : ctx G3 d bs V c (fun _ => True)) by (eapply ctx_ext; [|exact C]; eapply ext_trans; [exact E1|]; eapply ext_trans; eassumption).
      destruct (ctx_valid _ _ _ _ _ _ C3) as [L Va]. eapply sim_bind.
      * apply (set_plain G3 bs); auto. eapply ctx_resolves; [exact C3|exact F1|exact I].
      * intros G4 ? ? E4 _. apply (execs_sim b Hb G4 d bs V c F3). eapply ctx_ext; eassumption.
  - intros f decos ps ds b Hb G d bs V c F C. cbn [EvfSpec.fines] in F. rewrite !andb_true_iff, negb_true_iff in F.
    destruct F as ((((((((F1 & F2) & F3) & F4) & F5) & F6) & F7) & F8) & F9). pose proof (ctx_none _ _ _ _ _ _ f C F2) as Nf.
    assert (Main : forall d' bs' V' b' G0, ext G G0 -> ctx G0 d' bs' V' c (fun x => existsb (uses x) decos = true \/ existsb (uses x) ds = true) ->
      forallb (fine V') decos = true -> forallb (fine V') ds = true -> (forall G', ext G G' -> brel G' ps (BS b) b' c) ->
      sim orel G0 (mbind (evs decos c) (fun fs => mbind (evs ds c) (fun vs => mbind (decorate W ap fs (VFun ps vs (BS b) c)) (fun v => mbind (set_var W c f v) (fun _ => ret None)))))
        (mbind (evs' (map (tr d' bs') decos) c) (fun fs => mbind (evs' (map (tr d' bs') ds) c) (fun vs => mbind (decorate W ap' fs (VFun ps vs b' c)) (fun v => mbind (set_var W c f v) (fun _ => ret None)))))).
    { intros d' bs' V' b' G0 E0 C0 K1 K2 B. eapply sim_bind; [apply (evals_ok decos G0 d' bs' V' c K1); eapply ctx_sub; [|exact C0]; cbn; auto|].
      intros G1 fs fs' E1 Rf. eapply sim_bind; [apply (evals_ok ds G1 d' bs' V' c K2); eapply ctx_ext; [exact E1|]; eapply ctx_sub; [|exact C0]; cbn; auto|].
      intros G2 vs vs' E2 Rv. eapply sim_bind; [apply decorate_sim; [eapply vrels_ext; eassumption|]; apply vr_fun; [exact Rv|]; apply B; eapply ext_trans; [exact E0|]; eapply ext_trans; eassumption|].
      intros G3 v v' E3 Rw. assert (C3 : ctx G3 d bs V c (fun _ => True)) by (eapply ctx_ext; [|exact C]; eapply ext_trans; [exact E0|]; eapply ext_trans; [exact E1|]; eapply ext_trans; eassumption).
      destruct (ctx_valid _ _ _ _ _ _ C3) as [L Va]. eapply sim_bind; [|intros G4 ? ? _ _; now apply sim_ret].
      apply (set_plain G3 bs); auto. eapply ctx_resolves; [exact C3|exact F1|exact I]. }
    cbn [trs]. destruct ps as [|p ps].
    + apply (Main d bs V (BS (map (trs d bs) b)) G (ext_refl G)); auto; [now apply ctx_all|]. intros G' E'. exists d, bs, V. split; [split; assumption|].
      split; [exact F9|]. split; [exact F8|]. split; [eapply ctx_ext; eassumption|reflexivity].
    + set (q := p :: ps) in *. cbv zeta.
      apply (Main (S d) (bind_params q (fresh d) bs) (q ++ V) (BS (EInit (fresh d) q :: map (trs (S d) (bind_params q (fresh d) bs)) b)) G (ext_refl G)); auto.
      * eapply ctx_sub; [|apply ctx_defaults; exact C]. intros x Hx. split; [|exact I]. eapply no_uses; [exact F7|]. rewrite existsb_app. apply orb_true_iff. exact Hx.
      * intros G' E'. exists d, bs, V. split; [split; assumption|]. split; [exact F9|]. split; [exact F8|]. split; [eapply ctx_ext; eassumption|reflexivity].
  - intros l G d bs V c F C. cbn. now apply sim_ret.
  - intros en x e G d bs V c F. discriminate F.
  - intros en x e b G d bs V c F. discriminate F.
  - intros en ps G d bs V c F. discriminate F.
Qed.
Lemma execs_ok l G d bs V c : forallb (fines V) l = true -> ctx G d bs V c (fun _ => True) ->
  sim orel G (xss l c) (xss' (map (trs d bs) l) c).
Proof. apply execs_sim. apply Forall_forall. intros s _. apply exec_sim. Qed.
(** * Calls *)
Lemma look_in (l : list (string * value)) x : In x (map fst l) -> exists v, look l x = Some v.
Proof.
  induction l as [|[k v] l IH]; [intros []|]. cbn. destruct (String.eqb k x) eqn:E; [eexists; reflexivity|]. intros [->|I]; [rewrite String.eqb_refl in E; discriminate E|auto].
Qed.
Lemma update_nodup (b : list (string * value)) : NoDup (map fst b) -> forall d x,
  look (dict_update String.eqb d b) x = match look b x with Some v => Some v | None => look d x end.
Proof.
  induction b as [|[k v] b IH]; intros N d x; [reflexivity|]. cbn in N. inversion N as [|? ? N1 N2]; subst. change (dict_update String.eqb d ((k, v) :: b)) with (dict_update String.eqb (dict_set String.eqb d k v) b).
  rewrite IH by exact N2. rewrite (get_set String.eqb eqb_ok). cbn. destruct (String.eqb k x) eqn:E; [|reflexivity]. apply String.eqb_eq in E. subst k.
  assert (look b x = None) as -> by (now apply (get_none String.eqb eqb_ok)). reflexivity.
Qed.
Lemma distinct_nodup l : distinct l = true -> NoDup l.
Proof. induction l as [|x l IH]; cbn; [constructor|]. rewrite andb_true_iff, negb_true_iff. intros [A B]. constructor; [now apply EnvProofs.mem_false|auto]. Qed.
Lemma get_vars_here c i F xs : forall t, nth_error (frames t) i = Some F -> (forall x, In x xs -> In x (locals F) /\ In x (map fst (vars F))) ->
  exists r, get_vars W (i :: c) xs t = Some (Ok r, t) /\ map fst r = xs /\ forall x, In x xs -> look r x = look (vars F) x.
Proof.
  intros t N H. induction xs as [|x xs IH]; [exists []; cbn; auto; split; [reflexivity|]; split; [reflexivity|intros x []]|].
  destruct IH as (r & E & M & L); [intros y I; apply H; now right|]. destruct (H x (or_introl eq_refl)) as [H1 H2]. destruct (look_in _ _ H2) as [v Hv].
  exists ((x, v) :: r). cbn [get_vars]. unfold mbind at 1. unfold get_var. cbn [nearest]. rewrite N. rewrite (proj2 (EnvProofs.mem_in x (locals F)) H1), N, Hv.
  unfold mbind. rewrite E. split; [reflexivity|]. split; [cbn; now rewrite M|]. intros y [->|I]; cbn.
  - now rewrite String.eqb_refl.
  - destruct (String.eqb x y) eqn:Q; [apply String.eqb_eq in Q; now subst|auto].
Qed.
Definition made (i : nat) (ls ps : list string) (en : string) (vals : list value) (e : envst value) : frame :=
  mkF ls ps (dict_set String.eqb (combine ps vals) en (VEnv i)) (Some e).
Definition holds (ps : list string) (vals : list value) (e : envst value) : Prop :=
  finalized e = false /\ forall x, In x ps -> bound e x = look (combine ps vals) x.
Lemma plain_all ps : forallb plain ps = true -> mem "self" ps = false /\ mem "cls" ps = false /\ forall x, In x ps -> validname isid x.
Proof.
  intros H. rewrite forallb_forall in H. split; [|split].
  - apply EnvProofs.mem_false. intros I. apply H, plain_parts in I as (_ & _ & _ & _ & X). discriminate X.
  - apply EnvProofs.mem_false. intros I. apply H, plain_parts in I as (_ & _ & _ & _ & X). discriminate X.
  - intros x I. apply H, plain_parts in I as (_ & _ & X & _). split; [reflexivity|exact X].
Qed.
Lemma upd_last {A} (l : list A) a b : upd (l ++ [a]) (length l) b = l ++ [b].
Proof. induction l as [|x l IH]; [reflexivity|]. cbn. now rewrite IH. Qed.
Lemma nth_last {A} (l : list A) a : nth_error (l ++ [a]) (length l) = Some a.
Proof. rewrite nth_error_app2, Nat.sub_diag by lia. reflexivity. Qed.
Lemma keys_combine {A} (ps : list string) (vals : list A) : length vals = length ps -> map fst (combine ps vals) = ps.
Proof. revert vals. induction ps as [|p ps IH]; intros [|v vals] H; cbn in *; try discriminate; [reflexivity|]. rewrite IH; auto. Qed.
Lemma keys_set (l : list (string * value)) x v k : In k (map fst l) -> In k (map fst (dict_set String.eqb l x v)).
Proof. induction l as [|[a b] l IH]; [intros []|]. cbn. destruct (String.eqb a x) eqn:E; cbn; [auto|]. intros [H|H]; auto. Qed.

Section Prologue.
Variables (fs : list frame) (w : W) (c : list nat) (ls ps : list string) (vals : list value) (en : string).
Hypothesis (Hen : In en ls) (Hls : forall x, In x ps -> In x ls) (Hps : good_params ps) (Hlen : length vals = length ps) (Hne : ~ In en ps).
Let i := length fs.
Let t := mkS (fs ++ [mkF ls ps (combine ps vals) None]) w.
Lemma do_prologue b : exists e, holds ps vals e /\
  ev' (EDo en ps b) (i :: c) t = ev' b (i :: c) (mkS (fs ++ [made i ls ps en vals e]) w).
Proof.
  destruct Hps as [P1 P2]. destruct (plain_all ps P1) as (Ps & _ & Pv). apply distinct_nodup in P2.
  set (e0 := @mkenv value [] false). set (F := made i ls ps en vals e0).
  destruct (get_vars_here c i F ps (mkS (fs ++ [F]) w)) as (r & Er & Mr & Lr).
  { apply nth_last. }
  { intros x I. cbn. split; [auto|]. apply keys_set. rewrite keys_combine by exact Hlen. exact I. }
  exists (with_binds e0 (dict_update String.eqb [] r)). split.
  - split; [reflexivity|]. intros x I. unfold bound. cbn. rewrite update_nodup by (now rewrite Mr). rewrite Lr by exact I. cbn.
    rewrite (get_set String.eqb eqb_ok). destruct (String.eqb en x) eqn:Q; [apply String.eqb_eq in Q; subst; contradiction|]. destruct (look (combine ps vals) x); reflexivity.
  - cbn [eval here]. assert (E1 : env_create W i [] t = Some (Ok (VEnv i), mkS (fs ++ [mkF ls ps (combine ps vals) (Some e0)]) w)).
    { unfold env_create. cbn [map mem existsb orb]. change (construct (env_setattr isid direct) []) with (Ok e0). unfold mbind, set_eobj, put_frame, ret, t, i. cbn [frames world].
      rewrite nth_last, upd_last. reflexivity. }
    unfold mbind at 1. rewrite E1. unfold mbind at 1. unfold set_var. cbn [nearest frames world]. unfold i. rewrite nth_last. cbn [locals].
    rewrite (proj2 (EnvProofs.mem_in en ls) Hen), nth_last. unfold put_frame. cbn [frames world locals params vars eobj]. rewrite upd_last. fold i.
    change (mkF ls ps (dict_set String.eqb (combine ps vals) en (VEnv i)) (Some e0)) with F. unfold mbind at 1. rewrite Er. unfold mbind, env_fill. rewrite Mr, Ps.
    unfold with_env. cbn [frames world]. unfold i. rewrite nth_last. fold i. cbn [eobj F made]. unfold env_update. cbn [existsb e0 finalized andb flat_map]. unfold i. rewrite upd_last. reflexivity.
Qed.
Lemma init_prologue : exists e, holds ps vals e /\
  xs' (EInit en ps) (i :: c) t = Some (Ok None, mkS (fs ++ [made i ls ps en vals e]) w).
Proof.
  destruct Hps as [P1 P2]. destruct (plain_all ps P1) as (Ps & Pc & Pv). apply distinct_nodup in P2.
  destruct (get_vars_here c i (mkF ls ps (combine ps vals) None) ps t) as (r & Er & Mr & Lr).
  { apply nth_last. }
  { intros x I. cbn. split; [auto|]. rewrite keys_combine by exact Hlen. exact I. }
  exists (mkenv r false). split.
  - split; [reflexivity|]. intros x I. unfold bound. cbn. now rewrite Lr.
  - cbn [exec here]. unfold mbind at 1. rewrite Er. unfold mbind at 1. unfold env_create. rewrite Mr, Ps, Pc. cbn [orb].
    assert (Nd : NoDup (map fst r)) by (rewrite Mr; exact P2). rewrite <- Mr in Pv. rewrite (construct_ok isid direct r Pv Nd). unfold mbind, set_eobj, put_frame, ret, t. unfold i. cbn [frames world]. rewrite nth_last. cbn [frames world locals params vars eobj].
    rewrite upd_last. unfold set_var. cbn [nearest frames world]. rewrite nth_last. cbn [locals].
    rewrite (proj2 (EnvProofs.mem_in en ls) Hen), nth_last. unfold put_frame. cbn [frames world locals params vars eobj]. rewrite upd_last. reflexivity.
Qed.
End Prologue.
Lemma look_combine G (ps : list string) vals vals' x : vrels G vals vals' -> length vals = length ps -> In x ps ->
  exists v w, look (combine ps vals) x = Some v /\ look (combine ps vals') x = Some w /\ vrel G v w.
Proof.
  intros F. revert ps. induction F as [|v w vals vals' R F IH]; intros [|p ps] L I; cbn in *; try discriminate; [destruct I|].
  destruct (String.eqb p x) eqn:Q; [exists v, w; auto|]. destruct I as [->|I]; [rewrite String.eqb_refl in Q; discriminate Q|]. apply IH; auto.
Qed.
Lemma look_combine_none {A} (ps : list string) (vals : list A) x : ~ In x ps -> look (combine ps vals) x = None.
Proof.
  revert vals. induction ps as [|p ps IH]; intros [|v vals] H; cbn in *; auto. destruct (String.eqb p x) eqn:Q; [apply String.eqb_eq in Q; tauto|]. apply IH. tauto.
Qed.
Lemma made_rel G i ls ls' ps d vals vals' e : good_params ps -> vrels G vals vals' -> length vals = length ps -> holds ps vals' e ->
  (forall x, user x = true -> mem x ls' = mem x ls) -> (forall k, mem (fresh k) ls' = String.eqb (fresh k) (fresh d)) ->
  frel G i (mkG ls ps (Some (fresh d))) (mkF ls ps (combine ps vals) None) (made i ls' ps (fresh d) vals' e).
Proof.
  intros [P1 P2] R L [Hf Hb] H1 H2. constructor; cbn [locals params vars eobj gl gp ge made]; auto.
  - intros x U N. rewrite (get_set String.eqb eqb_ok). destruct (String.eqb (fresh d) x) eqn:Q; [apply String.eqb_eq in Q; rewrite <- Q, fresh_user in U; discriminate U|].
    rewrite !look_combine_none by exact N. exact I.
  - split; [now exists d|]. split; [rewrite (get_set String.eqb eqb_ok), String.eqb_refl; reflexivity|]. exists e. split; [reflexivity|]. split; [exact Hf|].
    intros x Ix. rewrite forallb_forall in P1. split; [auto|]. destruct (look_combine G ps vals vals' x R L Ix) as (v & w & A & B & C). exists v, w. rewrite Hb by exact Ix. auto.
Qed.
Lemma fresh_notin ps d : forallb plain ps = true -> ~ In (fresh d) ps.
Proof. intros H I. rewrite forallb_forall in H. apply H, plain_parts in I as (X & _). now rewrite fresh_user in X. Qed.
Lemma tr_not_do V d bs b en ps b0 : fine V b = true -> tr d bs b <> EDo en ps b0.
Proof.
  intros F. destruct b; cbn in F |- *; try discriminate.
  - destruct (look bs x); discriminate.
  - destruct ps0; discriminate.
  - destruct (look bs x); discriminate.
  - destruct (look bs x); discriminate.
Qed.
Lemma locals_expr ps b : (forall en qs b0, b <> EDo en qs b0) -> locals_of ps (BE b) = ps.
Proof. destruct b; try reflexivity. intros H. now destruct (H en ps0 b). Qed.

Lemma declared_tr b : forall d bs V, fines V b = true -> declared (trs d bs b) = declared b.
Proof.
  revert b. apply (stm_ind' (fun b => forall d bs V, fines V b = true -> declared (trs d bs b) = declared b)); intros; cbn [trs declared]; try reflexivity.
  - destruct (look bs x); reflexivity.
  - cbn in H1. rewrite !andb_true_iff in H1. destruct H1 as ((_ & F2) & F3). f_equal.
    + clear - H F2. induction H as [|s l Hs Hl IH]; [reflexivity|]. cbn in *. apply andb_true_iff in F2 as [A B]. rewrite (Hs d bs V A), (IH B). reflexivity.
    + clear - H0 F3. induction H0 as [|s l Hs Hl IH]; [reflexivity|]. cbn in *. apply andb_true_iff in F3 as [A B]. rewrite (Hs d bs V A), (IH B). reflexivity.
  - cbn in H0. rewrite !andb_true_iff in H0. destruct H0 as (_ & F3). destruct (look bs x); cbn [declared];
    (clear - H F3; induction H as [|s l Hs Hl IH]; [reflexivity|]; cbn in *; apply andb_true_iff in F3 as [A B]; rewrite (Hs d bs V A), (IH B); reflexivity).
  - destruct ps; reflexivity.
Qed.
Lemma declared_all l d bs V : forallb (fines V) l = true -> flat_map declared (map (trs d bs) l) = flat_map declared l.
Proof. induction l as [|s l IH]; [reflexivity|]. cbn. rewrite andb_true_iff. intros [A B]. rewrite (declared_tr s d bs V A), (IH B). reflexivity. Qed.
Definition kept (bs : list (string * string)) (l : list string) : list string := filter (fun x => match look bs x with Some _ => false | None => true end) l.
Lemma kept_app bs a b : kept bs (a ++ b) = kept bs a ++ kept bs b.
Proof. apply filter_app. Qed.
Lemma stored_tr b : forall d bs V, fines V b = true -> (forall x en, look bs x = Some en -> mem x V = true) ->
  stored (trs d bs b) = kept bs (stored b).
Proof.
  revert b. apply (stm_ind' (fun b => forall d bs V, fines V b = true -> (forall x en, look bs x = Some en -> mem x V = true) -> stored (trs d bs b) = kept bs (stored b))); intros; cbn [trs stored]; try reflexivity.
  - cbn. destruct (look bs x); reflexivity.
  - cbn in H1. rewrite !andb_true_iff in H1. destruct H1 as ((_ & F2) & F3). rewrite kept_app. f_equal.
    + clear - H F2 H2. induction H as [|s l Hs Hl IH]; [reflexivity|]. cbn [flat_map map forallb] in *. apply andb_true_iff in F2 as [A B]. rewrite (Hs d bs V A H2), (IH B), kept_app. reflexivity.
    + clear - H0 F3 H2. induction H0 as [|s l Hs Hl IH]; [reflexivity|]. cbn [flat_map map forallb] in *. apply andb_true_iff in F3 as [A B]. rewrite (Hs d bs V A H2), (IH B), kept_app. reflexivity.
  - cbn in H0. rewrite !andb_true_iff in H0. destruct H0 as (_ & F3).
    assert (E : flat_map stored (map (trs d bs) b) = kept bs (flat_map stored b)).
    { clear - H F3 H1. induction H as [|s l Hs Hl IH]; [reflexivity|]. cbn [flat_map map forallb] in *. apply andb_true_iff in F3 as [A B]. rewrite (Hs d bs V A H1), (IH B), kept_app. reflexivity. }
    unfold kept. cbn. fold (kept bs (flat_map stored b)). destruct (look bs x); cbn [stored]; rewrite E; reflexivity.
  - cbn [EvfSpec.fines] in H0. rewrite !andb_true_iff, negb_true_iff in H0. destruct H0 as ((((((((F1 & F2) & F3) & F4) & F5) & F6) & F7) & F8) & F9).
    assert (N : look bs f = None) by (destruct (look bs f) eqn:Q; [|reflexivity]; rewrite (H1 _ _ Q) in F2; discriminate F2). cbn. rewrite N. destruct ps; reflexivity.
  - discriminate H.
  - discriminate H.
Qed.
Lemma stored_all l d bs V : forallb (fines V) l = true -> (forall x en, look bs x = Some en -> mem x V = true) ->
  flat_map stored (map (trs d bs) l) = kept bs (flat_map stored l).
Proof. intros F H. induction l as [|s l IH]; [reflexivity|]. cbn [flat_map map forallb] in *. apply andb_true_iff in F as [A B]. rewrite (stored_tr s d bs V A H), (IH B), kept_app. reflexivity. Qed.
Lemma stored_user s : forall V x, fines V s = true -> In x (stored s) -> user x = true.
Proof.
  revert s. apply (stm_ind' (fun s => forall V x, fines V s = true -> In x (stored s) -> user x = true)); cbn; try (intros; contradiction).
  - intros x e V y F [<-|[]]. now apply andb_true_iff in F as [F _].
  - intros e a b Ha Hb V x F I. rewrite !andb_true_iff in F. destruct F as ((_ & F2) & F3). apply in_app_or in I as [I|I]; apply in_flat_map in I as (s & I & J).
    + rewrite Forall_forall in Ha. rewrite forallb_forall in F2. eauto.
    + rewrite Forall_forall in Hb. rewrite forallb_forall in F3. eauto.
  - intros x e b Hb V y F [<-|I]; rewrite !andb_true_iff in F; destruct F as ((F1 & F2) & F3); [exact F1|]. apply in_flat_map in I as (s & I & J).
    rewrite Forall_forall in Hb. rewrite forallb_forall in F3. eauto.
  - intros f decos ps ds b _ V x F [<-|[]]. rewrite !andb_true_iff in F. tauto.
  - intros en x e b V y F. discriminate F.
  - intros en ps V y F. discriminate F.
Qed.
Lemma declared_user s : forall V x, fines V s = true -> In x (declared s) -> user x = true.
Proof.
  revert s. apply (stm_ind' (fun s => forall V x, fines V s = true -> In x (declared s) -> user x = true)); cbn; try (intros; contradiction).
  - intros e a b Ha Hb V x F I. rewrite !andb_true_iff in F. destruct F as ((_ & F2) & F3). apply in_app_or in I as [I|I]; apply in_flat_map in I as (s & I & J).
    + rewrite Forall_forall in Ha. rewrite forallb_forall in F2. eauto.
    + rewrite Forall_forall in Hb. rewrite forallb_forall in F3. eauto.
  - intros x e b Hb V y F I. rewrite !andb_true_iff in F; destruct F as ((F1 & F2) & F3). apply in_flat_map in I as (s & I & J).
    rewrite Forall_forall in Hb. rewrite forallb_forall in F3. eauto.
  - intros l V x F I. rewrite forallb_forall in F. auto.
  - intros en x e b V y F. discriminate F.
Qed.
Lemma mem_filter x (f : string -> bool) l : mem x (filter f l) = mem x l && f x.
Proof.
  apply eq_true_iff_eq. rewrite andb_true_iff, !EnvProofs.mem_in. apply filter_In.
Qed.
Lemma mem_minus x l r : mem x (minus l r) = mem x l && negb (mem x r).
Proof. unfold minus. apply mem_filter. Qed.
Lemma fresh_mem k l : (forall x, In x l -> user x = true) -> mem (fresh k) l = false.
Proof. intros H. apply EnvProofs.mem_false. intros I. apply H in I. now rewrite fresh_user in I. Qed.
Lemma flat_user (f : stm -> list string) b : (forall s V x, fines V s = true -> In x (f s) -> user x = true) -> forall V, forallb (fines V) b = true ->
  forall x, In x (flat_map f b) -> user x = true.
Proof. intros H V F x I. apply in_flat_map in I as (s & I & J). rewrite forallb_forall in F. eauto. Qed.

Lemma enter_sim G ps vals vals' b b' c : vrels G vals vals' -> length vals = length ps -> brel G ps b b' c ->
  sim vrel G (enter W prim true ap ps vals b c) (enter W prim false ap' ps vals' b' c).
Proof.
  intros Rv Lv (d & bs & V & Gp & B). assert (Lv' : length vals' = length ps) by (rewrite <- Lv; symmetry; clear - Rv; induction Rv; cbn; auto).
  destruct b as [b|b].
  - destruct B as (F & C & ->). destruct ps as [|p ps].
    + destruct vals; [|discriminate Lv]. destruct vals'; [|discriminate Lv']. unfold enter. cbn [combine].
      assert (N : forall en qs b0, b <> EDo en qs b0) by (intros en qs b0 ->; discriminate F).
      rewrite (locals_expr [] b N), (locals_expr [] (tr d bs b)) by (intros; eapply tr_not_do; exact F).
      eapply sim_bind; [apply (alloc_sim G (mkG [] [] None)); intros i; apply frel_new; reflexivity|]. intros G1 i j E (-> & -> & ->).
      apply (eval_sim b _ d bs V); [exact F|]. apply ctx_plain; [|intros x []]. eapply ctx_sub; [|exact C]. intros x H. split; [intros []|exact H].
    + set (q := p :: ps) in *. intros s t S. unfold enter.
      assert (N : forall en qs b0, b <> EDo en qs b0) by (intros en qs b0 ->; discriminate F). rewrite (locals_expr q b N). cbn [locals_of].
      unfold mbind, alloc. destruct (SR_len _ _ _ S) as [L1 L2]. rewrite L1.
      destruct (do_prologue (frames t) (world t) c (q ++ [fresh d]) q vals' (fresh d)) with (b := tr (Datatypes.S d) (bind_params q (fresh d) bs) b) as (e & He & ->); auto.
      { apply in_or_app. right. now left. } { intros x I. apply in_or_app. now left. } { apply fresh_notin. apply Gp. }
      rewrite L2. set (g := mkG q q (Some (fresh d))).
      assert (S' : SR (G ++ [g]) (mkS (frames s ++ [mkF q q (combine q vals) None]) (world s)) (mkS (frames t ++ [made (length G) (q ++ [fresh d]) q (fresh d) vals' e]) (world t))).
      { apply SR_alloc; [exact S|]. apply made_rel; auto.
        - eapply vrels_ext; [|exact Rv]. now exists [g].
        - intros x U. rewrite mem_app. cbn. destruct (String.eqb x (fresh d)) eqn:Q; [apply String.eqb_eq in Q; rewrite Q, fresh_user in U; discriminate U|]. now rewrite !orb_false_r.
        - intros k. rewrite mem_app. rewrite (proj2 (EnvProofs.mem_false (fresh k) q)) by (apply fresh_notin; apply Gp). cbn. apply orb_false_r. }
      assert (C' : ctx (G ++ [g]) (Datatypes.S d) (bind_params q (fresh d) bs) (q ++ V) (length G :: c) (fun x => uses x b = true)).
      { apply ctx_params; [exact C|auto|auto]. }
      pose proof (eval_sim b _ _ _ _ _ F C' _ _ S') as K.
      destruct (ev b (length G :: c) _) as [[[a|x] s']|], (ev' _ (length G :: c) _) as [[[a'|y] t']|]; try contradiction; auto.
      * destruct K as (G' & E & K). exists G'. split; [eapply ext_trans; [|exact E]; now exists [g]|exact K].
      * destruct K as (-> & G' & E & K). split; [reflexivity|]. exists G'. split; [eapply ext_trans; [|exact E]; now exists [g]|exact K].
  - destruct B as (F & FL & C & ->). rewrite forallb_forall in FL.
    set (ls := minus (flat_map stored b) (flat_map declared b)).
    assert (Us : forall x, In x (flat_map stored b) -> user x = true) by (apply (flat_user stored b stored_user (ps ++ V) F)).
    assert (Ud : forall x, In x (flat_map declared b) -> user x = true) by (apply (flat_user declared b declared_user (ps ++ V) F)).
    assert (Bs : forall en x en', look (bind_params ps en bs) x = Some en' -> mem x (ps ++ V) = true).
    { intros en x en'. rewrite look_params, mem_app. destruct (mem x ps); [reflexivity|]. destruct C as (_ & _ & _ & D & _). cbn. apply D. }
    assert (Lo : forall d' bs', (forall x en, look bs' x = Some en -> mem x (ps ++ V) = true) ->
      forall x, user x = true -> mem x ps || mem x (minus (flat_map stored (map (trs d' bs') b)) (flat_map declared (map (trs d' bs') b))) = mem x ps || mem x ls).
    { intros d' bs' H x U. rewrite (stored_all b d' bs' (ps ++ V) F H), (declared_all b d' bs' (ps ++ V) F). unfold ls. rewrite !mem_minus. unfold kept. rewrite mem_filter.
      destruct (look bs' x) as [en|] eqn:Q; [|now rewrite andb_true_r]. rewrite andb_false_r. cbn. rewrite orb_false_r.
      apply H in Q. rewrite mem_app in Q. destruct (mem x ps) eqn:M; [reflexivity|]. cbn in Q |- *.
      destruct (mem x (flat_map stored b) && negb (mem x (flat_map declared b))) eqn:Z; [|reflexivity]. rewrite <- mem_minus in Z. apply EnvProofs.mem_in in Z. apply FL in Z. rewrite M, Q in Z. discriminate Z. }
    assert (Fin : forall G1 V' d' bs' i, ext G G1 -> forallb (fines V') b = true -> ctx G1 d' bs' V' (i :: c) (fun _ => True) ->
      sim vrel G1 (mbind (xss b (i :: c)) (fun r => ret (match r with Some v => v | None => VNone end)))
        (mbind (xss' (map (trs d' bs') b) (i :: c)) (fun r => ret (match r with Some v => v | None => VNone end)))).
    { intros G1 V' d' bs' i _ F' C'. eapply sim_bind; [apply (execs_ok b G1 d' bs' V' (i :: c) F' C')|].
      intros G2 [v|] [v'|] _ R; try contradiction; apply sim_ret; [exact R|constructor]. }
    destruct ps as [|p ps].
    + destruct vals; [|discriminate Lv]. destruct vals'; [|discriminate Lv']. unfold enter. cbn [combine locals_of app]. fold ls.
      eapply sim_bind.
      * apply (alloc_sim G (mkG ls [] None)). intros i. constructor; cbn [locals params vars gl gp ge]; auto.
        -- intros x U. apply (Lo d bs); [destruct C as (_ & _ & _ & D & _); exact D|exact U].
        -- intros k. cbn. rewrite mem_minus. rewrite (stored_all b d bs V F) by (destruct C as (_ & _ & _ & D & _); exact D). unfold kept.
           rewrite mem_filter, (fresh_mem k _ Us). reflexivity.
        -- intros x U N. exact I.
      * intros G1 i j E (-> & -> & ->). apply (Fin _ V d bs); [exact E|exact F|]. apply ctx_plain; [exact C|]. intros x I. apply FL in I. cbn in I. now apply negb_true_iff in I.
    + set (q := p :: ps) in *. set (bs' := bind_params q (fresh d) bs) in *. intros s t S. destruct (SR_len _ _ _ S) as [L1 L2].
      set (ls' := q ++ minus (flat_map stored (EInit (fresh d) q :: map (trs (Datatypes.S d) bs') b)) (flat_map declared (EInit (fresh d) q :: map (trs (Datatypes.S d) bs') b))).
      assert (Els : ls' = q ++ fresh d :: minus (flat_map stored (map (trs (Datatypes.S d) bs') b)) (flat_map declared (map (trs (Datatypes.S d) bs') b))).
      { unfold ls'. f_equal. cbn [flat_map stored declared app minus filter]. unfold minus at 1. cbn [filter]. rewrite (declared_all b _ _ _ F), (fresh_mem d _ Ud). reflexivity. }
      destruct (init_prologue (frames t) (world t) c ls' q vals' (fresh d)) as (e & He & Hx); auto.
      { rewrite Els. apply in_or_app. right. now left. } { intros x I. rewrite Els. apply in_or_app. now left. }
      rewrite L2 in Hx. set (g := mkG (q ++ ls) q (Some (fresh d))).
      set (fin := fun r : option value => @ret W value (match r with Some v => v | None => VNone end)).
      assert (T1 : enter W prim true ap q vals (BS b) c s = mbind (xss b (length G :: c)) fin (mkS (frames s ++ [mkF (q ++ ls) q (combine q vals) None]) (world s))).
      { unfold enter. cbn [locals_of]. fold ls. unfold mbind at 1. unfold alloc. rewrite L1. reflexivity. }
      assert (T2 : enter W prim false ap' q vals' (BS (EInit (fresh d) q :: map (trs (Datatypes.S d) bs') b)) c t =
        mbind (xss' (map (trs (Datatypes.S d) bs') b) (length G :: c)) fin (mkS (frames t ++ [made (length G) ls' q (fresh d) vals' e]) (world t))).
      { unfold enter. change (locals_of q (BS (EInit (fresh d) q :: map (trs (Datatypes.S d) bs') b))) with ls'. unfold mbind at 1. unfold alloc. rewrite L2.
        change (xss' (EInit (fresh d) q :: map (trs (Datatypes.S d) bs') b) (length G :: c)) with
          (mbind (xs' (EInit (fresh d) q) (length G :: c)) (fun r => match r with Some v => ret (Some v) | None => xss' (map (trs (Datatypes.S d) bs') b) (length G :: c) end)).
        unfold mbind at 1. unfold mbind at 1. rewrite Hx. reflexivity. }
      rewrite T1, T2.
      assert (S' : SR (G ++ [g]) (mkS (frames s ++ [mkF (q ++ ls) q (combine q vals) None]) (world s)) (mkS (frames t ++ [made (length G) ls' q (fresh d) vals' e]) (world t))).
      { apply SR_alloc; [exact S|]. apply made_rel; auto.
        - eapply vrels_ext; [|exact Rv]. now exists [g].
        - intros x U. rewrite Els, !mem_app. rewrite <- (Lo (Datatypes.S d) bs' (Bs (fresh d)) x U). f_equal. cbn [mem existsb].
          destruct (String.eqb x (fresh d)) eqn:Q; [apply String.eqb_eq in Q; rewrite Q, fresh_user in U; discriminate U|]. reflexivity.
        - intros k. rewrite Els, mem_app. rewrite (proj2 (EnvProofs.mem_false (fresh k) q)) by (apply fresh_notin; apply Gp).
          change (String.eqb (fresh k) (fresh d) || mem (fresh k) (minus (flat_map stored (map (trs (Datatypes.S d) bs') b)) (flat_map declared (map (trs (Datatypes.S d) bs') b))) = String.eqb (fresh k) (fresh d)).
          rewrite mem_minus, (stored_all b _ _ _ F (Bs (fresh d))). unfold kept. rewrite mem_filter, (fresh_mem k _ Us). apply orb_false_r. }
      assert (C' : ctx (G ++ [g]) (Datatypes.S d) bs' (q ++ V) (length G :: c) (fun _ => True)).
      { apply ctx_params; [now apply ctx_all| |].
        - intros x I. apply in_or_app. now left.
        - intros x I. apply in_app_or in I as [I|I]; [now left|]. apply FL in I. apply orb_true_iff in I as [I|I]; [left; now apply EnvProofs.mem_in|right; now apply negb_true_iff]. }
      assert (K := Fin (G ++ [g]) (q ++ V) (Datatypes.S d) bs' (length G) (ex_intro _ [g] eq_refl) F C' _ _ S').
      fold fin in K.
      destruct (mbind (xss b (length G :: c)) fin _) as [[[a|x] s']|], (mbind (xss' _ (length G :: c)) fin _) as [[[a'|y] t']|]; try contradiction; auto.
      * destruct K as (G' & E & K). exists G'. split; [eapply ext_trans; [|exact E]; now exists [g]|exact K].
      * destruct K as (-> & G' & E & K). split; [reflexivity|]. exists G'. split; [eapply ext_trans; [|exact E]; now exists [g]|exact K].
Qed.
End Calls.
Lemma arguments_sim G ps ds ds' l l' : vrels G ds ds' -> vrels G l l' ->
  match arguments ps ds l, arguments ps ds' l' with
  | Some v, Some w => vrels G v w /\ length v = length ps
  | None, None => True
  | _, _ => False
  end.
Proof.
  intros Rd Rl. assert (Ld : length ds = length ds') by (clear - Rd; induction Rd; cbn; auto). assert (Ll : length l = length l') by (clear - Rl; induction Rl; cbn; auto).
  unfold arguments. rewrite <- Ld, <- Ll. destruct ((length l <=? length ps) && (length ps - length l <=? length ds)) eqn:Q; [|exact I].
  apply andb_true_iff in Q as [Q1 Q2]. apply Nat.leb_le in Q1, Q2. split.
  - apply Forall2_app; [exact Rl|]. generalize (length ds - (length ps - length l)). intros n. clear - Rd. revert n. induction Rd; intros [|n]; cbn; try constructor; auto.
  - rewrite app_length, skipn_length. lia.
Qed.
Lemma call_sim fuel : forall G v v' l l', vrel G v v' -> vrels G l l' -> sim vrel G (call W prim true fuel v l) (call W prim false fuel v' l').
Proof.
  induction fuel as [|fuel IH]; intros G v v' l l' Rv Rl; [intros s t S; exact I|]. cbn [call]. destruct Rv as [|z|a a' F|ps ds ds' b b' c F B]; try apply sim_raise.
  pose proof (arguments_sim G ps ds ds' l l' F Rl) as A. destruct (arguments ps ds l) as [vals|], (arguments ps ds' l') as [vals'|]; try contradiction; [|apply sim_raise].
  destruct A as [A1 A2]. apply enter_sim; auto.
Qed.
Lemma seen_rel G : forall v v', vrel G v v' -> seen v = seen v'.
Proof.
  fix go 3. intros v v' H. destruct H as [|z|l l' F|ps ds ds' b b' c F B]; try reflexivity. cbn. f_equal.
  revert l l' F. fix gos 3. intros l l' F. destruct F as [|a a' r r' Ha F]; [reflexivity|]. cbn. now rewrite (go _ _ Ha), (gos _ _ F).
Qed.
Lemma start_rel globals w : let f0 := mkF [] [] (map (fun g => (fst g, inj (snd g))) globals) None in
  SR [mkG [] [] None] (mkS [f0] w) (mkS [f0] w).
Proof.
  intros f0. split; [reflexivity|]. split; [reflexivity|]. intros [|[|i]]; cbn; auto. constructor; cbn; auto. intros x _ _. unfold f0. cbn.
  induction globals as [|[k v] gs IH]; cbn; [exact I|]. destruct (String.eqb k x); [apply vrel_inj|exact IH].
Qed.
Lemma run_sim fuel globals p w : forallb (fines []) p = true ->
  match run W prim true fuel globals p w, run W prim false fuel globals (envify fresh p) w with
  | Some (Ok a, w1), Some (Ok b, w2) => option_map seen a = option_map seen b /\ w1 = w2
  | Some (Raise x, w1), Some (Raise y, w2) => x = y /\ w1 = w2
  | None, None => True
  | _, _ => False
  end.
Proof.
  intros F. unfold run, envify. set (f0 := mkF _ _ _ _).
  assert (C : ctx [mkG [] [] None] 0 [] [] [] (fun _ => True)).
  { split; [reflexivity|]. split; [constructor|]. split; [|split; [discriminate|intros i g k []]]. intros x _ _. unfold resolves. cbn. intros g Hg. injection Hg as <-. intros []. }
  pose proof (execs_ok _ _ (call_sim fuel) p _ 0 [] [] [] F C _ _ (start_rel globals w)) as K. fold f0 in K.
  destruct (execs W prim true (call W prim true fuel) p [] _) as [[[a|x] s']|], (execs W prim false (call W prim false fuel) (map (trs 0 []) p) [] _) as [[[b|y] t']|]; try contradiction; auto.
  - destruct K as (G' & _ & S & R). split; [|apply S]. destruct a, b; try contradiction; [|reflexivity]. cbn. f_equal. now apply (seen_rel G').
  - destruct K as (-> & G' & _ & S). split; [reflexivity|apply S].
Qed.
End Sim.
