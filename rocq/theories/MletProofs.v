(** Proofs about let and do. *)
From Coq Require Import String List Bool Arith Lia ZArith.
From Verif Require Import Base BaseProofs CollModel CollProofs EnvModel MletModel MletSpec.
Import ListNotations.
Open Scope string_scope.
Open Scope list_scope.
Open Scope nat_scope.

Section Ind.
Variable P : ex -> Prop.
Hypothesis HConst : forall v, P (XConst v).
Hypothesis HVar : forall x, P (XVar x).
Hypothesis HPrim : forall o l, Forall P l -> P (XPrim o l).
Hypothesis HCall : forall f l, P f -> Forall P l -> P (XCall f l).
Hypothesis HIf : forall a b c, P a -> P b -> P c -> P (XIf a b c).
Hypothesis HLam : forall ps b, P b -> P (XLam ps b).
Hypothesis HAsgn : forall x v, P v -> P (XAsgn x v).
Hypothesis HLocal : forall a, P a -> P (XLocal a).
Hypothesis HDelete : forall a, P a -> P (XDelete a).
Hypothesis HLet : forall m bs b, Forall P bs -> P b -> P (XLet m bs b).
Hypothesis HDo : forall i l, Forall P l -> P (XDo i l).
Hypothesis HAttr : forall e x, P (XAttr e x).
Hypothesis HSet : forall d e x v, P v -> P (XSet d e x v).
Hypothesis HPop : forall e x, P (XPop e x).
Hypothesis HTLet : forall r e bs b, Forall (fun xv => P (snd xv)) bs -> P b -> P (TLet r e bs b).
Hypothesis HTDo : forall e l, Forall P l -> P (TDo e l).
Fixpoint ex_ind' (t : ex) : P t :=
  let lst := fix lst (l : list ex) : Forall P l := match l with [] => Forall_nil P | t :: l => Forall_cons t (ex_ind' t) (lst l) end in
  match t with
  | XConst v => HConst v
  | XVar x => HVar x
  | XPrim o l => HPrim o l (lst l)
  | XCall f l => HCall f l (ex_ind' f) (lst l)
  | XIf a b c => HIf a b c (ex_ind' a) (ex_ind' b) (ex_ind' c)
  | XLam ps b => HLam ps b (ex_ind' b)
  | XAsgn x v => HAsgn x v (ex_ind' v)
  | XLocal a => HLocal a (ex_ind' a)
  | XDelete a => HDelete a (ex_ind' a)
  | XLet m bs b => HLet m bs b (lst bs) (ex_ind' b)
  | XDo i l => HDo i l (lst l)
  | XAttr e x => HAttr e x
  | XSet d e x v => HSet d e x v (ex_ind' v)
  | XPop e x => HPop e x
  | TLet r e bs b =>
      HTLet r e bs b ((fix pl (l : list (string * ex)) : Forall (fun xv => P (snd xv)) l :=
        match l with [] => Forall_nil _ | xv :: l => Forall_cons xv (ex_ind' (snd xv)) (pl l) end) bs) (ex_ind' b)
  | TDo e l => HTDo e l (lst l)
  end.
End Ind.

(** ** What a program should be expanded to *)
(** The layers around an expression: parameters; a let ([def] false) or do, the name of whose environment
    is [e], with its variables and those that are being declared. *)
Inductive rl := RLam (ps : list string) | REnv (e : nat) (def : bool) (names pend : list string).
Fixpoint rd (ls : list rl) (x : string) : ex :=
  match ls with
  | [] => XVar x
  | RLam ps :: ls => if mems x ps then XVar x else rd ls x
  | REnv e _ names _ :: ls => if mems x names then XAttr e x else rd ls x
  end.
Fixpoint wr (ls : list rl) (x : string) (v : ex) : ex :=
  match ls with
  | [] => XAsgn x v
  | RLam ps :: ls => if mems x ps then XAsgn x v else wr ls x v
  | REnv e def names pend :: ls => if mems x (names ++ pend) then XSet def e x v else wr ls x v
  end.
(** Is [x] the same outside of the environments of [ls]? *)
Fixpoint free (ls : list rl) (x : string) : bool :=
  match ls with
  | [] => true
  | RLam ps :: ls => mems x ps || free ls x
  | REnv _ _ names pend :: ls => negb (mems x (names ++ pend)) && free ls x
  end.
Fixpoint ren (ls : list rl) (t : ex) {struct t} : ex :=
  match t with
  | XVar x => rd ls x
  | XAsgn x v => wr ls x (ren ls v)
  | XPrim o l => XPrim o (map (ren ls) l)
  | XCall f l => XCall (ren ls f) (map (ren ls) l)
  | XIf a b c => XIf (ren ls a) (ren ls b) (ren ls c)
  | XLam ps b => XLam ps (ren (RLam ps :: ls) b)
  | XLocal a => XLocal (ren ls a)
  | XDelete a => XDelete (ren ls a)
  | XLet m bs b => XLet m (map (ren ls) bs) (ren ls b)
  | XDo i l => XDo i (map (ren ls) l)
  | _ => t
  end.
(** the number of environments that a program makes *)
Fixpoint gs (t : ex) : nat :=
  match t with
  | XPrim _ l => list_sum (map gs l)
  | XCall f l => gs f + list_sum (map gs l)
  | XIf a b c => gs a + gs b + gs c
  | XLam _ b => gs b
  | XAsgn _ v => gs v
  | XLocal a => gs a
  | XLet MLetseq bs b => gs b + list_sum (map (fun b => S (gs b)) bs)
  | XLet _ bs b => gs b + list_sum (map gs bs) + match bs with [] => 0 | _ => 1 end
  | XDo _ l => S (list_sum (map gs l))
  | _ => 0
  end.
Definition names_of (bs : list ex) : list string := flat_map (fun b => match b with XAsgn x _ => [x] | _ => [] end) bs.
Fixpoint res (top : bool) (ls : list rl) (n : nat) (t : ex) {struct t} : ex :=
  let resl := fix resl (ls : list rl) (n : nat) (l : list ex) : list ex :=
    match l with [] => [] | t :: l => res false ls n t :: resl ls (n + gs t) l end in
  let resb := fix resb (ls : list rl) (n : nat) (l : list ex) : list (string * ex) :=
    match l with
    | [] => []
    | XAsgn x v :: l => (x, res false ls n v) :: resb ls (n + gs v) l
    | t :: l => resb ls (n + gs t) l
    end in
  match t with
  | XVar x => rd ls x
  | XAsgn x v => wr ls x (res false ls n v)
  | XPrim o l => XPrim o (resl ls n l)
  | XCall f l => XCall (res false ls n f) (resl ls (n + gs f) l)
  | XIf a b c => XIf (res false ls n a) (res false ls (n + gs a) b) (res false ls (n + gs a + gs b) c)
  | XLam ps b => XLam ps (res false (RLam ps :: ls) n b)
  | XLocal (XAsgn x v) =>
      if top then match ls with REnv e _ _ _ :: _ => XSet true e x (res true ls n v) | _ => XConst VNone end else XConst VNone
  | XDelete (XVar x) =>
      if top then match ls with REnv e _ _ _ :: _ => XPop e x | _ => XConst VNone end else XConst VNone
  | XLet MLetseq bs b =>
      (fix nest (bs : list ex) (ls : list rl) : ex :=
         match bs with
         | XAsgn x v :: bs =>
             let m := n + gs b + list_sum (map (fun b => S (gs b)) bs) in
             TLet false (m + gs v) [(x, res false ls m v)] (nest bs (REnv (m + gs v) false [x] [] :: ls))
         | _ :: bs => XConst VNone
         | [] => res false ls n b
         end) bs ls
  | XLet m bs b =>
      let e := n + gs b + list_sum (map gs bs) in
      let ls' := REnv e false (names_of bs) [] :: ls in
      let isrec := match m with MLetrec => true | _ => false end in
      match bs with
      | [] => res false ls n b
      | _ => TLet isrec e (resb (if isrec then ls' else ls) (n + gs b) bs) (res false ls' n b)
      end
  | XDo _ l =>
      TDo n ((fix items (l : list ex) (names : list string) (m : nat) : list ex :=
        match l with
        | [] => []
        | t :: l => res true (REnv n true names (declares t) :: ls) m t :: items l (next_names names t) (m + gs t)
        end) l [] (S n))
  | _ => XConst match t with XConst v => v | _ => VNone end
  end.
Fixpoint resl (ls : list rl) (n : nat) (l : list ex) : list ex :=
  match l with [] => [] | t :: l => res false ls n t :: resl ls (n + gs t) l end.
Fixpoint resb (ls : list rl) (n : nat) (l : list ex) : list (string * ex) :=
  match l with
  | [] => []
  | XAsgn x v :: l => (x, res false ls n v) :: resb ls (n + gs v) l
  | t :: l => resb ls (n + gs t) l
  end.
Definition resseq (n : nat) (b : ex) := fix nest (bs : list ex) (ls : list rl) : ex :=
  match bs with
  | XAsgn x v :: bs =>
      let m := n + gs b + list_sum (map (fun b => S (gs b)) bs) in
      TLet false (m + gs v) [(x, res false ls m v)] (nest bs (REnv (m + gs v) false [x] [] :: ls))
  | _ :: bs => XConst VNone
  | [] => res false ls n b
  end.
Definition resitems (e : nat) (ls : list rl) := fix items (l : list ex) (names : list string) (m : nat) : list ex :=
  match l with
  | [] => []
  | t :: l => res true (REnv e true names (declares t) :: ls) m t :: items l (next_names names t) (m + gs t)
  end.
Lemma res_prim top ls n o l : res top ls n (XPrim o l) = XPrim o (resl ls n l).
Proof. reflexivity. Qed.
Lemma res_call top ls n f l : res top ls n (XCall f l) = XCall (res false ls n f) (resl ls (n + gs f) l).
Proof. reflexivity. Qed.
Lemma res_let top ls n m bs b : m <> MLetseq -> bs <> [] ->
  res top ls n (XLet m bs b) =
  let e := n + gs b + list_sum (map gs bs) in
  let ls' := REnv e false (names_of bs) [] :: ls in
  let isrec := match m with MLetrec => true | _ => false end in
  TLet isrec e (resb (if isrec then ls' else ls) (n + gs b) bs) (res false ls' n b).
Proof. intros M B. destruct m; try congruence; destruct bs; try congruence; reflexivity. Qed.
Lemma res_letseq top ls n bs b : res top ls n (XLet MLetseq bs b) = resseq n b bs ls.
Proof. reflexivity. Qed.
Lemma res_do top ls n i l : res top ls n (XDo i l) = TDo n (resitems n ls l [] (S n)).
Proof. reflexivity. Qed.

(** ** Inserting a layer: the transformation of a tree that is expanded already *)
Lemma mems_app x a b : mems x (a ++ b) = mems x a || mems x b.
Proof. apply existsb_app. Qed.
Lemma mems_cons x y l : mems x (y :: l) = String.eqb x y || mems x l.
Proof. reflexivity. Qed.
Definition T (e : nat) (def : bool) (names pend : list string) (scope : list string) (t : ex) : ex :=
  tr_name names e scope (tr_assign (names ++ pend) def e scope t).
Fixpoint lamnames (ls : list rl) : list string :=
  match ls with [] => [] | RLam ps :: ls => lamnames ls ++ ps | REnv _ _ _ _ :: ls => lamnames ls end.

Lemma free_rd ls x : free ls x = true -> rd ls x = XVar x.
Proof.
  induction ls as [|[ps|e d ns pend] ls IH]; cbn; [reflexivity| |]; intros F.
  - destruct (mems x ps); [reflexivity|]. apply IH, F.
  - apply andb_prop in F as [F1 F2]. rewrite mems_app in F1. destruct (mems x ns); [discriminate F1|]. apply IH, F2.
Qed.
Lemma free_wr ls x v : free ls x = true -> wr ls x v = XAsgn x v.
Proof.
  induction ls as [|[ps|e d ns pend] ls IH]; cbn [free wr]; [reflexivity| |]; intros F.
  - destruct (mems x ps); [reflexivity|]. apply IH, F.
  - apply andb_prop in F as [F1 F2]. destruct (mems x (ns ++ pend)); [discriminate F1|]. apply IH, F2.
Qed.
Lemma wr_free ls x v y w : wr ls x v = XAsgn y w -> free ls x = true /\ y = x /\ w = v.
Proof.
  induction ls as [|[ps|e d ns pend] ls IH]; cbn [free wr]; intros E.
  - inversion E; auto.
  - destruct (mems x ps); [inversion E; auto|]. apply IH, E.
  - destruct (mems x (ns ++ pend)); [discriminate E|]. apply IH, E.
Qed.
Section Ext.
Variables (e : nat) (def : bool) (names pend : list string) (D : list rl).
Hypothesis HD : forall x, mems x (names ++ pend) = true -> free D x = true.
Let L := REnv e def names pend.

Lemma rd_ext P x : T e def names pend (lamnames P) (rd (P ++ D) x) = rd (P ++ L :: D) x.
Proof.
  unfold T. enough (H : forall sc, (forall y, mems y (lamnames P) = true -> mems y sc = true) ->
     (mems x sc = true -> mems x (lamnames P) = true) ->
     tr_name names e sc (tr_assign (names ++ pend) def e sc (rd (P ++ D) x)) = rd (P ++ L :: D) x).
  { apply H; auto. }
  induction P as [|[ps|e' d' ns pd] P IH]; intros sc S1 S2.
  - cbn in S1, S2. cbn [app]. change (rd (L :: D) x) with (if mems x names then XAttr e x else rd D x).
    destruct (mems x sc) eqn:M; [discriminate (S2 eq_refl)|].
    destruct (mems x names) eqn:N.
    + rewrite free_rd by (apply HD; rewrite mems_app, N; reflexivity). cbn. now rewrite N, M.
    + clear -N M. induction D as [|[ps|e' d' ns pd] D' IH]; cbn [rd].
      * cbn. now rewrite N.
      * destruct (mems x ps); [cbn; now rewrite N|exact IH].
      * destruct (mems x ns); [reflexivity|exact IH].
  - cbn [lamnames app rd] in *. destruct (mems x ps) eqn:M.
    + cbn. rewrite S1 by (rewrite mems_app, M; apply orb_true_r). now rewrite andb_false_r.
    + apply IH.
      * intros y My. apply S1. rewrite mems_app, My. reflexivity.
      * intros K. specialize (S2 K). rewrite mems_app, M, orb_false_r in S2. exact S2.
  - cbn [lamnames app rd] in *. destruct (mems x ns); [reflexivity|]. apply IH; auto.
Qed.
Lemma wr_ext P x v : T e def names pend (lamnames P) (wr (P ++ D) x v) = wr (P ++ L :: D) x (T e def names pend (lamnames P) v).
Proof.
  unfold T at 2. set (v' := T e def names pend (lamnames P) v).
  unfold T at 1.
  enough (H : forall sc, (forall y, mems y (lamnames P) = true -> mems y sc = true) ->
     (mems x sc = true -> mems x (lamnames P) = true) -> T e def names pend sc v = v' ->
     tr_name names e sc (tr_assign (names ++ pend) def e sc (wr (P ++ D) x v)) = wr (P ++ L :: D) x v').
  { apply H; auto. }
  clearbody v'. induction P as [|[ps|e' d' ns pd] P IH]; intros sc S1 S2 E.
  - cbn in S1, S2. cbn [app]. change (wr (L :: D) x v') with (if mems x (names ++ pend) then XSet def e x v' else wr D x v').
    destruct (mems x sc) eqn:M; [discriminate (S2 eq_refl)|].
    destruct (mems x (names ++ pend)) eqn:N.
    + rewrite free_wr by (apply HD, N). cbn [tr_assign]. rewrite N, M. cbn. f_equal. exact E.
    + clear -N M E. induction D as [|[ps|e' d' ns pd] D' IH]; cbn [wr].
      * cbn [tr_assign]. rewrite N. cbn. f_equal. exact E.
      * destruct (mems x ps); [cbn [tr_assign]; rewrite N; cbn; f_equal; exact E|exact IH].
      * destruct (mems x (ns ++ pd)); [|exact IH]. cbn. f_equal. exact E.
  - cbn [lamnames app wr] in *. destruct (mems x ps) eqn:M.
    + cbn [tr_assign]. rewrite (S1 x) by (rewrite mems_app, M; apply orb_true_r). rewrite andb_false_r. cbn. f_equal. exact E.
    + apply IH; auto.
      * intros y My. apply S1. rewrite mems_app, My. reflexivity.
      * intros K. specialize (S2 K). rewrite mems_app, M, orb_false_r in S2. exact S2.
  - cbn [lamnames app wr] in *. destruct (mems x (ns ++ pd)); [cbn; f_equal; exact E|]. apply IH; auto.
Qed.

(** no target nodes *)
Fixpoint user (t : ex) : bool :=
  match t with
  | XConst _ | XVar _ => true
  | XPrim _ l | XDo _ l => forallb user l
  | XCall f l => user f && forallb user l
  | XIf a b c => user a && user b && user c
  | XLam _ b | XAsgn _ b | XLocal b | XDelete b => user b
  | XLet _ bs b => forallb user bs && user b
  | _ => false
  end.
Lemma map_T sc l : map (tr_name names e sc) (map (tr_assign (names ++ pend) def e sc) l) = map (T e def names pend sc) l.
Proof. rewrite map_map. reflexivity. Qed.
Ltac bools := repeat match goal with H : _ && _ = true |- _ => apply andb_prop in H as [? ?] end.
Lemma map_ext_user (f : ex -> ex) (g : ex -> ex) l : Forall (fun t => user t = true -> f t = g t) l -> forallb user l = true -> map f l = map g l.
Proof.
  induction 1 as [|t l H _ IH]; intros U; [reflexivity|]. cbn in U. apply andb_prop in U as [U1 U2]. cbn. rewrite H, IH; auto.
Qed.

Lemma ren_ext s : user s = true -> forall P, T e def names pend (lamnames P) (ren (P ++ D) s) = ren (P ++ L :: D) s.
Proof.
  induction s using ex_ind'; intros U P; cbn [user] in U; bools; try discriminate U; cbn [ren].
  - reflexivity.
  - apply rd_ext.
  - unfold T. cbn. f_equal. rewrite map_T, map_map. apply map_ext_user; auto.
    eapply Forall_impl; [|exact H]. cbn. intros a IH Ua. apply IH, Ua.
  - unfold T. cbn. f_equal; [apply IHs; auto|]. rewrite map_T, map_map. apply map_ext_user; auto.
    eapply Forall_impl; [|exact H]. cbn. intros a IH Ua. apply IH, Ua.
  - unfold T. cbn. f_equal; auto; [apply IHs1|apply IHs2|apply IHs3]; auto.
  - unfold T. cbn. f_equal. apply (IHs U (RLam ps :: P)).
  - rewrite wr_ext, IHs; auto.
  - unfold T. cbn. f_equal. apply IHs; auto.
  - unfold T. cbn. f_equal. apply IHs; auto.
  - unfold T. cbn. f_equal; [|apply IHs; auto]. rewrite map_T, map_map. apply map_ext_user; auto.
    eapply Forall_impl; [|exact H]. cbn. intros a IH Ua. apply IH, Ua.
  - unfold T. cbn. f_equal. rewrite map_T, map_map. apply map_ext_user; auto.
    eapply Forall_impl; [|exact H]. cbn. intros a IH Ua. apply IH, Ua.
Qed.

Definition ext_at (s : ex) : Prop := user s = true -> forall top P n, (top = true -> P <> []) ->
  T e def names pend (lamnames P) (res top (P ++ D) n s) = res top (P ++ L :: D) n s.
Definition ext2 (s : ex) : Prop := ext_at s /\ match s with XAsgn _ v => ext_at v | _ => True end.
Lemma resl_ext l : Forall ext2 l -> forallb user l = true -> forall P n,
  map (T e def names pend (lamnames P)) (resl (P ++ D) n l) = resl (P ++ L :: D) n l.
Proof.
  induction 1 as [|t l [H _] _ IH]; intros U P n; [reflexivity|]. cbn in U. apply andb_prop in U as [U1 U2].
  cbn. rewrite H, IH by (auto; discriminate). reflexivity.
Qed.
Lemma resb_ext l : Forall ext2 l -> forallb user l = true -> forall P n,
  map (fun xv => (fst xv, T e def names pend (lamnames P) (snd xv))) (resb (P ++ D) n l) = resb (P ++ L :: D) n l.
Proof.
  induction 1 as [|t l H _ IH]; intros U P n; [reflexivity|]. cbn in U. apply andb_prop in U as [U1 U2].
  destruct t; cbn [resb]; auto. cbn. rewrite IH by auto. do 2 f_equal. apply H; auto. discriminate.
Qed.
Lemma resitems_ext l : Forall ext2 l -> forallb user l = true -> forall e' P ns m,
  map (T e def names pend (lamnames P)) (resitems e' (P ++ D) l ns m) = resitems e' (P ++ L :: D) l ns m.
Proof.
  induction 1 as [|t l [H _] _ IH]; intros U e' P ns m; [reflexivity|]. cbn in U. apply andb_prop in U as [U1 U2].
  cbn [resitems]. cbn [map]. rewrite IH by auto. f_equal.
  apply (H U1 true (REnv e' true ns (declares t) :: P) m). discriminate.
Qed.
Lemma resseq_ext bs b : Forall ext2 bs -> ext_at b -> forallb user bs = true -> user b = true -> forall P n,
  T e def names pend (lamnames P) (resseq n b bs (P ++ D)) = resseq n b bs (P ++ L :: D).
Proof.
  intros HB Hb UB Ub P n. revert UB P. induction HB as [|t bs H HB IH]; intros U P.
  - apply Hb; auto; discriminate.
  - cbn in U. apply andb_prop in U as [U1 U2]. cbn [resseq]. destruct t; try reflexivity.
    cbn zeta. set (m := n + gs b + _). unfold T. cbn [tr_assign tr_name map fst snd].
    f_equal; [do 2 f_equal; apply H; auto; discriminate|].
    exact (IH U2 (REnv (m + gs t) false [x] [] :: P)).
Qed.
Lemma map_T2 sc bs : map (fun xv => (fst xv, tr_name names e sc (snd xv))) (map (fun xv : string * ex => (fst xv, tr_assign (names ++ pend) def e sc (snd xv))) bs) =
  map (fun xv => (fst xv, T e def names pend sc (snd xv))) bs.
Proof. rewrite map_map. reflexivity. Qed.
Lemma res_ext2 s : ext2 s.
Proof.
  induction s using ex_ind'; (split; [|try exact I]).
  all: try (intros U top P n HP; cbn [user] in U; bools; try discriminate U).
  - reflexivity.
  - apply rd_ext.
  - rewrite !res_prim. unfold T. cbn. rewrite map_T, resl_ext by auto. reflexivity.
  - rewrite !res_call. unfold T. cbn. rewrite map_T, resl_ext by auto. f_equal. apply IHs; auto. discriminate.
  - cbn [res]. unfold T. cbn. f_equal; [apply IHs1|apply IHs2|apply IHs3]; auto; discriminate.
  - cbn [res]. unfold T. cbn. f_equal. apply (proj1 IHs U false (RLam ps :: P)). discriminate.
  - cbn [res]. rewrite wr_ext, (proj1 IHs) by (auto; discriminate). reflexivity.
  - apply (proj1 IHs); auto.
  - destruct s; try reflexivity. cbn [res]. destruct top; [|reflexivity].
    destruct P as [|[|e0 d0 ns0 pd0] P]; [now destruct HP|reflexivity|]. cbn [app]. unfold T. cbn. f_equal.
    apply (proj2 IHs U true (REnv e0 d0 ns0 pd0 :: P)). discriminate.
  - destruct s; try reflexivity. cbn [res]. destruct top; [|reflexivity].
    destruct P as [|[|] P]; [now destruct HP|reflexivity|reflexivity].
  - destruct (list_eq_dec Nat.eq_dec (map (fun _ => 0) bs) []) as [B|B].
    + destruct bs; [|discriminate B]. destruct m; apply IHs; auto; discriminate.
    + assert (B' : bs <> []) by (intros ->; now apply B).
      destruct m; [|rewrite !res_letseq; apply resseq_ext; auto; apply IHs|];
      rewrite !res_let by (auto; discriminate); cbn zeta; unfold T; cbn [tr_assign tr_name]; rewrite map_T2; f_equal.
      * apply resb_ext; auto.
      * apply (proj1 IHs H1 false (REnv _ false (names_of bs) [] :: P)). discriminate.
      * apply (resb_ext bs H H0 (REnv _ false (names_of bs) [] :: P)).
      * apply (proj1 IHs H1 false (REnv _ false (names_of bs) [] :: P)). discriminate.
  - rewrite !res_do. unfold T. cbn. rewrite map_T, resitems_ext by auto. reflexivity.
Qed.
Lemma res_ext s : ext_at s.
Proof. apply res_ext2. Qed.
End Ext.

(** ** The expander does that *)
Lemma rd_cases D x : rd D x = XVar x \/ exists e, rd D x = XAttr e x.
Proof.
  induction D as [|[ps|e d ns pd] D IH]; cbn; auto.
  - destruct (mems x ps); auto.
  - destruct (mems x ns); eauto.
Qed.
Lemma wr_cases D x v : wr D x v = XAsgn x v \/ exists d e, wr D x v = XSet d e x v.
Proof.
  induction D as [|[ps|e d ns pd] D IH]; cbn [wr]; auto.
  - destruct (mems x ps); auto.
  - destruct (mems x (ns ++ pd)); eauto.
Qed.
Lemma wr_shape D x : (forall v, wr D x v = XAsgn x v) \/ exists d e, forall v, wr D x v = XSet d e x v.
Proof.
  induction D as [|[ps|e d ns pd] D IH]; cbn [wr]; auto.
  - destruct (mems x ps); auto.
  - destruct (mems x (ns ++ pd)); eauto.
Qed.
Ltac rdwr D :=
  lazymatch goal with
  | H : rd D ?x = _ |- _ => let E := fresh in destruct (rd_cases D x) as [E|[? E]]; rewrite E in H; discriminate H
  | H : wr D ?x ?v = _ |- _ => let E := fresh in destruct (wr_cases D x v) as [E|(? & ? & E)]; rewrite E in H; discriminate H
  end.
Lemma ren_asgn D a x v' : user a = true -> ren D a = XAsgn x v' -> exists v, a = XAsgn x v /\ free D x = true /\ v' = ren D v.
Proof.
  intros U E. destruct a; cbn [ren] in E; try discriminate E; try (rdwr D; fail).
  apply wr_free in E as (F & -> & ->). eauto.
Qed.
Lemma ren_var D a x : user a = true -> ren D a = XVar x -> a = XVar x.
Proof.
  intros U E. destruct a; cbn [ren] in E; try discriminate E.
  - destruct (rd_cases D x0) as [K|[? K]]; rewrite K in E; now inversion E.
  - destruct (wr_cases D x0 (ren D a)) as [K|(? & ? & K)]; rewrite K in E; discriminate E.
Qed.
Lemma ren_local D t a' : user t = true -> ren D t = XLocal a' -> exists a, t = XLocal a /\ a' = ren D a.
Proof.
  intros U E. destruct t; cbn [ren] in E; try discriminate E; try (rdwr D; fail). inversion E. eauto.
Qed.
Lemma ren_delete D t a' : user t = true -> ren D t = XDelete a' -> exists a, t = XDelete a /\ a' = ren D a.
Proof.
  intros U E. destruct t; cbn [ren] in E; try discriminate E; try (rdwr D; fail). inversion E. eauto.
Qed.
Definition is_local (t : ex) : bool := match t with XLocal _ => true | _ => false end.
Definition is_delete (t : ex) : bool := match t with XDelete _ => true | _ => false end.
Lemma is_local_ren D t : user t = true -> is_local (ren D t) = is_local t.
Proof.
  intros U. destruct t; cbn [ren is_local]; auto; [destruct (rd_cases D x) as [K|[? K]]|destruct (wr_cases D x (ren D t)) as [K|(? & ? & K)]]; now rewrite K.
Qed.
Lemma is_delete_ren D t : user t = true -> is_delete (ren D t) = is_delete t.
Proof.
  intros U. destruct t; cbn [ren is_delete]; auto; [destruct (rd_cases D x) as [K|[? K]]|destruct (wr_cases D x (ren D t)) as [K|(? & ? & K)]]; now rewrite K.
Qed.
Lemma localdefs_other t : is_local t = false -> localdefs t = Ok (t, []).
Proof. destruct t; try discriminate; reflexivity. Qed.
Lemma deletes_other e t : is_delete t = false -> deletes e t = Ok (t, []).
Proof. destruct t; try discriminate; reflexivity. Qed.
Lemma res_top ls n t : is_local t = false -> is_delete t = false -> res true ls n t = res false ls n t.
Proof. destruct t; try discriminate; reflexivity. Qed.
Lemma obind_ok {A B} (o : outcome A) (f : A -> outcome B) b : obind o f = Ok b -> exists a, o = Ok a /\ f a = Ok b.
Proof. destruct o; [eauto|discriminate]. Qed.
Lemma bind_ok {A B} (o : option (outcome A)) (f : A -> option (outcome B)) b :
  bind o f = Some (Ok b) -> exists a, o = Some (Ok a) /\ f a = Some (Ok b).
Proof. destruct o as [[a|x]|]; try discriminate. eauto. Qed.

Lemma sum_cons a l : list_sum (a :: l) = a + list_sum l.
Proof. reflexivity. Qed.
Definition Egood (k : nat) : Prop := forall n s D t n', user s = true ->
  expand k n (ren D s) = Some (Ok (t, n')) -> t = res false D n s /\ n' = n + gs s.

Lemma expand_list_good k (IH : Egood k) : forall l n D r n', forallb user l = true ->
  expand_list (expand k) n (map (ren D) l) = Some (Ok (r, n')) -> r = resl D n l /\ n' = n + list_sum (map gs l).
Proof.
  induction l as [|t l IHl]; intros n D r n' U E.
  - inversion E. cbn. auto.
  - cbn in U. apply andb_prop in U as [U1 U2]. cbn [map expand_list] in E.
    apply bind_ok in E as ([t1 n1] & E1 & E). apply bind_ok in E as ([r1 n2] & E2 & E). cbn [fst snd] in *. inversion E; subst.
    apply IH in E1 as [-> ->]; auto. apply IHl in E2 as [-> ->]; auto. cbn [map]. rewrite sum_cons. split; [reflexivity|lia].
Qed.

Section Fuel.
Variable k : nat.
Hypothesis IH : forall k', k' <= k -> Egood k'.
Definition chain_at (t : ex) : Prop := user t = true -> forall D t1 new, localdefs (ren D t) = Ok (t1, new) ->
  new = declares t /\ (forall x, mems x new = true -> free D x = true) /\
  (is_delete t1 = is_delete t) /\
  forall k' e names pend m r m', k' <= k -> (forall x, mems x (names ++ pend) = true -> free D x = true) ->
    (forall x, mems x new = true -> mems x (names ++ pend) = true) ->
    expand k' m (T e true names pend [] t1) = Some (Ok (r, m')) ->
    r = res true (REnv e true names pend :: D) m t /\ m' = m + gs t.
Lemma chain_other t : user t = true -> is_local t = false -> forall D,
  forall k' e names pend m r m', k' <= k -> (forall x, mems x (names ++ pend) = true -> free D x = true) ->
    expand k' m (T e true names pend [] (ren D t)) = Some (Ok (r, m')) ->
    r = res true (REnv e true names pend :: D) m t /\ m' = m + gs t.
Proof.
  intros U N D k' e names pend m r m' Hk HD E.
  destruct (is_delete t) eqn:Dl.
  { destruct t; try discriminate Dl. cbn in E. destruct k'; discriminate E. }
  pose proof (ren_ext e true names pend D HD t U []) as R. cbn [app lamnames] in R. rewrite R in E.
  apply IH in E; auto. now rewrite res_top.
Qed.
Lemma chain_none t : is_local t = false -> chain_at t.
Proof.
  intros N U D t1 new E. rewrite localdefs_other in E by (now rewrite is_local_ren). inversion E; subst.
  split; [destruct t; try discriminate N; reflexivity|]. split; [cbn; discriminate|]. split; [apply is_delete_ren, U|].
  intros k' e0 names pend m0 r m' Hk HD _ E0. eapply chain_other; eauto.
Qed.
Lemma chain t : chain_at t /\ match t with XAsgn _ v => chain_at v | _ => True end.
Proof.
  induction t using ex_ind'; (split; [|try exact I]).
  all: try (apply chain_none; reflexivity).
  - apply IHt.
  - intros U D t1 new E. cbn [user] in U.
 cbn [ren localdefs] in E. destruct (ren D t) eqn:R; try discriminate E.
    apply ren_asgn in R as (v & -> & F & ->); [|exact U]. cbn [user] in U.
    apply obind_ok in E as ([t1' new'] & E1 & E). cbn [fst snd] in E. inversion E; subst. clear E.
    destruct IHt as [_ IHt]. destruct (IHt U D t1' new' E1) as (-> & FF & _ & K).
    split; [reflexivity|]. split; [|split; [reflexivity|]].
    + intros y. cbn. destruct (String.eqb_spec y x) as [->|]; auto. 
    + intros k' e names pend m r m' Hk HD HN E. unfold T in E. cbn [tr_assign] in E.
      rewrite HN in E by (cbn; now rewrite String.eqb_refl). cbn [mems existsb negb andb] in E. cbn [tr_name] in E.
      destruct k'; [discriminate E|]. cbn [expand] in E.
      apply bind_ok in E as ([v' m1] & E & E'). cbn [fst snd] in E'. inversion E'; subst. clear E'.
      destruct (K k' e names pend m v' m' ltac:(lia) HD) as [-> ->]; auto.
      intros y My. apply HN. rewrite mems_cons, My. apply orb_true_r.
Qed.
Lemma filter_all l : filter (fun x => negb (mems x [])) l = l.
Proof. induction l as [|a l H]; cbn; [reflexivity|]. now f_equal. Qed.
Lemma mems_filter x f l : mems x (filter f l) = true -> mems x l = true.
Proof.
  unfold mems. rewrite !existsb_exists. intros (y & I & E). apply filter_In in I as [I _]. eauto.
Qed.
Lemma lines l : forall names n D l', forallb user l = true -> (forall x, mems x names = true -> free D x = true) ->
  do_lines n names (map (ren D) l) = Ok l' ->
  forall m r m', expand_list (expand k) m l' = Some (Ok (r, m')) ->
  r = resitems n D l names m /\ m' = m + list_sum (map gs l).
Proof.
  induction l as [|t l IHl]; intros names n D l' U F E m r m' X.
  - inversion E; subst. inversion X; subst. cbn. auto.
  - cbn in U. apply andb_prop in U as [U1 U2]. cbn [map do_lines] in E.
    apply obind_ok in E as ([t1 new] & E1 & E). apply obind_ok in E as ([t2 del] & E2 & E).
    destruct (proj1 (chain t) U1 D t1 new E1) as (-> & FN & DL & K).
    destruct (match declares t, del with _ :: _, _ :: _ => true | _, _ => false end); [discriminate E|].
    destruct (existsb _ (declares t)); [discriminate E|]. destruct (stray t2); [discriminate E|].
    cbn zeta in E. apply obind_ok in E as (l1 & E3 & E). inversion E; subst. clear E.
    cbn [expand_list] in X. apply bind_ok in X as ([r1 m1] & X1 & X). apply bind_ok in X as ([r2 m2] & X2 & X).
    cbn [fst snd] in *. inversion X; subst. clear X.
    assert (NN : filter (fun x => negb (mems x del)) (names ++ declares t) = next_names names t /\
                 r1 = res true (REnv n true names (declares t) :: D) m t /\ m1 = m + gs t).
    { destruct (is_delete t) eqn:Dl.
      - destruct t; try discriminate Dl. cbn [ren] in E1. inversion E1; subst. cbn [deletes] in E2.
        destruct (ren D t) eqn:R; try discriminate E2. apply ren_var in R as ->; [|exact U1]. inversion E2; subst.
        split; [reflexivity|]. cbn in X1. destruct k; [discriminate X1|]. cbn in X1. inversion X1; subst. cbn. auto.
      - rewrite deletes_other in E2 by congruence. inversion E2; subst. split.
        + rewrite filter_all. unfold next_names. destruct t; try discriminate Dl; cbn [discards]; now rewrite filter_all.
        + rewrite filter_all in X1. change (letlike n (names ++ declares t) names true t2) with (T n true names (declares t) [] t2) in X1.
          eapply K; [apply le_n| | |exact X1].
          * intros x. rewrite mems_app. intros M. apply orb_prop in M as [M|M]; auto.
          * intros x M. rewrite mems_app, M. apply orb_true_r. }
    destruct NN as (N1 & -> & ->). rewrite N1 in E3.
    eapply IHl in E3; [|exact U2| |exact X2].
    + destruct E3 as [-> ->]. cbn [resitems map]. rewrite sum_cons. split; [reflexivity|lia].
    + intros x M. apply mems_filter in M. rewrite mems_app in M. apply orb_prop in M as [M|M]; auto.
Qed.
End Fuel.

Lemma canonize_ren D bs nbs : forallb user bs = true -> canonize (map (ren D) bs) = Ok nbs ->
  exists xs vs, bs = map (fun xv => XAsgn (fst xv) (snd xv)) (combine xs vs) /\ length xs = length vs /\
    nbs = combine xs (map (ren D) vs) /\ names_of bs = xs /\ forallb user vs = true /\ forall x, mems x xs = true -> free D x = true.
Proof.
  revert nbs. induction bs as [|b bs IHb]; intros nbs U E.
  - inversion E. exists [], []. repeat split; auto; discriminate.
  - cbn in U. apply andb_prop in U as [U1 U2]. cbn [map canonize] in E.
    destruct (ren D b) eqn:R; try discriminate E. apply obind_ok in E as (nb & E & E'). inversion E'; subst. clear E'.
    apply ren_asgn in R as (v' & -> & F & ->); [|exact U1].
    destruct (IHb nb U2 E) as (xs & vs & -> & Len & -> & N & UV & FF). exists (x :: xs), (v' :: vs).
    split; [reflexivity|]. split; [cbn; congruence|]. split; [reflexivity|]. split; [exact (f_equal (cons x) N)|]. split.
    + cbn in *. now rewrite U1.
    + intros y. rewrite mems_cons. destruct (String.eqb_spec y x) as [->|]; cbn; auto.
Qed.
Lemma resb_resl ls : forall xs vs n, length xs = length vs ->
  resb ls n (map (fun xv => XAsgn (fst xv) (snd xv)) (combine xs vs)) = combine xs (resl ls n vs).
Proof.
  induction xs as [|x xs IHx]; intros [|v vs] n L; try discriminate L; [reflexivity|]. cbn. f_equal. apply IHx. now inversion L.
Qed.
Lemma gs_bs : forall xs vs, length xs = length vs -> map gs (map (fun xv => XAsgn (fst xv) (snd xv)) (combine xs vs)) = map gs vs.
Proof. induction xs as [|x xs IHx]; intros [|v vs] L; try discriminate L; [reflexivity|]. cbn. f_equal. apply IHx. now inversion L. Qed.
Lemma map_snd_combine {A B} : forall (xs : list A) (vs : list B), length xs = length vs -> map snd (combine xs vs) = vs.
Proof. induction xs as [|x xs IHx]; intros [|v vs] L; try discriminate L; [reflexivity|]. cbn. f_equal. apply IHx. now inversion L. Qed.
Lemma map_fst_combine {A B} : forall (xs : list A) (vs : list B), length xs = length vs -> map fst (combine xs vs) = xs.
Proof. induction xs as [|x xs IHx]; intros [|v vs] L; try discriminate L; [reflexivity|]. cbn. f_equal. apply IHx. now inversion L. Qed.
Lemma forallb_user_resl_ext e D names l n : (forall x, mems x names = true -> free D x = true) -> forallb user l = true ->
  map (letlike e names names false) (resl D n l) = resl (REnv e false names [] :: D) n l.
Proof.
  intros F U. pose proof (fun H => resl_ext e false names [] D l H U [] n) as R. cbn [app lamnames] in R. rewrite <- R.
  - apply map_ext. intros t. unfold T, letlike. now rewrite app_nil_r.
  - apply Forall_forall. intros t _. apply res_ext2. intros x. rewrite app_nil_r. apply F.
Qed.
Lemma letlike_res e D names b n : (forall x, mems x names = true -> free D x = true) -> user b = true ->
  letlike e names names false (res false D n b) = res false (REnv e false names [] :: D) n b.
Proof.
  intros F U. assert (F' : forall x, mems x (names ++ []) = true -> free D x = true) by (intros x; rewrite app_nil_r; apply F).
  pose proof (res_ext e false names [] D F' b U false [] n ltac:(discriminate)) as R. cbn [app lamnames] in R. rewrite <- R.
  unfold T, letlike. now rewrite app_nil_r.
Qed.

Lemma expand_let k (IH : Egood k) m bs b D n t n' : m <> MLetseq -> bs <> [] -> forallb user bs = true -> user b = true ->
  expand (S k) n (ren D (XLet m bs b)) = Some (Ok (t, n')) -> t = res false D n (XLet m bs b) /\ n' = n + gs (XLet m bs b).
Proof.
  intros M NB UB Ub E. cbn [ren expand] in E.
  apply bind_ok in E as (nbs & C & E). injection C as C. apply canonize_ren in C as (xs & vs & -> & Len & -> & N & UV & F); [|exact UB].
  assert (NX : xs <> []) by (intros ->; destruct vs; [now apply NB|discriminate Len]).
  rewrite res_let by auto. cbn zeta. rewrite N, gs_bs by exact Len.
  assert (E' : bind (expand k n (ren D b)) (fun q =>
     bind (expand_list (expand k) (snd q) (map (ren D) vs)) (fun r =>
       let e := snd r in
       let isrec := match m with MLetrec => true | _ => false end in
       let tr := letlike e xs xs false in
       Some (Ok (TLet isrec e (combine xs (if isrec then map tr (fst r) else fst r)) (tr (fst q)), S e)))) = Some (Ok (t, n'))).
  { destruct m; [|now destruct M|];
      (destruct xs as [|x xs]; [now destruct NX|]; destruct vs as [|v vs]; [discriminate Len|]; cbn [combine map] in E |- *;
       rewrite map_snd_combine, map_fst_combine in E by (rewrite map_length; now inversion Len); exact E). }
  clear E. apply bind_ok in E' as ([b1 n1] & E1 & E). apply bind_ok in E as ([r n2] & E2 & E). cbn [fst snd] in *.
  apply IH in E1 as [-> ->]; [|exact Ub]. apply (expand_list_good k IH) in E2 as [-> ->]; [|exact UV].
  assert (G : gs (XLet m (map (fun xv => XAsgn (fst xv) (snd xv)) (combine xs vs)) b) = gs b + list_sum (map gs vs) + 1).
  { destruct xs as [|x xs]; [now destruct NX|]. destruct vs as [|v vs]; [discriminate Len|].
    rewrite <- (gs_bs (x :: xs) (v :: vs)) by exact Len. destruct m; [reflexivity|now destruct M|reflexivity]. }
  rewrite G. inversion E; subst t n'. split; [|lia].
  rewrite letlike_res by auto. rewrite resb_resl by exact Len.
  destruct m; [reflexivity|now destruct M|]. rewrite forallb_user_resl_ext by auto. reflexivity.
Qed.
Lemma user_bs xs vs : length xs = length vs -> forallb user (map (fun xv => XAsgn (fst xv) (snd xv)) (combine xs vs)) = forallb user vs.
Proof.
  revert vs. induction xs as [|x xs IHx]; intros [|v vs] L; try discriminate L; [reflexivity|]. cbn. f_equal. apply IHx. now inversion L.
Qed.
Theorem expand_good k : Egood k.
Proof.
  assert (H : forall k', k' <= k -> Egood k'); [|apply H, le_n].
  induction k as [|k0 IH]; intros k' Hk.
  { assert (k' = 0) as -> by lia. intros n s D t n' _ E. discriminate E. }
  destruct (Nat.eq_dec k' (S k0)) as [->|]; [|apply IH; lia]. clear Hk.
  pose proof (IH k0 (le_n _)) as IHk.
  intros n s D t n' U E.
  destruct s; cbn [user] in U; try discriminate U; repeat match goal with H : _ && _ = true |- _ => apply andb_prop in H as [? ?] end;
    try (cbn [ren expand] in E; discriminate E).
  - cbn in E. inversion E. cbn. auto.
  - cbn [ren] in E. assert (E' : Some (Ok (rd D x, n)) = Some (Ok (t, n'))).
    { destruct (rd_cases D x) as [K|[? K]]; rewrite K in *; exact E. }
    inversion E'. cbn. auto.
  - cbn [ren expand] in E. apply bind_ok in E as ([r m] & E1 & E). cbn [fst snd] in E. inversion E; subst.
    apply (expand_list_good k0 IHk) in E1 as [-> ->]; auto.
  - cbn [ren expand] in E. apply bind_ok in E as ([q m] & E1 & E). apply bind_ok in E as ([r m'] & E2 & E). cbn [fst snd] in *. inversion E; subst.
    apply IHk in E1 as [-> ->]; auto. apply (expand_list_good k0 IHk) in E2 as [-> ->]; auto. rewrite res_call. cbn [gs]. split; [reflexivity|lia].
  - cbn [ren expand] in E. apply bind_ok in E as ([q1 m1] & E1 & E). apply bind_ok in E as ([q2 m2] & E2 & E). apply bind_ok in E as ([q3 m3] & E3 & E).
    cbn [fst snd] in *. inversion E; subst.
    apply IHk in E1 as [-> ->]; auto. apply IHk in E2 as [-> ->]; auto. apply IHk in E3 as [-> ->]; auto. cbn [res gs]. split; [reflexivity|lia].
  - cbn [ren expand] in E. apply bind_ok in E as ([q1 m1] & E1 & E). cbn [fst snd] in *. inversion E; subst.
    apply IHk in E1 as [-> ->]; auto.
  - cbn [ren] in E. assert (E' : bind (expand k0 n (ren D s)) (fun q => Some (Ok (wr D x (fst q), snd q))) = Some (Ok (t, n'))).
    { destruct (wr_shape D x) as [K|(d & e & K)]; rewrite K in E; cbn [expand] in E; apply bind_ok in E as (q & E1 & E);
        rewrite E1; cbn [bind]; rewrite K; exact E. }
    apply bind_ok in E' as ([q m] & E1 & E'). cbn [fst snd] in E'. inversion E'; subst. apply IHk in E1 as [-> ->]; auto.
  - destruct (list_eq_dec Nat.eq_dec (map (fun _ => 0) bs) []) as [B|B].
    { destruct bs; [|discriminate B]. cbn [ren map expand canonize bind] in E. destruct m.
      - apply bind_ok in E as ([q m] & E1 & E). cbn [fst snd] in *. inversion E; subst. apply IHk in E1 as [-> ->]; auto. cbn. split; [reflexivity|lia].
      - apply IHk in E as [-> ->]; auto. cbn. split; [reflexivity|lia].
      - apply bind_ok in E as ([q m] & E1 & E). cbn [fst snd] in *. inversion E; subst. apply IHk in E1 as [-> ->]; auto. cbn. split; [reflexivity|lia]. }
    assert (NB : bs <> []) by (intros ->; now apply B). clear B.
    destruct m; [apply (expand_let k0 IHk); auto; discriminate| |apply (expand_let k0 IHk); auto; discriminate].
    cbn [ren expand] in E. apply bind_ok in E as (nbs & C & E). injection C as C.
    apply canonize_ren in C as (xs & vs & -> & Len & -> & N & UV & F); [|assumption].
    destruct xs as [|x xs]; [destruct vs; [now destruct NB|discriminate Len]|]. destruct vs as [|v vs]; [discriminate Len|].
    cbn [forallb] in UV. apply andb_prop in UV as [Uv UV]. cbn [map combine] in E.
    assert (Fx : free D x = true) by (apply F; rewrite mems_cons, String.eqb_refl; reflexivity).
    destruct xs as [|y xs].
    + destruct vs; [|discriminate Len]. cbn [combine map] in E.
      change (XLet MLet [XAsgn x (ren D v)] (ren D s)) with (XLet MLet [XAsgn x (ren D v)] (ren D s)) in E.
      assert (E' : expand k0 n (ren D (XLet MLet [XAsgn x v] s)) = Some (Ok (t, n'))).
      { cbn [ren map]. rewrite free_wr by exact Fx. exact E. }
      apply IHk in E' as [-> ->]; [|cbn; now rewrite Uv]. cbn [combine map fst snd]. rewrite res_let by discriminate. rewrite res_letseq. cbn.
      split; [|lia]. replace (n + gs s + (gs v + 0)) with (n + gs s + 0 + gs v) by lia. replace (n + gs s + 0) with (n + gs s) by lia. reflexivity.
    + destruct vs as [|w vs]; [discriminate Len|]. cbn [combine map] in E.
      set (rest := map (fun xv => XAsgn (fst xv) (snd xv)) (combine (y :: xs) (w :: vs))).
      assert (E' : expand k0 n (ren D (XLet MLet [XAsgn x v] (XLet MLetseq rest s))) = Some (Ok (t, n'))).
      { cbn [ren map]. rewrite free_wr by exact Fx. rewrite <- E. do 3 f_equal.
        unfold rest. clear -F Len. injection Len as Len.
        assert (G : forall xs vs, length xs = length vs -> (forall z, mems z xs = true -> free D z = true) ->
           map (ren D) (map (fun xv => XAsgn (fst xv) (snd xv)) (combine xs vs)) = map (fun xv => XAsgn (fst xv) (snd xv)) (combine xs (map (ren D) vs))).
        { clear. induction xs as [|a xs IHx]; intros [|c vs] L F; try discriminate L; [reflexivity|]. cbn [combine map fst snd ren].
          rewrite free_wr by (apply F; rewrite mems_cons, String.eqb_refl; reflexivity). f_equal. apply IHx; [now inversion L|].
          intros z Z. apply F. rewrite mems_cons, Z. apply orb_true_r. }
        apply (G (y :: xs) (w :: vs)); [cbn; congruence|]. intros z Z. apply F. rewrite mems_cons, Z. apply orb_true_r. }
      apply IHk in E' as [-> ->].
      2:{ cbn [user forallb]. rewrite Uv. unfold rest. rewrite user_bs by (cbn in *; lia). rewrite UV. cbn. assumption. }
      rewrite res_let by discriminate. cbn zeta. cbn [names_of flat_map app].
      change (map (fun xv => XAsgn (fst xv) (snd xv)) (combine (x :: y :: xs) (v :: w :: vs))) with (XAsgn x v :: rest).
      rewrite res_letseq. cbn [resseq]. cbn zeta.
      assert (G : gs (XLet MLetseq rest s) = gs s + list_sum (map (fun b => S (gs b)) rest)) by reflexivity.
      split; [|cbn [gs map]; rewrite !sum_cons; cbn [list_sum gs fold_right]; lia].
      rewrite G. cbn [map resb]. rewrite sum_cons. cbn [gs].
      replace (n + (gs s + list_sum (map (fun b => S (gs b)) rest)) + (gs v + list_sum [])) with (n + gs s + list_sum (map (fun b => S (gs b)) rest) + gs v) by (cbn; lia).
      replace (n + (gs s + list_sum (map (fun b => S (gs b)) rest))) with (n + gs s + list_sum (map (fun b => S (gs b)) rest)) by lia.
      reflexivity.
  - cbn [ren expand] in E. apply bind_ok in E as (l' & C & E). injection C as C. apply bind_ok in E as ([r m] & E1 & E). cbn [fst snd] in E. inversion E; subst.
    eapply (lines k0 IH) in C; [|exact U|cbn; discriminate|exact E1]. destruct C as [-> ->]. rewrite res_do. cbn [gs]. split; [reflexivity|lia].
Qed.

(** ** The meaning is kept *)
Lemma ren_lams s : user s = true -> forall ls, Forall (fun l => exists ps, l = RLam ps) ls -> ren ls s = s.
Proof.
  assert (R : forall ls x, Forall (fun l => exists ps, l = RLam ps) ls -> free ls x = true).
  { intros ls x H. induction H as [|l ls [ps ->] _ IH]; cbn; [reflexivity|]. rewrite IH. apply orb_true_r. }
  assert (M : forall ls l, Forall (fun s => user s = true -> forall ls, Forall (fun l => exists ps, l = RLam ps) ls -> ren ls s = s) l ->
     forallb user l = true -> Forall (fun l => exists ps, l = RLam ps) ls -> map (ren ls) l = l).
  { intros ls l H U A. induction H as [|t l H _ IH]; [reflexivity|]. cbn in U. apply andb_prop in U as [U1 U2]. cbn. rewrite H, IH; auto. }
  induction s using ex_ind'; intros U ls A; cbn [user] in U; try discriminate U; cbn [ren];
    repeat match goal with H : _ && _ = true |- _ => apply andb_prop in H as [? ?] end.
  - reflexivity.
  - apply free_rd, R, A.
  - now rewrite M.
  - rewrite IHs, M; auto.
  - rewrite IHs1, IHs2, IHs3; auto.
  - rewrite IHs; auto. constructor; eauto.
  - rewrite free_wr by (apply R, A). now rewrite IHs.
  - now rewrite IHs.
  - now rewrite IHs.
  - rewrite IHs, M; auto.
  - now rewrite M.
Qed.

Section Sim.
Variable W : Type.
Variable prim : nat -> list value -> W -> outcome value * W.
Variable globals : string -> option value.
Notation sheap := (sheap W).
Notation theap := (theap W).

Fixpoint es (ls : list rl) : list nat := match ls with [] => [] | RLam _ :: ls => es ls | REnv e _ _ _ :: ls => e :: es ls end.
Definition shape_of (l : rl) : shape := match l with RLam ps => SParams ps | REnv _ _ ns pd => SVars ns pd end.
Definition shapes := map shape_of.
Inductive erel (kinds : list bool) : senv -> list rl -> tenv -> Prop :=
| er_nil : erel kinds [] [] []
| er_lam l env ls te : erel kinds env ls te ->
    erel kinds (Params l :: env) (RLam (map fst l) :: ls) (map (fun xv => TB (fst xv) (snd xv)) l ++ te)
| er_env isdo names pend k e env ls te : erel kinds env ls te -> nth_error kinds k = Some isdo -> ~ In e (es ls) ->
    forallb var_ok names = true ->
    erel kinds (Vars isdo names k :: env) (REnv e isdo names pend :: ls) (TE e k :: te).
Definition fresh (n m : nat) (ls : list rl) : Prop := forall e, In e (es ls) -> e < n \/ n + m <= e.
Definition frel (kinds : list bool) (f : senv * list string * ex) (g : tenv * list string * ex) : Prop :=
  let '(env, ps, b) := f in let '(te, ps', b') := g in
  ps' = ps /\ exists ls n, erel kinds env ls te /\ b' = res false (RLam ps :: ls) n b /\
    scoped false (shapes (RLam ps :: ls)) b = true /\ fresh n (gs b) ls.
(** Of each environment: is it that of a do?  Is it known not to be finalized? *)
Definition hrel (kinds : list (bool * bool)) (h : sheap) (h' : theap) : Prop :=
  sworld W h = tworld W h' /\ Forall2 (frel (map fst kinds)) (sfuns W h) (tfuns W h') /\
  Forall2 (fun d s => binds s = d) (sframes W h) (tenvs W h') /\
  Forall2 (fun (b : bool * bool) (s : envst value) => fst b || snd b = true -> finalized s = false) kinds (tenvs W h').
Definition rrel {A} (kinds : list (bool * bool)) (r : option (outcome A * sheap)) (r' : option (outcome A * theap)) : Prop :=
  match r, r' with
  | None, None => True
  | Some (o, h), Some (o', h') => o' = o /\ exists more, hrel (kinds ++ more) h h'
  | _, _ => False
  end.

Lemma erel_mono kinds more env ls te : erel kinds env ls te -> erel (kinds ++ more) env ls te.
Proof.
  induction 1; constructor; auto. rewrite nth_error_app1; auto. apply nth_error_Some. congruence.
Qed.
Lemma frel_mono kinds more f g : frel kinds f g -> frel (kinds ++ more) f g.
Proof.
  destruct f as [[env ps] b], g as [[te ps'] b']. intros (E & ls & n & R & K). split; [exact E|]. exists ls, n. split; [apply erel_mono, R|exact K].
Qed.
Lemma Forall2_mono {A B} (P Q : A -> B -> Prop) l l' : (forall a b, P a b -> Q a b) -> Forall2 P l l' -> Forall2 Q l l'.
Proof. induction 2; constructor; auto. Qed.
Lemma Forall2_len {A B} (P : A -> B -> Prop) l l' : Forall2 P l l' -> length l = length l'.
Proof. induction 1; cbn; auto. Qed.
Lemma Forall2_nth {A B} (P : A -> B -> Prop) l l' : Forall2 P l l' -> forall n,
  match nth_error l n, nth_error l' n with Some a, Some b => P a b | None, None => True | _, _ => False end.
Proof. induction 1; intros [|n]; cbn; auto. apply IHForall2. Qed.
Lemma Forall2_upd {A B} (P : A -> B -> Prop) l l' : Forall2 P l l' -> forall n a b, P a b -> Forall2 P (upd l n a) (upd l' n b).
Proof. induction 1; intros [|n] a b K; cbn; constructor; auto. Qed.
Lemma Forall2_upd_r {A B} (P : A -> B -> Prop) l l' : Forall2 P l l' -> forall n b, (forall a, nth_error l n = Some a -> P a b) -> Forall2 P l (upd l' n b).
Proof. induction 1; intros [|n] b K; cbn; constructor; auto. Qed.
Lemma Forall2_app1 {A B} (P : A -> B -> Prop) l l' a b : Forall2 P l l' -> P a b -> Forall2 P (l ++ [a]) (l' ++ [b]).
Proof. intros F K. induction F; cbn; constructor; auto. Qed.

Lemma hrel_frame kinds h h' k : hrel kinds h h' ->
  match nth_error (sframes W h) k, nth_error (tenvs W h') k with Some d, Some s => binds s = d | None, None => True | _, _ => False end.
Proof. intros (_ & _ & F & _). apply (Forall2_nth _ _ _ F). Qed.
Lemma hrel_kind kinds h h' k b : hrel kinds h h' -> nth_error (map fst kinds) k = Some b ->
  exists s, nth_error (tenvs W h') k = Some s /\ (b = true -> finalized s = false).
Proof.
  intros (_ & _ & _ & F) E. pose proof (Forall2_nth _ _ _ F k) as K. rewrite nth_error_map in E. destruct (nth_error kinds k) as [[d o]|]; [|discriminate].
  destruct (nth_error (tenvs W h') k); [|contradiction]. exists e. split; [reflexivity|]. inversion E; subst. intros ->. now apply K.
Qed.
Lemma hrel_put kinds h h' k s d o : hrel kinds h h' -> nth_error kinds k = Some (d, o) -> (d || o = true -> finalized s = false) ->
  hrel kinds (mkS W (sfuns W h) (upd (sframes W h) k (binds s)) (sworld W h)) (put_env W k s h').
Proof.
  intros (E & F & D & K) N Fi. split; [exact E|]. split; [exact F|]. split; cbn.
  - apply Forall2_upd; auto.
  - apply Forall2_upd_r; auto. intros a A. rewrite N in A. inversion A; subst. exact Fi.
Qed.
Lemma hrel_new kinds h h' isdo o : hrel kinds h h' ->
  hrel (kinds ++ [(isdo, o)]) (new_frame W h) (mkT W (tfuns W h') (tenvs W h' ++ [env0]) (tworld W h')).
Proof.
  intros (E & F & D & K). split; [exact E|]. split; cbn.
  - eapply Forall2_mono; [|exact F]. intros. rewrite map_app. now apply frel_mono.
  - split; apply Forall2_app1; auto.
Qed.
Lemma hrel_len kinds h h' : hrel kinds h h' -> length (tenvs W h') = length (sframes W h) /\ length kinds = length (sframes W h).
Proof. intros (_ & _ & D & K). pose proof (Forall2_len _ _ _ D). pose proof (Forall2_len _ _ _ K). split; [symmetry; assumption|]. etransitivity; [eassumption|symmetry; assumption]. Qed.
Lemma hrel_world kinds h h' w : hrel kinds h h' -> hrel kinds (mkS W (sfuns W h) (sframes W h) w) (mkT W (tfuns W h') (tenvs W h') w).
Proof. intros (E & F & D & K). repeat split; auto. Qed.

(** *** Finding variables *)
Lemma tget_params l te x : tget (map (fun xv => TB (fst xv) (snd xv)) l ++ te) x = match find_param x l with Some v => Some v | None => tget te x end.
Proof. induction l as [|[y v] l IH]; cbn; [reflexivity|]. destruct (String.eqb y x); auto. Qed.
Lemma tgetenv_params l te e : tgetenv (map (fun xv => TB (fst xv) (snd xv)) l ++ te) e = tgetenv te e.
Proof. induction l as [|[y v] l IH]; cbn; auto. Qed.
Lemma find_param_mems x l : mems x (map fst l) = match find_param x l with Some _ => true | None => false end.
Proof.
  induction l as [|[y v] l IH]; [reflexivity|]. cbn [map fst]. rewrite mems_cons. cbn [find_param].
  rewrite String.eqb_sym. destruct (String.eqb y x); [reflexivity|exact IH].
Qed.
Lemma rd_in ls x e : rd ls x = XAttr e x -> In e (es ls).
Proof.
  induction ls as [|[ps|e' d ns pd] ls IH]; cbn [rd es]; [discriminate| |].
  - destruct (mems x ps); [discriminate|exact IH].
  - destruct (mems x ns); intros E; [inversion E; now left|right; auto].
Qed.
Lemma wr_in ls x v d e : wr ls x v = XSet d e x v -> In e (es ls).
Proof.
  induction ls as [|[ps|e' d' ns pd] ls IH]; cbn [wr es]; [discriminate| |].
  - destruct (mems x ps); [discriminate|exact IH].
  - destruct (mems x (ns ++ pd)); intros E; [inversion E; now left|right; auto].
Qed.
Lemma ok_in x names : forallb var_ok names = true -> mems x names = true -> var_ok x = true.
Proof.
  intros O M. apply existsb_exists in M as (y & I & E). apply String.eqb_eq in E as <-. rewrite forallb_forall in O. auto.
Qed.
Lemma find_ok kinds env ls te : erel kinds env ls te -> forall x,
  match find x env with
  | PParam v => rd ls x = XVar x /\ tget te x = Some v
  | PGlobal => rd ls x = XVar x /\ tget te x = None
  | PVar isdo k => exists e, rd ls x = XAttr e x /\ tgetenv te e = Some k /\ nth_error kinds k = Some isdo /\ var_ok x = true
  end.
Proof.
  induction 1 as [|l env ls te R IH|isdo names pend k e env ls te R IH N I O]; intros x; cbn [find rd].
  - auto.
  - rewrite find_param_mems. rewrite tget_params. destruct (find_param x l) as [v|]; [auto|].
    specialize (IH x). destruct (find x env); auto. destruct IH as (e & A & B & K). exists e. rewrite tgetenv_params. auto.
  - destruct (mems x names) eqn:M.
    + exists e. cbn. rewrite Nat.eqb_refl. repeat split; auto. eapply ok_in; eauto.
    + specialize (IH x). cbn [tget]. destruct (find x env); auto. destruct IH as (e' & A & B & K). exists e'. split; [exact A|].
      cbn. destruct (Nat.eqb_spec e e') as [->|]; [|auto]. destruct I. eapply rd_in; eauto.
Qed.
Lemma assign_ok kinds env ls te : erel kinds env ls te -> forall x, assignable x (shapes ls) = true ->
  exists isdo k e, find x env = PVar isdo k /\ (forall v, wr ls x v = XSet isdo e x v) /\ tgetenv te e = Some k /\
    nth_error kinds k = Some isdo /\ var_ok x = true.
Proof.
  induction 1 as [|l env ls te R IH|isdo names pend k e env ls te R IH N I O]; intros x A; cbn in A.
  - discriminate.
  - apply andb_prop in A as [A1 A2]. cbn [find wr]. rewrite find_param_mems in *.
    destruct (find_param x l) as [v|]; [discriminate A1|].
    destruct (IH x A2) as (isdo & k & e & F & Wr & G & K). exists isdo, k, e. rewrite tgetenv_params. auto.
  - apply andb_prop in A as [A1 A2]. cbn [find wr]. rewrite mems_app. destruct (mems x pend); [discriminate A1|].
    destruct (mems x names) eqn:M; cbn.
    + exists isdo, k, e. rewrite Nat.eqb_refl. repeat split; auto. eapply ok_in; eauto.
    + destruct (IH x A2) as (isdo' & k' & e' & F & Wr & G & K). exists isdo', k', e'. repeat split; auto; try apply K.
      destruct (Nat.eqb_spec e e') as [->|]; [|auto]. destruct I. eapply (wr_in ls x (XConst VNone)). apply Wr.
Qed.

(** *** Operations on environments *)
Lemma var_ok_attr x : var_ok x = true -> mem x class_attrs = false.
Proof. unfold var_ok. destruct (mem x class_attrs); [discriminate|reflexivity]. Qed.
Lemma var_ok_names x : var_ok x = true -> mem x direct_write = false /\ mem x reserved_names = false.
Proof.
  intros O. apply var_ok_attr in O. unfold mem in *.
  assert (K : forall l, (forall y, In y l -> In y class_attrs) -> existsb (String.eqb x) l = false).
  { intros l S. destruct (existsb (String.eqb x) l) eqn:E; [|reflexivity]. apply existsb_exists in E as (y & I & E).
    rewrite <- O. symmetry. apply existsb_exists. eauto. }
  split; apply K; intros y I; cbn in I |- *; intuition.
Qed.
Lemma setattr_ok (s : envst value) x v : var_ok x = true -> finalized s = false \/ has s x = true ->
  env_setattr isid no_effect s x v = (Ok RNone, with_binds s (dict_set String.eqb (binds s) x v)).
Proof.
  intros O F. destruct (var_ok_names x O) as [A B]. unfold env_setattr. rewrite A, B.
  destruct F as [-> | ->]; cbn; [reflexivity|]. now rewrite andb_false_r.
Qed.
Lemma slot_has kinds h h' k s x : hrel kinds h h' -> nth_error (tenvs W h') k = Some s -> slot W k x h = dict_get String.eqb (binds s) x.
Proof.
  intros H N. pose proof (hrel_frame _ _ _ k H) as F. rewrite N in F. unfold slot. destruct (nth_error (sframes W h) k); [now subst|contradiction].
Qed.
Lemma store_rel kinds h h' k s x v d o : hrel kinds h h' -> nth_error (tenvs W h') k = Some s -> nth_error kinds k = Some (d, o) ->
  (d || o = true -> finalized s = false) ->
  hrel kinds (store W k x v h) (put_env W k (with_binds s (dict_set String.eqb (binds s) x v)) h').
Proof.
  intros H N K F. pose proof (hrel_frame _ _ _ k H) as Fr. rewrite N in Fr. unfold store. destruct (nth_error (sframes W h) k) as [d'|]; [|contradiction].
  subst d'. exact (hrel_put kinds h h' k (with_binds s (dict_set String.eqb (binds s) x v)) d o H K F).
Qed.
Lemma hrel_both kinds h h' k d : hrel kinds h h' -> nth_error (map fst kinds) k = Some d ->
  exists s o, nth_error (tenvs W h') k = Some s /\ nth_error kinds k = Some (d, o) /\ (d || o = true -> finalized s = false).
Proof.
  intros (_ & _ & _ & F) E. pose proof (Forall2_nth _ _ _ F k) as K. rewrite nth_error_map in E. destruct (nth_error kinds k) as [[d' o]|]; [|discriminate].
  destruct (nth_error (tenvs W h') k) as [s|]; [|contradiction]. inversion E; subst. exists s, o. auto.
Qed.
Lemma put_same kinds h h' k s : hrel kinds h h' -> nth_error (tenvs W h') k = Some s -> hrel kinds h (put_env W k s h').
Proof.
  intros H N. enough (upd (tenvs W h') k s = tenvs W h') as E by (unfold put_env; rewrite E; destruct h'; exact H).
  clear H. revert k N. induction (tenvs W h') as [|a l IH]; intros [|k] N; try discriminate N; cbn in *; [now inversion N|]. f_equal; auto.
Qed.
Lemma rrel_ret {A} kinds more (o : outcome A) h h' : hrel (kinds ++ more) h h' -> rrel kinds (Some (o, h)) (Some (o, h')).
Proof. intros H. split; [reflexivity|]. exists more. exact H. Qed.
Lemma rrel_ret0 {A} kinds (o : outcome A) h h' : hrel kinds h h' -> rrel kinds (Some (o, h)) (Some (o, h')).
Proof. intros H. apply (rrel_ret kinds []). now rewrite app_nil_r. Qed.
Lemma rrel_up {A} kinds more (r : option (outcome A * sheap)) r' : rrel (kinds ++ more) r r' -> rrel kinds r r'.
Proof.
  destruct r as [[o h]|], r' as [[o' h']|]; cbn; auto. intros [-> [m H]]. split; [reflexivity|]. exists (more ++ m). now rewrite app_assoc.
Qed.
Lemma set_rel kinds te x v h h' : hrel kinds h h' -> forall isdo k e,
  tgetenv te e = Some k -> nth_error (map fst kinds) k = Some isdo -> var_ok x = true ->
  rrel kinds (match isdo, slot W k x h with
              | false, None => Some (Raise AttributeError, h)
              | _, _ => Some (Ok v, store W k x v h)
              end) (on_env W te e (do_set isdo x v) h').
Proof.
  intros H isdo k e G K O. unfold on_env. rewrite G.
  destruct (hrel_both _ _ _ _ _ H K) as (s & o & N & K' & F). rewrite N, (slot_has _ _ _ _ _ x H N). unfold do_set. destruct isdo.
  - rewrite setattr_ok by auto. apply rrel_ret0. eapply store_rel; eauto.
  - unfold env_set. assert (Hs : has s x = match dict_get String.eqb (binds s) x with Some _ => true | None => false end) by reflexivity.
    destruct (dict_get String.eqb (binds s) x) as [w|]; rewrite Hs; cbn [negb].
    + rewrite setattr_ok by auto. apply rrel_ret0. eapply store_rel; eauto.
    + apply rrel_ret0. now apply put_same.
Qed.
Lemma pop_rel kinds te x h h' : hrel kinds h h' -> forall k e,
  tgetenv te e = Some k -> nth_error (map fst kinds) k = Some true ->
  rrel kinds (match slot W k x h with Some v => Some (Ok v, remove W k x h) | None => Some (Raise KeyError, h) end)
    (on_env W te e (do_pop x) h').
Proof.
  intros H k e G K. unfold on_env. rewrite G.
  destruct (hrel_both _ _ _ _ _ H K) as (s & o & N & K' & F). rewrite N, (slot_has _ _ _ _ _ x H N). unfold do_pop, env_pop. rewrite F by auto.
  pose proof (hrel_frame _ _ _ k H) as Fr. rewrite N in Fr. unfold remove. destruct (nth_error (sframes W h) k) as [d|]; [|contradiction]. subst d.
  destruct (dict_get String.eqb (binds s) x) as [v|]; cbn.
  - apply rrel_ret0. exact (hrel_put kinds h h' k (with_binds s (dict_del String.eqb (binds s) x)) true o H K' F).
  - apply rrel_ret0. now apply put_same.
Qed.

Lemma rrel_inv {A} kinds (r : option (outcome A * sheap)) r' : rrel kinds r r' ->
  (r = None /\ r' = None) \/
  (exists y h h' more, r = Some (Raise y, h) /\ r' = Some (Raise y, h') /\ hrel (kinds ++ more) h h') \/
  (exists a h h' more, r = Some (Ok a, h) /\ r' = Some (Ok a, h') /\ hrel (kinds ++ more) h h').
Proof.
  destruct r as [[[a|y] h]|], r' as [[o h']|]; cbn; intros K; try contradiction; auto; destruct K as [-> [more K]].
  - right. right. eauto 8.
  - right. left. eauto 8.
Qed.

Section Step.
Variable scl : value -> list value -> sheap -> option (outcome value * sheap).
Variable tcl : value -> list value -> theap -> option (outcome value * theap).
Hypothesis Hcall : forall kinds h h' g vs, hrel kinds h h' -> rrel kinds (scl g vs h) (tcl g vs h').
Notation seval := (seval W prim globals scl).
Notation teval := (teval W prim globals tcl).

Definition sevals (env : senv) := fix evals (l : list ex) (h : sheap) : option (outcome (list value) * sheap) :=
  match l with
  | [] => Some (Ok [], h)
  | t :: l =>
      match seval env t h with
      | Some (Ok v, h) => match evals l h with Some (Ok vs, h) => Some (Ok (v :: vs), h) | r => r end
      | Some (Raise x, h) => Some (Raise x, h)
      | None => None
      end
  end.
Definition svalues (env : senv) := fix values (bs : list ex) (h : sheap) : option (outcome (list (string * value)) * sheap) :=
  match bs with
  | [] => Some (Ok [], h)
  | XAsgn x v :: bs =>
      match seval env v h with
      | Some (Ok v, h) => match values bs h with Some (Ok vs, h) => Some (Ok ((x, v) :: vs), h) | r => r end
      | Some (Raise y, h) => Some (Raise y, h)
      | None => None
      end
  | _ => Some (Raise SyntaxError, h)
  end.
Definition sfill := fix fill (vs : list (string * value)) (d : frame) : option frame :=
  match vs with
  | [] => Some d
  | (x, v) :: vs => match dict_get String.eqb d x with Some _ => None | None => fill vs (dict_set String.eqb d x v) end
  end.
Definition snest (b : ex) := fix nest (bs : list ex) (env : senv) (h : sheap) : option (outcome value * sheap) :=
  match bs with
  | [] => seval env b h
  | XAsgn x v :: bs =>
      match seval env v h with
      | Some (Ok v, h) => let k := length (sframes W h) in nest bs (Vars false [x] k :: env) (store W k x v (new_frame W h))
      | r => r
      end
  | _ => Some (Raise SyntaxError, h)
  end.
Definition srec (env' : senv) (k : nat) := fix fill (bs : list ex) (h : sheap) : option (outcome unit * sheap) :=
  match bs with
  | [] => Some (Ok tt, h)
  | XAsgn x v :: bs =>
      match slot W k x h with
      | Some _ => Some (Raise AttributeError, h)
      | None =>
          match seval env' v h with
          | Some (Ok v, h) => fill bs (store W k x v h)
          | Some (Raise y, h) => Some (Raise y, h)
          | None => None
          end
      end
  | _ => Some (Raise SyntaxError, h)
  end.
Definition sitems (env : senv) (k : nat) :=
  fix items (l : list ex) (names : list string) (last : outcome value) (h : sheap) : option (outcome value * sheap) :=
  match l with
  | [] => Some (last, h)
  | t :: l =>
      match seval (Vars true names k :: env) t h with
      | Some (Ok v, h) => items l (next_names names t) (Ok v) h
      | r => r
      end
  end.
Definition tevals (env : tenv) := fix evals (l : list ex) (h : theap) : option (outcome (list value) * theap) :=
  match l with
  | [] => Some (Ok [], h)
  | t :: l =>
      match teval env t h with
      | Some (Ok v, h) => match evals l h with Some (Ok vs, h) => Some (Ok (v :: vs), h) | r => r end
      | Some (Raise x, h) => Some (Raise x, h)
      | None => None
      end
  end.
Definition tvalues (env : tenv) := fix values (bs : list (string * ex)) (h : theap) : option (outcome (list (string * value)) * theap) :=
  match bs with
  | [] => Some (Ok [], h)
  | (x, v) :: bs =>
      match teval env v h with
      | Some (Ok v, h) => match values bs h with Some (Ok vs, h) => Some (Ok ((x, v) :: vs), h) | r => r end
      | Some (Raise y, h) => Some (Raise y, h)
      | None => None
      end
  end.
Definition tfill := fix fill (vs : list (string * value)) (s : (envst value)) : outcome (envst value) :=
  match vs with
  | [] => Ok s
  | (x, v) :: vs =>
      if has s x then Raise AttributeError
      else match do_bind x v s with (Ok _, s) => fill vs s | (Raise y, _) => Raise y end
  end.
Definition trec (env' : tenv) (k : nat) := fix fill (bs : list (string * ex)) (h : theap) : option (outcome unit * theap) :=
  match bs with
  | [] => Some (Ok tt, h)
  | (x, v) :: bs =>
      if has (get_env W k h) x then Some (Raise AttributeError, h)
      else match teval env' v h with
           | Some (Ok v, h) =>
               match do_bind x v (get_env W k h) with
               | (Ok _, s) => fill bs (put_env W k s h)
               | (Raise y, _) => Some (Raise y, h)
               end
           | Some (Raise y, h) => Some (Raise y, h)
           | None => None
           end
  end.
Definition titems (env' : tenv) := fix items (l : list ex) (last : outcome value) (h : theap) : option (outcome value * theap) :=
  match l with
  | [] => Some (last, h)
  | t :: l =>
      match teval env' t h with
      | Some (Ok v, h) => items l (Ok v) h
      | r => r
      end
  end.
Lemma seval_prim env o l h : seval env (XPrim o l) h =
  match sevals env l h with
  | Some (Ok vs, h) => let (r, w) := prim o vs (sworld W h) in Some (r, mkS W (sfuns W h) (sframes W h) w)
  | Some (Raise x, h) => Some (Raise x, h)
  | None => None
  end.
Proof. reflexivity. Qed.
Lemma seval_call env f l h : seval env (XCall f l) h =
  match seval env f h with
  | Some (Ok g, h) =>
      match sevals env l h with
      | Some (Ok vs, h) => scl g vs h
      | Some (Raise x, h) => Some (Raise x, h)
      | None => None
      end
  | r => r
  end.
Proof. reflexivity. Qed.
Lemma seval_let env bs b h : seval env (XLet MLet bs b) h =
  match svalues env bs h with
  | Some (Ok vs, h) =>
      let k := length (sframes W h) in
      let h := new_frame W h in
      match sfill vs [] with
      | Some d => seval (Vars false (map fst vs) k :: env) b (mkS W (sfuns W h) (upd (sframes W h) k d) (sworld W h))
      | None => Some (Raise AttributeError, h)
      end
  | Some (Raise y, h) => Some (Raise y, h)
  | None => None
  end.
Proof. reflexivity. Qed.
Lemma seval_letseq env bs b h : seval env (XLet MLetseq bs b) h = snest b bs env h.
Proof. reflexivity. Qed.
Lemma seval_letrec env bs b h : seval env (XLet MLetrec bs b) h =
  let k := length (sframes W h) in
  let env' := Vars false (names_of bs) k :: env in
  match srec env' k bs (new_frame W h) with
  | Some (Ok _, h) => seval env' b h
  | Some (Raise y, h) => Some (Raise y, h)
  | None => None
  end.
Proof. reflexivity. Qed.
Lemma seval_do env i l h : seval env (XDo i l) h = sitems env (length (sframes W h)) l [] (Raise UnboundLocalError) (new_frame W h).
Proof. reflexivity. Qed.
Lemma teval_prim env o l h : teval env (XPrim o l) h =
  match tevals env l h with
  | Some (Ok vs, h) => let (r, w) := prim o vs (tworld W h) in Some (r, mkT W (tfuns W h) (tenvs W h) w)
  | Some (Raise x, h) => Some (Raise x, h)
  | None => None
  end.
Proof. reflexivity. Qed.
Lemma teval_call env f l h : teval env (XCall f l) h =
  match teval env f h with
  | Some (Ok g, h) =>
      match tevals env l h with
      | Some (Ok vs, h) => tcl g vs h
      | Some (Raise x, h) => Some (Raise x, h)
      | None => None
      end
  | r => r
  end.
Proof. reflexivity. Qed.
Definition talloc (h : theap) : theap := mkT W (tfuns W h) (tenvs W h ++ [env0]) (tworld W h).
Lemma teval_let env e bs b h : teval env (TLet false e bs b) h =
  match tvalues env bs h with
  | Some (Ok vs, h) =>
      let k := length (tenvs W h) in
      let h := talloc h in
      match tfill vs env0 with
      | Ok s => teval (TE e k :: env) b (put_env W k (finalize s) h)
      | Raise y => Some (Raise y, h)
      end
  | Some (Raise y, h) => Some (Raise y, h)
  | None => None
  end.
Proof. reflexivity. Qed.
Lemma teval_letrec env e bs b h : teval env (TLet true e bs b) h =
  let k := length (tenvs W h) in
  match trec (TE e k :: env) k bs (talloc h) with
  | Some (Ok _, h) => teval (TE e k :: env) b (put_env W k (finalize (get_env W k h)) h)
  | Some (Raise y, h) => Some (Raise y, h)
  | None => None
  end.
Proof. reflexivity. Qed.
Lemma teval_do env e l h : teval env (TDo e l) h = titems (TE e (length (tenvs W h)) :: env) l (Raise UnboundLocalError) (talloc h).
Proof. reflexivity. Qed.

Definition Sim (s : ex) : Prop := forall top ls n kinds env te h h',
  scoped top (shapes ls) s = true -> (top = true -> exists e names pend ls', ls = REnv e true names pend :: ls') ->
  erel (map fst kinds) env ls te -> fresh n (gs s) ls -> hrel kinds h h' ->
  rrel kinds (seval env s h) (teval te (res top ls n s) h').
Definition Sim2 (s : ex) : Prop := Sim s /\ forall x v, s = XAsgn x v -> Sim v.
Definition nottop {A} : false = true -> A := fun e => match diff_false_true e with end.
Lemma fresh_sub n m n' m' ls : fresh n m ls -> n <= n' -> n' + m' <= n + m -> fresh n' m' ls.
Proof. intros F A B e I. destruct (F e I); lia. Qed.
Lemma fresh_env n m e d ns pd ls : fresh n m ls -> e < n \/ n + m <= e -> fresh n m (REnv e d ns pd :: ls).
Proof. intros F A e' [<-|I]; [exact A|exact (F e' I)]. Qed.

Ltac step H :=
  let E1 := fresh "E1" in let E2 := fresh "E2" in let K := fresh "K" in let y := fresh "y" in let v := fresh "v" in
  let g := fresh "g" in let g' := fresh "g'" in let more := fresh "more" in
  destruct (rrel_inv _ _ _ H) as [[E1 E2]|[(y & g & g' & more & E1 & E2 & K)|(v & g & g' & more & E1 & E2 & K)]];
  rewrite E1, E2; clear E2; [exact I|exact (rrel_ret _ _ _ _ _ K)|apply (rrel_up _ more)].

Lemma sim_list l : Forall Sim2 l -> forall ls n kinds env te h h',
  forallb (scoped false (shapes ls)) l = true -> erel (map fst kinds) env ls te -> fresh n (list_sum (map gs l)) ls -> hrel kinds h h' ->
  rrel kinds (sevals env l h) (tevals te (resl ls n l) h').
Proof.
  intros A. induction A as [|s l [S _] _ IH]; intros ls n kinds env te h h' Sc E F H.
  - now apply rrel_ret0.
  - cbn [forallb] in Sc. apply andb_prop in Sc as [S1 S2]. cbn [map] in F. rewrite sum_cons in F. cbn [sevals tevals resl].
    assert (R : rrel kinds (seval env s h) (teval te (res false ls n s) h')).
    { apply S; auto. intros T0; discriminate. eapply fresh_sub; eauto; lia. }
    step R.
    assert (R2 : rrel (kinds ++ more) (sevals env l g) (tevals te (resl ls (n + gs s) l) g')).
    { apply IH; auto. rewrite map_app; now apply erel_mono. eapply fresh_sub; eauto; lia. }
    step R2. apply rrel_ret0. assumption.
Qed.
Lemma sim_values l : Forall Sim2 l -> forall ls n kinds env te h h',
  forallb (fun b => match b with XAsgn _ v => scoped false (shapes ls) v | _ => false end) l = true ->
  erel (map fst kinds) env ls te -> fresh n (list_sum (map gs l)) ls -> hrel kinds h h' ->
  rrel kinds (svalues env l h) (tvalues te (resb ls n l) h').
Proof.
  intros A. induction A as [|s l [_ S] _ IH]; intros ls n kinds env te h h' Sc E F H.
  - now apply rrel_ret0.
  - cbn [forallb] in Sc. apply andb_prop in Sc as [S1 S2]. cbn [map] in F. rewrite sum_cons in F. destruct s; try discriminate S1.
    cbn [svalues tvalues resb]. cbn [gs] in F. specialize (S x s eq_refl).
    assert (R : rrel kinds (seval env s h) (teval te (res false ls n s) h')).
    { apply S; auto. intros T0; discriminate. eapply fresh_sub; eauto; lia. }
    step R.
    assert (R2 : rrel (kinds ++ more) (svalues env l g) (tvalues te (resb ls (n + gs s) l) g')).
    { apply IH; auto. rewrite map_app; now apply erel_mono. eapply fresh_sub; eauto; lia. }
    step R2. apply rrel_ret0. assumption.
Qed.
Lemma svalues_names env l h vs g : svalues env l h = Some (Ok vs, g) -> map fst vs = names_of l.
Proof.
  revert h vs g. induction l as [|s l IH]; intros h vs g E; cbn in E; [now inversion E|].
  destruct s; try discriminate E. destruct (seval env s h) as [[[a|y] g1]|]; try discriminate E.
  fold (svalues env) in E. destruct (svalues env l g1) as [[[vs'|y] g2]|] eqn:E2; inversion E; subst.
  cbn [map fst]. exact (f_equal (cons x) (IH _ _ _ E2)).
Qed.
Lemma do_bind_ok x v (s : envst value) : var_ok x = true -> finalized s = false ->
  do_bind x v s = (Ok v, with_binds s (dict_set String.eqb (binds s) x v)).
Proof. intros O F. unfold do_bind, setitem. now rewrite setattr_ok by auto. Qed.
Lemma fill_ok vs : forall s, forallb var_ok (map fst vs) = true -> finalized s = false ->
  match sfill vs (binds s) with
  | Some d => exists s', tfill vs s = Ok s' /\ binds s' = d
  | None => tfill vs s = Raise AttributeError
  end.
Proof.
  induction vs as [|[x v] vs IH]; intros s O F; cbn [sfill tfill]; [eauto|].
  cbn [map fst forallb] in O. apply andb_prop in O as [O1 O2]. unfold has. destruct (dict_get String.eqb (binds s) x); [reflexivity|].
  rewrite do_bind_ok by auto. exact (IH (with_binds s (dict_set String.eqb (binds s) x v)) O2 F).
Qed.
Lemma kinds_last (kinds : list (bool * bool)) d o : nth_error (map fst (kinds ++ [(d, o)])) (length kinds) = Some d.
Proof. rewrite map_app, nth_error_app2; rewrite map_length; [|lia]. now rewrite Nat.sub_diag. Qed.
Lemma kinds_last' (kinds more : list (bool * bool)) b : nth_error ((kinds ++ [b]) ++ more) (length kinds) = Some b.
Proof. rewrite <- app_assoc, nth_error_app2 by lia. now rewrite Nat.sub_diag. Qed.
Lemma close_rel kinds more h h' o : hrel ((kinds ++ [(false, o)]) ++ more) h h' ->
  hrel ((kinds ++ [(false, false)]) ++ more) h (put_env W (length kinds) (finalize (get_env W (length kinds) h')) h').
Proof.
  intros (E & F & D & K).
  assert (M : map fst ((kinds ++ [(false, o)]) ++ more) = map fst ((kinds ++ [(false, false)]) ++ more)) by (now rewrite !map_app).
  pose proof (Forall2_nth _ _ _ K (length kinds)) as N. rewrite kinds_last' in N. unfold get_env.
  destruct (nth_error (tenvs W h') (length kinds)) as [s|] eqn:Es; [|contradiction].
  split; [exact E|]. split; [rewrite <- M; exact F|]. split; cbn.
  - clear -D Es. unfold frame in *. revert Es. generalize (length kinds). induction D as [|d s0 ds ss e D IH]; intros [|n] Es; cbn in *; try discriminate.
    + constructor; [|exact D]. inversion Es; now subst.
    + constructor; auto.
  - rewrite <- !app_assoc in *. revert K. clear -Es. revert Es. generalize (tenvs W h'). induction kinds as [|b kinds IH]; intros l Es K; cbn in *.
    + inversion K; subst. cbn. constructor; [discriminate|assumption].
    + destruct l as [|s0 l]; [discriminate|]. inversion K; subst. cbn in *. constructor; auto.
Qed.
Lemma sim_rec l : Forall Sim2 l -> forall kinds ls n env te more h h',
  let ks := (kinds ++ [(false, true)]) ++ more in
  forallb (fun b => match b with XAsgn _ v => scoped false (shapes ls) v | _ => false end) l = true ->
  forallb var_ok (names_of l) = true ->
  erel (map fst ks) env ls te -> fresh n (list_sum (map gs l)) ls -> hrel ks h h' ->
  rrel ks (srec env (length kinds) l h) (trec te (length kinds) (resb ls n l) h').
Proof.
  intros A. induction A as [|s l [_ S] _ IH]; intros kinds ls n env te more h h' ks Sc O E F H.
  - now apply rrel_ret0.
  - cbn [forallb] in Sc. apply andb_prop in Sc as [S1 S2]. cbn [map] in F. rewrite sum_cons in F. destruct s; try discriminate S1.
    cbn [srec trec resb]. cbn [gs] in F. specialize (S x s eq_refl). change (names_of (XAsgn x s :: l)) with (x :: names_of l) in O.
    cbn [forallb] in O. apply andb_prop in O as [O1 O2].
    assert (G : forall more h h', hrel ((kinds ++ [(false, true)]) ++ more) h h' -> nth_error (tenvs W h') (length kinds) = Some (get_env W (length kinds) h') /\ finalized (get_env W (length kinds) h') = false).
    { clear. intros more h h' (E & F & D & K). pose proof (Forall2_nth _ _ _ K (length kinds)) as N. rewrite kinds_last' in N. unfold get_env.
      destruct (nth_error (tenvs W h') (length kinds)) as [s|]; [|contradiction]. split; [reflexivity|]. now apply N. }
    destruct (G _ _ _ H) as [G1 _]. rewrite (slot_has _ _ _ _ _ x H G1). unfold has.
    destruct (dict_get String.eqb (binds (get_env W (length kinds) h')) x); [now apply rrel_ret0|].
    assert (R : rrel ks (seval env s h) (teval te (res false ls n s) h')).
    { apply S; auto. intros T0; discriminate. eapply fresh_sub; eauto; lia. }
    step R. unfold ks in *. rewrite <- app_assoc in K |- *. destruct (G _ _ _ K) as [G2 G3].
    rewrite do_bind_ok by auto. apply IH; auto.
    + rewrite app_assoc, map_app; now apply erel_mono.
    + eapply fresh_sub; eauto; lia.
    + eapply store_rel; eauto. apply kinds_last'.
Qed.
Lemma sim_items l : Forall Sim2 l -> forall ls n kinds env te k e names last h h',
  (fix items (ts : list ex) (names : list string) : bool :=
     match ts with
     | [] => true
     | t :: ts => scoped true (SVars names (declares t) :: shapes ls) t && items ts (next_names names t)
     end) l names = true ->
  erel (map fst kinds) env ls te -> ~ In e (es ls) -> fresh n (list_sum (map gs l)) (REnv e true [] [] :: ls) -> hrel kinds h h' ->
  nth_error (map fst kinds) k = Some true -> forallb var_ok names = true ->
  rrel kinds (sitems env k l names last h) (titems (TE e k :: te) (resitems e ls l names n) last h').
Proof.
  intros A. induction A as [|s l [S _] _ IH]; intros ls n kinds env te k e names last h h' Sc E Ie F H N O.
  - now apply rrel_ret0.
  - apply andb_prop in Sc as [S1 S2]. cbn [map] in F. rewrite sum_cons in F.
    cbn [sitems titems resitems].
    assert (R : rrel kinds (seval (Vars true names k :: env) s h) (teval (TE e k :: te) (res true (REnv e true names (declares s) :: ls) n s) h')).
    { apply S; auto. intros _. eauto. now constructor. intros e' I'. assert (I2 : In e' (es (REnv e true [] [] :: ls))) by exact I'. destruct (F e' I2); lia. }
    step R. apply IH; auto.
    + rewrite map_app; now apply erel_mono.
    + eapply fresh_sub; eauto; lia.
    + rewrite map_app, nth_error_app1; auto. apply nth_error_Some. congruence.
    + unfold next_names. rewrite forallb_forall. intros y Iy. apply filter_In in Iy as [Iy _]. apply in_app_iff in Iy as [Iy|Iy].
      * rewrite forallb_forall in O. auto.
      * clear - S1 Iy. revert y S1 Iy. generalize (SVars names (declares s) :: shapes ls). intros sh.
        assert (P : forall s, (scoped true sh s = true -> forall y, In y (declares s) -> var_ok y = true) /\
                   (forall x v, s = XAsgn x v -> scoped true sh v = true -> forall y, In y (declares v) -> var_ok y = true)).
        { clear. induction s using ex_ind'; (split; [|intros x0 v0 E0; try discriminate E0]); cbn [declares]; try solve [intros _ y []].
          - inversion E0; subst. apply IHs.
          - destruct s; try solve [intros _ y []]. cbn [scoped]. intros Sc y [<-|I0].
            + apply andb_prop in Sc as [Sc _]. now apply andb_prop in Sc as [_ Sc].
            + apply andb_prop in Sc as [_ Sc]. exact (proj2 IHs _ _ eq_refl Sc y I0). }
        intros y S1 Iy. exact (proj1 (P s) S1 y Iy).
Qed.
Lemma sim_nest b : Sim b -> forall l, Forall Sim2 l -> forall ls n kinds env te h h',
  (fix nest (bs : list ex) (l : list shape) : bool :=
     match bs with
     | [] => scoped false l b
     | XAsgn x v :: bs => scoped false l v && nest bs (SVars [x] [] :: l)
     | _ => false
     end) l (shapes ls) = true -> forallb var_ok (names_of l) = true ->
  erel (map fst kinds) env ls te -> fresh n (gs b + list_sum (map (fun b => S (gs b)) l)) ls -> hrel kinds h h' ->
  rrel kinds (snest b l env h) (teval te (resseq n b l ls) h').
Proof.
  intros Sb l A. induction A as [|s l [_ S] _ IH]; intros ls n kinds env te h h' Sc O E F H.
  - cbn. apply Sb; auto. intros T0; discriminate. eapply fresh_sub; eauto; cbn; lia.
  - destruct s; try discriminate Sc. specialize (S x s eq_refl). apply andb_prop in Sc as [S1 S2].
    cbn [map] in F. rewrite sum_cons in F. cbn [gs] in F. change (names_of (XAsgn x s :: l)) with (x :: names_of l) in O.
    cbn [forallb] in O. apply andb_prop in O as [O1 O2].
    cbn [snest resseq]. cbv zeta. rewrite teval_let. cbn [tvalues].
    set (m := n + gs b + list_sum (map (fun b => Datatypes.S (gs b)) l)).
    assert (R : rrel kinds (seval env s h) (teval te (res false ls m s) h')).
    { apply S; auto. intros T0; discriminate. eapply fresh_sub; eauto; lia. }
    step R. cbn [tfill]. change (has (@env0 value) x) with false. cbv iota. rewrite do_bind_ok by auto. cbv zeta.
    destruct (hrel_len _ _ _ K) as [L1 L2]. rewrite L1, <- L2.
    assert (New := hrel_new _ _ _ false false K).
    assert (St := hrel_put _ _ _ (length (kinds ++ more)) (finalize (with_binds (@env0 value) (dict_set String.eqb (binds (@env0 value)) x v))) false false New).
    specialize (St ltac:(pose proof (kinds_last' (kinds ++ more) [] (false, false)) as Q; rewrite app_nil_r in Q; exact Q) ltac:(discriminate)).
    apply (rrel_up _ [(false, false)]). apply IH; auto.
    + constructor; auto.
      * rewrite 2 map_app. apply erel_mono. now apply erel_mono.
      * apply kinds_last.
      * intros I0. destruct (F _ I0); unfold m in *; lia.
      * cbn. now rewrite O1.
    + apply fresh_env; [eapply fresh_sub; eauto; lia|unfold m; lia].
    + unfold store. cbn [sframes new_frame]. rewrite L2, nth_error_app2, Nat.sub_diag by lia. cbn [nth_error].
      rewrite L2 in St. exact St.
Qed.

Lemma scoped_let top l m bs b : scoped top l (XLet m bs b) = true ->
  bs <> [] /\ forallb var_ok (names_of bs) = true /\
  match m with
  | MLet => forallb (fun b => match b with XAsgn _ v => scoped false l v | _ => false end) bs && scoped false (SVars (names_of bs) [] :: l) b
  | MLetrec => forallb (fun b => match b with XAsgn _ v => scoped false (SVars (names_of bs) [] :: l) v | _ => false end) bs && scoped false (SVars (names_of bs) [] :: l) b
  | MLetseq =>
      (fix nest (bs : list ex) (l : list shape) : bool :=
         match bs with
         | [] => scoped false l b
         | XAsgn x v :: bs => scoped false l v && nest bs (SVars [x] [] :: l)
         | _ => false
         end) bs l
  end = true.
Proof.
  intros Sc. cbn [scoped] in Sc. apply andb_prop in Sc as [Sc S3]. apply andb_prop in Sc as [S1 S2].
  split; [destruct bs; [discriminate S1|discriminate]|]. split; [exact S2|exact S3].
Qed.
Lemma sim_var x : Sim (XVar x).
Proof.
  intros top ls n kinds env te h h' Sc Tp E F H. cbn [MletSpec.seval res]. pose proof (find_ok _ _ _ _ E x) as Fi. destruct (find x env) as [v|d k|].
  - destruct Fi as [-> G]. cbn. rewrite G. now apply rrel_ret0.
  - destruct Fi as (e & -> & G & N & O). cbn. unfold on_env. rewrite G. destruct (hrel_kind _ _ _ _ _ H N) as (s & Es & _). rewrite Es, (slot_has _ _ _ _ _ x H Es).
    unfold do_attr, env_getattr. rewrite var_ok_attr by auto. cbn. destruct (dict_get String.eqb (binds s) x); apply rrel_ret0; now apply put_same.
  - destruct Fi as [-> G]. cbn. rewrite G. now apply rrel_ret0.
Qed.
Theorem sim s : Sim2 s.
Proof.
  induction s using ex_ind'; (split; [|intros x0 v0 E0; try discriminate E0]);
    try (intros top ls k0 kinds env te hp hp' Sc Tp E F HR; try discriminate Sc).
  - now apply rrel_ret0.
  - now apply sim_var.
  - rewrite seval_prim, res_prim, teval_prim. cbn [gs] in F.
    step (sim_list l H ls k0 kinds env te hp hp' Sc E F HR).
    replace (tworld W g') with (sworld W g) by apply K. destruct (prim o v (sworld W g)) as [r w]. apply rrel_ret0. now apply hrel_world.
  - rewrite seval_call, res_call, teval_call. cbn [gs] in F. cbn [scoped] in Sc. apply andb_prop in Sc as [S1 S2].
    assert (R : rrel kinds (seval env s hp) (teval te (res false ls k0 s) hp')).
    { apply IHs; auto. intros T0; discriminate. eapply fresh_sub; eauto; lia. }
    step R.
    assert (R2 : rrel (kinds ++ more) (sevals env l g) (tevals te (resl ls (k0 + gs s) l) g')).
    { apply sim_list; auto. rewrite map_app; now apply erel_mono. eapply fresh_sub; eauto; lia. }
    step R2. now apply Hcall.
  - cbn [MletSpec.seval res MletModel.teval]. cbn [gs] in F. cbn [scoped] in Sc. apply andb_prop in Sc as [S1 S3]. apply andb_prop in S1 as [S1 S2].
    assert (R : rrel kinds (seval env s1 hp) (teval te (res false ls k0 s1) hp')).
    { apply IHs1; auto. intros T0; discriminate. eapply fresh_sub; eauto; lia. }
    step R. destruct (truthy v).
    + apply IHs2; auto. intros T0; discriminate. rewrite map_app; now apply erel_mono. eapply fresh_sub; eauto; lia.
    + apply IHs3; auto. intros T0; discriminate. rewrite map_app; now apply erel_mono. eapply fresh_sub; eauto; lia.
  - cbn [MletSpec.seval res MletModel.teval]. destruct HR as (Ew & Ef & Ed & Ek). rewrite <- (Forall2_len _ _ _ Ef). apply rrel_ret0.
    split; [exact Ew|]. split; [|split; [exact Ed|exact Ek]]. cbn. apply Forall2_app1; [exact Ef|]. split; [reflexivity|]. exists ls, k0. auto.
  - cbn [scoped] in Sc. apply andb_prop in Sc as [S1 S2]. destruct (assign_ok _ _ _ _ E x S1) as (d & k & e & Fi & Wr & G & N & O).
    cbn [res]. rewrite Wr. cbn [MletSpec.seval MletModel.teval]. cbn [gs] in F.
    assert (R : rrel kinds (seval env s hp) (teval te (res false ls k0 s) hp')).
    { apply IHs; auto. intros T0; discriminate. }
    step R. rewrite Fi. apply set_rel; auto. rewrite map_app, nth_error_app1; auto. apply nth_error_Some. congruence.
  - inversion E0; subst. apply IHs; assumption.
  - destruct s; try discriminate Sc. cbn [scoped] in Sc. apply andb_prop in Sc as [S1 S2]. apply andb_prop in S1 as [-> O].
    destruct (Tp eq_refl) as (e & names & pend & ls' & ->). inversion E; subst.
    cbn [res MletModel.teval]. cbn [gs] in F.
    assert (R : rrel kinds (seval (Vars true names k :: env0) s hp) (teval (TE e k :: te0) (res true (REnv e true names pend :: ls') k0 s) hp')).
    { apply (proj2 IHs x s eq_refl); auto. }
    cbn [MletSpec.seval]. step R.
    assert (N : nth_error (map fst (kinds ++ more)) k = Some true).
    { rewrite map_app, nth_error_app1; auto. apply nth_error_Some. congruence. }
    apply (set_rel _ (TE e k :: te0) x v _ _ K true k e); auto. cbn. now rewrite Nat.eqb_refl.
  - destruct s; try discriminate Sc. cbn [scoped] in Sc. destruct (Tp Sc) as (e & names & pend & ls' & ->). inversion E; subst.
    cbn [res MletModel.teval MletSpec.seval]. apply pop_rel; auto. cbn. now rewrite Nat.eqb_refl.
  - apply scoped_let in Sc as (Bs & O & Sc). destruct m.
    + apply andb_prop in Sc as [S1 S2]. rewrite res_let by (auto; discriminate). cbv zeta. rewrite seval_let, teval_let. cbn [gs] in F. destruct bs as [|b0 bs0] eqn:Eb; [congruence|]. rewrite <- Eb in *.
      assert (R : rrel kinds (svalues env bs hp) (tvalues te (resb ls (k0 + gs s) bs) hp')).
      { apply sim_values; auto. eapply fresh_sub; eauto; lia. }
      step R. cbv zeta. pose proof (svalues_names _ _ _ _ _ E1) as Nm. rewrite Nm.
      destruct (hrel_len _ _ _ K) as [L1 L2].
      pose proof (fill_ok v (@env0 value) ltac:(rewrite Nm; exact O) eq_refl) as Fl. change (binds (@env0 value)) with (@nil (string * value)) in Fl.
      assert (New := hrel_new _ _ _ false false K). rewrite L1. unfold talloc.
      destruct (sfill v []) as [d|].
      * destruct Fl as (s' & -> & Ed).
        assert (St := hrel_put _ _ _ (length (kinds ++ more)) (finalize s') false false New).
        specialize (St ltac:(pose proof (kinds_last' (kinds ++ more) [] (false, false)) as Q; rewrite app_nil_r in Q; exact Q) ltac:(discriminate)).
        apply (rrel_up _ [(false, false)]). rewrite <- L2. cbn [binds finalize] in St. rewrite Ed in St.
        apply IHs; auto.
        -- intros T0; discriminate.
        -- constructor; auto.
           ++ rewrite 2 map_app. apply erel_mono. now apply erel_mono.
           ++ apply kinds_last.
           ++ intros I0. destruct (F _ I0); lia.
        -- apply fresh_env; [eapply fresh_sub; eauto; lia|lia].
      * rewrite Fl. apply (rrel_up _ [(false, false)]). apply rrel_ret0. exact New.
    + rewrite seval_letseq, res_letseq. apply sim_nest; auto. apply IHs.
    + apply andb_prop in Sc as [S1 S2]. rewrite res_let by (auto; discriminate). cbv zeta iota. rewrite seval_letrec, teval_letrec. cbv zeta. cbn [gs] in F. destruct bs as [|b0 bs0] eqn:Eb; [congruence|]. rewrite <- Eb in *.
      destruct (hrel_len _ _ _ HR) as [L1 L2]. rewrite L1, <- L2.
      assert (New := hrel_new _ _ _ false true HR).
      set (e := k0 + gs s + list_sum (map gs bs)).
      assert (Er : forall o more, erel (map fst ((kinds ++ [(false, o)]) ++ more)) (Vars false (names_of bs) (length kinds) :: env) (REnv e false (names_of bs) [] :: ls) (TE e (length kinds) :: te)).
      { intros o more. constructor; auto.
        - rewrite 2 map_app. apply erel_mono. now apply erel_mono.
        - rewrite map_app, nth_error_app1; [apply kinds_last|]. rewrite map_app, app_length, map_length. cbn. lia.
        - intros I0. destruct (F _ I0); unfold e in *; lia. }
      assert (R : rrel (kinds ++ [(false, true)]) (srec (Vars false (names_of bs) (length kinds) :: env) (length kinds) bs (new_frame W hp))
        (trec (TE e (length kinds) :: te) (length kinds) (resb (REnv e false (names_of bs) [] :: ls) (k0 + gs s) bs) (talloc hp'))).
      { rewrite <- (app_nil_r (kinds ++ _)). apply sim_rec; auto. 
        - apply fresh_env; [eapply fresh_sub; eauto; lia|unfold e; lia].
        - rewrite app_nil_r. exact New. }
      destruct (rrel_inv _ _ _ R) as [[E1 E2]|[(y & g & g' & more & E1 & E2 & K)|([] & g & g' & more & E1 & E2 & K)]]; rewrite E1, E2; [exact I| |].
      * apply (rrel_up _ ([(false, true)])). now apply (rrel_ret _ more).
      * apply close_rel in K. apply (rrel_up _ [(false, false)]). apply (rrel_up _ more). apply IHs; auto.
        -- intros T0; discriminate.
        -- apply fresh_env; [eapply fresh_sub; eauto; lia|unfold e; lia].
  - rewrite seval_do, res_do, teval_do. cbn [gs] in F. cbn [scoped] in Sc.
    destruct (hrel_len _ _ _ HR) as [L1 L2]. rewrite L1, <- L2. apply (rrel_up _ [(true, true)]). apply sim_items; auto.
    + rewrite map_app; now apply erel_mono.
    + intros I0. destruct (F _ I0); lia.
    + apply fresh_env; [eapply fresh_sub; eauto; lia|lia].
    + now apply hrel_new.
    + apply kinds_last.
Qed.
End Step.

Lemma call_sim fuel : forall kinds h h' g vs, hrel kinds h h' ->
  rrel kinds (scall W prim globals fuel g vs h) (tcall W prim globals fuel g vs h').
Proof.
  induction fuel as [|fuel IH]; intros kinds h h' g vs H; [exact I|]. cbn [scall tcall].
  destruct g; try now apply rrel_ret0.
  - pose proof (Forall2_nth _ _ _ (proj1 (proj2 H)) n) as N.
    destruct (nth_error (sfuns W h) n) as [[[env ps] b]|], (nth_error (tfuns W h') n) as [[[te ps'] b']|]; try contradiction; [|now apply rrel_ret0].
    destruct N as (-> & ls & n0 & E & -> & Sc & F). unfold params. destruct (Nat.eqb_spec (length ps) (length vs)) as [L|L]; [|now apply rrel_ret0].
    apply sim; auto.
    + intros T0; discriminate.
    + assert (M : map fst (combine ps vs) = ps); [|rewrite <- M at 2; now constructor].
      clear -L. revert vs L. induction ps as [|p ps IH]; intros [|v vs] L; cbn in *; try discriminate; [reflexivity|]. f_equal. apply IH. lia.
  - replace (tworld W h') with (sworld W h) by apply H. destruct (prim _ vs (sworld W h)) as [r w]. apply rrel_ret0. now apply hrel_world.
Qed.
Lemma scoped_user' t : (forall top l, scoped top l t = true -> user t = true) /\
  (forall x v, t = XAsgn x v -> forall top l, scoped top l v = true -> user v = true).
Proof.
  revert t. assert (B : forall l bs, Forall (fun t => (forall top l, scoped top l t = true -> user t = true) /\
    (forall x v, t = XAsgn x v -> forall top l, scoped top l v = true -> user v = true)) bs ->
    forallb (fun b => match b with XAsgn _ v => scoped false l v | _ => false end) bs = true -> forallb user bs = true).
  { intros l bs H Sc. induction H as [|t bs H _ IH]; [reflexivity|]. cbn [forallb] in *. apply andb_prop in Sc as [S1 S2].
    rewrite IH by auto. destruct t; try discriminate S1. rewrite andb_true_r. exact (proj2 H _ _ eq_refl _ _ S1). }
  assert (Q : forall l ts, Forall (fun t => (forall top l, scoped top l t = true -> user t = true) /\
    (forall x v, t = XAsgn x v -> forall top l, scoped top l v = true -> user v = true)) ts ->
    forallb (scoped false l) ts = true -> forallb user ts = true).
  { intros l ts H Sc. induction H as [|t ts H _ IH]; [reflexivity|]. cbn [forallb] in *. apply andb_prop in Sc as [S1 S2].
    rewrite IH by auto. rewrite andb_true_r. exact (proj1 H _ _ S1). }
  intros t.   induction t using ex_ind'; (split; [|intros x0 v0 E0; try discriminate E0]); try (intros top l0 Sc; try discriminate Sc);
    cbn [user].
  - reflexivity.
  - reflexivity.
  - now apply (Q l0).
  - cbn [scoped] in Sc. apply andb_prop in Sc as [S1 S2]. rewrite (proj1 IHt _ _ S1). now apply (Q l0).
  - cbn [scoped] in Sc. apply andb_prop in Sc as [S1 S3]. apply andb_prop in S1 as [S1 S2].
    now rewrite (proj1 IHt1 _ _ S1), (proj1 IHt2 _ _ S2), (proj1 IHt3 _ _ S3).
  - exact (proj1 IHt _ _ Sc).
  - cbn [scoped] in Sc. apply andb_prop in Sc as [S1 S2]. exact (proj1 IHt _ _ S2).
  - inversion E0; subst. exact (proj1 IHt _ _ Sc).
  - destruct t; try discriminate Sc. cbn [scoped] in Sc. apply andb_prop in Sc as [_ S2]. exact (proj2 IHt _ _ eq_refl _ _ S2).
  - destruct t; try discriminate Sc. reflexivity.
  - apply scoped_let in Sc as (_ & _ & Sc). destruct m.
    + apply andb_prop in Sc as [S1 S2]. rewrite (B _ _ H S1). exact (proj1 IHt _ _ S2).
    + revert l0 Sc. induction H as [|t0 bs H0 _ IH]; intros l0 Sc; cbn [forallb]; [exact (proj1 IHt _ _ Sc)|].
      destruct t0; try discriminate Sc. apply andb_prop in Sc as [S1 S2]. cbn [user]. rewrite (proj2 H0 _ _ eq_refl _ _ S1). exact (IH _ S2).
    + apply andb_prop in Sc as [S1 S2]. rewrite (B _ _ H S1). exact (proj1 IHt _ _ S2).
  - cbn [scoped] in Sc. revert Sc. generalize (@nil string). induction H as [|t0 ts H0 _ IH]; intros names Sc; cbn [forallb]; [reflexivity|].
    apply andb_prop in Sc as [S1 S2]. rewrite (proj1 H0 _ _ S1). exact (IH _ S2).
Qed.
Lemma scoped_user top l t : scoped top l t = true -> user t = true.
Proof. apply scoped_user'. Qed.
Theorem expand_sound k n t t' n' fuel w : scoped false [] t = true -> expand k n t = Some (Ok (t', n')) ->
  trun W prim globals fuel t' w = srun W prim globals fuel t w.
Proof.
  intros Sc E. pose proof (scoped_user _ _ _ Sc) as U.
  rewrite <- (ren_lams t U [] (Forall_nil _)) in E. destruct (expand_good k n t [] t' n' U E) as [-> _].
  assert (R := proj1 (sim _ _ (call_sim fuel) t) false [] n [] [] [] (mkS W [] [] w) (mkT W [] [] w) Sc).
  unfold trun, srun.
  specialize (R ltac:(discriminate) (er_nil _) ltac:(intros e []) ltac:(repeat split; constructor)).
  destruct (rrel_inv _ _ _ R) as [[-> ->]|[(y & g & g' & more & -> & -> & K)|(a & g & g' & more & -> & -> & K)]]; [reflexivity| |]; f_equal; f_equal; symmetry; apply K.
Qed.
End Sim.

(** ** Which programs are accepted *)
Lemma written_user t : written t = user t.
Proof. reflexivity. Qed.
Fixpoint size (t : ex) : nat :=
  match t with
  | XPrim _ l | XDo _ l => S (list_sum (map size l))
  | XCall f l => S (size f + list_sum (map size l))
  | XIf a b c => S (size a + size b + size c)
  | XLam _ b | XAsgn _ b | XLocal b | XDelete b => S (size b)
  | XLet m bs b => S (match m with MLetseq => 2 * length bs | _ => 0 end + list_sum (map size bs) + size b)
  | _ => 1
  end.
Definition ans {A} (r : option (outcome A)) (b : bool) : Prop :=
  match r with Some (Ok _) => b = true | Some (Raise y) => y = SyntaxError /\ b = false | None => False end.
Lemma ans_bind {A B} (r : option (outcome A)) (f : A -> option (outcome B)) b c :
  ans r b -> (forall a, ans (f a) c) -> ans (bind r f) (b && c).
Proof. destruct r as [[a|y]|]; cbn; [intros -> H; apply H|intros [-> ->] _; auto|contradiction]. Qed.
Lemma ans_ret {A} (r : option (outcome A)) {B} (f : A -> B) b : ans r b -> ans (bind r (fun a => Some (Ok (f a)))) b.
Proof. intros H. rewrite <- (andb_true_r b). apply ans_bind; [exact H|]. intros a. reflexivity. Qed.
Lemma size_pos t : 1 <= size t.
Proof. destruct t; cbn; lia. Qed.
Lemma taken_free D x : taken true x (shapes D) = negb (free D x).
Proof.
  induction D as [|[ps|e d ns pd] D IH]; cbn; [reflexivity| |].
  - rewrite IH. now destruct (mems x ps).
  - rewrite IH, mems_app. now destruct (mems x ns), (mems x pd), (free D x).
Qed.
Lemma taken_rd D x : if taken false x (shapes D) then exists e, rd D x = XAttr e x else rd D x = XVar x.
Proof.
  induction D as [|[ps|e d ns pd] D IH]; cbn; [reflexivity| |].
  - destruct (mems x ps); cbn; [reflexivity|exact IH].
  - destruct (mems x ns); cbn; [eauto|exact IH].
Qed.
Lemma stray_ren s : user s = true -> forall D, stray (ren D s) = loose s.
Proof.
  assert (M : forall D l, Forall (fun s => user s = true -> forall D, stray (ren D s) = loose s) l -> forallb user l = true -> existsb stray (map (ren D) l) = existsb loose l).
  { intros D l H U. induction H as [|t l H _ IH]; [reflexivity|]. cbn in U. apply andb_prop in U as [U1 U2]. cbn. now rewrite H, IH. }
  induction s using ex_ind'; intros U D; cbn [user] in U; try discriminate U;
    repeat match goal with H : _ && _ = true |- _ => apply andb_prop in H as [? ?] end; cbn [ren].
  - reflexivity.
  - destruct (rd_cases D x) as [K|[e K]]; rewrite K; reflexivity.
  - cbn. auto.
  - cbn. rewrite IHs, M; auto.
  - cbn. rewrite IHs1, IHs2, IHs3; auto.
  - cbn. auto.
  - destruct (wr_shape D x) as [K|(d & e & K)]; rewrite K; cbn; auto.
  - reflexivity.
  - reflexivity.
  - cbn. rewrite IHs, M; auto.
  - cbn. destruct i; [auto|reflexivity].
Qed.
Lemma acc_top l s : is_local s = false -> accepted true l s = accepted false l s.
Proof. destruct s; try reflexivity. discriminate. Qed.
Definition Acc (k : nat) : Prop := forall n s D, user s = true -> size s <= k -> ans (expand k n (ren D s)) (accepted false (shapes D) s).
Lemma acc_list k (IH : Acc k) D : forall l n, forallb user l = true -> (forall t, In t l -> size t <= k) ->
  ans (expand_list (expand k) n (map (ren D) l)) (forallb (accepted false (shapes D)) l).
Proof.
  induction l as [|t l IHl]; intros n U Sz; [reflexivity|]. cbn in U. apply andb_prop in U as [U1 U2]. cbn [map expand_list forallb].
  apply ans_bind; [apply IH; auto; apply Sz; now left|]. intros q. apply (ans_ret _ (fun r => (fst q :: fst r, snd r))). apply IHl; auto. intros t' I'. apply Sz. now right.
Qed.
Lemma sum_in l t : In t l -> size t <= list_sum (map size l).
Proof. induction l as [|a l IH]; [intros []|]. cbn [map]. rewrite sum_cons. intros [->|I']; [lia|]. specialize (IH I'). lia. Qed.
Lemma canonize_ans D bs : forallb user bs = true ->
  match canonize (map (ren D) bs) with
  | Ok nbs => forallb (fun b => match b with XAsgn x v => negb (taken true x (shapes D)) && accepted false (shapes D) v | _ => false end) bs =
              forallb (fun xv => match xv with XAsgn _ v => accepted false (shapes D) v | _ => false end) bs
  | Raise y => y = SyntaxError /\ forallb (fun b => match b with XAsgn x v => negb (taken true x (shapes D)) && accepted false (shapes D) v | _ => false end) bs = false
  end.
Proof.
  induction bs as [|b bs IH]; intros U; [reflexivity|]. cbn in U. apply andb_prop in U as [U1 U2]. specialize (IH U2). cbn [map canonize forallb].
  assert (N : match ren D b with XAsgn _ _ => True | _ => match b with XAsgn x v => free D x = false | _ => True end end).
  { destruct b; cbn [ren]; try exact I.
    - destruct (rd_cases D x) as [K|[e K]]; rewrite K; exact I.
    - destruct (free D x) eqn:Fx; [rewrite free_wr by auto; exact I|]. destruct (wr_shape D x) as [K|(d & e & K)]; rewrite K; auto. }
  destruct (ren D b) eqn:R;
    try (split; [reflexivity|]; destruct b; try reflexivity; rewrite taken_free, N; reflexivity).
  apply ren_asgn in R as (v' & -> & F & ->); [|exact U1]. rewrite taken_free, F. cbn [negb].
  destruct (canonize (map (ren D) bs)) as [nbs|y]; cbn; [now rewrite IH|]. destruct IH as [-> ->]. split; [reflexivity|apply andb_false_r].
Qed.

(** the items of a do *)
Definition chain_acc (k : nat) (t : ex) : Prop := user t = true -> forall D,
  match localdefs (ren D t) with
  | Ok (t1, new) => stray t1 = loose (local_value t) /\ is_delete t1 = is_delete t /\
      forall k' e names pend m, k' <= k -> size t <= k' -> (forall x, mems x (names ++ pend) = true -> free D x = true) ->
        (forall x, mems x new = true -> mems x (names ++ pend) = true) ->
        is_delete t = false -> ans (expand k' m (T e true names pend [] t1)) (accepted true (shapes (REnv e true names pend :: D)) t)
  | Raise y => y = SyntaxError /\ forall names pend,
      forallb (fun x => negb (taken true x (shapes D)) && negb (mems x names)) (declares t) &&
        negb (loose (local_value t)) && accepted true (SVars names pend :: shapes D) t = false
  end.
Lemma chain_acc_other k (IH : forall k', k' <= k -> Acc k') t : is_local t = false -> chain_acc k t.
Proof.
  intros N U D. rewrite localdefs_other by (now rewrite is_local_ren). split; [|split].
  - rewrite stray_ren by auto. destruct t; try reflexivity. discriminate N.
  - apply is_delete_ren, U.
  - intros k' e names pend m Hk Sz HD _ _.
    pose proof (ren_ext e true names pend D HD t U []) as R. cbn [app lamnames] in R. rewrite R.
    rewrite acc_top by auto. now apply IH.
Qed.
Lemma local_core t : is_delete t = true -> forall l, accepted true l t = false.
Proof. destruct t; try discriminate. reflexivity. Qed.
Lemma chain_acc_ok k (IH : forall k', k' <= k -> Acc k') t : chain_acc k t /\ match t with XAsgn _ v => chain_acc k v | _ => True end.
Proof.
  induction t using ex_ind'; (split; [|try exact I]).
  all: try (apply chain_acc_other; auto; reflexivity).
  - apply IHt.
  - intros U D. cbn [user] in U. cbn [ren localdefs].
    assert (N : match ren D t with XAsgn _ _ => True | _ => match t with XAsgn x v => free D x = false | _ => True end end).
    { destruct t; cbn [ren]; try exact I.
      - destruct (rd_cases D x) as [K|[e K]]; rewrite K; exact I.
      - destruct (free D x) eqn:Fx; [rewrite free_wr by auto; exact I|]. destruct (wr_shape D x) as [K|(d & e & K)]; rewrite K; auto. }
    destruct (ren D t) eqn:R;
      try (split; [reflexivity|]; intros names pend; destruct t; try (cbn [accepted]; apply andb_false_r);
           cbn [declares forallb]; rewrite taken_free, N; reflexivity).
    apply ren_asgn in R as (v & -> & F & ->); [|exact U]. cbn [user] in U.
    destruct IHt as [_ IHt]. specialize (IHt U D). destruct (localdefs (ren D v)) as [[t1 new]|y]; cbn [obind fst snd].
    + destruct IHt as (St & Dl & K). split; [exact St|]. split; [reflexivity|].
      intros k' e names pend m Hk Sz HD HN _. unfold T. cbn [tr_assign].
      rewrite HN by (cbn; now rewrite String.eqb_refl). cbn [mems existsb negb andb]. cbn [tr_name].
      cbn [size] in Sz. destruct k'; [lia|]. cbn [expand]. apply (ans_ret _ (fun q => (XSet true e x (fst q), snd q))).
      cbn [accepted]. cbn [andb].
      destruct (is_delete v) eqn:Dv.
      * rewrite local_core by auto. destruct v; try discriminate Dv. cbn in Dl. destruct t1; try discriminate Dl. cbn [tr_assign tr_name expand].
        destruct k'; [lia|]. split; reflexivity.
      * apply (K k' e names pend m); auto; [lia|lia|]. intros y My. apply HN. rewrite mems_cons, My. apply orb_true_r.
    + destruct IHt as [-> K]. split; [reflexivity|]. intros names pend. cbn [declares forallb local_value accepted]. specialize (K names pend).
      rewrite taken_free, F. cbn [negb andb]. destruct (negb (mems x names)); [|reflexivity]. exact K.
Qed.
Definition acc_items (l : list shape) := fix items (ts : list ex) (names : list string) : bool :=
  match ts with
  | [] => true
  | t :: ts =>
      match t with
      | XDelete (XVar x) => negb (taken false x l)
      | XDelete _ => false
      | _ =>
          forallb (fun x => negb (taken true x l) && negb (mems x names)) (declares t) &&
          negb (loose (local_value t)) &&
          accepted true (SVars names (declares t) :: l) t
      end && items ts (next_names names t)
  end.
Lemma acc_do top l i ts : accepted top l (XDo i ts) = acc_items l ts [].
Proof. reflexivity. Qed.
Definition acc_item (l : list shape) (names : list string) (t : ex) : bool :=
  match t with
  | XDelete (XVar x) => negb (taken false x l)
  | XDelete _ => false
  | _ =>
      forallb (fun x => negb (taken true x l) && negb (mems x names)) (declares t) &&
      negb (loose (local_value t)) &&
      accepted true (SVars names (declares t) :: l) t
  end.
Lemma acc_item_other l names t : is_delete t = false -> acc_item l names t =
  forallb (fun x => negb (taken true x l) && negb (mems x names)) (declares t) &&
  negb (loose (local_value t)) && accepted true (SVars names (declares t) :: l) t.
Proof. destruct t; try reflexivity. discriminate. Qed.
Lemma acc_items_cons l t ts names : acc_items l (t :: ts) names = acc_item l names t && acc_items l ts (next_names names t).
Proof. destruct t; try reflexivity. Qed.
Lemma lines_acc k (IH : forall k', k' <= k -> Acc k') l : forall names n D, forallb user l = true -> (forall t, In t l -> size t <= k) ->
  (forall x, mems x names = true -> free D x = true) -> 1 <= k ->
  match do_lines n names (map (ren D) l) with
  | Ok l' => forall m, ans (expand_list (expand k) m l') (acc_items (shapes D) l names)
  | Raise y => y = SyntaxError /\ acc_items (shapes D) l names = false
  end.
Proof.
  induction l as [|t l IHl]; intros names n D U Sz F Hk.
  - intros m. reflexivity.
  - cbn in U. apply andb_prop in U as [U1 U2]. cbn [map do_lines]. rewrite acc_items_cons.
    destruct (chain_acc_ok k IH t) as [C _]. specialize (C U1 D).
    destruct (localdefs (ren D t)) as [[t1 new]|y] eqn:Lo; cbn [obind].
    2:{ destruct C as [-> C]. split; [reflexivity|]. rewrite acc_item_other, C; [reflexivity|].
        destruct t; try reflexivity. cbn in Lo. discriminate Lo. }
    destruct C as (St & Dl & C). destruct (proj1 (chain 0 ltac:(intros k' Hk'; apply expand_good) t) U1 D t1 new Lo) as (-> & FN & _ & _).
    destruct (is_delete t) eqn:Dt.
    + destruct t; try discriminate Dt. cbn [ren localdefs] in Lo. inversion Lo; subst t1. clear Lo. cbn [deletes].
      destruct t; try (destruct (ren D _) eqn:R; split; reflexivity || fail).
      all: try (cbn [ren obind]; split; reflexivity).
      * cbn [ren]. pose proof (taken_rd D x) as Tk. cbn [acc_item]. destruct (taken false x (shapes D)).
        -- destruct Tk as [e ->]. cbn. auto.
        -- rewrite Tk. cbn [obind existsb declares stray negb andb]. specialize (IHl (next_names names (XDelete (XVar x))) n D U2 ltac:(intros; apply Sz; now right)).
           specialize (IHl ltac:(intros y My; apply F; apply mems_filter in My; rewrite app_nil_r in My; exact My) Hk).
           change (filter (fun x0 => negb (mems x0 [x])) (names ++ [])) with (next_names names (XDelete (XVar x))).
           destruct (do_lines n (next_names names (XDelete (XVar x))) (map (ren D) l)) as [l1|y]; cbn [obind]; [|exact IHl].
           intros m. cbn [expand_list]. change (letlike n (next_names names (XDelete (XVar x))) names true (XPop n x)) with (XPop n x).
           destruct k; [lia|]. cbn [expand bind fst snd]. apply (ans_ret _ (fun r => (XPop n x :: fst r, snd r))). apply IHl.
      * cbn [ren]. destruct (wr_shape D x) as [K|(d & e & K)]; rewrite K; cbn; auto.
    + rewrite deletes_other by congruence. cbn [obind]. rewrite acc_item_other by auto.
      replace (match declares t with [] => false | _ :: _ => false end) with false by (now destruct (declares t)).
      destruct (existsb (fun x => mems x names) (declares t)) eqn:Ex.
      { split; [reflexivity|]. replace (forallb _ (declares t)) with false; [reflexivity|]. symmetry.
        apply existsb_exists in Ex as (x & Ix & Mx). destruct (forallb _ (declares t)) eqn:Fa; [|reflexivity].
        rewrite forallb_forall in Fa. specialize (Fa x Ix). rewrite Mx in Fa. rewrite andb_false_r in Fa. discriminate. }
      replace (forallb _ (declares t)) with true.
      2:{ symmetry. apply forallb_forall. intros x Ix. rewrite taken_free, FN; [|apply existsb_exists; exists x; split; auto; apply String.eqb_refl].
          cbn [negb andb]. destruct (mems x names) eqn:Mx; [|reflexivity]. assert (Ex' : existsb (fun x => mems x names) (declares t) = true) by (apply existsb_exists; eauto). congruence. }
      rewrite St. destruct (loose (local_value t)); [split; reflexivity|]. cbn [negb andb].
      assert (NN : filter (fun x => negb (mems x [])) (names ++ declares t) = next_names names t).
      { rewrite filter_all. unfold next_names. destruct t; try discriminate Dt; cbn [discards]; now rewrite filter_all. }
      rewrite NN.
      assert (NF : forall x, mems x (names ++ declares t) = true -> free D x = true).
      { intros x. rewrite mems_app. intros M. apply orb_prop in M as [M|M]; auto. }
      specialize (IHl (next_names names t) n D U2 ltac:(intros; apply Sz; now right)).
      specialize (IHl ltac:(intros y My; apply NF; apply mems_filter in My; exact My) Hk).
      destruct (do_lines n (next_names names t) (map (ren D) l)) as [l1|y]; cbn [obind].
      2:{ destruct IHl as [-> ->]. split; [reflexivity|]. apply andb_false_r. }
      intros m. cbn [expand_list]. rewrite <- NN, filter_all. rewrite filter_all in NN.
      change (letlike n (names ++ declares t) names true t1) with (T n true names (declares t) [] t1).
      apply ans_bind.
      * apply C; auto. apply Sz; now left. intros x Mx. rewrite mems_app, Mx. apply orb_true_r.
      * intros q. apply (ans_ret _ (fun r => (fst q :: fst r, snd r))). rewrite NN. apply IHl.
Qed.
Lemma acc_bs l xs vs : length xs = length vs ->
  forallb (fun b => match b with XAsgn _ v => accepted false l v | _ => false end) (map (fun xv => XAsgn (fst xv) (snd xv)) (combine xs vs)) =
  forallb (accepted false l) vs.
Proof. revert vs. induction xs as [|x xs IHx]; intros [|v vs] L; try discriminate L; [reflexivity|]. cbn. f_equal. apply IHx. now inversion L. Qed.
Lemma size_bs xs vs : length xs = length vs ->
  list_sum (map size (map (fun xv => XAsgn (fst xv) (snd xv)) (combine xs vs))) = length xs + list_sum (map size vs).
Proof.
  revert vs. induction xs as [|x xs IHx]; intros [|v vs] L; try discriminate L; [reflexivity|]. cbn [combine map fst snd]. rewrite !sum_cons.
  rewrite IHx by (now inversion L). cbn [size length]. lia.
Qed.
Theorem expand_acc k : Acc k.
Proof.
  assert (H : forall k', k' <= k -> Acc k'); [|apply H, le_n].
  induction k as [|k0 IH]; intros k' Hk.
  { intros n s D _ Sz. pose proof (size_pos s). lia. }
  destruct (Nat.eq_dec k' (S k0)) as [->|]; [|apply IH; lia]. clear Hk.
  pose proof (IH k0 (le_n _)) as IHk.
  intros n s D U Sz.
  destruct s; cbn [user] in U; try discriminate U; repeat match goal with H : _ && _ = true |- _ => apply andb_prop in H as [? ?] end;
    cbn [size] in Sz.
  - reflexivity.
  - cbn [ren]. destruct (rd_cases D x) as [K|[? K]]; rewrite K; reflexivity.
  - cbn [ren expand accepted]. apply (ans_ret _ (fun r => (XPrim o (fst r), snd r))). apply acc_list; auto. intros t I'. apply sum_in in I'. lia.
  - cbn [ren expand accepted]. apply ans_bind; [apply IHk; auto; lia|]. intros q. apply (ans_ret _ (fun r => (XCall (fst q) (fst r), snd r))). apply acc_list; auto.
    intros t I'. apply sum_in in I'. lia.
  - cbn [ren expand accepted]. rewrite <- andb_assoc. apply ans_bind; [apply IHk; auto; lia|]. intros q. apply ans_bind; [apply IHk; auto; lia|]. intros r.
    apply (ans_ret _ (fun s => (XIf (fst q) (fst r) (fst s), snd s))). apply IHk; auto; lia.
  - cbn [ren expand accepted]. apply (ans_ret _ (fun r => (XLam ps (fst r), snd r))). apply (IHk n s (RLam ps :: D)); auto. lia.
  - cbn [ren accepted]. assert (Q : forall q n, ans (expand k0 n q) (accepted false (shapes D) s) -> ans (expand (S k0) n (wr D x q)) (accepted false (shapes D) s)).
    { intros q n0 A. destruct (wr_shape D x) as [K|(d & e & K)]; rewrite K; cbn [expand].
      - apply (ans_ret _ (fun r => (XAsgn x (fst r), snd r))). exact A.
      - apply (ans_ret _ (fun r => (XSet d e x (fst r), snd r))). exact A. }
    apply Q. apply IHk; auto. lia.
  - cbn [ren expand]. split; [reflexivity|]. destruct s; reflexivity.
  - cbn [ren expand]. split; reflexivity.
  - cbn [ren accepted expand].
    match goal with |- ans ?G _ => assert (EG : expand (S k0) n (XLet m (map (ren D) bs) (ren D s)) = G) by reflexivity end. 
    pose proof (canonize_ans D bs ltac:(assumption)) as Ca.
    destruct (canonize (map (ren D) bs)) as [nbs|y] eqn:C; cbn [bind] in *.
    2:{ destruct Ca as [-> ->]. split; reflexivity. }
    rewrite Ca. clear Ca. apply canonize_ren in C as (xs & vs & -> & Len & -> & N & UV & F); [|assumption].
    rewrite acc_bs by auto. rewrite size_bs, map_length, combine_length, <- Len, Nat.min_id in Sz by auto.
    assert (Le : m <> MLetseq -> xs <> [] -> ans (expand (S k0) n (XLet m (map (ren D) (map (fun xv => XAsgn (fst xv) (snd xv)) (combine xs vs))) (ren D s))) (forallb (accepted false (shapes D)) vs && accepted false (shapes D) s)).
    { intros Mm Nx. rewrite EG. destruct xs as [|x xs]; [congruence|]. destruct vs as [|v vs]; [discriminate Len|]. rewrite andb_comm.
      assert (A1 : ans (expand k0 n (ren D s)) (accepted false (shapes D) s)) by (apply IHk; auto; lia).
      assert (A2 : forall n, ans (expand_list (expand k0) n (map (ren D) (v :: vs))) (forallb (accepted false (shapes D)) (v :: vs))).
      { intros n0. apply acc_list; auto. intros t I'. apply sum_in in I'. lia. }
      destruct m; [|congruence|]; cbn [map combine]; (apply ans_bind; [exact A1|]); intros q; rewrite map_snd_combine by (rewrite map_length; now inversion Len);
        cbn [snd]; match goal with |- ans (bind _ (fun r => Some (Ok (@?f r)))) _ => apply (ans_ret _ f) end; apply A2. }
    destruct xs as [|x xs]; [destruct vs; [|discriminate Len]|].
    { cbn [combine map]. cbn [forallb andb]. destruct m.
      - apply (ans_ret _ (fun q => (fst q, snd q))). apply IHk; auto; lia.
      - apply IHk; auto; lia.
      - apply (ans_ret _ (fun q => (fst q, snd q))). apply IHk; auto; lia. }
    destruct m; [rewrite <- EG; apply Le; discriminate| |rewrite <- EG; apply Le; discriminate]. clear Le EG.
    destruct vs as [|v vs]; [discriminate Len|]. cbn [map combine].
    cbn [forallb] in UV. apply andb_prop in UV as [Uv UV]. cbn [map] in Sz. rewrite sum_cons in Sz. cbn [length] in Sz.
    assert (Fx : free D x = true) by (apply F; rewrite mems_cons, String.eqb_refl; reflexivity).
    destruct xs as [|y xs].
    + destruct vs; [|discriminate Len]. cbn [combine map].
      replace (XLet MLet [XAsgn x (ren D v)] (ren D s)) with (ren D (XLet MLet [XAsgn x v] s)) by (cbn [ren map]; now rewrite free_wr by exact Fx).
      replace (forallb (accepted false (shapes D)) [v] && accepted false (shapes D) s) with (accepted false (shapes D) (XLet MLet [XAsgn x v] s)).
      * apply IHk; [cbn; now rewrite Uv|]. cbn in *. lia.
      * cbn [accepted forallb]. rewrite taken_free, Fx. reflexivity.
    + destruct vs as [|w vs]; [discriminate Len|]. cbn [combine map].
      set (rest := map (fun xv => XAsgn (fst xv) (snd xv)) (combine (y :: xs) (w :: vs))).
      assert (G : forall xs vs, length xs = length vs -> (forall z, mems z xs = true -> free D z = true) ->
           map (ren D) (map (fun xv => XAsgn (fst xv) (snd xv)) (combine xs vs)) = map (fun xv => XAsgn (fst xv) (snd xv)) (combine xs (map (ren D) vs))).
      { clear. induction xs as [|a xs IHx]; intros [|c vs] L F; try discriminate L; [reflexivity|]. cbn [combine map fst snd ren].
        rewrite free_wr by (apply F; rewrite mems_cons, String.eqb_refl; reflexivity). f_equal. apply IHx; [now inversion L|].
        intros z Z. apply F. rewrite mems_cons, Z. apply orb_true_r. }
      assert (Fr : forall z, mems z (y :: xs) = true -> free D z = true).
      { intros z Z. apply F. rewrite mems_cons, Z. apply orb_true_r. }
      assert (Lr : length (y :: xs) = length (w :: vs)) by (cbn in *; lia).
      match goal with |- ans (expand k0 n ?q) _ => replace q with (ren D (XLet MLet [XAsgn x v] (XLet MLetseq rest s))) end.
      2:{ cbn [ren map]. rewrite free_wr by exact Fx. do 3 f_equal. unfold rest. apply (G (y :: xs) (w :: vs)); auto. }
      replace (forallb (accepted false (shapes D)) (v :: w :: vs) && accepted false (shapes D) s) with (accepted false (shapes D) (XLet MLet [XAsgn x v] (XLet MLetseq rest s))).
      * apply IHk.
        -- cbn [user forallb]. rewrite Uv. unfold rest. rewrite user_bs by auto. rewrite UV. cbn. assumption.
        -- cbn [size map length]. unfold rest. rewrite size_bs, map_length, combine_length, <- Lr, Nat.min_id by auto. rewrite sum_cons. cbn [length list_sum fold_right size] in *. lia.
      * cbn [accepted forallb]. rewrite taken_free, Fx. cbn [negb andb]. rewrite andb_true_r, <- andb_assoc. f_equal. f_equal.
        change (accepted false (shapes D) w && forallb (accepted false (shapes D)) vs) with (forallb (accepted false (shapes D)) (w :: vs)).
        unfold rest. rewrite <- (acc_bs (shapes D) (y :: xs) (w :: vs)) by auto.
        assert (P : forall xs vs, length xs = length vs -> (forall z, mems z xs = true -> free D z = true) ->
          forallb (fun b => match b with XAsgn x v => negb (taken true x (shapes D)) && accepted false (shapes D) v | _ => false end) (map (fun xv => XAsgn (fst xv) (snd xv)) (combine xs vs)) =
          forallb (fun b => match b with XAsgn x v => accepted false (shapes D) v | _ => false end) (map (fun xv => XAsgn (fst xv) (snd xv)) (combine xs vs))).
        { clear. induction xs as [|a xs IHx]; intros [|c vs] L F; try discriminate L; [reflexivity|]. cbn [combine map fst snd forallb].
          rewrite taken_free, F by (rewrite mems_cons, String.eqb_refl; reflexivity). cbn [negb andb]. f_equal. apply IHx; [now inversion L|].
          intros z Z. apply F. rewrite mems_cons, Z. apply orb_true_r. }
        now apply P.
  - cbn [ren expand]. rewrite acc_do. destruct k0 as [|k0].
    { destruct l as [|t l]; [reflexivity|]. cbn [map] in Sz. rewrite sum_cons in Sz. pose proof (size_pos t). lia. }
    pose proof (lines_acc (S k0) IH l [] n D U ltac:(intros t I'; apply sum_in in I'; lia) ltac:(cbn; discriminate) ltac:(lia)) as La.
    destruct (do_lines n [] (map (ren D) l)) as [l'|y]; cbn [bind].
    + apply (ans_ret _ (fun r => (TDo n (fst r), snd r))). apply La.
    + exact La.
Qed.
Theorem expand_accepts t : written t = true -> exists k0, forall k n, k0 <= k ->
  if accepted false [] t then exists t' n', expand k n t = Some (Ok (t', n')) else expand k n t = Some (Raise SyntaxError).
Proof.
  intros U. exists (size t). intros k n Sz. pose proof (expand_acc k n t [] U Sz) as A.
  rewrite (ren_lams t U [] (Forall_nil _)) in A. cbn [shapes map] in A.
  destruct (expand k n t) as [[[t' n']|y]|]; cbn in A; [rewrite A; eauto| |contradiction]. destruct A as [-> ->]. reflexivity.
Qed.
