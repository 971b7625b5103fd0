From Verif Require Import Base LLModel LLSpec LrpModel LrpSpec.
From Coq Require Import String Ascii List Bool ZArith Lia DecimalString DecimalZ.
Import ListNotations.
Open Scope string_scope.

Lemma app_nil s : s ++ "" = s. Proof. induction s; simpl; congruence. Qed.
Lemma app_ass s t u : (s ++ t) ++ u = s ++ (t ++ u). Proof. induction s; simpl; congruence. Qed.
Lemma app_len s t : String.length (s ++ t) = String.length s + String.length t. Proof. induction s; simpl; congruence. Qed.
Lemma concat_cons sep x l : l <> [] -> String.concat sep (x :: l) = x ++ sep ++ String.concat sep l.
Proof. destruct l; [congruence|reflexivity]. Qed.

(** what may come after a word *)
Definition ends (r : string) : Prop := match r with EmptyString => True | String c _ => delim c = true end.
Definition ends' (r : string) : Prop := match r with EmptyString => True | String c _ => delim c = true /\ c <> "("%char end.
Lemma ends_of r : ends' r -> ends r. Proof. destruct r; simpl; tauto. Qed.
Lemma word_app w r : one_word w -> ends r -> word (w ++ r) = (w, r).
Proof.
  induction w as [|c w IH]; simpl.
  - intros _. destruct r as [|c r]; simpl; auto. intros ->. auto.
  - intros [-> W] E. rewrite (IH W E). auto.
Qed.

Section Lrp.
Context {A : Type}.
Variables (show : A -> string) (read : string -> option A).
Hypothesis PL : plain show read.
Notation val := (val A).

Lemma walk_proper (v : val) : is_cons v = true -> snd (ll_walk v) = proper v.
Proof.
  induction v as [| |a _ d IH]; simpl; auto. intros _. destruct d as [| |x y]; auto.
  specialize (IH eq_refl). simpl ll_walk in *. destruct (ll_walk y) as [l ok]. exact IH.
Qed.
Lemma walk_lst (v : val) : proper v = true -> ll_walk v = (fst (ll_walk v), true) /\ v = lst (fst (ll_walk v)).
Proof.
  induction v as [| |a _ d IH]; simpl; try discriminate; auto. intros P. destruct (IH P) as [E F].
  rewrite E. simpl. split; auto. unfold lst in *. simpl. rewrite <- F. auto.
Qed.
Lemma walk_improper (v : val) : proper v = false -> ll_walk v = (fst (ll_walk v), false).
Proof.
  induction v as [| |a _ d IH]; simpl; try discriminate; auto. intros P. rewrite (IH P). auto.
Qed.

Lemma named_show a : named read (show a) = Some (Atom a).
Proof.
  unfold named. destruct (PL a) as (_ & _ & N & _ & R). destruct (String.eqb_spec (show a) "nil"); [congruence|].
  rewrite R. auto.
Qed.

(** what [repr] of a cell does *)
Lemma repr_proper n a d : proper d = true ->
  repr show (S n) (Cons a d) = do ss <- mapM (repr show n) (a :: fst (ll_walk d)); Ok ("ll(" ++ String.concat ", " ss ++ ")").
Proof. intros P. cbn [repr ll_walk]. destruct (walk_lst d P) as [-> _]. reflexivity. Qed.
Lemma repr_improper n a d : proper d = false ->
  repr show (S n) (Cons a d) = do _ <- mapM (repr show n) (a :: fst (ll_walk d)); do ra <- repr show n a; do rd <- repr show n d; Ok ("cons(" ++ String.concat ", " [ra; rd] ++ ")").
Proof.
  intros P. cbn [repr ll_walk]. rewrite (walk_improper d P). cbn [fst]. destruct (mapM _ _); reflexivity.
Qed.
Lemma lispy_proper n a d : proper d = true ->
  lispyrepr show (S n) (Cons a d) = do ss <- mapM (repr show n) (a :: fst (ll_walk d)); Ok ("(" ++ String.concat " " ss ++ ")").
Proof. intros P. cbn [lispyrepr ll_walk]. destruct (walk_lst d P) as [-> _]. cbn [fst]. destruct (mapM _ _); reflexivity. Qed.
Lemma lispy_improper n a d : proper d = false ->
  lispyrepr show (S n) (Cons a d) = do _ <- mapM (repr show n) (a :: fst (ll_walk d)); do ra <- lispyrepr show n a; do rd <- lispyrepr show n d; Ok ("(" ++ String.concat " " [ra; "."; rd] ++ ")").
Proof.
  intros P. cbn [lispyrepr ll_walk]. rewrite (walk_improper d P). cbn [fst]. destruct (mapM _ _); [|reflexivity].
  cbn [obind]. destruct (lispyrepr show n a); cbn [obind]; [|reflexivity]. destruct (lispyrepr show n d); reflexivity.
Qed.

Lemma repr_head n v s : repr show n v = Ok s -> exists c s', s = String c s' /\ delim c = false.
Proof.
  destruct n as [|n]; [discriminate|]. destruct v as [x| |a d].
  - simpl. intros [= <-]. destruct (PL x) as (N & W & _). destruct (show x) as [|c s']; [congruence|].
    destruct W. eauto.
  - simpl. intros [= <-]. do 2 eexists. split; reflexivity.
  - destruct (proper d) eqn:P.
    + rewrite repr_proper by auto. destruct (mapM _ _); [|discriminate]. intros [= <-]. do 2 eexists. split; reflexivity.
    + rewrite repr_improper by auto. destruct (mapM _ _); [|discriminate]. cbn [obind].
      destruct (repr show n a); [|discriminate]. cbn [obind]. destruct (repr show n d); [|discriminate].
      intros [= <-]. do 2 eexists. split; reflexivity.
Qed.

Lemma args_step n c s : delim c = false ->
  args read (S n) (String c s) =
  andthen (expr read n (String c s)) (fun '(v, r) =>
            match r with
            | String ")" r => Some ([v], r)
            | String "," (String " " r) => andthen (args read n r) (fun '(vs, r) => Some (v :: vs, r))
            | _ => None
            end).
Proof.
  intros D. cbn [args]. destruct c as [[] [] [] [] [] [] [] []]; try reflexivity; discriminate D.
Qed.

Definition reads n := forall v s, repr show n v = Ok s -> forall m rest, ends' rest -> 2 * String.length s + 1 <= m ->
  expr read m (s ++ rest) = Some (v, rest).
Lemma read_args n : reads n -> forall l ss, mapM (repr show n) l = Ok ss -> l <> [] -> forall m rest,
  2 * String.length (String.concat ", " ss) + 2 <= m ->
  args read m (String.concat ", " ss ++ ")" ++ rest) = Some (l, rest).
Proof.
  intros H. induction l as [|x l IH]; [congruence|]. intros ss M _ m rest L. cbn [mapM] in M.
  destruct (repr show n x) as [s|] eqn:R; [|discriminate]. cbn [obind] in M.
  destruct (mapM (repr show n) l) as [ss'|] eqn:M'; [|discriminate]. injection M as <-.
  destruct m as [|m]; [lia|]. destruct (repr_head n x s R) as (c & s' & E & D).
  destruct l as [|y l].
  - cbn [mapM] in M'. injection M' as <-. cbn [String.concat] in L |- *. rewrite E at 1. cbn [append].
    rewrite args_step by auto.
    match goal with |- context [expr read m ?t] => change t with (String c s' ++ (")" ++ rest)) end. rewrite <- E.
    rewrite (H x s R); [reflexivity|simpl; split; [auto|congruence]|lia].
  - assert (ss' <> []) as NE.
    { cbn [mapM] in M'. destruct (repr show n y); [|discriminate]. cbn [obind] in M'. destruct (mapM _ l); [|discriminate].
      injection M' as <-. discriminate. }
    rewrite concat_cons in L |- * by auto. rewrite !app_len in L. cbn [String.length] in L. rewrite !app_ass. rewrite E at 1. cbn [append].
    rewrite args_step by auto.
    match goal with |- context [expr read m ?t] => change t with (String c s' ++ (", " ++ (String.concat ", " ss' ++ ")" ++ rest))) end.
    rewrite <- E. rewrite (H x s R); [|simpl; split; [auto|congruence]|lia].
    assert (args read m (String.concat ", " ss' ++ ")" ++ rest) = Some (y :: l, rest)) as Q by (apply (IH ss' eq_refl); [discriminate|lia]).
    revert Q. generalize (String.concat ", " ss' ++ ")" ++ rest). intros t Q. cbn [andthen append]. rewrite Q. reflexivity.
Qed.

Lemma expr_call n f r : one_word f -> expr read (S n) (f ++ String "(" r) = andthen (args read n r) (fun '(vs, r) => andthen (call f vs) (fun v => Some (v, r))).
Proof. intros W. cbn [expr]. rewrite word_app; auto. exact eq_refl. Qed.
Lemma expr_word n f r : one_word f -> ends' r -> expr read (S n) (f ++ r) = andthen (named read f) (fun v => Some (v, r)).
Proof.
  intros W E. cbn [expr]. rewrite word_app by auto using ends_of. destruct r as [|c r]; auto. destruct E as [_ E].
  destruct c as [[] [] [] [] [] [] [] []]; try reflexivity. congruence.
Qed.

Lemma repr_reads n : reads n.
Proof.
  induction n as [|n IH]; intros v s R m rest E L; [discriminate|]. destruct m as [|m]; [lia|].
  destruct v as [x| |a d].
  - injection R as <-. destruct (PL x) as (_ & W & _). rewrite expr_word by auto. rewrite named_show. auto.
  - injection R as <-. rewrite expr_word by (auto; repeat split). reflexivity.
  - destruct (proper d) eqn:P.
    + rewrite repr_proper in R by auto. destruct (mapM _ _) as [ss|] eqn:M; [|discriminate].
      assert (s = "ll(" ++ (String.concat ", " ss ++ ")")) as -> by (cbn [obind] in R; congruence).
      rewrite !app_ass. 
      change ("ll(" ++ String.concat ", " ss ++ ")" ++ rest) with ("ll" ++ String "(" (String.concat ", " ss ++ ")" ++ rest)).
      rewrite expr_call by (repeat split). rewrite !app_len in L. cbn [String.length] in L.
      rewrite (read_args n IH _ ss M) by (discriminate || lia). cbn [andthen]. unfold call. cbn [String.eqb Ascii.eqb Bool.eqb andthen].
      destruct (walk_lst d P) as [_ F]. unfold lst in *. simpl. rewrite <- F. auto.
    + rewrite repr_improper in R by auto. destruct (mapM _ _) as [ss|] eqn:M; [|discriminate]. cbn [obind] in R.
      destruct (repr show n a) as [ra|] eqn:Ra; [|discriminate]. cbn [obind] in R.
      destruct (repr show n d) as [rd|] eqn:Rd; [|discriminate]. cbn [obind] in R.
      assert (s = "cons(" ++ (String.concat ", " [ra; rd] ++ ")")) as -> by congruence.
      rewrite !app_ass.
      change ("cons(" ++ String.concat ", " [ra; rd] ++ ")" ++ rest) with ("cons" ++ String "(" (String.concat ", " [ra; rd] ++ ")" ++ rest)).
      rewrite expr_call by (repeat split).
      rewrite !app_len in L. cbn [String.length] in L.
      rewrite (read_args n IH [a; d] [ra; rd]); [reflexivity| |discriminate|lia].
      cbn [mapM]. rewrite Ra, Rd. reflexivity.
Qed.

(** recursion depth *)
Lemma mapM_all {B C} (f : B -> outcome C) l : (forall x, In x l -> exists y, f x = Ok y) -> exists ys, mapM f l = Ok ys.
Proof.
  induction l as [|x l IH]; intros H; [exists []; auto|]. destruct (H x) as [y E]; [left; auto|].
  destruct IH as [ys F]; [intros; apply H; right; auto|]. exists (y :: ys). cbn [mapM]. rewrite E. cbn [obind]. rewrite F. auto.
Qed.
Lemma mapM_some {B C} (f : B -> outcome C) e l : (forall x, In x l -> (exists y, f x = Ok y) \/ f x = Raise e) ->
  (exists ys, mapM f l = Ok ys) \/ mapM f l = Raise e.
Proof.
  induction l as [|x l IH]; intros H; [left; exists []; auto|]. cbn [mapM]. destruct (H x) as [[y E]|E]; [left; auto| |].
  - rewrite E. cbn [obind]. destruct IH as [[ys F]|F]; [intros; apply H; right; auto| |]; rewrite F; cbn [obind]; eauto.
  - rewrite E. auto.
Qed.
Lemma mapM_fail {B C} (f : B -> outcome C) e l : (forall x, In x l -> (exists y, f x = Ok y) \/ f x = Raise e) ->
  (exists x, In x l /\ f x = Raise e) -> mapM f l = Raise e.
Proof.
  intros H (x & I & F). induction l as [|y l IH]; [destruct I|]. cbn [mapM].
  destruct (H y) as [[z E]|E]; [left; auto| |]; rewrite E; cbn [obind]; auto.
  destruct I as [->|I]; [congruence|]. rewrite IH; auto. intros; apply H; right; auto.
Qed.
Lemma depth_pos (v : val) : 1 <= depth v. Proof. destruct v; cbn [depth]; lia. Qed.
Lemma depth_list n (d : val) : proper d = true -> (depth d <= S n <-> forall x, In x (fst (ll_walk d)) -> depth x <= n).
Proof.
  induction d as [| |a _ d IH]; cbn [ll_walk proper depth fst]; try discriminate.
  - intros _. split; [intros _ x []|lia].
  - intros P. rewrite P. specialize (IH P). destruct (ll_walk d) as [l ok]. cbn [fst] in *. split.
    + intros L x [<-|I]; [lia|]. apply IH; auto. lia.
    + intros H. specialize (H a (or_introl eq_refl)) as Ha. assert (depth d <= S n) by (apply IH; intros; apply H; right; auto). lia.
Qed.
Lemma depth_items n (d : val) : depth d <= S n -> forall x, In x (fst (ll_walk d)) -> depth x <= n.
Proof.
  revert n. induction d as [| |a _ d IH]; cbn [ll_walk proper depth fst]; try (intros n _ x []).
  intros n L x I. destruct (ll_walk d) as [l ok] eqn:W. cbn [fst] in *. destruct I as [<-|I]; [lia|].
  destruct (proper d); [apply IH; auto; lia|]. assert (depth d <= S n) by lia. auto.
Qed.
Definition limited (f : nat -> val -> outcome string) := forall n v,
  (depth v <= n -> exists s, f n v = Ok s) /\ (n < depth v -> f n v = Raise RuntimeError).
Lemma limited_or (f : nat -> val -> outcome string) n (v : val) : (forall v : val, (depth v <= n -> exists s, f n v = Ok s) /\ (n < depth v -> f n v = Raise RuntimeError)) ->
  (exists s : string, f n v = Ok s) \/ f n v = Raise RuntimeError.
Proof. intros H. destruct (H v) as [G B]. destruct (Nat.le_gt_cases (depth v) n); auto. Qed.
Lemma not_all n (l : list val) : ~ (forall x, In x l -> depth x <= n) -> exists x, In x l /\ n < depth x.
Proof.
  intros H. induction l as [|y l IH]; [destruct H; intros x []|].
  destruct (Nat.le_gt_cases (depth y) n); [|exists y; split; [left; auto|lia]].
  destruct IH as (x & I & L); [|exists x; split; [right; auto|auto]].
  intros G. apply H. intros x [<-|I]; auto.
Qed.
Lemma repr_depth : limited (repr show).
Proof.
  intros n. induction n as [|n IH]; intros v.
  - split; [pose proof (depth_pos v); lia|reflexivity].
  - destruct v as [x| |a d]; try (split; [eexists; reflexivity|simpl; lia]).
    assert (forall l : list val, forall x, In x l -> (exists y, repr show n x = Ok y) \/ repr show n x = Raise RuntimeError) as OR
      by (intros; apply limited_or; auto).
    destruct (proper d) eqn:P.
    + rewrite repr_proper by auto. assert (proper (Cons a d) = true) as P' by auto.
      pose proof (depth_list n (Cons a d) P') as DL.
      assert (fst (ll_walk (Cons a d)) = a :: fst (ll_walk d)) as W by (cbn [ll_walk]; destruct (ll_walk d); auto).
      rewrite W in DL. split.
      * intros L. destruct (mapM_all (repr show n) (a :: fst (ll_walk d))) as [ss E]; [|rewrite E; eexists; reflexivity].
        intros x I. apply IH. apply DL; auto.
      * intros L. rewrite (mapM_fail _ RuntimeError); [reflexivity|apply OR|].
        destruct (not_all n (a :: fst (ll_walk d))) as (x & I & D); [intros G; apply DL in G; lia|]. exists x. split; auto. apply IH; auto.
    + rewrite repr_improper by auto. cbn [depth]. rewrite P. split.
      * intros L. destruct (mapM_all (repr show n) (a :: fst (ll_walk d))) as [ss ->].
        { intros x [<-|I]; apply IH; [lia|]. apply (depth_items n d); auto. lia. }
        destruct (proj1 (IH a)) as [ra ->]; [lia|]. destruct (proj1 (IH d)) as [rd ->]; [lia|]. eexists; reflexivity.
      * intros L. destruct (mapM_some (repr show n) RuntimeError (a :: fst (ll_walk d)) (OR _)) as [[ss ->]|E]; [|rewrite E; reflexivity]. cbn [obind].
        destruct (Nat.le_gt_cases (depth a) n) as [La|La].
        -- destruct (proj1 (IH a) La) as [ra ->]. rewrite (proj2 (IH d)) by lia. reflexivity.
        -- rewrite (proj2 (IH a)) by lia. reflexivity.
Qed.
Lemma lispy_depth : limited (lispyrepr show).
Proof.
  intros n. induction n as [|n IH]; intros v.
  - split; [pose proof (depth_pos v); lia|reflexivity].
  - destruct v as [x| |a d]; try (split; [eexists; reflexivity|simpl; lia]).
    pose proof (repr_depth n) as RD.
    assert (forall l : list val, forall x, In x l -> (exists y, repr show n x = Ok y) \/ repr show n x = Raise RuntimeError) as OR
      by (intros; apply limited_or; auto).
    destruct (proper d) eqn:P.
    + rewrite lispy_proper by auto. assert (proper (Cons a d) = true) as P' by auto.
      pose proof (depth_list n (Cons a d) P') as DL.
      assert (fst (ll_walk (Cons a d)) = a :: fst (ll_walk d)) as W by (cbn [ll_walk]; destruct (ll_walk d); auto).
      rewrite W in DL. split.
      * intros L. destruct (mapM_all (repr show n) (a :: fst (ll_walk d))) as [ss E]; [|rewrite E; eexists; reflexivity].
        intros x I. apply RD. apply DL; auto.
      * intros L. rewrite (mapM_fail _ RuntimeError); [reflexivity|apply OR|].
        destruct (not_all n (a :: fst (ll_walk d))) as (x & I & D); [intros G; apply DL in G; lia|]. exists x. split; auto. apply RD; auto.
    + rewrite lispy_improper by auto. cbn [depth]. rewrite P. split.
      * intros L. destruct (mapM_all (repr show n) (a :: fst (ll_walk d))) as [ss ->].
        { intros x [<-|I]; apply RD; [lia|]. apply (depth_items n d); auto. lia. }
        destruct (proj1 (IH a)) as [ra ->]; [lia|]. destruct (proj1 (IH d)) as [rd ->]; [lia|]. eexists; reflexivity.
      * intros L. destruct (mapM_some (repr show n) RuntimeError (a :: fst (ll_walk d)) (OR _)) as [[ss ->]|E]; [|rewrite E; reflexivity]. cbn [obind].
        destruct (Nat.le_gt_cases (depth a) n) as [La|La].
        -- destruct (proj1 (IH a) La) as [ra ->]. rewrite (proj2 (IH d)) by lia. reflexivity.
        -- rewrite (proj2 (IH a)) by lia. reflexivity.
Qed.

(** dot notation *)
Lemma datum_word n f r : one_word f -> ends' r -> datum read (S n) (f ++ r) = andthen (named read f) (fun v => Some (v, r)).
Proof.
  intros W E. cbn [datum]. destruct f as [|c f].
  - cbn [append]. destruct r as [|c r]; [reflexivity|]. destruct E as [E NE]. destruct c as [[] [] [] [] [] [] [] []]; try reflexivity; try discriminate E. congruence.
  - pose proof (word_app (String c f) r W (ends_of _ E)) as H. cbn [append] in H |- *. destruct W as [D _].
    destruct c as [[] [] [] [] [] [] [] []]; try discriminate D; rewrite H; reflexivity.
Qed.
Lemma datum_open n t : datum read (S n) ("(" ++ t) = data read n t. Proof. reflexivity. Qed.
Definition after n (v : val) (r : string) : option (val * string) :=
            match r with
            | String ")" r => Some (Cons v Nil, r)
            | String " " (String "." (String " " r)) =>
                andthen (datum read n r) (fun '(t, r) => match r with String ")" r => Some (Cons v t, r) | _ => None end)
            | String " " r => andthen (data read n r) (fun '(t, r) => Some (Cons v t, r))
            | _ => None
            end.
Lemma data_step n c s : c <> ")"%char ->
  data read (S n) (String c s) = andthen (datum read n (String c s)) (fun '(v, r) => after n v r).
Proof. intros D. cbn [data]. destruct c as [[] [] [] [] [] [] [] []]; try reflexivity. congruence. Qed.
Lemma after_space n v c c' s : (c = "."%char -> c' <> " "%char) ->
  after n v (String " " (String c (String c' s))) = andthen (data read n (String c (String c' s))) (fun '(t, r) => Some (Cons v t, r)).
Proof.
  intros H. unfold after. destruct c as [[] [] [] [] [] [] [] []]; try reflexivity.
  destruct c' as [[] [] [] [] [] [] [] []]; try reflexivity. destruct (H eq_refl). reflexivity.
Qed.
(** words that are not a dot *)
Lemma leaf_word n (v : val) s : is_cons v = false -> repr show n v = Ok s -> s <> "" /\ one_word s /\ s <> "." /\ named read s = Some v.
Proof.
  intros C R. destruct n as [|n]; [discriminate|]. destruct v as [x| |]; [| |discriminate].
  - injection R as <-. pose proof (named_show x). destruct (PL x) as (? & ? & ? & ? & ?). auto.
  - injection R as <-. repeat split; discriminate.
Qed.
Lemma read_data n l : (forall x : val, In x l -> is_cons x = false) -> forall ss, mapM (repr show n) l = Ok ss -> l <> [] ->
  forall m rest, 2 * String.length (String.concat " " ss) + 2 <= m ->
  data read m (String.concat " " ss ++ ")" ++ rest) = Some (lst l, rest).
Proof.
  induction l as [|x l IH]; [congruence|]. intros NC ss M _ m rest L. cbn [mapM] in M.
  destruct (repr show n x) as [s|] eqn:R; [|discriminate]. cbn [obind] in M.
  destruct (mapM (repr show n) l) as [ss'|] eqn:M'; [|discriminate]. injection M as <-.
  destruct m as [|[|m]]; [lia|lia|]. destruct (leaf_word n x s (NC x (or_introl eq_refl)) R) as (NE & W & ND & Nm).
  destruct s as [|c s]; [congruence|]. assert (c <> ")"%char) as NP by (destruct W as [D _]; intros ->; discriminate).
  destruct l as [|y l].
  - cbn [mapM] in M'. injection M' as <-. cbn [String.concat append].
    rewrite data_step by auto. 
    match goal with |- context [datum read _ ?t] => change t with (String c s ++ String ")" rest) end.
    rewrite datum_word, Nm; [reflexivity|auto|split; [auto|congruence]].
  - assert (exists c' s' s'', ss' = String c' s' :: s'' /\ delim c' = false /\ one_word s' /\ (c' = "."%char -> s' <> "")) as (c' & s' & s'' & -> & D' & W' & Dt).
    { cbn [mapM] in M'. destruct (repr show n y) as [t|] eqn:Ry; [|discriminate]. cbn [obind] in M'.
      destruct (leaf_word n y t (NC y (or_intror (or_introl eq_refl))) Ry) as (NE' & W' & ND' & _).
      destruct (mapM _ l) as [s''|]; [|discriminate]. injection M' as <-. destruct t as [|c' s']; [congruence|]. destruct W'.
      exists c', s', s''. repeat split; auto. intros -> ->. apply ND'. auto. }
    rewrite concat_cons in L |- * by discriminate. rewrite !app_len in L. cbn [String.length] in L. rewrite !app_ass.
    assert (data read (S m) (String.concat " " (String c' s' :: s'') ++ ")" ++ rest) = Some (lst (y :: l), rest)) as Q.
    { apply (IH (fun x I => NC x (or_intror I)) _ eq_refl); [discriminate|lia]. }
    assert (exists c2 u, String.concat " " (String c' s' :: s'') ++ ")" ++ rest = String c' (String c2 u) /\ (c' = "."%char -> c2 <> " "%char)) as (c2 & u & EQ & NSP).
    { destruct s' as [|c2 s'].
      - destruct s'' as [|w s'']; cbn [String.concat append]; do 2 eexists; (split; [reflexivity|]); intros E; destruct (Dt E); reflexivity.
      - exists c2. destruct s'' as [|w s'']; cbn [String.concat append]; eexists; (split; [reflexivity|]);
          intros _ ->; destruct W' as [W' _]; discriminate. }
    rewrite EQ in *.
    cbn [append]. rewrite data_step by auto.
    match goal with |- context [datum read _ ?t] => change t with (String c s ++ String " " (String c' (String c2 u))) end.
    rewrite datum_word, Nm; [|auto|split; [auto|congruence]]. cbn [andthen]. rewrite after_space by auto. rewrite Q. reflexivity.
Qed.
Lemma flat_list (d : val) : proper d = true -> flat d -> forall x, In x (fst (ll_walk d)) -> is_cons x = false.
Proof.
  induction d as [| |a _ d IH]; simpl; try (intros _ _ x []); try discriminate.
  intros P. rewrite P. intros [C F] x I. destruct (ll_walk d) as [l ok]. destruct I as [<-|I]; auto.
Qed.
Lemma lispy_head n v s : lispyrepr show n v = Ok s -> exists c s', s = String c s' /\ c <> ")"%char.
Proof.
  destruct n as [|n]; [discriminate|]. destruct v as [x| |a d].
  - intros R. destruct (repr_head (S n) (Atom x) s R) as (c & s' & -> & D). exists c, s'. split; auto. intros ->. discriminate.
  - simpl. intros [= <-]. do 2 eexists. split; [reflexivity|discriminate].
  - destruct (proper d) eqn:P.
    + rewrite lispy_proper by auto. destruct (mapM _ _); [|discriminate]. intros [= <-]. do 2 eexists. split; [reflexivity|discriminate].
    + rewrite lispy_improper by auto. destruct (mapM _ _); [|discriminate]. cbn [obind].
      destruct (lispyrepr show n a); [|discriminate]. cbn [obind]. destruct (lispyrepr show n d); [|discriminate].
      intros [= <-]. do 2 eexists. split; [reflexivity|discriminate].
Qed.
Lemma lispy_reads n : forall v s, flat v -> lispyrepr show n v = Ok s -> forall m rest, ends' rest -> 2 * String.length s + 1 <= m ->
  datum read m (s ++ rest) = Some (v, rest).
Proof.
  induction n as [|n IH]; intros v s F R m rest E L; [discriminate|]. destruct m as [|m]; [lia|].
  destruct v as [x| |a d].
  - injection R as <-. destruct (PL x) as (_ & W & _). rewrite datum_word by auto. rewrite named_show. auto.
  - injection R as <-. rewrite datum_word by (auto; repeat split). reflexivity.
  - destruct (proper d) eqn:P.
    + rewrite lispy_proper in R by auto. destruct (mapM _ _) as [ss|] eqn:M; [|discriminate].
      assert (s = "(" ++ (String.concat " " ss ++ ")")) as -> by (cbn [obind] in R; congruence).
      rewrite !app_ass, datum_open. rewrite !app_len in L. cbn [String.length] in L.
      assert (forall x, In x (a :: fst (ll_walk d)) -> is_cons x = false) as NC.
      { pose proof (flat_list (Cons a d) P F) as G. intros x I. apply G. cbn [ll_walk]. destruct (ll_walk d); auto. }
      pose proof (read_data n (a :: fst (ll_walk d)) NC ss M ltac:(discriminate) m rest ltac:(lia)) as Q. rewrite Q.
      destruct (walk_lst d P) as [_ G]. unfold lst in *. simpl. rewrite <- G. auto.
    + cbn [flat] in F. rewrite P in F. destruct F as [Fa Fd].
      rewrite lispy_improper in R by auto. destruct (mapM _ _) as [ss|] eqn:M; [|discriminate]. cbn [obind] in R.
      destruct (lispyrepr show n a) as [ra|] eqn:Ra; [|discriminate]. cbn [obind] in R.
      destruct (lispyrepr show n d) as [rd|] eqn:Rd; [|discriminate]. cbn [obind] in R.
      assert (s = "(" ++ (ra ++ " . " ++ rd ++ ")")) as ->.
      { assert (s = "(" ++ (String.concat " " [ra; "."; rd] ++ ")")) as -> by congruence. cbn [String.concat]. rewrite !app_ass. reflexivity. }
      destruct (lispy_head n a ra Ra) as (c & s' & -> & D).
      rewrite !app_len in L. cbn [String.length] in L. rewrite !app_ass.
      rewrite datum_open. cbn [append].
      destruct m as [|m]; [lia|]. rewrite data_step by auto.
      match goal with |- context [datum read _ ?t] => change t with (String c s' ++ (" . " ++ (rd ++ ")" ++ rest))) end.
      rewrite (IH a _ Fa Ra); [|simpl; split; [auto|congruence]|cbn [String.length]; lia].
      assert (datum read m (rd ++ ")" ++ rest) = Some (d, ")" ++ rest)) as Q.
      { apply (IH d _ Fd Rd); [simpl; split; [auto|congruence]|lia]. }
      revert Q. generalize (rd ++ ")" ++ rest). intros t Q. cbn [andthen append after]. rewrite Q. reflexivity.
Qed.

Lemma repr_round v n : depth v <= n -> exists s, repr show n v = Ok s /\ pyread read s = Some v.
Proof.
  intros L. destruct (proj1 (repr_depth n v) L) as [s R]. exists s. split; auto. unfold pyread.
  rewrite <- (app_nil s) at 2. rewrite (repr_reads n v s R); simpl; auto; lia.
Qed.
Lemma lispy_round v n : flat v -> depth v <= n -> exists s, lispyrepr show n v = Ok s /\ lispread read s = Some v.
Proof.
  intros F L. destruct (proj1 (lispy_depth n v) L) as [s R]. exists s. split; auto. unfold lispread.
  rewrite <- (app_nil s) at 2. rewrite (lispy_reads n v s F R); simpl; auto; lia.
Qed.
Lemma repr_inj n m v w s : repr show n v = Ok s -> repr show m w = Ok s -> v = w.
Proof.
  intros R1 R2. pose proof (repr_reads n v s R1 (2 * String.length s + 2) "" Logic.I ltac:(lia)) as H1.
  pose proof (repr_reads m w s R2 (2 * String.length s + 2) "" Logic.I ltac:(lia)) as H2. congruence.
Qed.
End Lrp.

Lemma improper_deep {A} (show : A -> string) l a n : n <= length l ->
  repr show n (chain l (Atom a)) = Raise RuntimeError /\ lispyrepr show n (chain l (Atom a)) = Raise RuntimeError.
Proof.
  assert (depth (chain l (Atom a)) > length l) as D.
  { assert (forall l, proper (chain l (Atom a)) = false) as P by (induction l0; simpl; auto).
    induction l as [|x l IH]; simpl; [lia|]. rewrite P. lia. }
  intros L. split; [apply repr_depth|apply lispy_depth]; lia.
Qed.

(** integers in decimal *)
Lemma uint_word u : one_word (NilEmpty.string_of_uint u).
Proof. induction u; simpl; auto. Qed.
Lemma int_word u : one_word (NilZero.string_of_uint u).
Proof. destruct u; try apply uint_word; repeat split. Qed.
Lemma ints_plain : plain show_int read_int.
Proof.
  intros z. unfold show_int, read_int.
  assert (Z.to_int z <> Decimal.Pos Decimal.Nil /\ Z.to_int z <> Decimal.Neg Decimal.Nil) as [N1 N2].
  { destruct z as [|p|p]; cbn [Z.to_int]; split; try discriminate; intros [= E]; revert E; apply DecimalPos.Unsigned.to_uint_nonnil. }
  rewrite NilZero.isi by auto. cbn [option_map]. rewrite DecimalZ.of_to.
  generalize (Z.to_int z) as i. intros i. destruct i as [u|u]; cbn [NilZero.string_of_int]; pose proof (int_word u) as W.
  - repeat split; auto; destruct u; discriminate.
  - repeat split; auto; discriminate.
Qed.
Lemma lispy_wrong : exists v : val Z, exists s, lispyrepr show_int (depth v) v = Ok s /\ lispread read_int s <> Some v.
Proof. exists (Cons (Cons (Atom 1%Z) Nil) Nil). exists "(ll(1))". vm_compute. split; [reflexivity|discriminate]. Qed.
