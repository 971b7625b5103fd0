From Coq Require Import String List Bool.
From Verif Require Import Base CollModel AmbModel AmbSpec.
Import ListNotations.
Open Scope list_scope.

Section P.
Context {D : Type}.
Implicit Types (x y : list (val D)) (v : val D) (e : env D).

Lemma mlist_id x : x <> [Nil] -> mlist x = x.
Proof. intros H. destruct x as [|[] [|]]; try reflexivity. congruence. Qed.
Lemma mlist_not x : mlist x <> [Nil].
Proof. destruct x as [|[] [|]]; cbn; congruence. Qed.
Lemma mlist_mlists (xs : list (list (val D))) : mlist (map MList xs) = map MList xs.
Proof. apply mlist_id. destruct xs as [|a [|]]; discriminate. Qed.
Lemma all_mlists_map (xs : list (list (val D))) : all_mlists (map MList xs) = Some xs.
Proof. induction xs as [|a xs IH]; cbn; [reflexivity|]. rewrite IH. reflexivity. Qed.
Lemma concat_not (xs : list (list (val D))) : (forall x, In x xs -> x <> [Nil]) -> concat xs <> [Nil].
Proof.
  induction xs as [|a xs IH]; cbn; intros H; [discriminate|].
  destruct a as [|v a]; cbn; [apply IH; auto|].
  intros E. injection E as -> E. apply app_eq_nil in E as [-> _]. apply (H [Nil]); auto.
Qed.
Lemma bind_eq x (f : val D -> val D) (g : val D -> list (val D)) :
  (forall v, In v x -> f v = MList (g v)) -> (forall v, In v x -> g v <> [Nil]) ->
  bind x f = Ok (flat_map g x).
Proof.
  intros E N. unfold bind, fmap, join.
  assert (M : map f x = map MList (map g x)).
  { rewrite map_map. apply map_ext_in. auto. }
  rewrite M, mlist_mlists, all_mlists_map, mlist_id, <- flat_map_concat_map; [reflexivity|].
  apply concat_not. intros y H. apply in_map_iff in H as (v & <- & H). auto.
Qed.

(** monad laws *)
Definition unm v : list (val D) := match v with MList x => x | _ => [] end.
Lemma returns_unm f : returns_mlist f -> forall v, f v = MList (unm (f v)) /\ unm (f v) <> [Nil].
Proof. intros R v. destruct (R v) as (x & E & N). rewrite E. auto. Qed.
Lemma bind_flat x f : returns_mlist f -> bind x f = Ok (flat_map (fun v => unm (f v)) x).
Proof.
  intros R. apply bind_eq; intros v _; apply (returns_unm f R).
Qed.
Lemma left_id v f : v <> Nil -> returns_mlist f -> exists y, f v = MList y /\ bind (mlist [v]) f = Ok y.
Proof.
  intros N R. destruct (returns_unm f R v) as [E _]. exists (unm (f v)). split; [exact E|].
  rewrite bind_flat by exact R. rewrite mlist_id by congruence. cbn. rewrite app_nil_r. reflexivity.
Qed.
Lemma right_id x : no_nil x -> bind x (fun v => MList (mlist [v])) = Ok x.
Proof.
  intros N. rewrite bind_eq with (g := fun v => mlist [v]); [|auto|intros; apply mlist_not].
  f_equal. induction x as [|v x IH]; [reflexivity|]. cbn [flat_map].
  rewrite mlist_id by (intros [= E]; apply (N v); cbn; auto). cbn. f_equal. apply IH.
  intros w H. apply N. cbn. auto.
Qed.
Lemma bind_assoc x f g : returns_mlist f -> returns_mlist g ->
  exists y, bind x f = Ok y /\ exists z, bind y g = Ok z /\
  (forall h, (forall v, exists w, bind (unm (f v)) g = Ok w /\ h v = MList w) -> bind x h = Ok z).
Proof.
  intros F G. eexists. split; [apply bind_flat, F|]. eexists. split; [apply bind_flat, G|].
  intros h H. rewrite bind_eq with (g := fun v => flat_map (fun w => unm (g w)) (unm (f v))).
  - f_equal. clear. induction x as [|v x IH]; [reflexivity|]. cbn. rewrite flat_map_app, IH. reflexivity.
  - intros v _. destruct (H v) as (w & E & Ew). rewrite bind_flat in E by exact G. congruence.
  - intros v _. rewrite flat_map_concat_map. apply concat_not. intros y Hy.
    apply in_map_iff in Hy as (u & <- & _). apply (returns_unm g G).
Qed.
Lemma fmap_id x : x <> [Nil] -> fmap (fun v => v) x = x.
Proof. intros H. unfold fmap. rewrite map_id. apply mlist_id, H. Qed.
Lemma fmap_comp x f g : (forall v, In v x -> f v <> Nil) -> fmap g (fmap f x) = fmap (fun v => g (f v)) x.
Proof.
  intros H. unfold fmap. f_equal. rewrite (mlist_id (map f x)); [apply map_map|].
  destruct x as [|v [|]]; cbn; try discriminate. intros [= E]. apply (H v); cbn; auto.
Qed.
Lemma then_eq x y : y <> [Nil] -> then_ x (MList y) = Ok (concat (map (fun _ => y) x)).
Proof.
  intros N. cbn. rewrite bind_eq with (g := fun _ => y); auto. now rewrite flat_map_concat_map.
Qed.
Lemma guard_eq t b y : y <> [Nil] -> then_ (guard t b) (MList y) = Ok (if b then y else []).
Proof.
  intros N. destruct b; cbn; [|reflexivity]. rewrite app_nil_r, mlist_id by exact N. reflexivity.
Qed.
Lemma add_assoc x y z : x <> [Nil] -> y <> [Nil] -> z <> [Nil] -> add (add x y) z = add x (add y z) /\ add x y = x ++ y.
Proof.
  intros Hx Hy Hz.
  assert (A : forall a b : list (val D), a <> [Nil] -> b <> [Nil] -> add a b = a ++ b).
  { intros a b Ha Hb. apply mlist_id. destruct a as [|u a]; cbn; [exact Hb|].
    intros [= -> E]. apply app_eq_nil in E as [-> ->]. congruence. }
  rewrite (A x y), (A y z) by assumption. split; [|reflexivity].
  assert (B : forall a b : list (val D), a <> [Nil] -> b <> [Nil] -> a ++ b <> [Nil]).
  { intros a b Ha Hb E. rewrite <- (A a b Ha Hb) in E. revert E. apply mlist_not. }
  rewrite A by auto. rewrite A by auto. now rewrite app_assoc.
Qed.

(** forall *)
Lemma monadify_results v : monadify v false = results v.
Proof. destruct v; reflexivity. Qed.
Lemma monadify_choices v : monadify v true = choices v.
Proof. destruct v as [d|l|l|]; try reflexivity. Qed.
Lemma results_not v : monadic v -> results v <> [Nil].
Proof. intros M. unfold monadic in M. destruct v; cbn; congruence. Qed.

Lemma close_twice e (a b : list string) : incl a b -> close_over (close_over e b) a = close_over e a.
Proof.
  intros I. unfold close_over. induction e as [|[k v] e IH]; [reflexivity|]. cbn [filter fst].
  destruct (existsb (String.eqb k) b) eqn:B, (existsb (String.eqb k) a) eqn:A; cbn [filter fst]; rewrite ?A, ?IH; auto.
  apply existsb_exists in A as (z & Z & Ez). exfalso. apply String.eqb_eq in Ez. subst z.
  assert (existsb (String.eqb k) b = true); [|congruence].
  apply existsb_exists. exists k. split; [auto|apply String.eqb_refl].
Qed.
Lemma close_all e ns : incl (map fst e) ns -> close_over e ns = e.
Proof.
  intros I. unfold close_over. induction e as [|[k v] e IH]; [reflexivity|]. cbn [filter fst].
  assert (E : existsb (String.eqb k) ns = true).
  { apply existsb_exists. exists k. split; [apply I; cbn; auto|apply String.eqb_refl]. }
  rewrite E, IH; auto. intros z Z. apply I. cbn. auto.
Qed.
Lemma close_app e1 e2 ns : close_over (e1 ++ e2) ns = close_over e1 ns ++ close_over e2 ns.
Proof. apply filter_app. Qed.
Lemma assign_fresh e n v : ~ In n (map fst e) -> assign e n v = e ++ [(n, v)].
Proof.
  unfold assign. induction e as [|[k w] e IH]; cbn; intros H; [reflexivity|].
  destruct (String.eqb_spec k n) as [->|Q]; [exfalso; auto|]. rewrite IH; auto.
Qed.

Lemma each_ok (k : env D -> val D -> outcome (list (val D)) * env D) (g : val D -> list (val D)) (inv : env D -> Prop) x :
  (forall e v, inv e -> In v x -> exists e', k e v = (Ok (g v), e') /\ inv e') ->
  forall e, inv e -> exists e', each k e x = (Ok (map g x), e') /\ inv e'.
Proof.
  induction x as [|v x IH]; intros H e I; cbn [each map].
  - exists e. auto.
  - destruct (H e v I) as (e' & -> & I'); [cbn; auto|].
    destruct IH with (e := e') as (e'' & -> & I''); auto.
    { intros e1 w I1 W. apply H; cbn; auto. }
    exists e''. auto.
Qed.
Lemma bind_in_ok k (g : val D -> list (val D)) (inv : env D -> Prop) x :
  (forall e v, inv e -> In v x -> exists e', k e v = (Ok (g v), e') /\ inv e') ->
  (forall v, In v x -> g v <> [Nil]) ->
  forall e, inv e -> exists e', bind_in k e x = (Ok (flat_map g x), e') /\ inv e'.
Proof.
  intros H N e I. destruct (each_ok k g inv x H e I) as (e' & E & I'). exists e'. unfold bind_in.
  rewrite E. split; [|exact I']. rewrite mlist_id, <- flat_map_concat_map; [reflexivity|].
  apply concat_not. intros y Hy. apply in_map_iff in Hy as (v & <- & Hv). auto.
Qed.

Lemma flat_not (g : val D -> list (val D)) (l : list (val D)) : (forall v, In v l -> g v <> [Nil]) -> flat_map g l <> [Nil].
Proof.
  intros H. rewrite flat_map_concat_map. apply concat_not. intros y Hy.
  apply in_map_iff in Hy as (v & <- & Hv). auto.
Qed.
Lemma comp_not ls : ls <> [] -> Forall (fun p => forall e, monadic (snd p e)) ls ->
  forall scope, comprehension scope ls <> [Nil].
Proof.
  induction ls as [|[n b] [|q ls] IH]; intros N M scope; [congruence| |].
  - cbn. destruct n; apply results_not; inversion M; auto.
  - inversion M; subst. cbn [comprehension]. destruct n; apply flat_not; intros v _; apply IH; auto; discriminate.
Qed.

Lemma run_ok ls : ls <> [] -> Forall (fun p => forall e, monadic (snd p e)) ls ->
  forall first scope, (first = true -> scope = []) ->
  NoDup (map fst scope ++ names_of ls) ->
  exists e', run first (map fst scope) (map as_line ls) scope = (Ok (comprehension scope ls), e') /\
             close_over e' (map fst scope) = scope.
Proof.
  induction ls as [|[n b] ls IH]; intros NE M first scope F ND; [congruence|].
  inversion M as [|? ? Mb Ml]; subst. clear M NE. cbn [snd] in Mb.
  destruct ls as [|q ls].
  - exists scope. cbn. rewrite monadify_results. split; [destruct n; reflexivity|].
    apply close_all, incl_refl.
  - assert (NE : q :: ls <> []) by discriminate. remember (q :: ls) as rest eqn:Er.
    assert (R : forall (fst_ : bool) ns e, run fst_ ns (map as_line ((n, b) :: rest)) e =
      match n with
      | Some n => bind_in (fun e (w : val D) => run false (ns ++ [n]) (map as_line rest) (assign (close_over e ns) n w)) e (choices (b e))
      | None => if fst_ then bind_in (fun e _ => run false ns (map as_line rest) (close_over e [])) e (choices (b e))
                else match run false ns (map as_line rest) e with
                     | (Raise err, e') => (Raise err, e')
                     | (Ok r, e') => (then_ (choices (b e)) (MList r), e')
                     end
      end).
    { intros. subst rest. cbn [map run]. cbn [as_line body name fst snd]. rewrite monadify_choices. reflexivity. }
    rewrite R. clear R.
    assert (C : comprehension scope ((n, b) :: rest) =
      match n with
      | Some n => flat_map (fun w => comprehension (scope ++ [(n, w)]) rest) (choices (b scope))
      | None => flat_map (fun _ => comprehension scope rest) (choices (b scope))
      end).
    { subst rest. destruct n; reflexivity. }
    rewrite C. clear C.
    destruct n as [n|].
    + apply bind_in_ok with (inv := fun e => close_over e (map fst scope) = scope).
      * intros e v I _. rewrite I.
        cbn [names_of flat_map fst app] in ND.
        assert (Fresh : ~ In n (map fst scope)).
        { apply NoDup_remove_2 in ND. intros Q. apply ND. apply in_or_app. auto. }
        rewrite assign_fresh by exact Fresh.
        destruct (IH NE Ml false (scope ++ [(n, v)])) as (e' & E & I').
        { discriminate. }
        { rewrite map_app, <- app_assoc. exact ND. }
        rewrite map_app in E, I'. cbn [map fst] in E, I'.
        exists e'. split; [exact E|].
        rewrite <- (close_twice e' (map fst scope) (map fst scope ++ [n])) by (apply incl_appl, incl_refl).
        rewrite I', close_app, close_all by apply incl_refl. cbn [close_over filter fst].
        destruct (existsb (String.eqb n) (map fst scope)) eqn:Q; [|apply app_nil_r].
        apply existsb_exists in Q as (z & Z & Ez). apply String.eqb_eq in Ez. congruence.
      * intros v _. apply comp_not; assumption.
      * apply close_all, incl_refl.
    + destruct first.
      * rewrite (F eq_refl) in *.
        assert (P : forall e, close_over e [] = []).
        { clear. unfold close_over. induction e as [|[k v] e IH]; cbn; auto. }
        apply bind_in_ok with (inv := fun e => close_over e [] = []).
        -- intros e v I _. rewrite I. destruct (IH NE Ml false []) as (e' & E & I'); auto.
           exists e'. split; [exact E|apply P].
        -- intros v _. apply comp_not; assumption.
        -- reflexivity.
      * destruct (IH NE Ml false scope) as (e' & E & I'); [discriminate|exact ND|].
        rewrite E. exists e'. split; [|exact I']. rewrite then_eq, <- flat_map_concat_map; [reflexivity|].
        apply comp_not; assumption.
Qed.
Lemma forall_ok ls : ls <> [] -> NoDup (names_of ls) ->
  Forall (fun p => forall e, monadic (snd p e)) ls ->
  forall_ (map as_line ls) = Ok (comprehension [] ls).
Proof.
  intros NE ND M. unfold forall_. destruct (run_ok ls NE M true []) as (e' & E & _); auto.
  cbn [map] in E. rewrite E. reflexivity.
Qed.
Lemma bind_assoc' x f g h : returns_mlist f -> returns_mlist g ->
  (forall v, exists y z, f v = MList y /\ bind y g = Ok z /\ h v = MList z) ->
  exists y z, bind x f = Ok y /\ bind y g = Ok z /\ bind x h = Ok z.
Proof.
  intros F G H. destruct (bind_assoc x f g F G) as (y & E1 & z & E2 & E3).
  exists y, z. split; [exact E1|]. split; [exact E2|]. apply E3. intros v.
  destruct (H v) as (a & b & Ha & Hb & Hh). exists b. rewrite Ha. auto.
Qed.
End P.

Lemma deny_eq : forall (D : Type) (t : D) b y, y <> [Nil] -> then_ (deny t b) (MList y) = Ok (if b then [] else y).
Proof. intros D t b y H. unfold deny, insist. rewrite guard_eq by exact H. destruct b; reflexivity. Qed.
Lemma lift_eq : forall (D : Type) (x : list (val D)) f, (forall v, In v x -> f v <> Nil) -> bind x (lift f) = Ok (map f x).
Proof.
  intros D x f H. rewrite (bind_eq x (lift f) (fun v => [f v])); [f_equal; clear; induction x; cbn; congruence | |].
  - intros v Hv. unfold lift, mlist. specialize (H v Hv). destruct (f v); congruence.
  - intros v Hv E. injection E as E. exact (H v Hv E).
Qed.

(** ** Errors *)
Lemma join_errors {D : Type} (x : list (val D)) v : In v x -> (forall y, v <> MList y) -> join x = Raise TypeError.
Proof.
  intros I N. unfold join. replace (all_mlists x) with (@None (list (list (val D)))); [reflexivity|].
  induction x as [|w x IH]; [contradiction|]. cbn [all_mlists]. destruct w as [d|l|y|]; try reflexivity.
  destruct I as [E|I]; [now destruct (N y)|]. now rewrite <- (IH I).
Qed.
Theorem type_errors {D : Type} (x : list (val D)) v : In v x ->
  ((forall y, v <> MList y) -> join x = Raise TypeError) /\
  (forall f, (forall y, f v <> MList y) -> f v <> Nil \/ length x <> 1 -> bind x f = Raise TypeError) /\
  (forall w, (forall y, w <> MList y) -> then_ x w = Raise TypeError).
Proof.
  intros I. split; [now apply join_errors|]. split.
  - intros f N L. unfold bind, fmap. replace (mlist (map f x)) with (map f x); [apply (join_errors _ (f v)); [now apply in_map|exact N]|].
    destruct x as [|a [|b x]]; [contradiction| |cbn [map mlist]; now destruct (f a)]. destruct I as [->|[]]. cbn [map mlist].
    destruct (f v) eqn:E; try reflexivity. destruct L as [L|L]; [congruence|now destruct L].
  - intros w N. destruct w; try reflexivity. now destruct (N x0).
Qed.
