(** C11-C13, C70: frozendict, mogrify, boxes and Shim. *)
From Coq Require Import List Bool ZArith Arith Lia Permutation.
From Verif Require Import Base CollModel CollSpec CollProofs MogProofs.
Import ListNotations.
Open Scope nat_scope.

(** ** C11.  [run keqb world0 ops] is any state the program can reach. *)

(** frozendict(m1, ..., mn, **b) maps every key to the value of the last source that has
    it, its keys come in the order in which they first appear, and nothing that happens
    later (to the sources or otherwise) changes it. *)
Theorem C11_contents : forall (K V : Type) (keqb : K -> K -> bool),
  (forall a b, keqb a b = true <-> a = b) ->
  forall ops ms b (w' : world K V) i ds,
  new_frozen keqb (run keqb world0 ops) ms b = (w', Some i) ->
  read_sources (run keqb world0 ops) ms = Some ds ->
  exists d, (forall later, read_frozen (run keqb w' later) i = Some d)
  /\ (forall k, dict_get keqb d k = last_for keqb k (concat ds ++ b))
  /\ map fst d = firsts keqb (map fst (concat ds ++ b)).
Proof. exact @frozen_contents. Qed.
Print Assumptions C11_contents.

Theorem C11_construction_succeeds : forall (K V : Type) (keqb : K -> K -> bool) (ops : list (op K V)) ms b,
  read_sources (run keqb world0 ops) ms <> None ->
  exists w' i, new_frozen keqb (run keqb world0 ops) ms b = (w', Some i).
Proof. exact @frozen_exists. Qed.
Print Assumptions C11_construction_succeeds.

(** frozendict() is one object, whatever happens between the calls ... *)
Theorem C11_empty_singleton : forall (K V : Type) (keqb : K -> K -> bool),
  forall (ops ops' : list (op K V)) w1 i1 w2 i2,
  new_frozen keqb (run keqb world0 ops) [] [] = (w1, Some i1) ->
  new_frozen keqb (run keqb w1 ops') [] [] = (w2, Some i2) -> i1 = i2.
Proof. exact @empty_same. Qed.
Print Assumptions C11_empty_singleton.

(** ... and any other call makes an object that did not exist before. *)
Theorem C11_nonempty_fresh : forall (K V : Type) (keqb : K -> K -> bool),
  forall (ops : list (op K V)) ms b w' i,
  new_frozen keqb (run keqb world0 ops) ms b = (w', Some i) -> ~ (ms = [] /\ b = []) ->
  read_frozen (run keqb world0 ops) i = None.
Proof. exact @nonempty_new. Qed.
Print Assumptions C11_nonempty_fresh.

(** Equality is equality of all lookups. *)
Theorem C11_equality : forall (K V : Type) (keqb : K -> K -> bool),
  (forall a b, keqb a b = true <-> a = b) ->
  forall (veqb : V -> V -> bool) a b, NoDup (map fst a) -> NoDup (map fst b) ->
  (dict_eq keqb veqb a b = true <->
   forall k, match dict_get keqb a k, dict_get keqb b k with
             | Some x, Some y => veqb x y = true
             | None, None => True
             | _, _ => False
             end).
Proof. exact @dict_eq_get. Qed.
Print Assumptions C11_equality.

(** Equal frozendicts have equal hashes, if equal values have, and if the hash of a
    frozenset does not depend on the order of its elements. *)
Theorem C11_equal_hashes : forall (K V : Type) (keqb : K -> K -> bool),
  (forall a b, keqb a b = true <-> a = b) ->
  forall (veqb : V -> V -> bool) (hi : K * V -> Z),
  (forall k x y, veqb x y = true -> hi (k, x) = hi (k, y)) ->
  forall (hs : list Z -> Z) a b, (forall l l', Permutation l l' -> hs l = hs l') ->
  NoDup (map fst a) -> NoDup (map fst b) ->
  dict_eq keqb veqb a b = true -> frozen_hash hi hs a = frozen_hash hi hs b.
Proof. exact @eq_hash. Qed.
Print Assumptions C11_equal_hashes.

(** d = {1: 10, 2: 20}; f = frozendict(d, {2: 30}, ...); then d is changed *)
Example C11_ex :
  let w := run Nat.eqb world0 [NewDict [(1, 10); (2, 20)]; NewDict [(3, 1); (2, 30)];
             NewFrozen [User 0; User 1] [(1, 7)]; SetItem 0 2 99; Clear 1; NewFrozen [] []; NewFrozen [Frozen 0] []; NewFrozen [] []] in
  read_frozen w 0 = Some [(1, 7); (2, 30); (3, 1)] /\ read_user w 0 = Some [(1, 10); (2, 99)] /\ read_user w 1 = Some []
  /\ read_frozen w 2 = read_frozen w 0 /\ length (frozen w) = 3 /\ empty w = Some 1.
Proof. repeat split. Qed.
Example C11_hash_ex :
  dict_eq Nat.eqb Nat.eqb [(1, 7); (2, 30)] [(2, 30); (1, 7)] = true
  /\ (forall l l', Permutation l l' -> fold_right Z.add 0%Z l = fold_right Z.add 0%Z l').
Proof.
  split; [reflexivity|]. induction 1; simpl; lia.
Qed.

(** ** C12 *)

(** For a structure in which no mutable container occurs twice, mogrify succeeds, the
    result is the tree with the function applied to every leaf, mutable containers are
    still the same objects, and no other mutable object is changed. *)
Theorem C12_mogrify_partial : forall (A K : Type) (aeqb : A -> A -> bool) (f : A -> A) (t : tree A K) fuel h v,
  depth t <= fuel -> unfolds h v t -> NoDup (refs t) ->
  exists h' v', doit aeqb f fuel h v = Some (h', v')
  /\ unfolds h' v' (tmap (dedup aeqb []) f t)
  /\ (forall r, ~ In r (refs t) -> h' r = h r).
Proof. exact @doit_good. Qed.
Print Assumptions C12_mogrify_partial.

(** [tmap] maps the leaves, in order, when there are no sets; a set becomes the set of the
    images. *)
Theorem C12_leaves : forall (A K : Type) (aeqb : A -> A -> bool) (f : A -> A) (t : tree A K),
  no_sets t -> leaves (tmap (dedup aeqb []) f t) = map f (leaves t).
Proof. exact @leaves_tmap. Qed.
Print Assumptions C12_leaves.
Theorem C12_set_elements : forall (A : Type) (aeqb : A -> A -> bool),
  (forall a b, aeqb a b = true <-> a = b) ->
  forall (f : A -> A) l, NoDup (dedup aeqb [] (map f l))
  /\ forall y, In y (dedup aeqb [] (map f l)) <-> exists x, In x l /\ f x = y.
Proof.
  exact (fun A aeqb H f l => conj (dedup_nodup aeqb H (map f l) []) (dedup_image aeqb H f l)).
Qed.
Print Assumptions C12_set_elements.

Theorem C12_identity : forall (A K : Type) (aeqb : A -> A -> bool),
  (forall a b, aeqb a b = true <-> a = b) ->
  forall (f : A -> A) h v (t : tree A K) fuel,
  (forall a, f a = a) -> unfolds h v t -> NoDup (refs t) -> sets_ok t -> depth t <= fuel ->
  exists h', doit aeqb f fuel h v = Some (h', v) /\ forall r, h' r = h r.
Proof. exact @mogrify_id. Qed.
Print Assumptions C12_identity.

Theorem C12_compose : forall (A K : Type) (aeqb : A -> A -> bool),
  (forall a b, aeqb a b = true <-> a = b) ->
  forall (f g : A -> A) h v (t : tree A K) fuel,
  unfolds h v t -> NoDup (refs t) -> depth t <= fuel ->
  exists h1 v1 h2 v2 h3,
    doit aeqb g fuel h v = Some (h1, v1) /\ doit aeqb f fuel h1 v1 = Some (h2, v2) /\
    doit aeqb (fun x => f (g x)) fuel h v = Some (h3, v2) /\ forall r, h3 r = h2 r.
Proof. exact @mogrify_compose. Qed.
Print Assumptions C12_compose.

(** a list [[1, 2]] holding a box of a tuple and a frozendict *)
Definition C12_heap : mheap nat nat := fun r => match r with
  | 0 => Some (CList [MAtom 1; MRef 1; MFrozendict [(5, MAtom 3); (6, MFrozenset [1; 2])]])
  | 1 => Some (CBox (MTuple [MCons (MAtom 4) MNil; MSome (MAtom 5)]))
  | _ => None end.
Definition C12_tree : tree nat nat :=
  TList 0 [TAtom 1; TBox 1 (TTuple [TCons (TAtom 4) TNil; TSome (TAtom 5)]); TFrozendict [(5, TAtom 3); (6, TFrozenset [1; 2])]].
Example C12_ex : unfolds C12_heap (MRef 0) C12_tree /\ NoDup (refs C12_tree) /\ sets_ok C12_tree /\ depth C12_tree <= 5
  /\ match doit Nat.eqb (fun x => x / 2) 5 C12_heap (MRef 0) with
     | Some (h, v) => v = MRef 0 /\ h 0 = Some (CList [MAtom 0; MRef 1; MFrozendict [(5, MAtom 1); (6, MFrozenset [0; 1])]])
     | None => False end.
Proof.
  split; [|split; [|split; [|split]]].
  - unfold C12_tree. eapply u_list; [reflexivity|]. repeat constructor.
    eapply u_box; [reflexivity|]. repeat constructor.
  - simpl. repeat constructor; simpl; intuition discriminate.
  - simpl. repeat split; repeat constructor; simpl; intuition discriminate.
  - simpl. lia.
  - simpl. repeat split.
Qed.

(** When the same mutable container occurs twice, its leaves are mapped twice:
    x = [1]; mogrify(f, (x, x)) sets x to [f(f(1))]. *)
Theorem C12_shared_refuted : exists (h : mheap nat nat) v (t : tree nat nat) h' v',
  unfolds h v t /\ doit Nat.eqb (fun x => x + 1) 5 h v = Some (h', v')
  /\ ~ unfolds h' v' (tmap (dedup Nat.eqb []) (fun x => x + 1) t) /\ h' 0 = Some (CList [MAtom 3]).
Proof. exact shared_twice. Qed.
Print Assumptions C12_shared_refuted.

(** The size of a set is not preserved: mogrify(f, {1, 2}) with f(1) = f(2). *)
Theorem C12_set_size_refuted : exists (f : nat -> nat) (h : mheap nat nat) l l' h',
  NoDup l /\ doit Nat.eqb f 5 h (MFrozenset l) = Some (h', MFrozenset l') /\ length l' < length l.
Proof. exact set_shrinks. Qed.
Print Assumptions C12_set_size_refuted.

(** A list that contains itself exhausts the stack, however deep that is. *)
Theorem C12_cyclic_refuted : forall (A K : Type) (aeqb : A -> A -> bool) (f : A -> A) (h : mheap A K) r,
  h r = Some (CList [MRef r]) -> forall fuel, doit aeqb f fuel h (MRef r) = None.
Proof. exact @doit_cyclic. Qed.
Print Assumptions C12_cyclic_refuted.

(** ** C13 *)
Theorem C13_thread_local : forall (V : Type) (x0 : V) (h : list (nat * tlop V)) t,
  tl_get (fold_left tl_step h (tl_new x0)) t = seen (rev h) x0 t.
Proof. exact @tl_history. Qed.
Print Assumptions C13_thread_local.

(** Operations of other threads that do not set the default are not seen. *)
Theorem C13_isolation : forall (V : Type) (x0 : V) (h h' : list (nat * tlop V)) t,
  (forall e, In e h' -> fst e <> t /\ forall x, snd e <> TSetDefault x) ->
  tl_get (fold_left tl_step (h ++ h') (tl_new x0)) t = tl_get (fold_left tl_step h (tl_new x0)) t.
Proof. exact @tl_isolated. Qed.
Print Assumptions C13_isolation.

(** A plain box holds the last value written, and set returns it. *)
Theorem C13_box : forall (V : Type) (x0 : V) (writes : list V),
  box_get (fold_left (fun b x => fst (box_set b x)) writes x0) = last writes x0 /\
  forall x, snd (box_set (fold_left (fun b x => fst (box_set b x)) writes x0) x) = x.
Proof. exact @box_last. Qed.
Print Assumptions C13_box.

Example C13_ex :
  let b := fold_left tl_step [(1, TSet 5); (2, TSet 6); (1, TSetDefault 9); (2, TClear)] (tl_new 0) in
  tl_get b 1 = 5 /\ tl_get b 2 = 9 /\ tl_get b 3 = 9.
Proof. repeat split. Qed.

(** ** C70: Shim *)

(** An attribute is read from the object now in the box if that has it, and otherwise from
    the fallback, if the fallback is a box or a true object. *)
Theorem C70_read_partial : forall (N V : Type) (neqb : N -> N -> bool) (m : smem N V) b f k x,
  unbox m b = Some x -> falsy m f = false \/ f = NoFallback ->
  shim_getattr neqb m b f k =
  match dict_get neqb (attrs x) k, f with
  | Some v, _ => Ok v
  | None, NoFallback => Raise AttributeError
  | None, FBox b' => getattr neqb (unbox m b') k
  | None, FObj o => getattr neqb (nth_error (objects m) o) k
  end.
Proof. exact @shim_read. Qed.
Print Assumptions C70_read_partial.

(** A fallback that is false in a boolean context (an empty container) is ignored. *)
Theorem C70_false_fallback_refuted : exists (m : smem nat nat) x v,
  unbox m 0 = Some x /\ dict_get Nat.eqb (attrs x) 7 = None
  /\ getattr Nat.eqb (nth_error (objects m) 1) 7 = Ok v
  /\ shim_getattr Nat.eqb m 0 (FObj 1) 7 = Raise AttributeError.
Proof. exact shim_false_fallback. Qed.
Print Assumptions C70_false_fallback_refuted.

(** Writing goes to the object in the box, is read back, and touches no other object. *)
Theorem C70_write : forall (N V : Type) (neqb : N -> N -> bool),
  (forall a b, neqb a b = true <-> a = b) ->
  forall (m : smem N V) b f k v o x,
  nth_error (boxes m) b = Some o -> nth_error (objects m) o = Some x ->
  shim_getattr neqb (shim_setattr neqb m b k v) b f k = Ok v
  /\ boxes (shim_setattr neqb m b k v) = boxes m
  /\ (forall o', o' <> o -> nth_error (objects (shim_setattr neqb m b k v)) o' = nth_error (objects m) o')
  /\ (forall k', k' <> k -> getattr neqb (unbox (shim_setattr neqb m b k v) b) k' = getattr neqb (unbox m b) k').
Proof. exact @shim_write. Qed.
Print Assumptions C70_write.

Example C70_ex :
  let m := mksmem [mkobject [(1, 10)] true; mkobject [(7, 70); (1, 11)] true] [0] in
  shim_getattr Nat.eqb m 0 (FObj 1) 1 = Ok 10 /\ shim_getattr Nat.eqb m 0 (FObj 1) 7 = Ok 70
  /\ shim_getattr Nat.eqb (shim_setattr Nat.eqb m 0 7 5) 0 (FObj 1) 7 = Ok 5 /\ falsy m (FObj 1) = false.
Proof. repeat split. Qed.
