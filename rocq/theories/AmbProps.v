(** C34: forall and MonadicList *)
From Coq Require Import String List Bool.
From Verif Require Import Base CollModel AmbModel AmbSpec AmbProofs.
Import ListNotations.
Open Scope string_scope.
Open Scope list_scope.

(** forall is the nested comprehension, if the names are distinct and no body raises. *)
Theorem C34_forall_partial : forall (D : Type) (ls : list (@pure_line D)),
  ls <> [] -> NoDup (names_of ls) -> Forall (fun p => forall e, monadic (snd p e)) ls ->
  forall_ (map as_line ls) = Ok (comprehension [] ls).
Proof. exact @forall_ok. Qed.
Print Assumptions C34_forall_partial.

Definition at_ (e : env nat) (n : string) : nat :=
  match dict_get String.eqb e n with Some (Atom k) => k | _ => 0 end.
Definition range (n : nat) : val nat := Seq (map Atom (seq 0 n)).
(** the example of the docstring: y in range(3), x in range(3), insist(x % 2 == 0), (x, y) *)
Definition doc : list (@pure_line nat) :=
  [(Some "y", fun _ => range 3); (Some "x", fun _ => range 3);
   (None, fun e => MList (insist 1 (Nat.even (at_ e "x"))));
   (None, fun e => Seq [Atom (at_ e "x"); Atom (at_ e "y")])].
Example C34_forall_case :
  NoDup (names_of doc) /\ Forall (fun p => forall e, monadic (snd p e)) doc /\
  forall_ (map as_line doc) =
  Ok (map (fun p => Seq [Atom (fst p); Atom (snd p)]) [(0, 0); (2, 0); (0, 1); (2, 1); (0, 2); (2, 2)]).
Proof.
  split; [repeat constructor; cbn; intuition discriminate|]. split; [|reflexivity].
  repeat constructor; intros e; try discriminate.
  unfold monadic. cbn. destruct (Nat.even _); discriminate.
Qed.

(** Refuted: shadowing.  For [x <- (1,); y <- (3, 4); x <- (x + 10,); x], the inner x of the
    first round is seen in the second: the result is (11, 21) instead of (11, 11). *)
Definition shadow : list (@pure_line nat) :=
  [(Some "x", fun _ => Seq [Atom 1]); (Some "y", fun _ => Seq [Atom 3; Atom 4]);
   (Some "x", fun e => Seq [Atom (at_ e "x" + 10)]); (None, fun e => Atom (at_ e "x"))].
(** as in Python's nested comprehensions, the last binding of a name counts *)
Definition nested : list (val nat) :=
  flat_map (fun x => flat_map (fun y => flat_map (fun x => [Atom x]) [x + 10]) [3; 4]) [1].
Theorem C34_shadowing_refuted :
  forall_ (map as_line shadow) = Ok [Atom 11; Atom 21] /\ nested = [Atom 11; Atom 11].
Proof. split; reflexivity. Qed.
Print Assumptions C34_shadowing_refuted.

(** Refuted: a line that raises TypeError makes all results of the enclosing choice disappear,
    without an error: [x <- (1, "a"); x + 1] gives (). *)
Definition type_error : list (line nat) :=
  [mkline (Some "x") (fun _ => Ok (Seq [Atom 1; Atom 0]));
   mkline None (fun e => if Nat.eqb (at_ e "x") 0 then Raise TypeError else Ok (Atom (at_ e "x" + 1)))].
Theorem C34_type_error_refuted : forall_ type_error = Ok [].
Proof. reflexivity. Qed.
Print Assumptions C34_type_error_refuted.

(** Refuted: a StopIteration in a later line comes out as RuntimeError: [x <- (1,); next(iter(()))] *)
Definition stop_iteration : list (line nat) :=
  [mkline (Some "x") (fun _ => Ok (Seq [Atom 1])); mkline None (fun _ => Raise StopIterationE)].
Theorem C34_stop_iteration_refuted : forall_ stop_iteration = Raise RuntimeError.
Proof. reflexivity. Qed.
Print Assumptions C34_stop_iteration_refuted.

(** Refuted: insist does not protect the lines after it: [x <- (0, 1); insist(x != 0); 1 / x]
    raises ZeroDivisionError. *)
Definition unprotected : list (line nat) :=
  [mkline (Some "x") (fun _ => Ok (Seq [Atom 0; Atom 1]));
   mkline None (fun e => Ok (MList (insist 1 (negb (Nat.eqb (at_ e "x") 0)))));
   mkline None (fun e => if Nat.eqb (at_ e "x") 0 then Raise ZeroDivisionError else Ok (Atom 1))].
Theorem C34_insist_refuted : forall_ unprotected = Raise ZeroDivisionError.
Proof. reflexivity. Qed.
Print Assumptions C34_insist_refuted.

(** ** Laws.  The unit is [fun v => MList (mlist [v])]; [MList x] with [x <> [Nil]] are the
    objects that the constructor can make. *)
Theorem C34_left_identity_partial : forall (D : Type) (v : val D) f,
  v <> Nil -> returns_mlist f -> exists y, f v = MList y /\ bind (mlist [v]) f = Ok y.
Proof. exact @left_id. Qed.
Print Assumptions C34_left_identity_partial.
Theorem C34_right_identity_partial : forall (D : Type) (x : list (val D)),
  no_nil x -> bind x (fun v => MList (mlist [v])) = Ok x.
Proof. exact @right_id. Qed.
Print Assumptions C34_right_identity_partial.
Theorem C34_associativity : forall (D : Type) (x : list (val D)) f g h,
  returns_mlist f -> returns_mlist g ->
  (forall v, exists y z, f v = MList y /\ bind y g = Ok z /\ h v = MList z) ->
  exists y z, bind x f = Ok y /\ bind y g = Ok z /\ bind x h = Ok z.
Proof. exact @bind_assoc'. Qed.
Print Assumptions C34_associativity.
Theorem C34_functor_identity : forall (D : Type) (x : list (val D)),
  x <> [Nil] -> fmap (fun v => v) x = x.
Proof. exact @fmap_id. Qed.
Print Assumptions C34_functor_identity.
Theorem C34_functor_composition_partial : forall (D : Type) (x : list (val D)) f g,
  (forall v, In v x -> f v <> Nil) -> fmap g (fmap f x) = fmap (fun v => g (f v)) x.
Proof. exact @fmap_comp. Qed.
Print Assumptions C34_functor_composition_partial.
(** bind is flat map; the operations used for guards *)
Theorem C34_bind : forall (D : Type) (x : list (val D)) f g,
  (forall v, In v x -> f v = MList (g v)) -> (forall v, In v x -> g v <> [Nil]) ->
  bind x f = Ok (flat_map g x).
Proof. exact @bind_eq. Qed.
Print Assumptions C34_bind.
Theorem C34_guard : forall (D : Type) (t : D) b y,
  y <> [Nil] -> then_ (guard t b) (MList y) = Ok (if b then y else []).
Proof. exact @guard_eq. Qed.
Print Assumptions C34_guard.
Theorem C34_deny : forall (D : Type) (t : D) b y,
  y <> [Nil] -> then_ (deny t b) (MList y) = Ok (if b then [] else y).
Proof. exact deny_eq. Qed.
Print Assumptions C34_deny.
Theorem C34_lift : forall (D : Type) (x : list (val D)) f,
  (forall v, In v x -> f v <> Nil) -> bind x (lift f) = Ok (map f x).
Proof. exact lift_eq. Qed.
Print Assumptions C34_lift.
Theorem C34_add : forall (D : Type) (x y z : list (val D)),
  x <> [Nil] -> y <> [Nil] -> z <> [Nil] ->
  add (add x y) z = add x (add y z) /\ add x y = x ++ y.
Proof. exact @add_assoc. Qed.
Print Assumptions C34_add.
Example C34_laws_case :
  returns_mlist (fun v : val nat => MList [v; v]) /\
  bind [Atom 1; Atom 2] (fun v : val nat => MList [v; v]) = Ok [Atom 1; Atom 1; Atom 2; Atom 2].
Proof. split; [|reflexivity]. intros v. exists [v; v]. split; [reflexivity|discriminate]. Qed.

(** Refuted for items that are the sentinel nil: the unit of nil is empty. *)
Theorem C34_nil_refuted :
  (exists f : val nat -> val nat, returns_mlist f /\
     f Nil = MList [Atom 1] /\ bind (mlist [Nil]) f = Ok []) /\
  bind ([Nil; Nil] : list (val nat)) (fun v => MList (mlist [v])) = Ok [] /\
  fmap (fun _ => Atom 1) (fmap (fun _ => Nil) [Atom 0]) = [] /\
  fmap (fun _ => Atom 1) [Atom 0] = [Atom 1].
Proof.
  split; [|repeat split]. exists (fun _ => MList [Atom 1]). split; [|split; reflexivity].
  intros v. exists [Atom 1]. split; [reflexivity|discriminate].
Qed.
Print Assumptions C34_nil_refuted.
(** What is not a MonadicList is refused: among the items in [join], among the results of the function in
    [>>] (except for a single nil), and after [then]. *)
Theorem C34_type_errors : forall (D : Type) (x : list (val D)) v, In v x ->
  ((forall y, v <> MList y) -> join x = Raise TypeError) /\
  (forall f, (forall y, f v <> MList y) -> f v <> Nil \/ length x <> 1 -> bind x f = Raise TypeError) /\
  (forall w, (forall y, w <> MList y) -> then_ x w = Raise TypeError).
Proof. exact @type_errors. Qed.
Print Assumptions C34_type_errors.
Example C34_type_errors_ex : join [MList [Atom 1]; Atom 2] = Raise TypeError /\ join [MList [Atom 1]; MList [Atom 2]] = Ok [Atom 1; Atom 2] /\
  bind [Atom 1] (fun _ => @Nil nat) = Ok [].
Proof. repeat split. Qed.
