(** C92: the macro forall *)
From Coq Require Import String List Bool.
From Verif Require Import Base CollModel AmbModel AmbSpec FamModel FamSpec FamProofs.
Import ListNotations.
Open Scope string_scope.
Open Scope list_scope.

(** forall[...] gives the results of the nested loops, with the same effects in the same order and the same
    exceptions, if no line after the first raises TypeError.  Names may be used twice.  A body sees the
    variables, but does not mention the name `_ignored`. *)
Theorem C92_loops_partial : forall (D W : Type) (ls : list (fline D W)) sc w,
  ls <> [] -> Forall (fun l => looks_up (fbody l) /\ good_values (fbody l)) ls ->
  Forall (fun l => no_peculiar (fbody l)) (tl ls) ->
  forall_macro ls sc w = loops ls sc w.
Proof. exact @macro_loops. Qed.
Print Assumptions C92_loops_partial.
(** insist(False) ends a branch: the lines after it are not evaluated *)
Theorem C92_insist : forall (D W : Type) (t : D) (l : fline D W) rest sc w w', rest <> [] ->
  fbody l sc w = (Ok (MList (insist t false)), w') -> forall_macro (l :: rest) sc w = (Ok [], w').
Proof. exact @insist_stops. Qed.
Print Assumptions C92_insist.
(** No lines but the first can make forall[...] raise TypeError or StopIteration *)
Theorem C92_only_first : forall (D W : Type) (l : fline D W) rest sc w e w', peculiar e ->
  forall_macro (l :: rest) sc w = (Raise e, w') -> fbody l sc w = (Raise e, w').
Proof. exact @first_peculiar. Qed.
Print Assumptions C92_only_first.

(** Examples, with numbers, and a world that is the list of what was printed *)
Definition num (sc : scope nat) (x : string) : nat := match lookup x sc with Some (Atom n) => n | _ => 0 end.
Definition pure (f : scope nat -> val nat) : body_fn nat (list nat) := fun sc w => (Ok (f sc), w).
Definition printing (x : string) (f : scope nat -> val nat) : body_fn nat (list nat) := fun sc w => (Ok (f sc), w ++ [num sc x]).
Definition items (l : list nat) : val nat := Seq (map Atom l).
(** x := (1, 2); y := (print(x), (3, 4)); x := (x + 10,); insist(y != 3); (print(y), x) *)
Definition prog : list (fline nat (list nat)) :=
  [ mkfline (Some "x") (pure (fun _ => items [1; 2]));
    mkfline (Some "y") (printing "x" (fun _ => items [3; 4]));
    mkfline (Some "x") (pure (fun sc => items [num sc "x" + 10]));
    mkfline None (pure (fun sc => MList (insist 1 (negb (Nat.eqb (num sc "y") 3)))));
    mkfline None (printing "y" (fun sc => Atom (num sc "x"))) ].
Example C92_ex :
  Forall (fun l => looks_up (fbody l) /\ good_values (fbody l)) prog /\
  Forall (fun l => no_peculiar (fbody l)) prog /\
  forall_macro prog [] [] = (Ok [Atom 11; Atom 12], [1; 4; 2; 4]).
Proof.
  split; [|split; [|reflexivity]].
  - assert (L : forall x sc sc', x <> "_ignored" -> (forall x, x <> "_ignored" -> lookup x sc = lookup x sc') -> num sc x = num sc' x).
    { intros x sc sc' N H. unfold num. now rewrite H. }
    repeat apply Forall_cons; try apply Forall_nil.
    all: split; [intros sc sc' w H; cbn; unfold pure, printing; rewrite ?(L "x" sc sc'), ?(L "y" sc sc') by (discriminate || exact H); reflexivity|].
    all: intros sc w v w' [= <- <-]; unfold monadic; try discriminate.
    destruct (negb _); discriminate.
  - repeat constructor; intros sc w e w' _; discriminate.
Qed.

(** Refuted: a TypeError is not raised, but makes results disappear: x := (1, 0); (x + 1 if x else x + None) *)
Definition type_error : list (fline nat (list nat)) :=
  [ mkfline (Some "x") (pure (fun _ => items [1; 0]));
    mkfline None (fun sc w => (if Nat.eqb (num sc "x") 0 then Raise TypeError else Ok (Atom (num sc "x" + 1)), w)) ].
Theorem C92_type_error_refuted :
  forall_macro type_error [] [] = (Ok [], []) /\ loops type_error [] [] = (Raise TypeError, []).
Proof. split; reflexivity. Qed.
Print Assumptions C92_type_error_refuted.
(** Refuted: a StopIteration comes out as RuntimeError: x := (1,); next(iter(())) *)
Definition stop_iteration : list (fline nat (list nat)) :=
  [ mkfline (Some "x") (pure (fun _ => items [1])); mkfline None (fun sc w => (Raise StopIterationE, w)) ].
Theorem C92_stop_iteration_refuted :
  forall_macro stop_iteration [] [] = (Raise RuntimeError, []) /\ loops stop_iteration [] [] = (Raise StopIterationE, []).
Proof. split; reflexivity. Qed.
Print Assumptions C92_stop_iteration_refuted.
(** Refuted: a line without a name assigns `_ignored`: _ignored := (7,); (8, 9); _ignored *)
Definition ignored : list (fline nat (list nat)) :=
  [ mkfline (Some "_ignored") (pure (fun _ => items [7])); mkfline None (pure (fun _ => items [8; 9]));
    mkfline None (pure (fun sc => Atom (num sc "_ignored"))) ].
Theorem C92_ignored_refuted :
  forall_macro ignored [] [] = (Ok [Atom 8; Atom 9], []) /\ loops ignored [] [] = (Ok [Atom 7; Atom 7], []).
Proof. split; reflexivity. Qed.
Print Assumptions C92_ignored_refuted.
