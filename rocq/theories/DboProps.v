(** C136: the blocks of dynamic assignment as objects *)
From Coq Require Import List Bool Arith.
From Verif Require Import Base CollModel DynModel DynSpec DboModel DboSpec DboProofs.
Import ListNotations.
Open Scope nat_scope.
Open Scope list_scope.

(** Every program that makes blocks and enters them, any number of times and in any nesting, reads the values and has the
    result of the reference semantics: a block has its own locations, from when it is made. *)
Theorem C136_meaning : forall (N V : Type) (neqb : N -> N -> bool) (c : bcmd N V) (defaults : dict N V) (v0 : V),
  fst (fst (bexec neqb c (mkbst [] [] defaults))) = fst (fst (bmeaning neqb c [] ([], sst0 defaults v0))) /\
  snd (bexec neqb c (mkbst [] [] defaults)) = snd (bmeaning neqb c [] ([], sst0 defaults v0)) /\
  bglobals (snd (fst (bexec neqb c (mkbst [] [] defaults)))) = sglobals (snd (snd (fst (bmeaning neqb c [] ([], sst0 defaults v0))))).
Proof. exact @object_meaning. Qed.
Print Assumptions C136_meaning.

(** If each block is entered where it is made, once, this is the dynamic assignment of C29. *)
Theorem C136_once : forall (N V : Type) (neqb : N -> N -> bool) (c : cmd N V) (defaults : dict N V) (v0 : V),
  fst (fst (bexec neqb (embed c) (mkbst [] [] defaults))) = fst (fst (exec neqb c (mkdst [] defaults))) /\
  snd (bexec neqb (embed c) (mkbst [] [] defaults)) = snd (exec neqb c (mkdst [] defaults)) /\
  bglobals (snd (fst (bexec neqb (embed c) (mkbst [] [] defaults)))) = globals (snd (fst (exec neqb c (mkdst [] defaults)))).
Proof. exact @once. Qed.
Print Assumptions C136_once.

(** However a program ends, the same blocks are entered as before it; and every block has the same names. *)
Theorem C136_restored : forall (N V : Type) (neqb : N -> N -> bool) (c : bcmd N V) w,
  bstack (snd (fst (bexec neqb c w))) = bstack w /\
  exists made, map (map fst) (objs (snd (fst (bexec neqb c w)))) = map (map fst) (objs w) ++ made.
Proof. exact @restored. Qed.
Print Assumptions C136_restored.

(** If it assigns nothing, every dynamic variable reads as before, and blocks keep their values. *)
Theorem C136_values : forall (N V : Type) (neqb : N -> N -> bool) (c : bcmd N V), assigns_nothing c ->
  forall w, (forall o, In o (bstack w) -> o < length (objs w)) ->
  (forall n, bget neqb (snd (fst (bexec neqb c w))) n = bget neqb w n) /\
  (forall o, o < length (objs w) -> bindings (snd (fst (bexec neqb c w))) o = bindings w o).
Proof. exact @values. Qed.
Print Assumptions C136_values.

(** A block that is not entered keeps its values, whatever is assigned. *)
Theorem C136_untouched : forall (N V : Type) (neqb : N -> N -> bool) (c : bcmd N V) o, avoids o c ->
  forall w, o < length (objs w) -> ~ In o (bstack w) ->
  bindings (snd (fst (bexec neqb c w))) o = bindings w o /\ length (objs w) <= length (objs (snd (fst (bexec neqb c w)))).
Proof. exact @untouched. Qed.
Print Assumptions C136_untouched.

(** Entering a block again gives the values it has now. *)
Theorem C136_inside : forall (N V : Type) (neqb : N -> N -> bool) (w : bst N V) o n v k,
  o < length (objs w) -> dict_get neqb (bindings w o) n = Some v ->
  exists reads, snd (bexec neqb (BWith o (BRead n k)) w) = v :: reads.
Proof. exact @inside. Qed.
Print Assumptions C136_inside.

Definition read1 (n : nat) : bcmd nat nat := BRead n (fun _ => BSkip).
(** So `with dyn.let(x=1)` does not always bind x to 1 at first:
      block = dyn.let(x=1)
      with block: dyn.x = 2
      with block: dyn.x           (2) *)
Theorem C136_again_refuted : exists body again : bcmd nat nat,
  snd (bexec Nat.eqb (BNew [(0, 1)] (fun block => BWith block again)) (mkbst [] [] [])) = [1] /\
  snd (bexec Nat.eqb (BNew [(0, 1)] (fun block => BSeq (BWith block body) (BWith block again))) (mkbst [] [] [])) = [2].
Proof. exists (BAssign 0 2), (read1 0). split; vm_compute; reflexivity. Qed.
Print Assumptions C136_again_refuted.
(** Nor does leaving a block restore the values from before, if it is a block that was entered already:
      block = dyn.let(x=1)
      with block:
        with block: dyn.x = 2
        dyn.x                     (2) *)
Theorem C136_nested_refuted : exists body : bcmd nat nat,
  snd (bexec Nat.eqb (BNew [(0, 1)] (fun block => BWith block (BSeq (read1 0) (BSeq (BNew [(0, 1)] (fun other => BWith other body)) (read1 0))))) (mkbst [] [] [])) = [1; 1] /\
  snd (bexec Nat.eqb (BNew [(0, 1)] (fun block => BWith block (BSeq (read1 0) (BSeq (BWith block body) (read1 0))))) (mkbst [] [] [])) = [1; 2].
Proof. exists (BAssign 0 2). split; vm_compute; reflexivity. Qed.
Print Assumptions C136_nested_refuted.

(** Two blocks; the first is entered twice, around the other one, with assignments, an update that fails and an exception. *)
Example C136_ex :
  let c := BNew [(0, 1); (1, 5)] (fun a => BNew [(0, 10)] (fun b =>
    BSeq (BTry (BWith a (BWith b (BWith a (BSeq (BUpdate [(0, 2); (1, 6)]) (BSeq (BTry (BUpdate [(0, 9); (7, 9)]) (fun _ => BSkip)) (BThrow ValueError)))))) (fun _ => BSkip))
   (BSeq (BWith b (BSeq (read1 0) (BWith a (BSeq (read1 0) (read1 1))))) (BTry (read1 1) (fun _ => read1 3))))) in
  bexec Nat.eqb c (mkbst [] [] [(3, 33)]) = (Ok tt, mkbst [[(0, 2); (1, 6)]; [(0, 10)]] [] [(3, 33)], [10; 2; 6; 33]) /\
  snd (bmeaning Nat.eqb c [] ([], sst0 [(3, 33)] 0)) = [10; 2; 6; 33].
Proof. split; vm_compute; reflexivity. Qed.
Example C136_once_ex :
  let c := Let [(0, 1)] (Seq (Let [(0, 2)] (Seq (Assign 0 3) (Read 0 (fun _ => Skip)))) (Read 0 (fun _ => Skip))) in
  snd (bexec Nat.eqb (embed c) (mkbst [] [] [])) = [3; 1] /\ snd (exec Nat.eqb c (mkdst [] [])) = [3; 1].
Proof. split; vm_compute; reflexivity. Qed.
Example C136_values_ex :
  let c := BNew [(1, 7)] (fun o => BWith o (BSeq (read1 1) (BWith 0 (BThrow ValueError)))) in
  let w := mkbst [[(0, 1)]] [0] [] in
  assigns_nothing c /\ (forall o, In o (bstack w) -> o < length (objs w)) /\ snd (bexec Nat.eqb c w) = [7].
Proof. split; [cbn; repeat split; auto|]. split; [intros o [<-|[]]; cbn; auto | vm_compute; reflexivity]. Qed.
Example C136_untouched_ex :
  let c := BNew [(0, 7)] (fun o => BWith o (BSeq (BAssign 0 8) (BWith 1 (BAssign 0 9)))) in
  let w := mkbst [[(0, 1)]; [(0, 2)]] [] [] in
  avoids 0 c /\ 0 < length (objs w) /\ ~ In 0 (bstack w) /\
  objs (snd (fst (bexec Nat.eqb c w))) = [[(0, 1)]; [(0, 9)]; [(0, 8)]].
Proof. cbn. repeat split; auto. Qed.
