(** C108: nb and dbg *)
From Coq Require Import String List ZArith Bool Arith.
From Verif Require Import Base CollModel EnvModel DbgModel DbgSpec DbgProofs.
Import ListNotations.
Open Scope string_scope.
Open Scope list_scope.
Open Scope nat_scope.

(** The expanded program runs as the documentation says.  In an nb block, each expression statement at its top level sets _,
    and its value is printed unless it is None.  dbg[e] outputs e's source and value, and has that value.  In a dbg block,
    print outputs the source and the value of each argument (or gives them to the block's print function).  Missing: the
    programs excluded by [fines], for which see the refutations below. *)
Theorem C108_meaning_partial : forall W prim fuel globals p (w : W), forallb (fines None false) p = true ->
  same_run (run W prim fuel globals p w) (run W prim fuel globals (expand_program p) w).
Proof. exact run_expand. Qed.
Print Assumptions C108_meaning_partial.
(** A function with an nb block in a dbg block, called twice, and dbg[] *)
Definition ex1 : list stm :=
  [WithDbg None
     [Def "f" ["x"] [WithNb (Some "print") [Expr (Prim 0 [Var "x"]); Assign "y" (Var "_"); Expr (Con CNone); Expr (Call 3 (Var "print") [(false, Var "x"); (false, Var "y")] [("sep", Con (CStr ""))])];
                     Return (Some (Dbg 4 (Var "y")))];
      Expr (Call 5 (Var "f") [(false, Call 5 (Var "f") [(false, Con (CInt 1))] [])] []);
      Expr (Call 6 (Var "print") [(false, Call 6 (Var "f") [(false, Con (CInt 7))] [])] [])]].
Definition prim1 (o : nat) (l : list con) (w : nat) : outcome con * nat := (match l with [CInt z] => Ok (CInt (z + 1)) | _ => Raise TypeError end, S w).
Example C108_ex1 : forallb (fines None false) ex1 = true /\ forallb noprints ex1 = true /\
  match run nat prim1 9 [("print", VPrint)] (expand_program ex1) 0 with
  | Some (r, _, o, w) => r = Ok None /\ length o = 10 /\ w = 3 /\
      firstn 3 o = [Printed [VCon (CInt 2)] []; DbgOut 3 [(Var "x", VCon (CInt 1)); (Var "y", VCon (CInt 2))] [("sep", VCon (CStr ""))];
                    DbgVal 4 (Var "y") (VCon (CInt 2))]
  | None => False
  end.
Proof. vm_compute. repeat split. Qed.

(** Without dbg, the program returns and does the same, and its variables have the same values: only its output differs, by
    the sources, and by what dbg[] outputs.  (The default print functions.) *)
Theorem C108_transparent_partial : forall W prim fuel globals p (w : W) r g1 o w1,
  forallb (fines None false) p = true -> forallb noprints p = true -> dict_get String.eqb globals "print" = Some VPrint ->
  run W prim fuel globals (expand_program p) w = Some (r, g1, o, w1) ->
  exists g2, run W prim fuel globals (map undbgs p) w = Some (r, g2, flat_map plain o, w1) /\
    forall x, x <> "theprint" -> dict_get String.eqb g2 x = dict_get String.eqb g1 x.
Proof. exact run_both. Qed.
Print Assumptions C108_transparent_partial.

(** A starred argument of print in a dbg block: only its first item is printed. *)
Theorem C108_starred_refuted : forall W prim fuel (w : W), exists g1 o g2,
  run W prim fuel gl0 (expand_program p_star) w = Some (Ok None, g1, o, w) /\ flat_map plain o = [Printed [VCon (CInt 1)] []] /\
  run W prim fuel gl0 (map undbgs p_star) w = Some (Ok None, g2, [Printed [VCon (CInt 1); VCon (CInt 2)] []], w).
Proof. exact star_refuted. Qed.
Print Assumptions C108_starred_refuted.

(** dbg[] in an argument of print in a dbg block: the source shown is not the source. *)
Theorem C108_source_refuted : forall W prim fuel (w : W), exists g1 g2 t,
  run W prim fuel gl0 p_text w = Some (Ok None, g1, [DbgVal 1 (Con (CInt 3)) (VCon (CInt 3)); DbgOut 1 [(Dbg 1 (Con (CInt 3)), VCon (CInt 3))] []], w) /\
  run W prim fuel gl0 (expand_program p_text) w = Some (Ok None, g2, [DbgVal 1 (Con (CInt 3)) (VCon (CInt 3)); DbgOut 1 [(t, VCon (CInt 3))] []], w) /\
  t <> Dbg 1 (Con (CInt 3)).
Proof. exact text_refuted. Qed.
Print Assumptions C108_source_refuted.

(** A dbg block with a print function in another one with the same: the function does not get sources and values. *)
Theorem C108_twice_refuted : forall W prim fuel (w : W), ~ same_run (run W prim fuel gl0 p_twice w) (run W prim fuel gl0 (expand_program p_twice) w).
Proof. exact twice_refuted. Qed.
Print Assumptions C108_twice_refuted.

(** An nb block in an nb block with another print function: after the inner block, the outer one uses the inner's. *)
Theorem C108_nested_refuted : forall W prim fuel (w : W), exists g1 g2,
  run W prim fuel gl_other p_nested w = Some (Raise TypeError, g1, [Printed [VCon (CInt 3)] []], w) /\
  run W prim fuel gl_other (expand_program p_nested) w = Some (Ok None, g2, [Printed [VCon (CInt 3)] []; Printed [VCon (CInt 4)] []], w).
Proof. exact nested_refuted. Qed.
Print Assumptions C108_nested_refuted.

(** with nb[value]: the value printed is used as the print function. *)
Theorem C108_value_refuted : forall W prim fuel (w : W), exists g1 g2,
  run W prim fuel gl0 p_value w = Some (Ok None, g1, [Printed [VCon (CInt 3)] []], w) /\
  run W prim fuel gl0 (expand_program p_value) w = Some (Raise TypeError, g2, [], w).
Proof. exact value_refuted. Qed.
Print Assumptions C108_value_refuted.

(** An nb block replaces the program's variable theprint. *)
Theorem C108_clobber_refuted : forall W prim fuel (w : W), exists g1 g2,
  run W prim fuel gl0 p_clobber w = Some (Ok (Some (VCon (CInt 5))), g1, [], w) /\
  run W prim fuel gl0 (expand_program p_clobber) w = Some (Ok (Some (VPrinter None)), g2, [], w).
Proof. exact clobber_refuted. Qed.
Print Assumptions C108_clobber_refuted.

(** The block's print call returns the value printed, so that a function that ends in it (with autoreturn) returns it. *)
Theorem C108_passthrough : forall W apply c p (v r : value) (s t : st W), app W apply c (VPrinter p) [v] [] s = Some (Ok r, t) -> r = v.
Proof. exact printer_value. Qed.
Print Assumptions C108_passthrough.
Example C108_ex2 : exists t, app unit (call unit (fun _ _ w => (Ok CNone, w)) 0) None (VPrinter None) [VCon (CInt 4)] [] (mkS [] [] [] tt) = Some (Ok (VCon (CInt 4)), t) /\
  out t = [Printed [VCon (CInt 4)] []].
Proof. eexists. split; reflexivity. Qed.
