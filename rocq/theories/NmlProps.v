(** C105: the namedlambda macro. *)
From Coq Require Import String List ZArith Bool Arith.
From Verif Require Import Base CollModel EnvModel NmlModel NmlSpec NmlProofs.
Import ListNotations.
Open Scope string_scope.
Open Scope list_scope.
Open Scope nat_scope.

(** A program that does not look at the names of functions does the same under `with namedlambda`: it ends in the same way,
    with the same value, and with the same effects.  (With a lambda at a constant key that is not a string it does not.) *)
Theorem C105_meaning_partial : forall loc W prim fuel globals p w, looks p = false -> bad_key p = false ->
  run W prim fuel globals (namedlambda loc p) w = run W prim fuel globals p w.
Proof. exact namedlambda_meaning. Qed.
Print Assumptions C105_meaning_partial.

(** Every lambda gets a name: that of what it is assigned to, or else its place in the file; for the programs that are [usual]. *)
Theorem C105_names_partial : forall loc p, usual p = true -> namedlambda loc p = map (ideals loc) p.
Proof. exact namedlambda_names. Qed.
Print Assumptions C105_names_partial.

(** After f = lambda ...: ..., the name of f is f. *)
Theorem C105_assigned : forall loc W prim fuel globals f ps l b w,
  run W prim fuel globals (namedlambda loc [Assign f (Lam ps [] l b); Return (NameOf (Var f))]) w = Some (Ok (Some (VCon (CStr f))), w).
Proof. exact assigned. Qed.
Print Assumptions C105_assigned.

Definition no_prim (o : nat) (l : list con) (w : unit) : outcome con * unit := (Ok CNone, w).
Definition at_line (l : nat) : string := match l with 0 => "<lambda at file:0>" | _ => "<lambda at file:1>" end.
Notation go p := (run unit no_prim 10 [] p tt).
Notation named p := (run unit no_prim 10 [] (namedlambda at_line p) tt).
Notation int z := (Con (CInt z)).
Notation str s := (Some (Ok (Some (VCon (CStr s))), tt)).

(** f = lambda x: x
    d = {"g": lambda: 1, f(2): lambda: 3}
    return let[h << (lambda: (k := lambda: 4)())][h()] *)
Definition sample : list stm :=
  [Assign "f" (Lam ["x"] [] 0 (Var "x"));
   Assign "d" (Dict [(Some (Con (CStr "g")), Lam [] [] 0 (int 1)); (Some (Call (Var "f") [int 2] []), Lam [] [] 1 (int 3))]);
   Return (Let [("h", Lam [] [] 0 (Call (Wal "k" (Lam [] [] 0 (int 4))) [] []))] (Call (Var "h") [] []))].
Example C105_ex :
  looks sample = false /\ bad_key sample = false /\ usual sample = true /\
  named sample = Some (Ok (Some (VCon (CInt 4))), tt) /\
  namedlambda at_line sample =
    [Assign "f" (NameCall (CStr "f") (Lam ["x"] [] 0 (Var "x")));
     Assign "d" (Dict [(Some (Con (CStr "g")), NameCall (CStr "g") (Lam [] [] 0 (int 1)));
                       (Some (Call (Var "f") [int 2] []), NameCall (CStr "<lambda at file:1>") (Lam [] [] 1 (int 3)))]);
     Return (Let [("h", NameCall (CStr "h") (Lam [] [] 0 (Call (Wal "k" (NameCall (CStr "k") (Lam [] [] 0 (int 4)))) [] [])))] (Call (Var "h") [] []))].
Proof. repeat split; vm_compute; reflexivity. Qed.

(** A lambda at a constant key that is not a string: return {1: lambda: 5}[1]() *)
Theorem C105_key_refuted : exists p, looks p = false /\ go p = Some (Ok (Some (VCon (CInt 5))), tt) /\ named p = Some (Raise TypeError, tt).
Proof. exists [Return (Call (Item (Dict [(Some (int 1), Lam [] [] 0 (int 5))]) (int 1)) [] [])]. repeat split; vm_compute; reflexivity. Qed.
Print Assumptions C105_key_refuted.

(** A function that was there before, and is not a lambda, is renamed:
    def foo(): return 0
    def pick(f): return foo
    g = pick(lambda: 1)
    return foo.__name__ *)
Theorem C105_other_refuted : exists p, go p = str "foo" /\ named p = str "g".
Proof.
  exists [Def "foo" [] [] [] [Return (int 0)]; Def "pick" [] ["f"] [] [Return (Var "foo")];
          Assign "g" (Call (Var "pick") [Lam [] [] 0 (int 1)] []); Return (NameOf (Var "foo"))].
  split; vm_compute; reflexivity.
Qed.
Print Assumptions C105_other_refuted.

(** and the lambda there gets no name:
    def what(f): return f.__name__
    g = what(lambda: 1)
    return g *)
Theorem C105_argument_refuted : exists p, named p = str "<lambda>".
Proof.
  exists [Def "what" [] ["f"] [] [Return (NameOf (Var "f"))]; Assign "g" (Call (Var "what") [Lam [] [] 0 (int 1)] []); Return (Var "g")].
  vm_compute; reflexivity.
Qed.
Print Assumptions C105_argument_refuted.

(** A lambda in a default value gets no name:
    f = lambda g=(lambda: 1): g.__name__
    return f() *)
Theorem C105_default_refuted : exists p, named p = str "<lambda>".
Proof.
  exists [Assign "f" (Lam ["g"] [Lam [] [] 0 (int 1)] 0 (NameOf (Var "g"))); Return (Call (Var "f") [] [])].
  vm_compute; reflexivity.
Qed.
Print Assumptions C105_default_refuted.

(** Whether f := lambda ... gets the name f depends on how it is called there: (f := lambda x: 1)(2) and (f := lambda x: 1)(x=2) *)
Definition called (args : list ex) (kws : list (option string * ex)) : list stm :=
  [Expr (Call (Wal "f" (Lam ["x"] [] 0 (int 1))) args kws); Return (NameOf (Var "f"))].
Theorem C105_keyword_refuted : exists v, named (called [v] []) = str "f" /\ named (called [] [(Some "x", v)]) = str "<lambda at file:0>".
Proof. exists (int 2). split; vm_compute; reflexivity. Qed.
Print Assumptions C105_keyword_refuted.
