(** C126: which definitions a generic function takes, and that `methods` shows what a call tries. *)
From Coq Require Import String List Bool.
From Verif Require Import Base CollModel BindModel TypeModel TypeSpec DispModel DispSpec LmtModel LmtSpec LmtProofs.
Import ListNotations.
Open Scope list_scope.
Local Open Scope string_scope.

(** After any history of decorators, a definition is accepted exactly if it is annotated, no @typed function has the name, and @augment is given a
    generic function. *)
Theorem C126_accepts : forall ops o, fst (step o (run ops)) = Ok tt <-> acceptable ops o.
Proof. exact accepts. Qed.
Print Assumptions C126_accepts.

(** Otherwise there is a TypeError, and no function gets or loses a definition. *)
Theorem C126_rejected : forall ops o, ~ acceptable ops o -> fst (step o (run ops)) = Raise TypeError /\
  forall n, registered n false false (ops ++ [o]) = registered n false false ops.
Proof. exact rejected. Qed.
Print Assumptions C126_rejected.
Example C126_ex_accepts :
  let f T i := mkfun "g" "g" [par "x"] [("x", T)] i in
  acceptable [Generic (f TAny 1)] (Augment "g" (f (TClass CInt) 2)) /\ ~ acceptable [] (Augment "g" (f TAny 1)) /\
  ~ acceptable [Typed (f TAny 1)] (Generic (f TAny 2)) /\ acceptable [Typed (mkfun "g" "g" [par "x"] [] 1)] (Generic (f TAny 2)).
Proof.
  cbv zeta. split; [|split; [|split]].
  - split; [reflexivity|]. split; [intros f [E|[]]; discriminate|]. exists (mkfun "g" "g" [par "x"] [("x", TAny)] 1). split; [reflexivity|]. left. now left.
  - intros (_ & _ & f & _ & [[]|[]]).
  - intros (_ & H & _). specialize (H (mkfun "g" "g" [par "x"] [("x", TAny)] 1) (or_introl eq_refl) eq_refl). discriminate.
  - split; [reflexivity|]. split; [|exact Logic.I]. intros f [E|[]] _. injection E as <-. reflexivity.
Qed.

(** isgeneric tells which it is. *)
Theorem C126_kinds : forall ops h,
  (isgeneric (run ops) h = IsTyped <-> exists f, In (Typed f) ops /\ fullname f = name_of h /\ annotated f = true) /\
  (isgeneric (run ops) h = IsNot <-> ~ exists f, fullname f = name_of h /\ (In (Generic f) ops \/ In (Typed f) ops)).
Proof. exact kinds. Qed.
Print Assumptions C126_kinds.

(** A call of a function, or of a bound method with a self parameter, runs the first of the listed definitions that accepts the arguments, and
    raises TypeError if none does. *)
Theorem C126_listing_partial : forall usub has_reversed truthy self_class mro own kwname ops h d l,
  all_checkable usub ops -> rget (run ops) (name_of h) = Some d -> fits d h ->
  list_methods truthy self_class mro own (run ops) h = Ok l ->
  forall args kw, exists x, call_handle usub has_reversed truthy self_class mro own kwname (run ops) h args kw = Some x /\
  (forall f, x = Ok f <-> first_applicable usub has_reversed kwname (map mm_fun l) (arguments h args) kw f) /\
  (x = Raise TypeError <-> forall m, In m l -> ~ applies usub has_reversed kwname (mm_fun m) (arguments h args) kw).
Proof. exact listing. Qed.
Print Assumptions C126_listing_partial.
Example C126_ex_listing : let h := Bound "B.f" an_obj in
  (exists d, rget (run (two_classes "self")) (name_of h) = Some d /\ fits d h) /\
  listed2 (two_classes "self") h = Ok [3; 2; 1] /\ called2 (two_classes "self") h [an_int] = Some (Ok 1).
Proof. cbv zeta. split; [|split; vm_compute; reflexivity]. eexists. split; [vm_compute; reflexivity|]. exists "self". split; vm_compute; reflexivity. Qed.

(** The listing of an unbound method lacks the definitions of the bases, which a call tries. *)
Theorem C126_unbound_refuted : exists ops h args, listed2 ops h = Ok [3; 2] /\ called2 ops h args = Some (Ok 1).
Proof. exists (two_classes "self"), (Plain "B.f"), [an_obj; an_int]. split; vm_compute; reflexivity. Qed.
Print Assumptions C126_unbound_refuted.

(** If the first parameter has another name, the listing of a bound method has definitions of the bases, which a call does not try: the same
    classes, but for the name. *)
Theorem C126_name_refuted : exists h args, listed2 (two_classes "me") h = Ok [3; 2; 1] /\ called2 (two_classes "me") h args = Some (Raise TypeError) /\
  called2 (two_classes "self") h args = Some (Ok 1).
Proof. exists (Bound "B.f" an_obj), [an_int]. repeat split; vm_compute; reflexivity. Qed.
Print Assumptions C126_name_refuted.

(** A generic function inside of a function: when that is called again, the generic function of the first call gets the definitions of the second. *)
Theorem C126_local_refuted : exists f1 f2 args, fullname f1 = fullname f2 /\ fid f1 <> fid f2 /\
  called2 [Generic f1] (Plain (fullname f1)) args = Some (Ok (fid f1)) /\
  called2 [Generic f1; Generic f2] (Plain (fullname f1)) args = Some (Ok (fid f2)).
Proof.
  exists (mkfun "g" "outer.g" [par "x"] [("x", TAny)] 1), (mkfun "g" "outer.g" [par "x"] [("x", TAny)] 2), [an_int].
  repeat split; try (vm_compute; reflexivity). discriminate.
Qed.
Print Assumptions C126_local_refuted.

(** And if it is @typed, the second call fails, whatever the definition is. *)
Theorem C126_typed_refuted : forall f, annotated f = true -> fst (step (Typed f) (run [])) = Ok tt /\ fst (step (Typed f) (run [Typed f])) = Raise TypeError.
Proof.
  intros f A. split.
  - apply accepts. split; [exact A|]. split; [intros g []|exact Logic.I].
  - apply rejected. intros (_ & H & _). rewrite (H f (or_introl eq_refl) eq_refl) in A. discriminate.
Qed.
Print Assumptions C126_typed_refuted.
