(** C96: partial checks types early; C97: currying generic functions. *)
From Coq Require Import String List Bool.
From Verif Require Import Base CollModel BindModel BindSpec TypeModel TypeSpec DispModel DispSpec PartModel PartSpec PartProofs PartCurry.
Import ListNotations.
Open Scope string_scope.
Open Scope nat_scope.
Open Scope list_scope.

(** * C96 *)
(** partial(g, ...), where g is a generic function or already a partial of one: with the arguments
    collected so far, it succeeds exactly when a type-correct call of one of the definitions can begin
    with them, and raises TypeError otherwise. *)
Theorem C96_generic : forall usub has_reversed kwname truthy self_class mro own ops n d p args kw a k,
  (forall f, In f (registered n false false ops) -> regular usub has_reversed f) ->
  rget (run ops) n = Some d -> collected p args kw = (Gen d, a, k) -> is_dict k -> extract_self d a = Ok None ->
  (partial usub has_reversed truthy self_class mro own kwname (run ops) p args kw = Ok (Par (Gen d) a k) /\
   exists f, In f (registered n false false ops) /\ good_start usub has_reversed f a k) \/
  (partial usub has_reversed truthy self_class mro own kwname (run ops) p args kw = Raise TypeError /\
   forall f, In f (registered n false false ops) -> ~ good_start usub has_reversed f a k).
Proof.
  intros usub hr kwname tr sc mro own ops n d p args kw a k Hr Hd Hc Hk Hs.
  exact (partial_generic usub hr kwname tr sc mro own ops n d Hr Hd p a k args kw Hc Hk Hs).
Qed.
Print Assumptions C96_generic.

(** A definition that accepts a call is one with which the call can begin: partial rejects no
    beginning of a call that works. *)
Theorem C96_no_false_alarm : forall usub has_reversed kwname f args kw args' kw',
  regular usub has_reversed f -> is_dict (kw ++ kw') ->
  applies usub has_reversed kwname f (args ++ args') (kw ++ kw') -> good_start usub has_reversed f args kw.
Proof. exact applies_good. Qed.
Print Assumptions C96_no_false_alarm.

(** The same for a function with annotations, for the first partial; what is missing: further
    partials of a partial, see the refutations. *)
Theorem C96_first_partial : forall usub has_reversed kwname truthy self_class mro own r f args kw,
  fhints f <> [] -> regular usub has_reversed f -> is_dict kw ->
  (partial usub has_reversed truthy self_class mro own kwname r (Fun (Plain f)) args kw = Ok (Par (Plain f) args kw) /\
   good_start usub has_reversed f args kw) \/
  (partial usub has_reversed truthy self_class mro own kwname r (Fun (Plain f)) args kw = Raise TypeError /\
   ~ good_start usub has_reversed f args kw).
Proof.
  intros usub hr kwname tr sc mro own r f args kw Hh R Hd.
  exact (partial_plain usub hr kwname tr sc mro own r f args kw Hh R Hd).
Qed.
Print Assumptions C96_first_partial.

(** When partial succeeds, calling the result is calling the original with all the arguments. *)
Theorem C96_call : forall usub has_reversed kwname truthy self_class mro own r p args kw q args2 kw2,
  is_dict kw -> partial usub has_reversed truthy self_class mro own kwname r p args kw = Ok q ->
  collected q args2 kw2 = collected p (args ++ args2) (merge kw kw2).
Proof. exact partial_call. Qed.
Print Assumptions C96_call.

Definition nosub (n : nat) (c : cls) : bool := false.
Definition anyrev : cls -> bool := fun _ => true.
Definition kwn (n : pname) : value := Obj CStr [] [].
Definition part := partial nosub anyrev (fun _ => true) class_of (fun c => [c]) (fun _ _ => None) kwn.
Definition P n : param value := mkparam n PosOrKw None.
Definition int : value := Obj CInt [] [].
Definition str : value := Obj CStr [] [].
Definition tint := TClass CInt.
Definition tstr := TClass CStr.

(** The second partial of a function with annotations: the arguments so far are held against the
    parameters that are left.  With [def f(x : int, y : int)], partial(partial(f, 1), 2) raises
    TypeError although f(1, 2) is fine ... *)
Theorem C96_second_rejected_refuted : exists f a b q,
  regular nosub anyrev f /\ part [] (Fun (Plain f)) [a] [] = Ok q /\
  applies nosub anyrev kwn f [a; b] [] /\ part [] q [b] [] = Raise TypeError.
Proof.
  exists (mkfun "f" "f" [P "x"; P "y"] [("x", tint); ("y", tint)] 0), int, int.
  eexists. split; [|split; [vm_compute; reflexivity|split; [|vm_compute; reflexivity]]].
  - split; [split; [reflexivity|repeat constructor; cbn; intuition discriminate]|]. split; [|split].
    + intros p [<-|[<-|[]]]; split; discriminate.
    + intros n T. unfold hint. cbn [dict_get fhints]. destruct (String.eqb "x" n); [|destruct (String.eqb "y" n); [|discriminate]];
        intros E; injection E as <-; constructor; right; right; repeat constructor.
    + intros p v T [<-|[<-|[]]]; discriminate.
  - eexists. split; [vm_compute; reflexivity|]. repeat constructor.
Qed.
Print Assumptions C96_second_rejected_refuted.
(** ... and with [def f(x : str, y : str, z : int)], partial(partial(f, "a"), 1) is accepted although
    no type-correct call begins so (with one argument less than given, the last one is not checked at all). *)
Theorem C96_second_accepted_refuted : exists f a b c q q',
  part [] (Fun (Plain f)) [a] [] = Ok q /\ part [] q [b] [] = Ok q' /\
  ~ good_start nosub anyrev f [a; b] [] /\ part [] (Fun (Plain f)) [a; b] [] = Raise TypeError /\
  collected q' [c] [] = (Plain f, [a; b; c], []).
Proof.
  exists (mkfun "f" "f" [P "x"; P "y"; P "z"] [("x", tstr); ("y", tstr); ("z", tint)] 0), str, int, int.
  eexists. eexists. split; [vm_compute; reflexivity|]. split; [vm_compute; reflexivity|]. split; [|split; vm_compute; reflexivity].
  intros [_ H]. specialize (H "y" int tstr (or_introl (ex_intro _ 1 (ex_intro _ (P "y") (conj eq_refl (conj eq_refl eq_refl))))) eq_refl).
  inversion H; subst. discriminate.
Qed.
Print Assumptions C96_second_accepted_refuted.
(** A default that does not have the type of its annotation (such as None for int) is blamed, though
    no argument is wrong and Python accepts the call. *)
Theorem C96_default_refuted : exists f,
  good_start nosub anyrev f [int] [] /\ (exists b, py_call_bind (params f) [int] [] = Ok b) /\
  part [] (Fun (Plain f)) [int] [] = Raise TypeError.
Proof.
  exists (mkfun "f" "f" [P "x"; mkparam "y" PosOrKw (Some (Obj CNone [] []))] [("x", tint); ("y", tint)] 0).
  split; [|split; [eexists; vm_compute; reflexivity|vm_compute; reflexivity]].
  split; [exists [], []; eexists; split; [constructor|vm_compute; reflexivity]|].
  intros n v T [(i & p & H1 & H2 & <-)|H]; [|discriminate].
  destruct i as [|[|[|i]]]; cbn in H1, H2; try discriminate.
  injection H1 as <-. injection H2 as <-. cbn. intros E. injection E as <-. constructor. reflexivity.
Qed.
Print Assumptions C96_default_refuted.
(** An annotation on [*args] in the usual sense, the type of each extra argument, makes every partial fail:
    the check holds the tuple against it, also the empty one. *)
Theorem C96_varargs_refuted : exists f, params f = [P "x"; mkparam "args" VarPos None] /\
  fhints f = [("args", tint)] /\
  forall r args kw, part r (Fun (Plain f)) args kw = Raise TypeError.
Proof.
  exists (mkfun "f" "f" [P "x"; mkparam "args" VarPos None] [("args", tint)] 0). split; [reflexivity|]. split; [reflexivity|].
  intros r args kw. exact (varargs_fail nosub _ _ _ _ _ _ r args kw eq_refl).
Qed.
Print Assumptions C96_varargs_refuted.

Definition defs1 : list op :=
  [Generic (mkfun "g" "g" [P "x"; P "y"] [("x", tint); ("y", tint)] 1);
   Generic (mkfun "g" "g" [P "x"; P "y"; P "z"] [("x", tstr); ("y", tint); ("z", tint)] 2)].
Definition disp1 : dispatcher := mkdisp (mkfun "g" "g" [P "x"; P "y"] [("x", tint); ("y", tint)] 1)
  [mkmm (mkfun "g" "g" [P "x"; P "y"] [("x", tint); ("y", tint)] 1) [("x", tint); ("y", tint)];
   mkmm (mkfun "g" "g" [P "x"; P "y"; P "z"] [("x", tstr); ("y", tint); ("z", tint)] 2) [("x", tstr); ("y", tint); ("z", tint)]] false.
Example C96_ex : rget (run defs1) "g" = Some disp1 /\ extract_self disp1 [str] = Ok None /\
  part (run defs1) (Fun (Gen disp1)) [str] [] = Ok (Par (Gen disp1) [str] []) /\
  part (run defs1) (Par (Gen disp1) [str] []) [] [("z", int)] = Ok (Par (Gen disp1) [str] [("z", int)]) /\
  part (run defs1) (Par (Gen disp1) [str] []) [str] [] = Raise TypeError /\
  part (run defs1) (Par (Gen disp1) [int] []) [] [("z", int)] = Raise TypeError.
Proof. repeat split; vm_compute; reflexivity. Qed.
Example C96_ex_defs1 : forall f, In f (registered "g" false false defs1) -> regular nosub anyrev f /\ all_positional (params f).
Proof.
  intros f. vm_compute registered. intros [<-|[<-|[]]].
  - split; [|intros p [<-|[<-|[]]]; auto]. split; [split; [reflexivity|repeat constructor; cbn; intuition discriminate]|]. split; [|split].
    + intros p [<-|[<-|[]]]; split; discriminate.
    + intros n T. unfold hint. cbn [dict_get fhints]. destruct (String.eqb "x" n); [|destruct (String.eqb "y" n); [|discriminate]];
        intros E; injection E as <-; constructor; right; right; repeat constructor.
    + intros p v T [<-|[<-|[]]]; discriminate.
  - split; [|intros p [<-|[<-|[<-|[]]]]; auto]. split; [split; [reflexivity|repeat constructor; cbn; intuition discriminate]|]. split; [|split].
    + intros p [<-|[<-|[<-|[]]]]; split; discriminate.
    + intros n T. unfold hint. cbn [dict_get fhints]. destruct (String.eqb "x" n); [|destruct (String.eqb "y" n); [|destruct (String.eqb "z" n); [|discriminate]]];
        intros E; injection E as <-; constructor; [now left|right; right; repeat constructor..].
    + intros p v T [<-|[<-|[<-|[]]]]; discriminate.
Qed.
Example C96_ex_regular : forall f, In f (registered "g" false false defs1) -> regular nosub anyrev f.
Proof. intros f Hf. exact (proj1 (C96_ex_defs1 f Hf)). Qed.

(** * C97 *)
(** A curried generic function, called with positional arguments (all those given so far), for
    definitions whose parameters are all positional: it calls the function exactly when a definition
    accepts these arguments ... *)
Theorem C97_call_partial : forall usub has_reversed kwname truthy self_class mro own ops n d args,
  (forall f, In f (registered n false false ops) -> regular usub has_reversed f /\ all_positional (params f)) ->
  rget (run ops) n = Some d -> extract_self d args = Ok None ->
  (decide_generic usub has_reversed truthy self_class mro own kwname (run ops) d args [] = Ok GCall <->
   exists f, In f (registered n false false ops) /\ applies usub has_reversed kwname f args []).
Proof.
  intros usub hr kwname tr sc mro own ops n d args Hr Hd Hs.
  exact (decide_call usub hr kwname tr sc mro own ops n d args Hr Hd Hs).
Qed.
Print Assumptions C97_call_partial.
(** ... otherwise it passes the surplus on when a definition accepts the arguments without it, the
    most recent such definition deciding what the surplus is ... *)
Theorem C97_pass_partial : forall usub has_reversed kwname truthy self_class mro own ops n d args,
  (forall f, In f (registered n false false ops) -> regular usub has_reversed f /\ all_positional (params f)) ->
  rget (run ops) n = Some d -> extract_self d args = Ok None ->
  (forall f, (forall g, In g (registered n false false ops) -> ~ applies usub has_reversed kwname g args []) ->
     first_taker usub has_reversed kwname (rev (registered n false false ops)) args f ->
     decide_generic usub has_reversed truthy self_class mro own kwname (run ops) d args [] =
     Ok (GPass (skipn (length (params f)) args) [])) /\
  (forall la lk, decide_generic usub has_reversed truthy self_class mro own kwname (run ops) d args [] = Ok (GPass la lk) ->
     lk = [] /\ (forall g, In g (registered n false false ops) -> ~ applies usub has_reversed kwname g args []) /\
     exists f, first_taker usub has_reversed kwname (rev (registered n false false ops)) args f /\
               la = skipn (length (params f)) args).
Proof.
  intros usub hr kwname tr sc mro own ops n d args Hr Hd Hs. split.
  - exact (decide_pass usub hr kwname tr sc mro own ops n d args Hr Hd Hs).
  - exact (decide_pass_inv usub hr kwname tr sc mro own ops n d args Hr Hd Hs).
Qed.
Print Assumptions C97_pass_partial.
(** ... otherwise it waits for more exactly when a type-correct call can begin with the arguments ... *)
Theorem C97_keep_partial : forall usub has_reversed kwname truthy self_class mro own ops n d args,
  (forall f, In f (registered n false false ops) -> regular usub has_reversed f /\ all_positional (params f)) ->
  rget (run ops) n = Some d -> extract_self d args = Ok None ->
  (decide_generic usub has_reversed truthy self_class mro own kwname (run ops) d args [] = Ok GKeep <->
   (exists f, In f (registered n false false ops) /\ good_start usub has_reversed f args []) /\
   forall g, In g (registered n false false ops) ->
     ~ applies usub has_reversed kwname g args [] /\ ~ takes_some usub has_reversed kwname g args).
Proof.
  intros usub hr kwname tr sc mro own ops n d args Hr Hd Hs.
  exact (decide_keep usub hr kwname tr sc mro own ops n d args Hr Hd Hs).
Qed.
Print Assumptions C97_keep_partial.
(** ... and it raises, namely TypeError, exactly in the remaining case. *)
Theorem C97_error_partial : forall usub has_reversed kwname truthy self_class mro own ops n d args e,
  (forall f, In f (registered n false false ops) -> regular usub has_reversed f /\ all_positional (params f)) ->
  rget (run ops) n = Some d -> extract_self d args = Ok None ->
  (decide_generic usub has_reversed truthy self_class mro own kwname (run ops) d args [] = Raise e <->
   e = TypeError /\ forall g, In g (registered n false false ops) ->
     ~ applies usub has_reversed kwname g args [] /\ ~ takes_some usub has_reversed kwname g args /\
     ~ good_start usub has_reversed g args []).
Proof.
  intros usub hr kwname tr sc mro own ops n d args e Hr Hd Hs.
  exact (decide_error usub hr kwname tr sc mro own ops n d args Hr Hd Hs e).
Qed.
Print Assumptions C97_error_partial.

Definition dec := decide_generic nosub anyrev (fun _ => true) class_of (fun c => [c]) (fun _ _ => None) kwn.
Example C97_ex :
  dec (run defs1) disp1 [int; int] [] = Ok GCall /\ dec (run defs1) disp1 [int] [] = Ok GKeep /\
  dec (run defs1) disp1 [int; int; str] [] = Ok (GPass [str] []) /\
  dec (run defs1) disp1 [str; int] [] = Ok GKeep /\ dec (run defs1) disp1 [str; int; int] [] = Ok GCall /\
  dec (run defs1) disp1 [str; str] [] = Raise TypeError.
Proof. repeat split; vm_compute; reflexivity. Qed.
Example C97_ex_hypotheses : (forall f, In f (registered "g" false false defs1) -> regular nosub anyrev f /\ all_positional (params f)) /\
  rget (run defs1) "g" = Some disp1 /\ extract_self disp1 [int] = Ok None.
Proof. split; [exact C96_ex_defs1|]. split; vm_compute; reflexivity. Qed.

(** With named arguments: [g(x : int, y : int)] and, more recent, [g(y : int)].  g(1, y=2) runs the
    former, but the curried g raises TypeError, because for the latter the first argument is y, too. *)
Theorem C97_named_refuted : exists ops d f,
  rget (run ops) "g" = Some d /\
  call nosub anyrev (fun _ => true) class_of (fun c => [c]) (fun _ _ => None) kwn (run ops) d [int] [("y", int)] = Ok f /\
  dec (run ops) d [int] [("y", int)] = Raise TypeError.
Proof.
  exists [Generic (mkfun "g" "g" [P "x"; P "y"] [("x", tint); ("y", tint)] 1); Generic (mkfun "g" "g" [P "y"] [("y", tint)] 2)].
  eexists. eexists. split; [vm_compute; reflexivity|]. split; vm_compute; reflexivity.
Qed.
Print Assumptions C97_named_refuted.
(** A keyword-only parameter: the surplus positional argument is passed on AND held against the type of
    that parameter, so that f(1) and then "a" is refused although f(1) is a complete call. *)
Theorem C97_kwonly_refuted : exists ops d,
  rget (run ops) "g" = Some d /\ dec (run ops) d [int] [] = Ok GCall /\
  dec (run ops) d [int; str] [] = Raise TypeError /\ dec (run ops) d [int; int] [] = Ok (GPass [int] []).
Proof.
  exists [Generic (mkfun "g" "g" [P "x"; mkparam "k" KwOnly (Some int)] [("x", tint); ("k", tint)] 1)].
  eexists. split; [vm_compute; reflexivity|]. repeat split; vm_compute; reflexivity.
Qed.
Print Assumptions C97_kwonly_refuted.
