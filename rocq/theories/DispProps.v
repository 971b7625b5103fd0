(** C52: multiple dispatch. *)
From Coq Require Import String List Bool.
From Verif Require Import Base CollModel BindModel TypeModel TypeSpec DispModel DispSpec DispProofs.
Import ListNotations.
Open Scope string_scope.
Open Scope nat_scope.
Open Scope list_scope.

(** After any history of decorators, the multimethods of a generic function are the definitions
    registered for it, in order. *)
Theorem C52_registry : forall ops n d, rget (run ops) n = Some d -> map mm_fun (methods d) = registered n false false ops.
Proof. exact run_methods. Qed.
Print Assumptions C52_registry.

(** A call of a generic function runs the most recently registered definition that accepts the
    arguments ... *)
Theorem C52_function : forall usub has_reversed kwname truthy self_class mro own ops n d args kw f,
  all_checkable usub ops -> rget (run ops) n = Some d -> extract_self d args = Ok None ->
  (call usub has_reversed truthy self_class mro own kwname (run ops) d args kw = Ok f <->
   first_applicable usub has_reversed kwname (rev (registered n false false ops)) args kw f).
Proof.
  intros usub hr kwname tr sc mro own ops n d args kw f Hc Hd Hs.
  rewrite (call_function usub hr kwname tr sc mro own ops n d args kw Hc Hd Hs).
  exact (result_ok usub hr kwname _ args kw f (Forall_rev (registered_good usub kwname n ops Hc))).
Qed.
Print Assumptions C52_function.

(** ... and if there is none, TypeError. *)
Theorem C52_no_match : forall usub has_reversed kwname truthy self_class mro own ops n d args kw,
  all_checkable usub ops -> rget (run ops) n = Some d -> extract_self d args = Ok None ->
  (call usub has_reversed truthy self_class mro own kwname (run ops) d args kw = Raise TypeError <->
   forall f, In f (registered n false false ops) -> ~ applies usub has_reversed kwname f args kw).
Proof.
  intros usub hr kwname tr sc mro own ops n d args kw Hc Hd Hs.
  rewrite (call_function usub hr kwname tr sc mro own ops n d args kw Hc Hd Hs).
  rewrite (result_none usub hr kwname _ args kw (Forall_rev (registered_good usub kwname n ops Hc))).
  rewrite Forall_forall. split; intros H f Hf; apply H; [now apply -> in_rev|now apply in_rev].
Qed.
Print Assumptions C52_no_match.

(** Methods: a call on an object that is true runs the first definition that accepts the
    arguments, class by class in MRO order, provided that what a base inherits is the next definition
    in the MRO (as with single inheritance). *)
Theorem C52_method_partial : forall usub has_reversed kwname truthy self_class mro own ops n d self args kw f,
  all_checkable usub ops -> rget (run ops) n = Some d ->
  extract_self d args = Ok (Some self) -> truthy self = true ->
  inherits_next mro own (self_class self) (fname (wrapped d)) -> (exists l, mro (self_class self) = self_class self :: l) ->
  class_attr mro own (self_class self) (fname (wrapped d)) = Some (Some n) ->
  (call usub has_reversed truthy self_class mro own kwname (run ops) d args kw = Ok f <->
   first_applicable usub has_reversed kwname (in_mro_order own ops (fname (wrapped d)) (mro (self_class self))) args kw f).
Proof.
  intros usub hr kwname tr sc mro own ops n d self args kw f Hc Hd Hs Ht Hl He Ha.
  rewrite (call_method_linear usub hr kwname tr sc mro own ops n d self args kw Hc Hd Hs Ht Hl He Ha).
  exact (result_ok usub hr kwname _ args kw f (in_mro_good usub kwname own ops _ _ Hc)).
Qed.
Print Assumptions C52_method_partial.

(** A class hierarchy: CUser 4 derives from CUser 2 and CUser 3, both derive from CUser 1. *)
Definition usub (n : nat) (c : cls) : bool := false.
Definition rev_any : cls -> bool := fun _ => true.
Definition kwn (n : pname) : value := Obj CStr [] [].
Definition yes : value -> bool := fun _ => true.
Definition mro4 (c : cls) : list cls :=
  match c with
  | CUser 4 => [CUser 4; CUser 2; CUser 3; CUser 1]
  | CUser 2 => [CUser 2; CUser 1]
  | CUser 3 => [CUser 3; CUser 1]
  | c => [c]
  end.
Definition P n : param value := mkparam n PosOrKw None.
Definition meth (cl : string) (T : typ) (i : nat) : fundef := mkfun "f" cl [P "self"; P "x"] [("x", T)] i.
Definition i1 : value := Obj CInt [] [].
Definition obj (n : nat) : value := Obj (CUser n) [] [].
Definition own_all (l : list (nat * string)) (c : cls) (n : string) : option (option string) :=
  match c with CUser k => option_map (fun x => Some (snd x)) (find (fun x => Nat.eqb (fst x) k) l) | _ => None end.
Definition run_on l tr ops n args :=
  match rget (run ops) n with Some d => omap fid (call usub rev_any tr class_of mro4 (own_all l) kwn (run ops) d args []) | None => Raise KeyError end.

Example C52_ex_function : (* the last definition that accepts; @typed closes; not annotated: not registered *)
  let f T i := mkfun "g" "g" [P "x"] [("x", T)] i in
  run_on [] yes [Generic (f TAny 1); Generic (f (TClass CInt) 2); Augment "g" (f (TClass CStr) 3);
     Generic (mkfun "g" "g" [P "x"] [] 4); Typed (f (TClass CFloat) 5); Generic (f TAny 6)] "g" [i1] = Ok 2.
Proof. vm_compute. reflexivity. Qed.
Example C52_ex_method : (* the method of the class itself accepts only floats; that of the base is used *)
  run_on [(2, "B.f"); (1, "A.f")] yes [Generic (meth "A.f" TAny 1); Generic (meth "B.f" (TClass CFloat) 2)] "B.f" [obj 2; i1] = Ok 1.
Proof. vm_compute. reflexivity. Qed.

Example C52_ex_inherits : inherits_next mro4 (own_all [(2, "B.f"); (1, "A.f")]) (CUser 2) "f" /\
  inherits_next mro4 (own_all [(4, "D.f"); (2, "B.f"); (3, "C.f"); (1, "A.f")]) (CUser 4) "f".
Proof.
  split; intros l1 b l2 E; cbn in E;
  repeat (destruct l1 as [|? l1]; cbn in E; [injection E as <- <-; split; [eexists; reflexivity|vm_compute; auto]|injection E as _ E]);
  destruct l1; discriminate.
Qed.

(** An object that is false (an empty container, say): the bases are not looked at. *)
Theorem C52_falsy_refuted : exists ops l, 
  run_on l yes ops "B.f" [obj 2; i1] = Ok 1 /\ run_on l (fun _ => false) ops "B.f" [obj 2; i1] = Raise TypeError.
Proof. exists [Generic (meth "A.f" TAny 1); Generic (meth "B.f" (TClass CFloat) 2)], [(2, "B.f"); (1, "A.f")]. split; vm_compute; reflexivity. Qed.
Print Assumptions C52_falsy_refuted.

(** Multiple inheritance: CUser 2 inherits its method from CUser 1, so that the definitions of
    CUser 1 are tried before those of CUser 3, which precedes it in the MRO. *)
Theorem C52_diamond_refuted : exists ops l f,
  mro4 (CUser 4) = [CUser 4; CUser 2; CUser 3; CUser 1] /\
  in_mro_order (own_all l) ops "f" (mro4 (CUser 4)) = [meth "D.f" (TClass CFloat) 4; meth "C.f" TAny 3; meth "A.f" TAny 1] /\
  first_applicable usub rev_any kwn (in_mro_order (own_all l) ops "f" (mro4 (CUser 4))) [obj 4; i1] [] f /\ fid f = 3 /\
  run_on l yes ops "D.f" [obj 4; i1] = Ok 1.
Proof.
  exists [Generic (meth "A.f" TAny 1); Generic (meth "C.f" TAny 3); Generic (meth "D.f" (TClass CFloat) 4)],
    [(4, "D.f"); (3, "C.f"); (1, "A.f")], (meth "C.f" TAny 3).
  split; [reflexivity|]. split; [vm_compute; reflexivity|]. split; [|split; vm_compute; reflexivity].
  exists [meth "D.f" (TClass CFloat) 4], [meth "A.f" TAny 1]. split; [vm_compute; reflexivity|]. split.
  - eexists. split; [vm_compute; reflexivity|]. constructor; [constructor|]. constructor; [constructor|constructor].
  - constructor; [|constructor]. intros (b & E & H). vm_compute in E. injection E as <-.
    inversion H as [|? ? _ H1]; subst. inversion H1 as [|? ? H2 _]; subst. cbn in H2. inversion H2; subst. discriminate.
Qed.
Print Assumptions C52_diamond_refuted.

(** super().f(...): the generic function of the base class, called with an object of the derived
    class, also tries the definitions of the derived class's other bases, such as the caller. *)
Theorem C52_super_refuted : exists ops l,
  (* CUser 4 derives from CUser 2, whose method calls that of its base CUser 1 *)
  run_on l yes ops "A.f" [obj 1; i1] = Raise TypeError /\ run_on l yes ops "A.f" [obj 2; i1] = Raise TypeError /\
  run_on l yes ops "A.f" [obj 4; i1] = Ok 2.
Proof.
  exists [Generic (meth "A.f" (TClass CFloat) 1); Generic (meth "B.f" TAny 2)], [(2, "B.f"); (1, "A.f")].
  repeat split; vm_compute; reflexivity.
Qed.
Print Assumptions C52_super_refuted.

(** The annotation [*args : Tuple[int, ...]], documented as "any number of ints", does not accept
    zero of them. *)
Definition varargs : fundef := mkfun "h" "h" [mkparam "args" VarPos None] [("args", TTupleOf (TClass CInt))] 1.
Theorem C52_varargs_refuted : run_on [] yes [Generic varargs] "h" [i1; i1] = Ok 1 /\ run_on [] yes [Generic varargs] "h" [] = Raise TypeError.
Proof. split; vm_compute; reflexivity. Qed.
Print Assumptions C52_varargs_refuted.
