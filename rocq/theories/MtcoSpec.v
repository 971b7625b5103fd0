(** The programs for which `with tco` changes nothing but the use of the stack. *)
From Coq Require Import String List Arith Bool.
From Verif Require Import Base PyModel.
Import ListNotations.
Open Scope string_scope.
Open Scope list_scope.

Definition not_jump (v : value) : bool := match v with VJump _ _ => false | _ => true end.

Section Spec.
Variable ecs : list string.      (* names that are taken for escape continuations *)
Variable isb : nat -> bool.      (* operators whose value, if they have one, is True or False *)

(** The last item of a chain of `and`s or `or`s, if it is a call, a conditional or such a chain *)
Definition tail_item (l : list expr) : option expr :=
  match rev l with (ECall _ _ | EJump _ _ | EIf _ _ _ | EBool _ _) as e :: _ => Some e | _ => None end.

(** Tail calls of an expression: [Call e]: the value of [e] can be that of a call which is the last thing
    done. *)
Inductive ends_in_call : expr -> Prop :=
| ends_call f l : ends_in_call (ECall f l)
| ends_then t a b : ends_in_call a -> ends_in_call (EIf t a b)
| ends_else t a b : ends_in_call b -> ends_in_call (EIf t a b)
| ends_bool isand l e : ends_in_call e -> ends_in_call (EBool isand (l ++ [e])).
(** [a and f(x)] in a tail position, where [a] may be false without being False: it becomes False *)
Definition is_bool (e : expr) : Prop :=
  match e with EConst (VBool _) => True | EPrim o _ => isb o = true | _ => False end.
Inductive and_in_tail : expr -> Prop :=
| ands_here l e : tail_item (l ++ [e]) <> None -> ~ Forall is_bool l -> and_in_tail (EBool true (l ++ [e]))
| ands_then t a b : and_in_tail a -> and_in_tail (EIf t a b)
| ands_else t a b : and_in_tail b -> and_in_tail (EIf t a b)
| ands_bool isand l e : and_in_tail e -> and_in_tail (EBool isand (l ++ [e])).

(** Expressions: no jumps and trampolines of the user's own, and none of the above in a lambda *)
Inductive good_e : expr -> Prop :=
| ge_const v : not_jump v = true -> good_e (EConst v)
| ge_var x : good_e (EVar x)
| ge_prim o l : Forall good_e l -> good_e (EPrim o l)
| ge_call f l : (forall x, f = EVar x -> ~ In x ecs) -> good_e f -> Forall good_e l -> good_e (ECall f l)
| ge_if t a b : good_e t -> good_e a -> good_e b -> good_e (EIf t a b)
| ge_bool isand l : 2 <= length l -> Forall good_e l -> good_e (EBool isand l)
| ge_lam ps b : good_e b -> ~ and_in_tail b -> good_e (ELam false ps b).
(** Statements; [guarded]: something is done after the body of the function ends here, or an exception
    raised here is caught by the function *)
Inductive good_s : bool -> stmt -> Prop :=
| gs_expr g e : good_e e -> good_s g (SExpr e)
| gs_assign g x e : good_e e -> good_s g (SAssign x e)
| gs_pass g : good_s g SPass
| gs_return g e : good_e e -> ~ and_in_tail e -> (g = true -> ~ ends_in_call e) -> good_s g (SReturn e)
| gs_raise g e : good_e e -> good_s g (SRaise e)
| gs_break g : good_s g SBreak
| gs_continue g : good_s g SContinue
| gs_if g e a b : good_e e -> Forall (good_s g) a -> Forall (good_s g) b -> good_s g (SIf e a b)
| gs_while g e a b : good_e e -> Forall (good_s g) a -> Forall (good_s g) b -> good_s g (SWhile e a b)
| gs_try g g' a hs b c : (c <> [] -> g' = true) -> (g = true -> g' = true) ->
    Forall (good_s true) a -> Forall (fun mh => Forall (good_s g') (snd mh)) hs -> Forall (good_s g') b ->
    Forall (good_s g) c -> good_s g (STry a hs b c)
| gs_with g e x a : good_e e -> Forall (good_s true) a -> good_s g (SWith e x a)
| gs_def g x ps b : Forall (good_s false) b -> good_s g (SDef false x ps b)
| gs_class g x b : Forall (good_s true) b -> good_s g (SClass x b)
| gs_list g l : Forall (good_s g) l -> good_s g (SList l).
End Spec.

(** Two heaps that agree in everything but the code of the functions, and whether they have a trampoline *)
Definition same_state {W} (h h' : heap W) : Prop :=
  frames h = frames h' /\ objs h = objs h' /\ world h = world h' /\
  map (fun f => (fparams f, fenv f)) (funs h) = map (fun f => (fparams f, fenv f)) (funs h').
Definition same_end {W A} (r r' : option (A * heap W)) : Prop :=
  match r, r' with
  | Some (a, h), Some (a', h') => a = a' /\ same_state h h'
  | None, None => True
  | _, _ => False
  end.
(** Builtin functions do not make jumps out of other things, and no variable holds one at the start *)
Definition bool_ops {W} (isb : nat -> bool) (prim : nat -> list value -> W -> outcome value * W) : Prop :=
  forall o l w v w', isb o = true -> prim o l w = (Ok v, w') -> exists b, v = VBool b.
Definition no_jumps {W} (prim : nat -> list value -> W -> outcome value * W) (fs : list frame) : Prop :=
  (forall o l w v w', prim o l w = (Ok v, w') -> Forall (fun v => not_jump v = true) l -> not_jump v = true) /\
  Forall (fun f => forall x v, In (x, Some v) (slots f) -> not_jump v = true) fs.

(** Programs whose functions call functions only in tail position.  The boolean: are other calls
    allowed here?  (They are, outside of functions.) *)
Inductive calls_e : bool -> expr -> Prop :=
| ca_const g v : calls_e g (EConst v)
| ca_var g x : calls_e g (EVar x)
| ca_prim g o l : Forall (calls_e g) l -> calls_e g (EPrim o l)
| ca_call f l : calls_e true f -> Forall (calls_e true) l -> calls_e true (ECall f l)
| ca_if g t a b : calls_e g t -> calls_e g a -> calls_e g b -> calls_e g (EIf t a b)
| ca_bool g i l : Forall (calls_e g) l -> calls_e g (EBool i l)
| ca_lam g ps b : tail_e b -> calls_e g (ELam false ps b)
with tail_e : expr -> Prop :=
| te_call f l : calls_e false f -> Forall (calls_e false) l -> tail_e (ECall f l)
| te_if t a b : calls_e false t -> tail_e a -> tail_e b -> tail_e (EIf t a b)
| te_bool i l e : Forall (calls_e false) l -> tail_e e -> tail_e (EBool i (l ++ [e]))
| te_other e : calls_e false e -> tail_e e.
Inductive calls_s : bool -> stmt -> Prop :=
| cs_expr g e : calls_e g e -> calls_s g (SExpr e)
| cs_assign g x e : calls_e g e -> calls_s g (SAssign x e)
| cs_pass g : calls_s g SPass
| cs_return g e : tail_e e -> calls_s g (SReturn e)
| cs_raise g e : calls_e g e -> calls_s g (SRaise e)
| cs_break g : calls_s g SBreak
| cs_continue g : calls_s g SContinue
| cs_if g e a b : calls_e g e -> Forall (calls_s g) a -> Forall (calls_s g) b -> calls_s g (SIf e a b)
| cs_while g e a b : calls_e g e -> Forall (calls_s g) a -> Forall (calls_s g) b -> calls_s g (SWhile e a b)
| cs_try g a hs b c : Forall (calls_s g) a -> Forall (fun mh => Forall (calls_s g) (snd mh)) hs -> Forall (calls_s g) b ->
    Forall (calls_s g) c -> calls_s g (STry a hs b c)
| cs_with e x a : calls_e true e -> Forall (calls_s true) a -> calls_s true (SWith e x a)     (* calls the exit method *)
| cs_def g x ps b : Forall (calls_s false) b -> calls_s g (SDef false x ps b)
| cs_class g x b : Forall (calls_s g) b -> calls_s g (SClass x b)
| cs_list g l : Forall (calls_s g) l -> calls_s g (SList l).
