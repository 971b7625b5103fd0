(** What let and letseq of simplelet.py mean, without macro expansion. *)
From Coq Require Import List Bool String Arith.
From Verif Require Import Base SlmModel.
Import ListNotations.
Open Scope list_scope.

(** The names that are assigned in an expression and local to the function it is in.  The body of a let, and what
    follows a binding of a letseq, has local variables of its own. *)
Fixpoint sassigned (e : src) : list name :=
  match e with
  | SConst _ | SName _ | SLam _ _ | SFail _ => []
  | SApp f args => sassigned f ++ flat_map sassigned args
  | SAssign x e => x :: sassigned e
  | SIf c a b => sassigned c ++ sassigned a ++ sassigned b
  | SThen a b => sassigned a ++ sassigned b
  | SSay e => sassigned e
  | SLet bs _ => flat_map (fun xe => sassigned (snd xe)) bs
  | SSeq [] b => sassigned b
  | SSeq ((_, e) :: _) _ => sassigned e
  end.

(** [ev env e w r w1]: in the scopes [env], in the world [w], the expression [e] gives [r] and the world [w1]. *)
Inductive ev : list nat -> src -> world src -> outcome (val src) -> world src -> Prop :=
| ev_const : forall env n w, ev env (SConst n) w (Ok (VNum n)) w
| ev_name : forall env x w, ev env (SName x) w (find true env w x) w
| ev_lam : forall env xs b w, ev env (SLam xs b) w (Ok (VFun xs b env)) w
| ev_fail : forall env k w, ev env (SFail k) w (Raise k) w
| ev_assign : forall env x e w v w1,
    ev env e w (Ok v) w1 -> ev env (SAssign x e) w (Ok v) (assign env w1 x v)
| ev_assign_raise : forall env x e w k w1, ev env e w (Raise k) w1 -> ev env (SAssign x e) w (Raise k) w1
| ev_say : forall env e w v w1, ev env e w (Ok v) w1 -> ev env (SSay e) w (Ok v) (say w1 v)
| ev_say_raise : forall env e w k w1, ev env e w (Raise k) w1 -> ev env (SSay e) w (Raise k) w1
| ev_then : forall env a b w v w1 r w2,
    ev env a w (Ok v) w1 -> ev env b w1 r w2 -> ev env (SThen a b) w r w2
| ev_then_raise : forall env a b w k w1, ev env a w (Raise k) w1 -> ev env (SThen a b) w (Raise k) w1
| ev_if : forall env c a b w v w1 r w2,
    ev env c w (Ok v) w1 -> ev env (if truthy v then a else b) w1 r w2 -> ev env (SIf c a b) w r w2
| ev_if_raise : forall env c a b w k w1, ev env c w (Raise k) w1 -> ev env (SIf c a b) w (Raise k) w1
| ev_call : forall env f args w xs b cenv w1 vs w2 r w3,
    ev env f w (Ok (VFun xs b cenv)) w1 -> evs env args w1 (Ok vs) w2 ->
    List.length xs = List.length vs ->
    ev (List.length (frames w2) :: cenv) b (push (new_frame xs vs (sassigned b)) w2) r w3 ->
    ev env (SApp f args) w r w3
| ev_call_number : forall env f args w n w1 vs w2,
    ev env f w (Ok (VNum n)) w1 -> evs env args w1 (Ok vs) w2 -> ev env (SApp f args) w (Raise TypeError) w2
| ev_call_arity : forall env f args w xs b cenv w1 vs w2,
    ev env f w (Ok (VFun xs b cenv)) w1 -> evs env args w1 (Ok vs) w2 ->
    List.length xs <> List.length vs -> ev env (SApp f args) w (Raise TypeError) w2
| ev_call_raise : forall env f args w k w1, ev env f w (Raise k) w1 -> ev env (SApp f args) w (Raise k) w1
| ev_args_raise : forall env f args w g w1 k w2,
    ev env f w (Ok g) w1 -> evs env args w1 (Raise k) w2 -> ev env (SApp f args) w (Raise k) w2
(** let: the values from left to right, in the scopes around; then the body, in a new scope with the names *)
| ev_let : forall env bs b w vs w1 r w2,
    evs env (map snd bs) w (Ok vs) w1 ->
    ev (List.length (frames w1) :: env) b (push (new_frame (map fst bs) vs (sassigned b)) w1) r w2 ->
    ev env (SLet bs b) w r w2
| ev_let_raise : forall env bs b w k w1,
    evs env (map snd bs) w (Raise k) w1 -> ev env (SLet bs b) w (Raise k) w1
(** letseq: a value; then the rest, in a new scope with the name *)
| ev_seq_nil : forall env b w r w1, ev env b w r w1 -> ev env (SSeq [] b) w r w1
| ev_seq : forall env x e rest b w v w1 r w2,
    ev env e w (Ok v) w1 ->
    ev (List.length (frames w1) :: env) (SSeq rest b)
       (push (new_frame [x] [v] (sassigned (SSeq rest b))) w1) r w2 ->
    ev env (SSeq ((x, e) :: rest) b) w r w2
| ev_seq_raise : forall env x e rest b w k w1,
    ev env e w (Raise k) w1 -> ev env (SSeq ((x, e) :: rest) b) w (Raise k) w1
with evs : list nat -> list src -> world src -> outcome (list (val src)) -> world src -> Prop :=
| evs_nil : forall env w, evs env [] w (Ok []) w
| evs_cons : forall env e es w v w1 vs w2,
    ev env e w (Ok v) w1 -> evs env es w1 (Ok vs) w2 -> evs env (e :: es) w (Ok (v :: vs)) w2
| evs_first : forall env e es w k w1, ev env e w (Raise k) w1 -> evs env (e :: es) w (Raise k) w1
| evs_rest : forall env e es w v w1 k w2,
    ev env e w (Ok v) w1 -> evs env es w1 (Raise k) w2 -> evs env (e :: es) w (Raise k) w2.

(** The whole program as the body of a function without parameters. *)
Definition means (e : src) (r : outcome (val src)) (w : world src) : Prop :=
  ev [0] e (mkw [new_frame [] [] (sassigned e)] []) r w.

(** The same value: the same number, or functions of which one has the expanded body of the other. *)
Inductive same_val : val src -> val py -> Prop :=
| same_num : forall n, same_val (VNum n) (VNum n)
| same_fun : forall xs b b' env, expand b = Ok b' -> same_val (VFun xs b env) (VFun xs b' env).
(** The same outcome. *)
Inductive same_res : outcome (val src) -> outcome (val py) -> Prop :=
| same_ok : forall v v', same_val v v' -> same_res (Ok v) (Ok v')
| same_raise : forall k, same_res (Raise k) (Raise k).
(** The same variables with the same values. *)
Definition same_cell (a : name * option (val src)) (b : name * option (val py)) : Prop :=
  fst a = fst b /\
  match snd a, snd b with
  | None, None => True
  | Some v, Some v' => same_val v v'
  | _, _ => False
  end.
(** The same calls and the same output. *)
Definition same_world (w : world src) (w' : world py) : Prop :=
  Forall2 (Forall2 same_cell) (frames w) (frames w') /\ out w = out w'.

(** A let without bindings, or that binds a name twice, occurs in the expression. *)
Inductive bad : src -> Prop :=
| bad_let : forall bs b, bs = [] \/ ~ NoDup (map fst bs) -> bad (SLet bs b)
| bad_let_value : forall bs b x e, In (x, e) bs -> bad e -> bad (SLet bs b)
| bad_let_body : forall bs b, bad b -> bad (SLet bs b)
| bad_seq_value : forall bs b x e, In (x, e) bs -> bad e -> bad (SSeq bs b)
| bad_seq_body : forall bs b, bad b -> bad (SSeq bs b)
| bad_lam : forall xs b, bad b -> bad (SLam xs b)
| bad_fun : forall f args, bad f -> bad (SApp f args)
| bad_arg : forall f args e, In e args -> bad e -> bad (SApp f args)
| bad_assign : forall x e, bad e -> bad (SAssign x e)
| bad_if : forall c a b, bad c \/ bad a \/ bad b -> bad (SIf c a b)
| bad_then : forall a b, bad a \/ bad b -> bad (SThen a b)
| bad_say : forall e, bad e -> bad (SSay e).
