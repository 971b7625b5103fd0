(** The trees of let and do forms after expansion, for reading: with [c] false as the macros make them, with
    [c] true as autocurry leaves them. *)
From Coq Require Import String List Bool Arith.
From Verif Require Import Base LvwModel LvxModel.
Import ListNotations.
Open Scope string_scope.
Open Scope list_scope.
Open Scope nat_scope.

(** `namelambda(label)(lam)`; `currycall(currycall(namelambda, label), curryf(lam))` *)
Definition wrapped (c : bool) (label : string) (lam : tree) : tree :=
  if c then TCall (TCap "currycall") [TCall (TCap "currycall") [TCap "namelambda"; TStr label] []; TCall (TCap "curryf") [lam] []] []
  else TCall (TCall (TCap "namelambda") [TStr label] []) [lam] [].
(** `f(args)`; `currycall(f, args)` *)
Definition called (c : bool) (f : string) (args : list tree) (kws : list (string * tree)) : tree :=
  if c then TCall (TCap "currycall") (TCap f :: args) kws else TCall (TCap f) args kws.
(** ("x", v); in a letrec ("x", namelambda(...)(lambda e: v)) *)
Definition binding_tree (c : bool) (m e : string) (b : string * tree) (t : tree) : Prop :=
  if String.eqb m "letrec" then exists label, t = TTup [TStr (fst b); wrapped c label (TLam [e] (snd b))]
  else t = TTup [TStr (fst b); snd b].
(** letter((binding, ...), namelambda(...)(lambda e: body), mode=m) *)
Definition let_tree (c : bool) (m e : string) (bs : list (string * tree)) (body : tree) (t : tree) : Prop :=
  exists bl label, Forall2 (binding_tree c m e) bs bl /\
    t = called c "letter" [TTup bl; wrapped c label (TLam [e] body)] [("mode", TStr m)].
(** letter((binding, ...), mode=m, _envname=e) *)
Definition dlet_tree (c : bool) (m e : string) (bs : list (string * tree)) (t : tree) : Prop :=
  exists bl, Forall2 (binding_tree c m e) bs bl /\ t = called c "letter" [TTup bl] [("mode", TStr m); ("_envname", TStr e)].
(** dof(namelambda(...)(lambda e: item), ...) *)
Definition do_tree (c : bool) (e : string) (items : list tree) (t : tree) : Prop :=
  exists l, Forall2 (fun item x => exists label, x = wrapped c label (TLam [e] item)) items l /\ t = called c "dof" l [].

(** What a view shows of a binding; in a letrec it is a lambda *)
Definition shown (m p : string) (b : string * tree) : tree :=
  TTup [TStr (fst b); if String.eqb m "letrec" then TLam [p] (snd b) else snd b].

(** A call by this name, of a function, an attribute or a captured name; perhaps with `currycall` *)
Inductive has_name (x : string) : tree -> Prop :=
| hn_name : has_name x (TName x)
| hn_cap : has_name x (TCap x)
| hn_attr t : has_name x (TAttr t x)
| hn_done t : has_name x t -> has_name x (TDone t).
Inductive named_call (x : string) : tree -> Prop :=
| nc_plain f args kws : has_name x f -> named_call x (TCall f args kws)
| nc_curried cc f args kws : has_name "currycall" cc -> has_name x f -> named_call x (TCall cc (f :: args) kws).

(** A lambda with a first parameter, and something that is no lambda *)
Definition lambda_with (t : tree) : Prop := exists p ps b, t = TLam (p :: ps) b.
Definition no_lambda (t : tree) : Prop := forall ps b, t <> TLam ps b.
(** A pair; a pair whose first part is a constant *)
Definition pair_tree (t : tree) : Prop := exists a b, t = TTup [a; b].
Definition keyed (t : tree) : Prop := exists a b, t = TTup [a; b] /\ ((exists x, a = TStr x) \/ exists z, a = TConst z).
