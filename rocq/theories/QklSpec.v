(** What becomes of a block under `with quicklambda`, said as a relation of the text before and after. *)
From Coq Require Import String List Bool Arith.
From Verif Require Import Base QklModel.
Import ListNotations.
Open Scope string_scope.
Open Scope list_scope.

Section Spec.
(** the names that stand for the macro fn *)
Variable is_fn : string -> Prop.

(** [reads infn t t' ps]: [t'] is [t] with every fn[...] replaced by a lambda, and nothing else changed.  Each
    underscore of an fn[...], other than those of an fn[...] inside, is a parameter of the lambda; the parameters
    are all different, and have the order of the underscores in the text (of the fields of the nodes).
    [infn]: inside of an fn[...]; [ps]: the parameters to which the underscores in [t] went. *)
Inductive reads (infn : bool) : tree -> tree -> list nm -> Prop :=
| r_slot i : infn = true -> reads infn (TName (User "_")) (TName (Gen i)) [Gen i]
| r_name x : infn = false \/ x <> "_" -> reads infn (TName (User x)) (TName (User x)) []
| r_cap k : reads infn (TCap k) (TCap k) []
| r_node k l l' ps : reads_all infn l l' ps -> reads infn (TNode k l) (TNode k l') ps
| r_sub x i x' i' ps qs : ~ is_fn x -> reads infn (TName (User x)) (TName x') ps -> reads infn i i' qs ->
    reads infn (TSub (User x) i) (TSub x' i') (ps ++ qs)
| r_lam xs b b' ps : reads infn b b' ps -> reads infn (TLam xs b) (TLam xs b') ps
| r_fn x b b' ps : is_fn x -> reads true b b' ps -> NoDup ps -> reads infn (TSub (User x) b) (TLam ps b') []
with reads_all (infn : bool) : list tree -> list tree -> list nm -> Prop :=
| r_nil : reads_all infn [] [] []
| r_cons t t' l l' ps qs : reads infn t t' ps -> reads_all infn l l' qs -> reads_all infn (t :: l) (t' :: l') (ps ++ qs).

(** The program as the user writes it: without generated names *)
Definition user (x : nm) : Prop := exists s, x = User s.
Inductive written : tree -> Prop :=
| w_name x : user x -> written (TName x)
| w_cap k : written (TCap k)
| w_node k l : Forall written l -> written (TNode k l)
| w_sub x i : user x -> written i -> written (TSub x i)
| w_lam ps b : Forall user ps -> written b -> written (TLam ps b).

(** fn[...] is used somewhere in the tree *)
Inductive uses_fn : tree -> Prop :=
| u_here x i : is_fn x -> uses_fn (TSub (User x) i)
| u_sub x i : uses_fn i -> uses_fn (TSub x i)
| u_node k l t : In t l -> uses_fn t -> uses_fn (TNode k l)
| u_lam ps b : uses_fn b -> uses_fn (TLam ps b).
End Spec.

(** The generated parameters in a tree *)
Fixpoint gen_params (t : tree) : list nat :=
  match t with
  | TName _ | TCap _ => []
  | TNode _ l => flat_map gen_params l
  | TSub _ i => gen_params i
  | TLam ps b => flat_map (fun p => match p with Gen i => [i] | User _ => [] end) ps ++ gen_params b
  end.
(** The name stands for the macro with the number [fnm] among these bindings (a dictionary). *)
Definition bound (fnm : nat) (bindings : list (string * nat)) (x : string) : Prop := In (x, fnm) bindings.
