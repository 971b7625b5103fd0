(** The ways to write a let, independently of how they are recognised. *)
From Coq Require Import String List Bool Arith.
From Verif Require Import Base LvwModel.
Import ListNotations.
Open Scope string_scope.
Open Scope list_scope.
Open Scope nat_scope.

(** What can be bound: a name; by let_syntax and abbrev also a template, `f(...)` or `f[...]` *)
Inductive a_name : tree -> Prop :=
| name_plain x : a_name (TName x)
| name_done t : a_name t -> a_name (TDone t).
Inductive bindable : bool -> tree -> Prop :=
| bind_name ls t : a_name t -> bindable ls t
| bind_call f args kws : a_name f -> bindable true (TCall f args kws)
| bind_sub f s : a_name f -> bindable true (TSub f s).

Definition pair := (tree * tree)%type.
Definition tup (b : pair) : tree := TTup [fst b; snd b].
(** The bindings [bs], written as a sequence of expressions: each `k := v` or `k << v`; all `(k, v)`; all
    `[k, v]`; or just `k, v` *)
Inductive written : list pair -> list tree -> Prop :=
| w_assign bs es : Forall2 (fun b e => e = TWal (fst b) (snd b) \/ e = TShl (fst b) (snd b)) bs es -> written bs es
| w_tuples bs : written bs (map tup bs)
| w_lists bs : written bs (map (fun b => TLst [fst b; snd b]) bs)
| w_bare k v : written [(k, v)] [k; v].
(** A sequence of expressions in brackets: separated by commas, or in brackets of its own, or one expression *)
Inductive bracketed : bool -> list tree -> tree -> Prop :=
| br_tuple own es : bracketed own es (TTup es)
| br_list es : bracketed true es (TLst es)
| br_one own e : bracketed own [e] e.
(** `name[...]` or `name(...)` with bindings.  [own]: can there be brackets of their own? *)
Inductive invoked (own : bool) (bs : list pair) : string -> tree -> Prop :=
| inv_brackets x es s : written bs es -> bracketed own es s -> invoked own bs x (TSub (TName x) s)
| inv_parens x es kws : written bs es -> invoked own bs x (TCall (TName x) es kws).   (* named arguments are ignored *)
(** What is inside the brackets of `let[...]`: `[...] in body`, `(...) in body`; `body, where[...]`,
    `body, where(...)` *)
Inductive content (bs : list pair) (body : tree) : kind -> tree -> Prop :=
| c_in_list es : written bs es -> content bs body KIn (TCmp (TLst es) [OpIn] [body])
| c_in_tuple es : written bs es -> content bs body KIn (TCmp (TTup es) [OpIn] [body])
| c_where w : invoked true bs "where" w -> content bs body KWhere (TTup [body; w]).
(** A let, as an expression *)
Inductive let_form (own : bool) (bs : list pair) (body : tree) (x : string) : kind -> tree -> Prop :=
| lf_lispy m : invoked own bs x m -> let_form own bs body x KLispy (TSub m body)
| lf_haskelly k c : content bs body k c -> let_form own bs body x k (TSub (TName x) c).

Definition keys_bindable (ls : bool) (bs : list pair) : Prop := Forall (fun b => bindable ls (fst b)) bs.

(** In a comparison there are as many operators as operands on the right. *)
Definition comparison_ok (t : tree) : Prop :=
  forall a ops l, t = TCmp a ops l \/ (exists m, t = TSub m (TCmp a ops l)) -> length ops = length l.

(** The names of the macros that are expressions, and of those that are decorators *)
Definition let_names : list string := ["let"; "letseq"; "letrec"; "let_syntax"; "abbrev"].
Definition decorator_names : list string := ["dlet"; "dletseq"; "dletrec"; "blet"; "bletseq"; "bletrec"].
