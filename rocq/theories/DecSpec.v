(** What the order of decorators should be, from the sequence of registrations. *)
From Coq Require Import String List Bool Arith ZArith Permutation Sorting.Sorted.
From Verif Require Import DecModel.
Import ListNotations.
Open Scope string_scope.
Open Scope list_scope.

(** A registration: priority, whether it applies TCO, name. *)
Definition reg := (Z * bool * string)%type.
Definition pri (x : reg) : Z := fst (fst x).
Definition tco (x : reg) : bool := snd (fst x).
Definition nam (x : reg) : string := snd x.
(** The registry after some registrations. *)
Definition after (rs : list reg) : registry :=
  fold_left (fun r x => register r (pri x) (tco x) (nam x)) rs empty.

(** Strings in alphabetical order. *)
Definition alpha (a b : string) : Prop := String.compare a b <> Gt.
(** Smaller priorities first, the same priority in alphabetical order. *)
Definition no_later (a b : Z * string) : Prop :=
  (fst a < fst b)%Z \/ (fst a = fst b /\ alpha (snd a) (snd b)).

(** The name by which a decorator is known: f, m.f, f(...) or m.f(...). *)
Definition deco_name (d : ex) : option string :=
  match d with
  | Name x | Attr _ x | Cap x => Some x
  | Call (Name x) _ | Call (Attr _ x) _ | Call (Cap x) _ => Some x
  | _ => None
  end.
(** Its name as seen when a decorator is to be inserted: f or m.f. *)
Definition plain_name (d : ex) : option string :=
  match d with
  | Name x | Attr _ x | Cap x => Some x
  | _ => None
  end.
Definition registered (rs : list reg) (x : string) : Prop := exists p t, In (p, t, x) rs.
Definition known (rs : list reg) (d : ex) : Prop :=
  exists x, deco_name d = Some x /\ registered rs x.
(** The priority of a name that is registered more than once. *)
Definition lowest (rs : list reg) (x : string) (p : Z) : Prop :=
  (exists t, In (p, t, x) rs) /\ (forall q t, In (q, t, x) rs -> (p <= q)%Z).
Definition highest (rs : list reg) (x : string) (p : Z) : Prop :=
  (exists t, In (p, t, x) rs) /\ (forall q t, In (q, t, x) rs -> (q <= p)%Z).

(** A lambda decorated with [ds], the outermost first. *)
Definition decorate (ds : list ex) (t : ex) : ex := fold_right (fun d t => Call d [t]) t ds.
(** [d] belongs at least as far out as [d']. *)
Definition outer (rs : list reg) (d d' : ex) : Prop :=
  exists x x' p p', deco_name d = Some x /\ deco_name d' = Some x' /\
    lowest rs x p /\ lowest rs x' p' /\ no_later (p, x) (p', x').
Definition same_name (x : string) (d : ex) : bool :=
  match deco_name d with Some y => String.eqb y x | None => false end.
(** [ds'] is [ds] in the right order, decorators of the same name in the order they had. *)
Definition in_order (rs : list reg) (ds ds' : list ex) : Prop :=
  Permutation ds ds' /\ StronglySorted (outer rs) ds' /\
  (forall x, filter (same_name x) ds' = filter (same_name x) ds).
Definition known_lambda (rs : list reg) (t : ex) : Prop :=
  exists ds ps b, ds <> [] /\ (forall d, In d ds -> known rs d) /\ t = decorate ds (Lam ps b).
(** [t'] is [t] with the decorators of all lambdas that have only known decorators in order. *)
Inductive sorted_into (rs : list reg) : ex -> ex -> Prop :=
| so_name x : sorted_into rs (Name x) (Name x)
| so_cap x : sorted_into rs (Cap x) (Cap x)
| so_attr e e' x : sorted_into rs e e' -> sorted_into rs (Attr e x) (Attr e' x)
| so_lam ps b b' : sorted_into rs b b' -> sorted_into rs (Lam ps b) (Lam ps b')
| so_op l l' : Forall2 (sorted_into rs) l l' -> sorted_into rs (Op l) (Op l')
| so_call f f' l l' :
    ~ known_lambda rs (Call f l) -> sorted_into rs f f' -> Forall2 (sorted_into rs) l l' ->
    sorted_into rs (Call f l) (Call f' l')
| so_lambda ds ds' ps b b' :
    ds <> [] -> (forall d, In d ds -> known rs d) -> in_order rs ds ds' -> sorted_into rs b b' ->
    sorted_into rs (decorate ds (Lam ps b)) (decorate ds' (Lam ps b')).

(** The known decorators of a function are in the right order. *)
Definition ordered (rs : list reg) (l : list ex) : Prop :=
  forall i j d d' x x' p p', i < j -> nth_error l i = Some d -> nth_error l j = Some d' ->
    plain_name d = Some x -> plain_name d' = Some x' ->
    highest rs x p -> highest rs x' p' -> (p <= p')%Z.
(** Where a decorator of priority [p] goes: after those of smaller priorities, before the
    others. *)
Definition fits (rs : list reg) (p : Z) (k : nat) (l : list ex) : Prop :=
  k <= length l /\
  forall i d x q, nth_error l i = Some d -> plain_name d = Some x -> highest rs x q ->
    (i < k -> (q < p)%Z) /\ (k <= i -> (p <= q)%Z).
