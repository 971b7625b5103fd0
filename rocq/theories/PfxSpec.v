(** What prefix notation means. *)
From Coq Require Import String List ZArith Bool Arith.
From Verif Require Import Base PfxModel.
Import ListNotations.
Open Scope string_scope.
Open Scope list_scope.
Open Scope nat_scope.

(** The quote level after the operators at the head of a tuple, and what comes after them *)
Fixpoint head (lvl : nat) (l : list ex) : option (nat * list ex) :=
  match l with
  | [] => None
  | EName "q" :: l => head (S lvl) l
  | EName "u" :: l => match lvl with O => None | S lvl => head lvl l end
  | _ => Some (lvl, l)
  end.
(** The rightmost definition of a name wins *)
Fixpoint rightmost {A} (l : list (string * A)) : list (string * A) :=
  match l with
  | [] => []
  | (x, a) :: l => if existsb (String.eqb x) (map fst l) then rightmost l else (x, a) :: rightmost l
  end.
Definition some {A B} (kv : A * B) : option A * B := (Some (fst kv), snd kv).

(** kw(...) *)
Definition named_args (e : ex) : bool := match e with ECall (EName x) _ _ => String.eqb x "kw" | _ => false end.
Section Meaning.
Variables (V W : Type).
Variable tuple : list V -> V.
Variable const : Z -> V.
Variable name : string -> D V W.
Variable call : V -> list V -> list (option string * V) -> D V W.
Variable item_of : V -> V -> D V W.
Variable letd : list (ex * D V W) -> D V W -> D V W.
Variable dod : list (D V W) -> D V W.
Variable other : string -> list (D V W) -> D V W.
(** At quote level 0 a tuple is a call, at others a tuple; anything else means what it means in Python. *)
Inductive means : nat -> ex -> D V W -> Prop :=
| MName lvl x : means lvl (EName x) (name x)
| MConst lvl z : means lvl (EConst z) (fun w => (Ok (const z), w))
| MQuote lvl l n l' ds :
    head lvl l = Some (S n, l') -> Forall (fun e => named_args e = false) l' -> means_all (S n) l' ds ->
    means lvl (ETuple l) (dbind V W (dseq V W ds) (fun l w => (Ok (tuple l), w)))
| MApply lvl l f args df da dk :
    head lvl l = Some (0, f :: args) ->
    means 0 f df -> means_all 0 (filter (fun e => negb (named_args e)) args) da ->
    means_kws 0 (filter named_args args) dk ->
    means lvl (ETuple l) (apply_d V W call df da (map some (rightmost dk)))
| MCall lvl f a ks df da dk :
    means lvl f df -> means_all lvl a da -> means_named lvl ks dk ->
    means lvl (ECall f a ks) (apply_d V W call df da dk)
| MSub lvl v t l dv dl : means lvl v dv -> means_all lvl l dl -> means lvl (ESub v t l) (sub_d V W tuple item_of dv t dl)
| MLet lvl bs b dbs db : means_bs lvl bs dbs -> means lvl b db -> means lvl (ELet bs b) (letd dbs db)
| MDo lvl l ds : means_all lvl l ds -> means lvl (EDo l) (dod ds)
| MOther lvl k l ds : means_all lvl l ds -> means lvl (EOther k l) (other k ds)
with means_all : nat -> list ex -> list (D V W) -> Prop :=
| ANil lvl : means_all lvl [] []
| ACons lvl e l d ds : means lvl e d -> means_all lvl l ds -> means_all lvl (e :: l) (d :: ds)
with means_named : nat -> list (option string * ex) -> list (option string * D V W) -> Prop :=
| NNil lvl : means_named lvl [] []
| NCons lvl k e l d ds : means lvl e d -> means_named lvl l ds -> means_named lvl ((k, e) :: l) ((k, d) :: ds)
with means_kws : nat -> list ex -> list (string * D V W) -> Prop :=          (* named arguments only *)
| KNil lvl : means_kws lvl [] []
| KCons lvl f ks l d ds :
    means_named lvl ks (map some d) -> means_kws lvl l ds -> means_kws lvl (ECall f [] ks :: l) (d ++ ds)
with means_bs : nat -> list (ex * ex) -> list (ex * D V W) -> Prop :=
| BNil lvl : means_bs lvl [] []
| BCons lvl n e l d ds : means lvl e d -> means_bs lvl l ds -> means_bs lvl ((n, e) :: l) ((n, d) :: ds).
End Meaning.

(** no kw( **value) *)
Fixpoint nostars (e : ex) : bool :=
  match e with
  | EName _ | EConst _ => true
  | ETuple l | EDo l | EOther _ l => forallb nostars l
  | ECall f a ks =>
      (if named_args (ECall f a ks) then forallb (fun kv => match fst kv with Some _ => true | None => false end) ks else true) &&
      nostars f && forallb nostars a && forallb (fun kv => nostars (snd kv)) ks
  | ESub v _ l => nostars v && forallb nostars l
  | ELet bs b => forallb (fun nv => nostars (snd nv)) bs && nostars b
  end.
(** code without tuples, but for those in subscripts *)
Fixpoint notuples (e : ex) : bool :=
  match e with
  | EName _ | EConst _ => true
  | ETuple _ => false
  | EDo l | EOther _ l => forallb notuples l
  | ECall f a ks => notuples f && forallb notuples a && forallb (fun kv => notuples (snd kv)) ks
  | ESub v _ l => notuples v && forallb notuples l
  | ELet bs b => forallb (fun nv => notuples (snd nv)) bs && notuples b
  end.
