(** Which identifiers refer to the variables of a let, by the documentation (doc/macros.md
    366-372): parameters, names declared global or nonlocal, and local variables shadow them; local
    variables do so from the statement after the one that creates them, up to the one that deletes
    them. *)
From Coq Require Import String List Bool Arith.
From Verif Require Import ScpModel.
Import ListNotations.
Open Scope string_scope.
Open Scope list_scope.

(** At a place in the text: [fixed] are the parameters and the declared names of the function
    around it, [own] its local variables at this place, [up] what is shadowed at the place where
    the function is defined. *)
Record scope := mkscope { fixed : list string; own : list string; up : list string }.
Definition shadow (sc : scope) : list string := fixed sc ++ own sc ++ up sc.
Definition params (sc : scope) (ps : list string) : scope :=
  mkscope (ps ++ fixed sc) (own sc) (up sc).
Definition create (sc : scope) (ts : list string) : scope :=
  mkscope (fixed sc) (ts ++ own sc) (up sc).
Definition remove (sc : scope) (ts : list string) : scope :=
  mkscope (fixed sc) (filter (fun x => negb (existsb (String.eqb x) ts)) (own sc)) (up sc).
Definition enter (sc : scope) (ps : list string) : scope := mkscope ps [] (shadow sc).
Definition top : scope := mkscope [] [] [].

(** The names that a function body declares global or nonlocal, and the names that it deletes, inner functions
    not counted. *)
Fixpoint declares (s : st) : list string :=
  match s with Decl ts => ts | Block _ _ b => flat_map declares b | _ => [] end.
Fixpoint deletes (s : st) : list string :=
  match s with Delete ts => ts | Block _ _ b => flat_map deletes b | _ => [] end.

Section Meaning.
  Variable L : list string.
  Definition free (sc : scope) (x : string) : bool :=
    existsb (String.eqb x) L && negb (existsb (String.eqb x) (shadow sc)).
  (** The defaults of a lambda, and the first iterable of a comprehension, belong to the scope
      around it. *)
  Fixpoint ref_e (sc : scope) (e : ex) : ex :=
    match e with
    | Name x => if free sc x then EnvGet x else Name x
    | Op l => Op (map (ref_e sc) l)
    | Lam ps ds b => Lam ps (map (ref_e sc) ds) (ref_e (params sc ps) b)
    | Comp l ts it r =>
        Comp (map (ref_e (params sc ts)) l) ts (ref_e sc it) (map (ref_e (params sc ts)) r)
    | Walrus x v => if free sc x then EnvSet x (ref_e sc v) else Walrus x (ref_e sc v)
    | EnvGet x => EnvGet x
    | EnvSet x v => EnvSet x (ref_e sc v)
    end.
  (** Statements, one after the other. *)
  Definition thread (f : scope -> st -> st * scope) :=
    fix go (sc : scope) (b : list st) : list st * scope :=
      match b with
      | [] => ([], sc)
      | s :: b' =>
          let (s1, sc1) := f sc s in
          let (b1, sc2) := go sc1 b' in
          (s1 :: b1, sc2)
      end.
  Fixpoint ref_s (sc : scope) (s : st) : st * scope :=
    match s with
    | Simple ts l => (Simple ts (map (ref_e sc) l), create sc ts)
    | Delete ts => (Delete ts, remove sc ts)
    | Decl ts => (Decl ts, sc)
    | Block ts l b =>
        let (b', sc') := thread ref_s (create sc ts) b in
        (Block ts (map (ref_e sc) l) b', sc')
    | Def f decos ps ds b =>
        let inner := enter sc (f :: ps ++ flat_map declares b) in
        (Def f (map (ref_e sc) decos) ps (map (ref_e sc) ds) (fst (thread ref_s inner b)),
         create sc [f])
    end.
End Meaning.

(** ** Where the analysis follows the documentation *)
(** The names that some code reads or assigns by [:=], at any depth. *)
Fixpoint mentions_e (e : ex) : list string :=
  match e with
  | Name x => [x]
  | Op l => flat_map mentions_e l
  | Lam _ ds b => flat_map mentions_e ds ++ mentions_e b
  | Comp l _ it r => flat_map mentions_e l ++ mentions_e it ++ flat_map mentions_e r
  | Walrus x v => x :: mentions_e v
  | EnvGet _ => []
  | EnvSet _ v => mentions_e v
  end.
Fixpoint mentions (s : st) : list string :=
  match s with
  | Simple _ l => flat_map mentions_e l
  | Delete _ | Decl _ => []
  | Block _ l b => flat_map mentions_e l ++ flat_map mentions b
  | Def _ decos _ ds b => flat_map mentions_e decos ++ flat_map mentions_e ds ++ flat_map mentions b
  end.
(** ... in the bodies of the functions defined in it. *)
Fixpoint inner_mentions (s : st) : list string :=
  match s with
  | Block _ _ b => flat_map inner_mentions b
  | Def _ _ _ _ b => flat_map mentions b
  | _ => []
  end.
(** The names that a statement creates in its scope, other than by [:=]. *)
Fixpoint creates (s : st) : list string :=
  match s with
  | Simple ts _ => ts
  | Block ts _ b => ts ++ flat_map creates b
  | Def f _ _ _ _ => [f]
  | _ => []
  end.
(** No name of [L] is in both lists. *)
Definition apart (L l m : list string) : Prop := forall x, In x L -> In x l -> In x m -> False.

Section Regular.
  Variable L : list string.
  (** Defaults and first iterables do not mention the parameters and targets. *)
  Fixpoint regular_e (e : ex) : Prop :=
    match e with
    | Name _ => True
    | Op l => fold_right (fun e P => regular_e e /\ P) True l
    | Lam ps ds b =>
        apart L ps (flat_map mentions_e ds) /\
        fold_right (fun e P => regular_e e /\ P) True ds /\ regular_e b
    | Comp l ts it r =>
        apart L ts (mentions_e it) /\
        fold_right (fun e P => regular_e e /\ P) True l /\ regular_e it /\
        fold_right (fun e P => regular_e e /\ P) True r
    | Walrus _ v => regular_e v
    | EnvGet _ | EnvSet _ _ => False
    end.
  (** A compound statement does not mention the names that it creates or deletes, and does not
      do both to the same name.  A function inside another one does not mention the names that
      the outer one declares, and does not delete names that may be shadowed around it ([up]).
      [cur]: the names that may be shadowed in the function around the statement. *)
  Fixpoint regular (up cur : list string) (s : st) : Prop :=
    match s with
    | Simple _ l => forall e, In e l -> regular_e e
    | Delete ts => apart L ts up
    | Decl _ => True
    | Block ts l b =>
        (forall e, In e l -> regular_e e) /\
        apart L (ts ++ flat_map creates b) (flat_map mentions b) /\
        apart L (flat_map deletes b) (flat_map mentions b) /\
        apart L (ts ++ flat_map creates b) (flat_map deletes b) /\
        fold_right (fun s P => regular up cur s /\ P) True b
    | Def f decos ps ds b =>
        (forall e, In e decos -> regular_e e) /\ (forall e, In e ds -> regular_e e) /\
        apart L (f :: ps) (flat_map mentions_e ds) /\
        apart L (flat_map declares b) (flat_map inner_mentions b) /\
        fold_right
          (fun s P =>
             regular cur (cur ++ f :: ps ++ flat_map declares b ++ flat_map creates b) s /\ P)
          True b
    end.
End Regular.
Definition regular_def (L : list string) (s : st) : Prop := regular L [] (creates s) s.
