(** Specification vocabulary for the macros dlet, blet and so on (C113). *)
From Coq Require Import String List Bool Arith.
From Verif Require Import Base CollModel EnvModel DlmModel.
Import ListNotations.
Open Scope string_scope.
Open Scope list_scope.
Open Scope nat_scope.

(** ** dletseq: nested functions, each with one dlet (letdo.py 241-259, 559-580) *)
Section Nested.
Variable inner : nat -> string.
Fixpoint nested (d : nat) (call : bool) (bs : list (string * ex)) (f : string) (decos : list ex) (ps : list string) (ds : list ex) (b : list stm) : stm :=
  match bs with
  | [] => Def f decos None ps ds b
  | bnd :: rest =>
      match rest with
      | [] => Dlet call Let [bnd] f decos ps ds b
      | _ => let i := inner (S d) in
             Dlet call Let [bnd] f [] ps ds [nested (S d) call rest i decos [] [] b; Return (if call then Var i else Call (Var i) [])]
      end
  end.
(** a program with every dletseq and bletseq written this way *)
Fixpoint unnest (d : nat) (s : stm) : stm :=
  match s with
  | If e a b => If e (map (unnest d) a) (map (unnest d) b)
  | Def f decos k ps ds b => Def f decos k ps ds (map (unnest d) b)
  | Dlet call m bs f decos ps ds b =>
      match m with
      | Letseq => nested d call bs f decos ps ds (map (unnest (d + length bs)) b)
      | _ => Dlet call m bs f decos ps ds (map (unnest (S d)) b)
      end
  | s => s
  end.
End Nested.

(** ** Conditions *)
Definition minus (l r : list string) : list string := filter (fun x => negb (mem x r)) l.
Fixpoint distinct (l : list string) : bool := match l with [] => true | x :: l => negb (mem x l) && distinct l end.
(** Does e mention x, at any depth? *)
Fixpoint mentions (x : string) (e : ex) : bool :=
  match e with
  | Num _ => false
  | Var y => String.eqb y x
  | Prim _ l => existsb (mentions x) l
  | Call f l => mentions x f || existsb (mentions x) l
  | Lam _ b => mentions x b
  | Wal y e => String.eqb y x || mentions x e
  | EGet _ _ => false
  | ESet _ _ e => mentions x e
  end.
Definition none_of (xs : list string) (l : list ex) : bool := forallb (fun x => negb (existsb (mentions x) l)) xs.
(** [vis]: the variables of lets that are visible.  `x := e` is for such a variable. *)
Fixpoint fine_e (vis : list string) (e : ex) : bool :=
  match e with
  | Num _ | Var _ => true
  | Prim _ l => forallb (fine_e vis) l
  | Call f l => fine_e vis f && forallb (fine_e vis) l
  | Lam ps b => fine_e (minus vis ps) b
  | Wal x e => mem x vis && fine_e vis e
  | EGet _ _ | ESet _ _ _ => false
  end.
(** Does s mention x, at any depth?  (The target of an assignment is not a mention.) *)
Fixpoint mentions_s (x : string) (s : stm) : bool :=
  match s with
  | Expr e | Return e | Assign _ e => mentions x e
  | If e a b => mentions x e || existsb (mentions_s x) a || existsb (mentions_s x) b
  | Def _ decos k _ ds b =>
      existsb (mentions x) (decos ++ ds) || match k with Some k => existsb (mentions x) (map snd (binds k)) | None => false end || existsb (mentions_s x) b
  | Dlet _ _ bs _ decos _ ds b => existsb (mentions x) (decos ++ ds) || existsb (mentions x) (map snd bs) || existsb (mentions_s x) b
  end.
(** Nothing in b mentions x up to the end of the first statement that assigns to it. *)
Fixpoint not_before (x : string) (b : list stm) : bool :=
  match b with [] => true | s :: b' => negb (mentions_s x s) && (mem x (assigned s) || not_before x b') end.
(** the variables of a function body *)
Definition locs (ps : list string) (b : list stm) : list string := ps ++ flat_map assigned b.
(** the local variables hide those of the lets around; they have values before they are mentioned *)
Definition locals_fine (vis ps : list string) (b : list stm) : bool :=
  forallb (fun x => negb (mem x vis) || mem x ps || not_before x b) (flat_map assigned b).
(** A function's local variables (other than parameters) with the name of a variable of a let are not mentioned before
    they are assigned to; its default values do not mention a variable that a parameter hides; default values and
    decorators do not mention the variables of the function's own let. *)
Fixpoint fine (vis : list string) (s : stm) : bool :=
  match s with
  | Expr e | Return e => fine_e vis e
  | Assign x e => negb (mem x vis) && fine_e vis e
  | If e a b => fine_e vis e && forallb (fine vis) a && forallb (fine vis) b
  | Def f decos None ps ds b =>
      negb (mem f vis) && forallb (fine_e vis) (decos ++ ds) && none_of (filter (fun p => mem p vis) ps) ds && locals_fine vis ps b && forallb (fine (minus vis (locs ps b))) b
  | Def _ _ (Some _) _ _ _ => false
  | Dlet _ m bs f decos ps ds b =>
      let own := map fst bs in
      match m with Letseq => false | _ => true end &&
      distinct own && negb (mem f (own ++ vis)) && forallb (fine_e vis) (decos ++ ds) &&
      none_of own (decos ++ ds) && none_of (filter (fun p => mem p vis) ps) ds &&
      forallb (fine_e (match m with Letrec => own ++ vis | _ => vis end)) (map snd bs) &&
      locals_fine (own ++ vis) ps b && forallb (fine (minus (own ++ vis) (locs ps b))) b
  end.
(** For dletseq to be as documented: the first variable is not a parameter or the name of the function, and the default
    values do not mention it. *)
Fixpoint seq_ok (s : stm) : bool :=
  match s with
  | If _ a b => forallb seq_ok a && forallb seq_ok b
  | Def _ _ _ _ _ b => forallb seq_ok b
  | Dlet _ m bs f _ ps ds b =>
      match m, bs with
      | Letseq, [] => false
      | Letseq, (x, _) :: _ => negb (mem x (f :: ps)) && none_of [x] ds
      | _, _ => true
      end && forallb seq_ok b
  | _ => true
  end.
(** the names of the variables of all lets in a program *)
Fixpoint let_names (s : stm) : list string :=
  match s with
  | If _ a b => flat_map let_names a ++ flat_map let_names b
  | Def _ _ _ _ _ b => flat_map let_names b
  | Dlet _ _ bs _ _ _ _ b => map fst bs ++ flat_map let_names b
  | _ => []
  end.
(** Is there no let in it? *)
Fixpoint no_let (s : stm) : bool :=
  match s with
  | If _ a b => forallb no_let a && forallb no_let b
  | Def _ _ _ _ _ b => forallb no_let b
  | Dlet _ _ _ _ _ _ _ _ => false
  | _ => true
  end.
