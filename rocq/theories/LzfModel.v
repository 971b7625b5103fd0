(** Model of the macro lazify (unpythonic/syntax/lazify.py 436-590, 605-842) with lazyutil.py 55-100, 115-126,
    on a language of expressions: constants, names, operators, conditionals, user lambdas, tuple literals,
    subscripts of tuples, calls with positional and starred arguments, and let with one binding (whose name the
    let macro makes an attribute of an env; lazify treats both alike, so it stays a name here).
    Functions are `def f(ps): return e`.  Assignments, mutable containers, attributes, keyword arguments and
    default values are left out.  Operators and builtin functions have no effects. *)
From Coq Require Import String List ZArith Bool Arith.
From Verif Require Import Base.
Import ListNotations.
Open Scope string_scope.
Open Scope list_scope.
Open Scope nat_scope.

(** Constants of the language model (no code in /repo). *)
Inductive const := CNone | CBool (b : bool) | CInt (z : Z).
(** What operators and builtin functions see of a value; [DOther]: a function or a promise *)
Inductive data := DC (c : const) | DT (l : list data) | DOther.

(** Expressions before expansion (no code in /repo). *)
Inductive ex :=
| EConst (c : const)
| EName (x : string)
| EPrim (o : nat) (l : list ex)                (* an operator *)
| EIf (t a b : ex)
| ELam (ps : list string) (b : ex)
| ETup (l : list ex)
| ESub (v i : ex)
| ECall (f : ex) (l : list (bool * ex))        (* true: starred *)
| ELet (x : string) (v b : ex).                (* let[x << v][b] *)

(** Expanded code *)
Inductive tx :=
| TConst (c : const)
| TName (x : string)
| TPrim (o : nat) (l : list tx)
| TIf (t a b : tx)
| TLam (ps : list string) (b : tx)             (* passthrough_lazy_args(lambda ps: b) *)
| TTup (l : list tx)
| TSub (v i : tx)
| TLet (x : string) (v b : tx)
| TForce (t : tx)                              (* force(t) *)
| TForce1 (t : tx)                             (* force1(t) *)
| TLazy (t : tx)                               (* Lazy(lambda: t) *)
| TMfa (f : tx) (l : list (bool * tx)).        (* maybe_force_args(f, [*]l) *)

(** How deep a value is forced. *)
Inductive mode := Full | Flat | Off.
(** lazify.py 636-643; the names are all in Load context *)
Definition f_ (m : mode) (t : tx) : tx :=
  match m with Full => TForce t | Flat => TForce1 t | Off => t end.
(** lazify.py 514-535, for the containers and nodes of the model *)
Fixpoint lazyrec (t : tx) : tx :=
  match t with
  | TTup l => TTup (map lazyrec l)
  | TLazy _ => t
  | _ => TLazy t
  end.
(** A reference, a name or a subscript: lazify.py 627-842 *)
Definition isref (e : ex) : bool := match e with EName _ | ESub _ _ => true | _ => false end.
(** lazify.py 568-576 *)
Definition is_literal_container (t : tx) : bool := match t with TTup _ => true | _ => false end.
(** lazify.py 627-842.  The mode is inherited by all that does not set it (ASTTransformer's state). *)
Fixpoint vis (m : mode) (e : ex) : tx :=
  match e with
  | EConst c => TConst c
  | EName x => f_ m (TName x)                                              (* 834-838 *)
  | EPrim o l => TPrim o (map (vis m) l)                                   (* 840 *)
  | EIf t a b => TIf (vis m t) (vis m a) (vis m b)                         (* 840 *)
  | ELam ps b => TLam ps (vis m b)                                         (* 661-668 *)
  | ETup l => TTup (map (vis m) l)                                         (* 840 *)
  | ESub v i => f_ m (TSub (vis Flat v) (vis Full i))                      (* 802-812 *)
  | ELet x v b =>                                                          (* 713-726 *)
      TLet x (if isref v then vis Off v else lazyrec (vis Full v)) (vis m b)
  | ECall f l =>                                                           (* 770-798 *)
      TMfa (vis m f)
        (map (fun se : bool * ex => (fst se,
           let t := if isref (snd se) then vis Off (snd se) else vis Full (snd se) in
           if fst se then (if is_literal_container t then lazyrec t else t)          (* 701-709 *)
           else if isref (snd se) then t else lazyrec t)) l)                          (* 691-699 *)
  end.

(** * Running expanded code *)
Inductive lval := LC (c : const) | LT (l : list lval) | LClo (ps : list string) (b : tx) (env : list (string * lval))
  | LBuiltin (o : nat) | LProm (p : nat).
(** Variables and their values (no code in /repo). *)
Definition lenv := list (string * lval).
(** A promise: the thunk, and what it returned or raised (lazyutil.py 46-71).  [runs] counts, for the theorems,
    how many times the thunk was called. *)
Record cell := mkcell { cenv : lenv; code : tx; cache : option (outcome lval); runs : nat }.
(** The memory of the language model (no code in /repo). *)
Definition heap := list cell.
(** Looking up a variable (no code in /repo). *)
Fixpoint assoc {A} (x : string) (l : list (string * A)) : option A :=
  match l with [] => None | (y, a) :: l => if String.eqb y x then Some a else assoc x l end.

(** Results: [None] means that the fuel was too low *)
Definition H (A : Type) := heap -> option (outcome A * heap).
(** A result without further effects (evaluation, no code in /repo). *)
Definition ret {A} (a : A) : H A := fun h => Some (Ok a, h).
(** An exception (evaluation, no code in /repo). *)
Definition fail {A} (x : exn) : H A := fun h => Some (Raise x, h).
(** One evaluation after another; an exception ends it (no code in /repo). *)
Definition bind {A B} (m : H A) (f : A -> H B) : H B := fun h =>
  match m h with None => None | Some (Raise x, h) => Some (Raise x, h) | Some (Ok a, h) => f a h end.
(** One evaluation for each item, from the left (no code in /repo). *)
Definition mapH {A B} (f : A -> H B) : list A -> H (list B) :=
  fix all (l : list A) : H (list B) :=
    match l with [] => ret [] | a :: l => bind (f a) (fun b => bind (all l) (fun bs => ret (b :: bs))) end.

(** Plain data as a value, and back (language model). *)
Fixpoint ldata (v : lval) : data :=
  match v with LC c => DC c | LT l => DT (map ldata l) | _ => DOther end.
(** See ldata. *)
Fixpoint of_data {A} (c : const -> A) (t : list A -> A) (d : data) : option A :=
  match d with
  | DC k => Some (c k)
  | DT l =>
      match (fix all (l : list data) : option (list A) :=
               match l with
               | [] => Some []
               | d :: l => match of_data c t d, all l with Some a, Some l => Some (a :: l) | _, _ => None end
               end) l with
      | Some l => Some (t l)
      | None => None
      end
  | DOther => None
  end.
(** Python's bool() of a value (no code in /repo). *)
Definition truthy (d : data) : bool :=
  match d with
  | DC CNone => false | DC (CBool b) => b | DC (CInt z) => negb (Z.eqb z 0)
  | DT [] => false | DT _ => true | DOther => true
  end.
(** Python: index of an item *)
Definition item {A} (l : list A) (i : data) : outcome A :=
  match i with
  | DC (CInt z) =>
      let n := if Z.ltb z 0 then (Z.of_nat (length l) + z)%Z else z in
      if Z.ltb n 0 then Raise IndexError
      else match nth_error l (Z.to_nat n) with Some a => Ok a | None => Raise IndexError end
  | _ => Raise TypeError
  end.
(** An outcome without effects (no code in /repo). *)
Definition lift {A} (r : outcome A) : H A := fun h => Some (r, h).

Section Run.
Variable prim : nat -> list data -> outcome data.              (* operators and builtin functions *)
Variable globals : string -> option (list string * ex).        (* the functions of the with block *)
Variable builtins : string -> option nat.

(** the result of an operator *)
Definition apply_prim {A} (c : const -> A) (t : list A -> A) (o : nat) (l : list data) : outcome A :=
  match prim o l with
  | Raise x => Raise x
  | Ok d => match of_data c t d with Some a => Ok a | None => Raise TypeError end   (* not in the model *)
  end.
(** Reading a variable; NameError if there is none (no code in /repo). *)
Definition lname (env : lenv) (x : string) : outcome lval :=
  match assoc x env with
  | Some v => Ok v
  | None =>
      match globals x with
      | Some (ps, b) => Ok (LClo ps (vis Full b) [])
      | None => match builtins x with Some o => Ok (LBuiltin o) | None => Raise NameError end
      end
  end.
(** A promise gets its result: lazyutil.py 53-71 *)
Fixpoint upd (h : heap) (p : nat) (o : outcome lval) : heap :=
  match h, p with
  | [], _ => []
  | c :: h, 0 => mkcell (cenv c) (code c) (Some o) (S (runs c)) :: h
  | c :: h, S p => c :: upd h p o
  end.
(** force: lazyutil.py 88-98 *)
Fixpoint lforce (force1 : lval -> H lval) (v : lval) : H lval :=           (* lazyutil.py 88-100 *)
  match v with
  | LT l => bind (mapH (lforce force1) l) (fun l => ret (LT l))
  | _ => force1 v
  end.
(** Evaluation of expanded code; lazy[] makes a promise, force and force1 are lazyutil.py 78-86 and lazyutil.py 88-98 *)
Fixpoint ev (k : nat) (env : lenv) (t : tx) {struct k} : H lval :=
  match k with
  | 0 => fun _ => None
  | S k =>
      let force1 (v : lval) : H lval :=                                    (* lazyutil.py 55-71, 78-86 *)
        match v with
        | LProm p => fun h =>
            match nth_error h p with
            | None => None
            | Some c =>
                match cache c with
                | Some o => Some (o, h)
                | None => match ev k (cenv c) (code c) h with
                          | None => None
                          | Some (o, h) => Some (o, upd h p o)
                          end
                end
            end
        | _ => ret v
        end in
      match t with
      | TConst c => ret (LC c)
      | TName x => lift (lname env x)
      | TPrim o l => bind (mapH (ev k env) l) (fun vs => lift (apply_prim LC LT o (map ldata vs)))
      | TIf t a b => bind (ev k env t) (fun v => if truthy (ldata v) then ev k env a else ev k env b)
      | TLam ps b => ret (LClo ps b env)
      | TTup l => bind (mapH (ev k env) l) (fun vs => ret (LT vs))
      | TSub v i =>
          bind (ev k env v) (fun v => bind (ev k env i) (fun i =>
            match v with LT l => lift (item l (ldata i)) | _ => fail TypeError end))
      | TLet x v b => bind (ev k env v) (fun v => ev k ((x, v) :: env) b)
      | TForce t => bind (ev k env t) (lforce force1)
      | TForce1 t => bind (ev k env t) force1
      | TLazy t => fun h => Some (Ok (LProm (length h)), h ++ [mkcell env t None 0])
      | TMfa f l =>
          bind (ev k env f) (fun f =>
          bind (mapH (fun st : bool * tx =>
                        bind (ev k env (snd st)) (fun v =>
                          if fst st then match v with LT l => ret l | _ => fail TypeError end else ret [v])) l) (fun vss =>
          let vs := concat vss in
          match f with                                                     (* lazyutil.py 115-126 *)
          | LClo ps b env' =>
              if Nat.eqb (length ps) (length vs) then ev k (combine ps vs ++ env') b else fail TypeError
          | LBuiltin o => bind (mapH (lforce force1) vs) (fun vs => lift (apply_prim LC LT o (map ldata vs)))
          | _ => bind (mapH (lforce force1) vs) (fun _ => fail TypeError)
          end))
      end
  end.
(** The value of [e], an expression in the with block *)
Definition run (k : nat) (e : ex) : option (outcome data) :=
  match ev k [] (vis Full e) [] with None => None | Some (Ok v, _) => Some (Ok (ldata v)) | Some (Raise x, _) => Some (Raise x) end.
(** How many times each promise was evaluated, in a run that ends *)
Definition evaluations (k : nat) (e : ex) : option (list nat) :=
  match ev k [] (vis Full e) [] with None => None | Some (_, h) => Some (map runs h) end.
End Run.
