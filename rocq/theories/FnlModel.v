(** Model of the macro fn (unpythonic/syntax/lambdatools.py 128-164, 422-442) on expressions. *)
From Coq Require Import String List ZArith Bool Arith.
From Verif Require Import Base.
Import ListNotations.
Open Scope string_scope.
Open Scope list_scope.
Open Scope nat_scope.

(** Python values of the language model (no code in /repo). *)
Inductive value := VNone | VBool (b : bool) | VInt (z : Z) | VFun (n : nat).
(** Python's bool() of a value (no code in /repo). *)
Definition truthy (v : value) : bool :=
  match v with VNone => false | VBool b => b | VInt z => negb (Z.eqb z 0) | VFun _ => true end.
(** Names in the program, and names from gensym *)
Inductive nm := User (x : string) | Gen (i : nat).
(** Equality of names. *)
Definition nmeqb (a b : nm) : bool :=
  match a, b with User x, User y => String.eqb x y | Gen i, Gen j => Nat.eqb i j | _, _ => false end.
(** Expressions of the language model, before and after expansion (no code in /repo). *)
Inductive ex :=
| FConst (v : value)
| FName (x : nm)
| FPrim (o : nat) (l : list ex)               (* operators, and displays of tuples and lists *)
| FCall (f : ex) (l : list ex)
| FIf (a t b : ex)                            (* a if t else b *)
| FDict (l : list (ex * ex))                  (* {k: v, ...} *)
| FLam (ps : list nm) (b : ex)
| FFn (b : ex).                               (* fn[b] *)

(** lambdatools.py 423-439.  The transformer visits the fields of a node in the order of the ast module:
    IfExp(test, body, orelse), Dict(keys, values).  [n]: the next name from gensym; the names that are
    collected are [Gen n], [Gen (n+1)], ... *)
Fixpoint transform (n : nat) (t : ex) {struct t} : ex * nat :=
  let trs := fix trs (n : nat) (l : list ex) : list ex * nat :=
    match l with
    | [] => ([], n)
    | t :: l => let (t, n) := transform n t in let (l, n) := trs n l in (t :: l, n)
    end in
  match t with
  | FConst v => (FConst v, n)
  | FName (User "_") => (FName (Gen n), S n)
  | FName x => (FName x, n)
  | FPrim o l => let (l, n) := trs n l in (FPrim o l, n)
  | FCall f l => let (f, n) := transform n f in let (l, n) := trs n l in (FCall f l, n)
  | FIf a t b =>
      let (t, n) := transform n t in
      let (a, n) := transform n a in
      let (b, n) := transform n b in (FIf a t b, n)
  | FDict l =>
      let (ks, n) := (fix keys (n : nat) (l : list (ex * ex)) : list ex * nat :=
        match l with
        | [] => ([], n)
        | (t, _) :: l => let (t, n) := transform n t in let (l, n) := keys n l in (t :: l, n)
        end) n l in
      let (vs, n) := (fix vals (n : nat) (l : list (ex * ex)) : list ex * nat :=
        match l with
        | [] => ([], n)
        | (_, t) :: l => let (t, n) := transform n t in let (l, n) := vals n l in (t :: l, n)
        end) n l in
      (FDict (combine ks vs), n)
  | FLam ps b => let (b, n) := transform n b in (FLam ps b, n)
  | FFn b => (FFn b, n)                       (* 430: a nested fn[] is left alone *)
  end.
(** Names from gensym: lambdatools.py 423-439 *)
Definition gens (n k : nat) : list nm := map Gen (seq n k).
(** The expander: outside in (lambdatools.py 164); it goes on with the lambda (440).  [None]: [k] was too low. *)
Fixpoint expand (k n : nat) (t : ex) : option (ex * nat) :=
  match k with
  | 0 => None
  | S k =>
      let exps := fix exps (n : nat) (l : list ex) : option (list ex * nat) :=
        match l with
        | [] => Some ([], n)
        | t :: l =>
            match expand k n t with
            | Some (t, n) => match exps n l with Some (l, n) => Some (t :: l, n) | None => None end
            | None => None
            end
        end in
      match t with
      | FConst _ | FName _ => Some (t, n)
      | FPrim o l => match exps n l with Some (l, n) => Some (FPrim o l, n) | None => None end
      | FCall f l =>
          match exps n (f :: l) with Some (f :: l, n) => Some (FCall f l, n) | _ => None end
      | FIf a t b =>
          match exps n [t; a; b] with Some ([t; a; b], n) => Some (FIf a t b, n) | _ => None end
      | FDict l =>
          match exps n (map fst l) with
          | Some (ks, n) => match exps n (map snd l) with Some (vs, n) => Some (FDict (combine ks vs), n) | None => None end
          | None => None
          end
      | FLam ps b => match expand k n b with Some (b, n) => Some (FLam ps b, n) | None => None end
      | FFn b => let (b, n') := transform n b in expand k n' (FLam (gens n (n' - n)) b)
      end
  end.

(** * The meaning of expanded programs *)
Section Run.
Variable W : Type.
Variable prim : nat -> list value -> W -> outcome value * W.
Variable mkdict : list (value * value) -> W -> outcome value * W.     (* dictionary displays *)
Variable globals : string -> option value.
Definition env := list (nm * value).
(** Looking up a variable (no code in /repo). *)
Fixpoint look (x : nm) (e : env) : option value :=
  match e with [] => None | (y, v) :: e => if nmeqb y x then Some v else look x e end.
(** The memory of the language model (no code in /repo). *)
Record heap := mkH { funs : list (env * list nm * ex); world : W }.

Section Eval.
Variable call : value -> list value -> heap -> option (outcome value * heap).
(** Evaluation of expressions (no code in /repo). *)
Fixpoint eval (e : env) (t : ex) (h : heap) {struct t} : option (outcome value * heap) :=
  let evals := fix evals (l : list ex) (h : heap) : option (outcome (list value) * heap) :=
    match l with
    | [] => Some (Ok [], h)
    | t :: l =>
        match eval e t h with
        | Some (Ok v, h) => match evals l h with Some (Ok vs, h) => Some (Ok (v :: vs), h) | r => r end
        | Some (Raise x, h) => Some (Raise x, h)
        | None => None
        end
    end in
  match t with
  | FConst v => Some (Ok v, h)
  | FName x =>
      Some (match look x e with
            | Some v => Ok v
            | None => match x with User x => match globals x with Some v => Ok v | None => Raise NameError end | Gen _ => Raise NameError end
            end, h)
  | FPrim o l =>
      match evals l h with
      | Some (Ok vs, h) => let (r, w) := prim o vs (world h) in Some (r, mkH (funs h) w)
      | Some (Raise x, h) => Some (Raise x, h)
      | None => None
      end
  | FCall f l =>
      match eval e f h with
      | Some (Ok g, h) =>
          match evals l h with
          | Some (Ok vs, h) => call g vs h
          | Some (Raise x, h) => Some (Raise x, h)
          | None => None
          end
      | r => r
      end
  | FIf a t b =>
      match eval e t h with
      | Some (Ok v, h) => if truthy v then eval e a h else eval e b h
      | r => r
      end
  | FDict l =>
      match (fix items (l : list (ex * ex)) (h : heap) : option (outcome (list (value * value)) * heap) :=
               match l with
               | [] => Some (Ok [], h)
               | (k, t) :: l =>
                   match eval e k h with
                   | Some (Ok k, h) =>
                       match eval e t h with
                       | Some (Ok v, h) => match items l h with Some (Ok vs, h) => Some (Ok ((k, v) :: vs), h) | r => r end
                       | Some (Raise x, h) => Some (Raise x, h)
                       | None => None
                       end
                   | Some (Raise x, h) => Some (Raise x, h)
                   | None => None
                   end
               end) l h with
      | Some (Ok vs, h) => let (r, w) := mkdict vs (world h) in Some (r, mkH (funs h) w)
      | Some (Raise x, h) => Some (Raise x, h)
      | None => None
      end
  | FLam ps b => Some (Ok (VFun (length (funs h))), mkH (funs h ++ [(e, ps, b)]) (world h))
  | FFn _ => Some (Raise SyntaxError, h)      (* not expanded *)
  end.
End Eval.
(** Calling a function (no code in /repo). *)
Fixpoint fcall (fuel : nat) (g : value) (vs : list value) (h : heap) : option (outcome value * heap) :=
  match fuel with
  | 0 => None
  | S fuel =>
      match g with
      | VFun n =>
          match nth_error (funs h) n with
          | Some (e, ps, b) =>
              if Nat.eqb (length ps) (length vs) then eval (fcall fuel) (combine ps vs ++ e) b h else Some (Raise TypeError, h)
          | None => Some (Raise TypeError, h)
          end
      | _ => Some (Raise TypeError, h)
      end
  end.
(** A whole history, from the start (no code in /repo). *)
Definition run (fuel : nat) (t : ex) (w : W) : option (outcome value * W) :=
  match eval (fcall fuel) [] t (mkH [] w) with Some (r, h) => Some (r, world h) | None => None end.
End Run.
