(** Model of the macros let and letseq of unpythonic/syntax/simplelet.py, on expressions with lambdas, calls and
    assignment expressions, and of the part of Python that runs what they give.  Left out: keyword and default
    arguments, comprehensions, classes, `global` and `nonlocal`; bindings that are not lists of a name and an
    expression; uses of the macros other than as expressions (simplelet.py 41-42, 74-75). *)
From Coq Require Import List Bool String Arith.
From Verif Require Import Base.
Import ListNotations.
Open Scope string_scope.
Open Scope list_scope.

(** Names of variables. *)
Definition name := string.

(** An expression as the user writes it.  [SLet] is `let[[x, e], ...][body]`, [SSeq] is
    `letseq[[x, e], ...][body]` (simplelet.py 28-80). *)
Inductive src :=
| SConst (n : nat)
| SName (x : name)
| SLam (xs : list name) (b : src)             (* lambda x, ...: b *)
| SApp (f : src) (args : list src)
| SAssign (x : name) (e : src)                (* (x := e) *)
| SIf (c a b : src)                           (* a if c else b *)
| SThen (a b : src)                           (* (a, b)[1] *)
| SSay (e : src)                              (* a function that prints its argument and returns it *)
| SFail (k : exn)                             (* raises an exception *)
| SLet (bs : list (name * src)) (b : src)
| SSeq (bs : list (name * src)) (b : src).

(** An expression of Python, after macro expansion. *)
Inductive py :=
| PConst (n : nat)
| PName (x : name)
| PLam (xs : list name) (b : py)
| PApp (f : py) (args : list py)
| PAssign (x : name) (e : py)
| PIf (c a b : py)
| PThen (a b : py)
| PSay (e : py)
| PFail (k : exn).

(** `len(set(names)) < len(names)`, negated: simplelet.py 49 *)
Fixpoint unique (xs : list name) : bool :=
  match xs with [] => true | x :: r => negb (existsb (String.eqb x) r) && unique r end.
(** The checks of let: simplelet.py 43-44, 49-50 *)
Definition let_ok (xs : list name) : bool := match xs with [] => false | _ => unique xs end.
(** The tree that let gives: simplelet.py 52-54 *)
Definition let_tree (xs : list name) (values : list py) (body : py) : py := PApp (PLam xs body) values.

(** A list of expansions. *)
Fixpoint sequence {A : Type} (l : list (outcome A)) : outcome (list A) :=
  match l with
  | [] => Ok []
  | x :: r => do a <- x ; do t <- sequence r ; Ok (a :: t)
  end.

(** Macro expansion: the expander goes on into the tree that a macro gives.  simplelet.py 28-54 (let) and
    57-80 (letseq, which gives a let of the first binding around a letseq of the others). *)
Fixpoint expand (e : src) : outcome py :=
  match e with
  | SConst n => Ok (PConst n)
  | SName x => Ok (PName x)
  | SLam xs b => do b' <- expand b ; Ok (PLam xs b')
  | SApp f args => do f' <- expand f ; do args' <- sequence (map expand args) ; Ok (PApp f' args')
  | SAssign x e => do e' <- expand e ; Ok (PAssign x e')
  | SIf c a b => do c' <- expand c ; do a' <- expand a ; do b' <- expand b ; Ok (PIf c' a' b')
  | SThen a b => do a' <- expand a ; do b' <- expand b ; Ok (PThen a' b')
  | SSay e => do e' <- expand e ; Ok (PSay e')
  | SFail k => Ok (PFail k)
  | SLet bs b =>
      if let_ok (map fst bs) then
        do vs <- sequence (map (fun xe => expand (snd xe)) bs) ; do b' <- expand b ; Ok (let_tree (map fst bs) vs b')
      else Raise SyntaxError
  | SSeq bs b =>
      (fix letseq (bs : list (name * src)) : outcome py :=
         match bs with
         | [] => expand b
         | (x, e) :: rest =>
             if let_ok [x] then do v <- expand e ; do b' <- letseq rest ; Ok (let_tree [x] [v] b')
             else Raise SyntaxError
         end) bs
  end.

(** ** Running the program (Python's own) *)
(** A value: a number, or a function with its parameters, its body and the scopes around it. *)
Inductive val (C : Type) := VNum (n : nat) | VFun (xs : list name) (b : C) (env : list nat).
Arguments VNum {C} n.
Arguments VFun {C} xs b env.
(** What is printed of a value. *)
Inductive shown := ShNum (n : nat) | ShFun.
(** The local variables of a call, each with its value if it has one now. *)
Definition frame (C : Type) : Type := list (name * option (val C)).
(** The calls made so far, by number, and what was printed. *)
Record world (C : Type) := mkw { frames : list (frame C); out : list shown }.
Arguments mkw {C} frames out.
Arguments frames {C} w.
Arguments out {C} w.

(** The names assigned in an expression, other than in the functions in it: they are local to the function
    that the expression is in. *)
Fixpoint assigned (e : py) : list name :=
  match e with
  | PConst _ | PName _ | PLam _ _ | PFail _ => []
  | PApp f args => assigned f ++ flat_map assigned args
  | PAssign x e => x :: assigned e
  | PIf c a b => assigned c ++ assigned a ++ assigned b
  | PThen a b => assigned a ++ assigned b
  | PSay e => assigned e
  end.

Section Frames.
Context {C : Type}.
(** A variable in a frame: not there, or there, perhaps without a value. *)
Fixpoint cell (f : frame C) (x : name) : option (option (val C)) :=
  match f with
  | [] => None
  | (y, v) :: r => if String.eqb x y then Some v else cell r x
  end.
(** Assignment in a frame. *)
Fixpoint put (f : frame C) (x : name) (v : val C) : frame C :=
  match f with
  | [] => [(x, Some v)]
  | (y, u) :: r => if String.eqb x y then (y, Some v) :: r else (y, u) :: put r x v
  end.
(** The frame of a call: the parameters with their values, the other local variables without. *)
Definition new_frame (xs : list name) (vs : list (val C)) (locals : list name) : frame C :=
  combine xs (map Some vs) ++ map (fun x => (x, None)) locals.
(** The world with a new frame. *)
Definition push (f : frame C) (w : world C) : world C := mkw (frames w ++ [f]) (out w).
(** The value of a name in the scopes [env], innermost first. *)
Fixpoint find (inner : bool) (env : list nat) (w : world C) (x : name) : outcome (val C) :=
  match env with
  | [] => Raise NameError
  | i :: r =>
      match cell (nth i (frames w) []) x with
      | Some (Some v) => Ok v
      | Some None => Raise (if inner then UnboundLocalError else NameError)
      | None => find false r w x
      end
  end.
(** [x := v] in the innermost scope. *)
Fixpoint put_nth (fs : list (frame C)) (i : nat) (x : name) (v : val C) : list (frame C) :=
  match fs, i with
  | [], _ => []
  | f :: r, 0 => put f x v :: r
  | f :: r, S i => f :: put_nth r i x v
  end.
(** See put_nth. *)
Definition assign (env : list nat) (w : world C) (x : name) (v : val C) : world C :=
  match env with [] => w | i :: _ => mkw (put_nth (frames w) i x v) (out w) end.
(** Whether a value is true. *)
Definition truthy (v : val C) : bool := match v with VNum 0 => false | _ => true end.
(** See shown. *)
Definition show (v : val C) : shown := match v with VNum n => ShNum n | VFun _ _ _ => ShFun end.
(** print. *)
Definition say (w : world C) (v : val C) : world C := mkw (frames w) (out w ++ [show v]).
End Frames.

(** What an evaluation gives: the value or exception and the world after it; nothing if the fuel ran out. *)
Definition res (A : Type) : Type := option (outcome A * world py).
(** Go on if there is a value. *)
Definition rbind {A B : Type} (r : res A) (k : A -> world py -> res B) : res B :=
  match r with
  | None => None
  | Some (Raise x, w) => Some (Raise x, w)
  | Some (Ok a, w) => k a w
  end.
(** Evaluating a list of arguments from left to right. *)
Fixpoint pevals (ev : py -> world py -> res (val py)) (es : list py) (w : world py) : res (list (val py)) :=
  match es with
  | [] => Some (Ok [], w)
  | e :: r => rbind (ev e w) (fun v w1 => rbind (pevals ev r w1) (fun vs w2 => Some (Ok (v :: vs), w2)))
  end.
(** Evaluation of an expression in the scopes [env].  The fuel bounds the depth. *)
Fixpoint peval (fuel : nat) (env : list nat) (e : py) (w : world py) : res (val py) :=
  match fuel with
  | 0 => None
  | S fuel =>
      match e with
      | PConst n => Some (Ok (VNum n), w)
      | PName x => Some (find true env w x, w)
      | PLam xs b => Some (Ok (VFun xs b env), w)
      | PFail k => Some (Raise k, w)
      | PAssign x e => rbind (peval fuel env e w) (fun v w1 => Some (Ok v, assign env w1 x v))
      | PSay e => rbind (peval fuel env e w) (fun v w1 => Some (Ok v, say w1 v))
      | PThen a b => rbind (peval fuel env a w) (fun _ w1 => peval fuel env b w1)
      | PIf c a b => rbind (peval fuel env c w) (fun v w1 => peval fuel env (if truthy v then a else b) w1)
      | PApp f args =>
          rbind (peval fuel env f w) (fun g w1 =>
          rbind (pevals (peval fuel env) args w1) (fun vs w2 =>
          match g with
          | VNum _ => Some (Raise TypeError, w2)
          | VFun xs b cenv =>
              if Nat.eqb (List.length xs) (List.length vs) then
                peval fuel (List.length (frames w2) :: cenv) b (push (new_frame xs vs (assigned b)) w2)
              else Some (Raise TypeError, w2)
          end))
      end
  end.
(** The program [e] as the body of a function without parameters. *)
Definition prun (fuel : nat) (e : py) : res (val py) :=
  peval fuel [0] e (mkw [new_frame [] [] (assigned e)] []).
