(** Model of [with autoref] (unpythonic/syntax/autoref.py), and of running the code it makes.

    Simplifications: the language below stands for Python.  Functions take positional
    parameters without defaults; comprehensions, classes, [global], [nonlocal], [del] and other
    macros in the block are left out, so [islet] and [isdo] (autoref.py 228-233) never apply.
    The code (lambda _ar: _ar[1] if _ar[0] else x)(_autoref_resolve((p, o, "x"))) is one node,
    [ERef], and the program itself does not contain it. *)
From Coq Require Import String List Bool Arith.
From Verif Require Import Base.
Import ListNotations.
Open Scope string_scope.
Open Scope list_scope.
Open Scope nat_scope.

(** Variables: those that the program names, and those made by gensym (autoref.py 184).  The
    one of an anonymous block is named after the block, which carries a label. *)
Inductive var := U (x : string) | H (k : nat).
(** Equality of variables. *)
Definition var_eqb (a b : var) : bool :=
  match a, b with
  | U x, U y => String.eqb x y
  | H i, H j => Nat.eqb i j
  | _, _ => false
  end.

(** [EObj l] makes an object with the attributes [l]; [EPrint e] prints the value of e, and
    gives it. *)
Inductive term :=
| ENum (k : nat)
| EName (x : string)
| EAttr (e : term) (a : string)
| ECall (f : term) (args : list term)
| ELam (ps : list string) (b : term)
| EObj (l : list (string * term))
| EPrint (e : term)
| ERef (objs : list var) (x : string).

(** [SSetAttr t a v] is t.a = v.  [SWith k o e b] is the block [with autoref[e] as o: b], or
    [with autoref[e]: b] for [o = None]; k is its label.  [SMark o e b] is an expanded block,
    an ExpandedAutorefMarker whose varname is o and whose body is o = e, b
    (autoref.py 309-314). *)
Inductive stmt :=
| SExpr (e : term)
| SAssign (x : string) (e : term)
| SSetAttr (t : term) (a : string) (v : term)
| SIf (c : term) (a b : list stmt)
| SWhile (c : term) (b : list stmt)
| SDef (f : string) (ps : list string) (b : list stmt)
| SReturn (e : term)
| SWith (k : nat) (o : option string) (e : term) (b : list stmt)
| SMark (o : var) (e : term) (b : list stmt).

(** ** The macro *)
(** always_skip: autoref.py 303-308.  A comma is missing after 'curryf' at 305, so two of the
    names are one string.  _test_function_names: testingtools.py 476-478. *)
Definition always_skip : list var :=
  map U ["letter"; "dof"; "namelambda"; "curry"; "curryfcurrycall"; "lazy"; "lazyrec";
         "maybe_force_args"; "callsite_filename"; "returns_normally"; "unpythonic_assert";
         "unpythonic_assert_signals"; "unpythonic_assert_raises"].
(** Whether a name is among the variables. *)
Definition mem (x : string) (l : list var) : bool := existsb (var_eqb (U x)) l.

(** AutorefTransformer on expressions: autoref.py 220-296.  [refs] is self.state.referents, [o]
    the variable of the block.  For a name: makeautoreference 200-217.  For the code made by an
    inner block: 236-288, add_to_resolver_list 195-197. *)
Fixpoint tre (refs : list var) (o : var) (t : term) : term :=
  match t with
  | ENum k => ENum k
  | EName x => if mem x refs then EName x else ERef [o] x
  | EAttr e a => EAttr (tre refs o e) a
  | ECall f args => ECall (tre refs o f) (map (tre refs o) args)
  | ELam ps b => ELam ps (tre refs o b)
  | EObj l => EObj (map (fun p => (fst p, tre refs o (snd p))) l)
  | EPrint e => EPrint (tre refs o e)
  | ERef objs x => if mem x refs then EName x else ERef (objs ++ [o]) x
  end.
(** The same on statements.  The target of an assignment is returned as it is: autoref.py 225-226.  An
    expanded inner block adds its variable to the referents: 234-235. *)
Fixpoint trs (refs : list var) (o : var) (s : stmt) : stmt :=
  match s with
  | SExpr e => SExpr (tre refs o e)
  | SAssign x e => SAssign x (tre refs o e)
  | SSetAttr t a v => SSetAttr t a (tre refs o v)
  | SIf c a b => SIf (tre refs o c) (map (trs refs o) a) (map (trs refs o) b)
  | SWhile c b => SWhile (tre refs o c) (map (trs refs o) b)
  | SDef f ps b => SDef f ps (map (trs refs o) b)
  | SReturn e => SReturn (tre refs o e)
  | SWith k n e b => SWith k n e b
  | SMark v e b => SMark v (tre (refs ++ [v]) o e) (map (trs (refs ++ [v]) o) b)
  end.
(** The variable of a block: autoref.py 184 *)
Definition blockvar (k : nat) (o : option string) : var :=
  match o with Some x => U x | None => H k end.
(** The macro expander: _autoref (autoref.py 170-314) for each block, the inner ones first
    (177). *)
Fixpoint expand (s : stmt) : stmt :=
  match s with
  | SIf c a b => SIf c (map expand a) (map expand b)
  | SWhile c b => SWhile c (map expand b)
  | SDef f ps b => SDef f ps (map expand b)
  | SWith k n e b =>
      let o := blockvar k n in
      SMark o e (map (trs (always_skip ++ [o]) o) (map expand b))
  | SMark o e b => SMark o e (map expand b)
  | SExpr _ | SAssign _ _ | SSetAttr _ _ _ | SReturn _ => s
  end.
(** The statements of a program, each expanded: autoref.py 170-314 *)
Definition expand_all (p : list stmt) : list stmt := map expand p.

(** ** Running the output *)
(** [VFun i] is the function [i] of those made so far, [VObj i] the object [i]. *)
Inductive val := VNum (k : nat) | VNone | VObj (i : nat) | VFun (i : nat).

(** Lookup in an association list: Python's dict or namespace (no code in /repo). *)
Fixpoint get {K A} (eqb : K -> K -> bool) (l : list (K * A)) (x : K) : option A :=
  match l with
  | [] => None
  | (y, v) :: l' => if eqb y x then Some v else get eqb l' x
  end.
(** Update of an association list: Python's dict or namespace (no code in /repo). *)
Fixpoint put {K A} (eqb : K -> K -> bool) (l : list (K * A)) (x : K) (v : A) : list (K * A) :=
  match l with
  | [] => [(x, v)]
  | (y, w) :: l' => if eqb y x then (x, v) :: l' else (y, w) :: put eqb l' x v
  end.

(** The state: the objects, with their attributes; the scopes, with their variables; what was
    printed; the functions made, which are of type [C]. *)
Record world (C : Type) := mkworld {
  objs : list (list (string * val));
  scopes : list (list (var * val));
  out : list val;
  funs : list C }.
Arguments mkworld {C}.
Arguments objs {C}.
Arguments scopes {C}.
Arguments out {C}.
Arguments funs {C}.

Section State.
  Context {C : Type}.
  (** A new object (language model, no code in /repo). *)
  Definition new_obj (w : world C) (l : list (string * val)) : val * world C :=
    (VObj (length (objs w)), mkworld (objs w ++ [l]) (scopes w) (out w) (funs w)).
  (** A new scope (language model, no code in /repo). *)
  Definition new_scope (w : world C) (l : list (var * val)) : nat * world C :=
    (length (scopes w), mkworld (objs w) (scopes w ++ [l]) (out w) (funs w)).
  (** A new function object (language model, no code in /repo). *)
  Definition new_fun (w : world C) (c : C) : val * world C :=
    (VFun (length (funs w)), mkworld (objs w) (scopes w) (out w) (funs w ++ [c])).
  (** Python's print, recorded (no code in /repo). *)
  Definition print (w : world C) (v : val) : world C :=
    mkworld (objs w) (scopes w) (out w ++ [v]) (funs w).
  (** The value of a variable, in the scopes [ch] around the code, innermost first. *)
  Fixpoint lookup (w : world C) (ch : list nat) (x : var) : option val :=
    match ch with
    | [] => None
    | i :: ch' =>
        match get var_eqb (nth i (scopes w) []) x with
        | Some v => Some v
        | None => lookup w ch' x
        end
    end.
  (** An assignment makes or changes a variable of the innermost scope. *)
  Definition assign (w : world C) (ch : list nat) (x : var) (v : val) : world C :=
    match ch with
    | [] => w
    | i :: _ =>
        mkworld (objs w) (upd (scopes w) i (put var_eqb (nth i (scopes w) []) x v))
                (out w) (funs w)
    end.
  (** hasattr and getattr, for objects without methods __getattr__ and properties.  Numbers,
      functions and None have no attributes that matter here. *)
  Definition attr (w : world C) (v : val) (a : string) : option val :=
    match v with
    | VObj i => get String.eqb (nth i (objs w) []) a
    | _ => None
    end.
  (** [v.a = x] (no code in /repo). *)
  Definition set_attr (w : world C) (v : val) (a : string) (x : val) : option (world C) :=
    match v with
    | VObj i =>
        Some (mkworld (upd (objs w) i (put String.eqb (nth i (objs w) []) a x)) (scopes w)
                      (out w) (funs w))
    | _ => None
    end.
End State.

(** Results: [None] is out of fuel. *)
Definition res (C A : Type) := option (outcome A * world C).
(** One evaluation after another; an exception ends it (no code in /repo). *)
Definition bind {C A B} (r : res C A) (k : A -> world C -> res C B) : res C B :=
  match r with
  | None => None
  | Some (Raise e, w) => Some (Raise e, w)
  | Some (Ok v, w) => k v w
  end.
(** A result without further effects (evaluation, no code in /repo). *)
Definition ret {C A} (v : A) (w : world C) : res C A := Some (Ok v, w).
(** An exception (evaluation, no code in /repo). *)
Definition raise {C A} (e : exn) (w : world C) : res C A := Some (Raise e, w).
(** [bool(v)] (no code in /repo). *)
Definition truthy (v : val) : bool :=
  match v with VNum 0 => false | VNone => false | _ => true end.
(** How a statement ends: by going on to the next, or by returning. *)
Inductive ending := Next | Ret (v : val).

(** A plain variable. *)
Definition read {C} (w : world C) (ch : list nat) (x : var) : res C val :=
  match lookup w ch x with Some v => ret v w | None => raise NameError w end.
(** Plain variables, from the left. *)
Fixpoint reads {C} (w : world C) (ch : list nat) (l : list var) : res C (list val) :=
  match l with
  | [] => ret [] w
  | x :: l' =>
      bind (read w ch x) (fun v w => bind (reads w ch l') (fun vs w => ret (v :: vs) w))
  end.
(** _autoref_resolve: autoref.py 152-168 *)
Fixpoint resolve {C} (w : world C) (os : list val) (x : string) : option val :=
  match os with
  | [] => None
  | o :: os' => match attr w o x with Some v => Some v | None => resolve w os' x end
  end.

(** A function: the scopes around it, its parameters, its body. *)
Definition code := (term + list stmt)%type.
(** A function object (no code in /repo). *)
Record clo := mkclo { c_scopes : list nat; c_params : list string; c_body : code }.
(** The state of a program with such functions. *)
Definition state := world clo.

(** Evaluation of the language of the block, both before and after expansion (no code in /repo). *)
Fixpoint eval (n : nat) (ch : list nat) (w : state) (t : term) : res clo val :=
  match n with
  | O => None
  | S n =>
      match t with
      | ENum k => ret (VNum k) w
      | EName x => read w ch (U x)
      | EAttr e a =>
          bind (eval n ch w e) (fun v w =>
          match attr w v a with Some x => ret x w | None => raise AttributeError w end)
      | ECall f args =>
          bind (eval n ch w f) (fun v w =>
          bind (evals n ch w args) (fun vs w => call n w v vs))
      | ELam ps b => let (v, w) := new_fun w (mkclo ch ps (inl b)) in ret v w
      | EObj l =>
          bind (evals n ch w (map snd l)) (fun vs w =>
          let (v, w) := new_obj w (combine (map fst l) vs) in ret v w)
      | EPrint e => bind (eval n ch w e) (fun v w => ret v (print w v))
      | ERef os x =>
          bind (reads w ch os) (fun vs w =>
          match resolve w vs x with Some v => ret v w | None => read w ch (U x) end)
      end
  end
with evals (n : nat) (ch : list nat) (w : state) (l : list term) : res clo (list val) :=
  match n with
  | O => None
  | S n =>
      match l with
      | [] => ret [] w
      | t :: l' =>
          bind (eval n ch w t) (fun v w =>
          bind (evals n ch w l') (fun vs w => ret (v :: vs) w))
      end
  end
with call (n : nat) (w : state) (f : val) (args : list val) : res clo val :=
  match n with
  | O => None
  | S n =>
      match f with
      | VFun i =>
          match nth_error (funs w) i with
          | Some c =>
              if negb (length (c_params c) =? length args) then raise TypeError w
              else
                let (j, w) := new_scope w (combine (map U (c_params c)) args) in
                match c_body c with
                | inl e => eval n (j :: c_scopes c) w e
                | inr b =>
                    bind (exec n (j :: c_scopes c) w b) (fun r w =>
                    ret (match r with Ret v => v | Next => VNone end) w)
                end
          | None => raise TypeError w
          end
      | _ => raise TypeError w
      end
  end
with exec (n : nat) (ch : list nat) (w : state) (b : list stmt) : res clo ending :=
  match n with
  | O => None
  | S n =>
      match b with
      | [] => ret Next w
      | s :: b' =>
          bind
            (match s with
             | SExpr e => bind (eval n ch w e) (fun _ w => ret Next w)
             | SAssign x e => bind (eval n ch w e) (fun v w => ret Next (assign w ch (U x) v))
             | SSetAttr t a e =>
                 bind (eval n ch w e) (fun v w =>
                 bind (eval n ch w t) (fun o w =>
                 match set_attr w o a v with
                 | Some w => ret Next w
                 | None => raise AttributeError w
                 end))
             | SIf c x y =>
                 bind (eval n ch w c) (fun v w => exec n ch w (if truthy v then x else y))
             | SWhile c x =>
                 bind (eval n ch w c) (fun v w =>
                 if truthy v
                 then bind (exec n ch w x) (fun r w =>
                      match r with
                      | Ret v => ret (Ret v) w
                      | Next => exec n ch w [SWhile c x]
                      end)
                 else ret Next w)
             | SDef f ps x =>
                 let (v, w) := new_fun w (mkclo ch ps (inr x)) in
                 ret Next (assign w ch (U f) v)
             | SReturn e => bind (eval n ch w e) (fun v w => ret (Ret v) w)
             | SWith _ _ _ _ => raise SyntaxError w      (* not expanded *)
             | SMark o e x =>
                 bind (eval n ch w e) (fun v w => exec n ch (assign w ch o v) x)
             end)
            (fun r w =>
             match r with
             | Ret v => ret (Ret v) w
             | Next => exec n ch w b'
             end)
      end
  end.

(** A program runs in the module's scope. *)
Definition start {C} : world C := mkworld [] [[]] [] [].
(** A program runs in the module's scope, from the start (no code in /repo). *)
Definition run (n : nat) (p : list stmt) : res clo ending := exec n [0] start p.
