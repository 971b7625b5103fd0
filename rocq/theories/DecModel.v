(** Model of the decorator registry (unpythonic/regutil.py) and of the ordering of decorators
    (unpythonic/syntax/util.py 119-339).

    Simplifications: priorities are integers; lambdas have no default values; calls have only
    positional arguments; attributes and hygienic captures are [Attr] and [Cap] with the name that
    getname extracts. *)
From Coq Require Import String Ascii List Bool Arith ZArith.
Import ListNotations.
Open Scope string_scope.
Open Scope list_scope.

(** ** The registry: regutil.py 24-62 *)
Notation entry := (Z * string)%type.
Definition le_entry (a b : entry) : bool :=
  match Z.compare (fst a) (fst b) with
  | Lt => true
  | Gt => false
  | Eq => match String.compare (snd a) (snd b) with Gt => false | _ => true end
  end.
(** list.sort and sorted: a stable sort *)
Section Sort.
  Context {A : Type}.
  Variable le : A -> A -> bool.
  (** Python's sorted() with a key, which is stable (no code in /repo). *)
  Fixpoint insert (x : A) (l : list A) : list A :=
    match l with
    | [] => [x]
    | y :: l' => if le x y then x :: l else y :: insert x l'
    end.
  (** See insert. *)
  Definition sort (l : list A) : list A := fold_right insert [] l.
End Sort.
(** decorator_registry, all_decorators, tco_decorators: regutil.py 25-27 *)
Record registry := mkreg {
  entries : list entry;           (* decorator_registry *)
  all_decorators : list string;
  tco_decorators : list string
}.
(** The registry at the start: regutil.py 25-27 *)
Definition empty : registry := mkreg [] [] [].
(** register_decorator(priority, istco)(f) where f.__name__ is [name]: regutil.py 54-62 *)
Definition register (r : registry) (pri : Z) (istco : bool) (name : string) : registry :=
  mkreg (sort le_entry (entries r ++ [(pri, name)]))
        (name :: all_decorators r)
        (if istco then name :: tco_decorators r else tco_decorators r).

(** ** Program texts *)
Inductive ex :=
| Name (x : string)
| Attr (e : ex) (x : string)
| Cap (x : string)
| Lam (ps : list string) (b : ex)
| Call (f : ex) (args : list ex)
| Op (l : list ex).
(** getname: nameutil.py 79-96 *)
Definition getname (t : ex) : option string :=
  match t with
  | Name x | Attr _ x | Cap x => Some x
  | _ => None
  end.
(** isx: nameutil.py 52-77 *)
Definition isx (t : ex) (x : string) : bool :=
  match getname t with Some y => String.eqb y x | None => false end.
(** is_decorator: syntax/util.py 122-137 *)
Definition is_decorator (t : ex) (fname : string) : bool :=
  isx t fname || match t with Call f _ => isx f fname | _ => false end.
(** is_lambda_decorator: syntax/util.py 139-157 *)
Definition is_lambda_decorator (t : ex) (fname : option string) : bool :=
  match t with
  | Call f [_] => match fname with None => true | Some x => is_decorator f x end
  | _ => false
  end.
(** is_decorated_lambda: syntax/util.py 159-187.  [known]: the mode. *)
Section Detect.
  Variable detectors : list (option string).
  (** syntax/util.py 159-187, the inner function. *)
  Fixpoint detect (t : ex) : bool :=
    match t with
    | Call f [a] =>
        if existsb (is_lambda_decorator t) detectors then
          match a with
          | Lam _ _ => true
          | _ => detect a
          end
        else false
    | _ => false
    end.
End Detect.
(** syntax/util.py 159-187. *)
Definition is_decorated_lambda (r : registry) (known : bool) (t : ex) : bool :=
  if known then detect (map Some (all_decorators r)) t else detect [None] t.
(** destructure_decorated_lambda: syntax/util.py 189-203.  The call nodes of the chain; the lambda. *)
Fixpoint destructure (t : ex) : option (list ex * ex) :=
  match t with
  | Call _ (a :: _) =>
      match destructure a with Some (l, lam) => Some (t :: l, lam) | None => None end
  | Lam _ _ => Some ([], t)
  | _ => None
  end.
(** has_deco, has_tco: syntax/util.py 205-244, for functions (a list of decorators) and lambdas *)
Definition has_deco_def (names : list string) (decorator_list : list ex) : bool :=
  existsb (fun n => existsb (fun d => is_decorator d n) decorator_list) names.
(** has_deco: syntax/util.py 227-244 *)
Definition has_deco (r : registry) (names : list string) (t : ex) : option bool :=
  if is_decorated_lambda r false t then
    match destructure t with
    | Some (l, _) =>
        Some (existsb (fun n => existsb (fun d => is_lambda_decorator d (Some n)) l) names)
    | None => None
    end
  else None.

(** ** sort_lambda_decorators: syntax/util.py 246-284 *)
(** prioritize; None: SyntaxError *)
Fixpoint find_index (p : entry -> bool) (k : nat) (l : list entry) : option nat :=
  match l with
  | [] => None
  | e :: l' => if p e then Some k else find_index p (S k) l'
  end.
(** prioritize: syntax/util.py 259-265 *)
Definition prioritize (r : registry) (t : ex) : option nat :=
  find_index (fun e => is_lambda_decorator t (Some (snd e))) 0 (entries r).
(** The function that is called: syntax/util.py 246-284 *)
Definition func (t : ex) : ex := match t with Call f _ => f | _ => t end.
(** The order in which sort_lambda_decorators puts them: syntax/util.py 246-284 *)
Definition le_prio (r : registry) (a b : ex) : bool :=
  match prioritize r a, prioritize r b with
  | Some i, Some j => Nat.leb i j
  | _, _ => true
  end.
(** The functions of the chain in their new order. *)
Definition ordered_funcs (r : registry) (t : ex) : list ex :=
  match destructure t with
  | Some (l, _) => map func (sort (le_prio r) l)
  | None => []
  end.
(** FixIt.transform.  [pend]: inside a chain, the functions still to be put in. *)
Fixpoint fixit (r : registry) (pend : option (list ex)) (t : ex) {struct t} : ex :=
  match pend with
  | Some fs =>
      match t, fs with
      | Call _ [a], f :: fs' => Call f [fixit r (Some fs') a]
      | Lam ps b, _ => Lam ps (fixit r None b)
      | _, _ => t
      end
  | None =>
      match t with
      | Name _ | Cap _ => t
      | Attr e x => Attr (fixit r None e) x
      | Lam ps b => Lam ps (fixit r None b)
      | Op l => Op (map (fixit r None) l)
      | Call f args =>
          if is_decorated_lambda r true t then
            match args, ordered_funcs r t with
            | [a], f' :: fs => Call f' [fixit r (Some fs) a]
            | _, _ => t
            end
          else Call (fixit r None f) (map (fixit r None) args)
      end
  end.
(** sort_lambda_decorators: syntax/util.py 246-284 *)
Definition sort_lambda_decorators (r : registry) (t : ex) : ex := fixit r None t.

(** ** suggest_decorator_index: syntax/util.py 288-339 *)
(** pri_by_name: the last entry of a name counts (a dict comprehension). *)
Definition pri_by_name (r : registry) (x : string) : option Z :=
  option_map fst (find (fun e => String.eqb (snd e) x) (rev (entries r))).
(** cummax, the running maxima: syntax/util.py 317-323 *)
Fixpoint cummax (m : option Z) (l : list Z) : list Z :=
  match l with
  | [] => []
  | x :: l' =>
      let m' := match m with Some y => Z.max x y | None => x end in
      m' :: cummax (Some m') l'
  end.
(** Whether each is at least the one before: syntax/util.py 288-339 *)
Fixpoint ascending (l : list Z) : bool :=
  match l with
  | a :: (b :: _) as l' => (a <=? b)%Z && ascending l'
  | _ => true
  end.
(** The check for the order of the decorators: syntax/util.py 314-316 *)
Definition isascending (l : list Z) : bool := ascending (cummax None l).
(** [list.index], which syntax/util.py 288-339 use. *)
Fixpoint index_of (x : string) (l : list (option string)) : nat :=
  match l with
  | [] => 0
  | Some y :: l' => if String.eqb y x then 0 else S (index_of x l')
  | None :: l' => S (index_of x l')
  end.
(** The decorators that are in the registry, with their priorities: syntax/util.py 288-339 *)
Definition known_of (r : registry) (names : list (option string)) : list (Z * string) :=
  flat_map (fun n => match n with
    | Some x => match pri_by_name r x with Some p => [(p, x)] | None => [] end
    | None => []
    end) names.
(** suggest_decorator_index: syntax/util.py 288-339 *)
Definition suggest_decorator_index (r : registry) (deco_name : string) (decorator_list : list ex)
  : option nat :=
  if existsb (String.eqb deco_name) (all_decorators r) then
    let names := map getname decorator_list in
    let known := known_of r names in
    let knownpris := map fst known in
    match known with
    | [] => None
    | (first, _) :: _ =>
        if isascending knownpris then
          match pri_by_name r deco_name with
          | None => None                                        (* KeyError; never happens *)
          | Some target =>
              if (target <? first)%Z then Some 0
              else if (last knownpris first <? target)%Z then Some (length decorator_list)
              else match find (fun e => (target <=? fst e)%Z) known with
                   | Some (_, dname) => Some (index_of dname names)
                   | None => None                               (* assert False; never happens *)
                   end
          end
        else None
    end
  else None.

(** ** The decorators that the library registers: all modules.  (priority, istco, name) *)
Definition builtin : list (Z * bool * string) :=
  [(98%Z, false, "generic"); (98%Z, false, "augment"); (98%Z, false, "typed");  (* dispatch.py 75, 244, 293 *)
   (80%Z, false, "call_ec");                                                     (* ec.py 203 *)
   (40%Z, false, "fix"); (40%Z, true, "fixtco");                                 (* fix.py 73, 149 *)
   (50%Z, true, "looped"); (50%Z, true, "breakably_looped");                     (* fploop.py 36, 128 *)
   (50%Z, true, "looped_over"); (50%Z, true, "breakably_looped_over");           (* fploop.py 178, 274 *)
   (10%Z, false, "memoize"); (8%Z, false, "curry"); (80%Z, false, "withself");   (* fun.py 53, 195, 1044 *)
   (80%Z, false, "call"); (80%Z, false, "callwith"); (30%Z, false, "valuify");   (* funutil.py 26, 98, 392 *)
   (10%Z, false, "fimemoize");                                                   (* gmemo.py 192 *)
   (95%Z, false, "passthrough_lazy_args");                                       (* lazyutil.py 126 *)
   (5%Z, false, "namelambda");                                                   (* misc.py 54 *)
   (40%Z, true, "trampolined")].                                                 (* tco.py 235 *)
