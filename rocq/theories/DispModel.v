(** Model of unpythonic/dispatch.py: generic, augment, typed, and calls of generic functions
    (lines 242, 289-291, 313-315, 431-482, 506-596, 644-741). *)
From Coq Require Import String List Bool.
From Verif Require Import Base CollModel BindModel TypeModel.
Import ListNotations.
Open Scope list_scope.

(** A function definition as the decorators see it: its __name__, the fullname (module and
    qualified name, dispatch.py 424-429), its parameters, typing.get_type_hints, and which definition it is. *)
Record fundef := mkfun {
  fname : string; fullname : string; params : signature value; fhints : list (pname * typ); fid : nat }.
(** An entry of a method registry (dispatch.py 741): the multimethod and its type_signature *)
Record mm := mkmm { mm_fun : fundef; mm_hints : list (pname * typ) }.
(** A dispatcher (dispatch.py 662-680); [wrapped] is the function that created it, whose name and signature it
    has by functools.wraps; [typed_] when _register was deleted (314). *)
Record dispatcher := mkdisp { wrapped : fundef; methods : list mm; typed_ : bool }.
(** _dispatcher_registry, 38 *)
Definition registry := list (string * dispatcher).
(** Looking up a dispatcher by name: dispatch.py 38, 644-680 *)
Definition rget (r : registry) (n : string) : option dispatcher := dict_get String.eqb r n.
(** Putting a dispatcher into the registry: dispatch.py 644-680 *)
Definition rset (r : registry) (n : string) (d : dispatcher) : registry := dict_set String.eqb r n d.

(** dispatch.py 43 *)
Definition self_parameter_names : list string := ["self"%string; "this"%string; "cls"%string; "klass"%string].
(** Whether a first parameter is one of those of dispatch.py 43 *)
Definition self_like (n : string) : bool := existsb (String.eqb n) self_parameter_names.
(** The annotation of a parameter: dispatch.py 706-741 *)
Definition hint (l : list (pname * typ)) (n : pname) : option typ := dict_get String.eqb l n.

(** dispatch.py 706-741.  A self-like first parameter gets Any, unless it has an annotation of its own (731;
    the order of the keys is used only in messages). *)
Definition type_signature (f : fundef) : list (pname * typ) :=
  match params f with
  | p :: _ => if self_like (p_name p)
              then match hint (fhints f) (p_name p) with
                   | Some _ => fhints f
                   | None => (p_name p, TAny) :: fhints f
                   end
              else fhints f
  | [] => fhints f
  end.
(** _register_to: dispatch.py 682-760 *)
Definition register_to (d : dispatcher) (f : fundef) : outcome dispatcher :=
  let ts := type_signature f in
  if forallb (fun p => match hint ts (p_name p) with Some _ => true | None => false end) (params f)
  then Ok (mkdisp (wrapped d) (methods d ++ [mkmm f ts]) (typed_ d))
  else Raise TypeError.
(** dispatch.py 644-680.  The new dispatcher stays in the registry when the registration fails. *)
Definition setup (name : string) (f : fundef) (r : registry) : outcome unit * registry :=
  let r1 := match rget r name with Some _ => r | None => rset r name (mkdisp f [] false) end in
  match rget r1 name with
  | None => (Raise KeyError, r1)
  | Some d =>
      if typed_ d then (Raise TypeError, r1)
      else match register_to d f with
           | Raise e => (Raise e, r1)
           | Ok d' => (Ok tt, rset r1 name d')
           end
  end.

(** The decorators.  [Augment n f]: @augment(t) on f, t being the generic function of fullname n,
    or not a generic function when there is none (dispatch.py 289). *)
Inductive op := Generic (f : fundef) | Typed (f : fundef) | Augment (n : string) (f : fundef).
(** One use of a decorator: dispatch.py 76-242, dispatch.py 245-291, dispatch.py 294-315, dispatch.py 644-680 *)
Definition step (o : op) (r : registry) : outcome unit * registry :=
  match o with
  | Generic f => setup (fullname f) f r                                   (* 242 *)
  | Typed f =>                                                            (* 313-315 *)
      let (x, r1) := setup (fullname f) f r in
      match x, rget r1 (fullname f) with
      | Ok _, Some d => (Ok tt, rset r1 (fullname f) (mkdisp (wrapped d) (methods d) true))
      | x, _ => (x, r1)
      end
  | Augment n f =>                                                        (* 289-291 *)
      match rget r n with
      | None => (Raise TypeError, r)
      | Some _ => setup n f r
      end
  end.
(** A whole history of decorators. *)
Definition run (ops : list op) : registry := fold_left (fun r o => snd (step o r)) ops [].

Section Call.
Variable usub : nat -> cls -> bool.
Variable has_reversed : cls -> bool.
(** bool(value); the class whose MRO is used for a value of self or cls (dispatch.py 467-470); __mro__; what a
    class itself defines under a name: a generic function (by fullname, possibly in a classmethod) or
    something else; the string object of a keyword's name *)
Variable truthy : value -> bool.
Variable self_class : value -> cls.
Variable mro : cls -> list cls.
Variable own : cls -> string -> option (option string).
Variable kwname : pname -> value.

(** hasattr, getattr on a class; metaclasses are not modelled *)
Fixpoint lookup (n : string) (l : list cls) : option (option string) :=
  match l with [] => None | c :: l => match own c n with Some x => Some x | None => lookup n l end end.
(** An attribute of a class: dispatch.py 442-482 *)
Definition class_attr (c : cls) (n : string) : option (option string) := lookup n (mro c).

(** dispatch.py 431-440 *)
Definition first_positional (ps : signature value) : option pname :=
  option_map p_name (find (fun p => kind_eqb (p_kind p) PosOnly || kind_eqb (p_kind p) PosOrKw) ps).
(** dispatch.py 572-596 *)
Definition extract_self (d : dispatcher) (args : list value) : outcome (option value) :=
  match first_positional (params (wrapped d)) with
  | Some n => if self_like n
              then match args with [] => Raise TypeError | a :: _ => Ok (Some a) end
              else Ok None
  | None => Ok None
  end.
(** dispatch.py 442-482 *)
Definition base_methods (r : registry) (n : string) (base : cls) : list mm :=
  match class_attr base n with
  | Some (Some fn) => match rget r fn with Some d => rev (methods d) | None => [] end
  | _ => []
  end.
(** _list_multimethods: dispatch.py 442-482 *)
Definition list_multimethods (r : registry) (d : dispatcher) (self : option value) : list mm :=
  rev (methods d) ++
  match self with
  | Some s => if truthy s then flat_map (base_methods r (fname (wrapped d))) (tl (mro (self_class s))) else []
  | None => []
  end.

(** The value of a parameter: the tuple for [*args], the dict for [**kwargs] *)
Definition bound_value (b : bval value) : value :=
  match b with
  | BV v => v
  | BTup l => Obj CTuple l []
  | BDict d => Obj CDict (map (fun kv => kwname (fst kv)) d) (map snd d)
  end.
(** dispatch.py 532-570: whether there are no mismatches *)
Fixpoint no_mismatch (ts : list (pname * typ)) (b : bindings value) : outcome bool :=
  match b with
  | [] => Ok true
  | (n, v) :: b =>
      match hint ts n with
      | None => Raise ValueError
      | Some T => do x <- isoftype usub has_reversed T (bound_value v); do y <- no_mismatch ts b; Ok (x && y)
      end
  end.
(** dispatch.py 522-530 *)
Fixpoint resolve (l : list mm) (args : list value) (kw : dict pname value) : outcome (option mm) :=
  match l with
  | [] => Ok None
  | m :: l =>
      match (do b <- py_call_bind (params (mm_fun m)) args kw; no_mismatch (mm_hints m) b) with
      | Ok true => Ok (Some m)
      | Ok false => resolve l args kw
      | Raise TypeError => resolve l args kw
      | Raise e => Raise e
      end
  end.
(** dispatch.py 665-671: which definition the call runs, with the arguments given *)
Definition call (r : registry) (d : dispatcher) (args : list value) (kw : dict pname value) : outcome fundef :=
  do self <- extract_self d args;
  do x <- resolve (list_multimethods r d self) args kw;
  match x with
  | Some m => Ok (mm_fun m)
  | None => Raise TypeError
  end.
End Call.
