(** Model of argument binding and arity inspection (unpythonic/arity.py), with the part of
    the standard library's [inspect] it builds on. *)
From Coq Require Import String List Bool ZArith.
From Verif Require Import Base CollModel.
Import ListNotations.
Open Scope list_scope.

(** Names of parameters. *)
Definition pname := string.
(** [inspect.Parameter.kind] *)
Inductive pkind := PosOnly | PosOrKw | VarPos | KwOnly | VarKw.
(** Equality of kinds. *)
Definition kind_eqb (a b : pkind) : bool :=
  match a, b with
  | PosOnly, PosOnly | PosOrKw, PosOrKw | VarPos, VarPos | KwOnly, KwOnly | VarKw, VarKw => true
  | _, _ => false
  end.

Section Bind.
Context {V : Type}.
Notation kwdict := (dict pname V).

(** [inspect.Parameter]: name, kind, default ([None] when [default is Parameter.empty]).  A
    signature is the list of its parameters in order. *)
Record param := mkparam { p_name : pname; p_kind : pkind; p_default : option V }.
(** [inspect.Signature]: the parameters in order. *)
Definition signature := list param.

(** A value in [BoundArguments.arguments]: an argument, the tuple for [*args], the dict for
    [**kwargs]. *)
Inductive bval := BV (v : V) | BTup (l : list V) | BDict (d : kwdict).
(** [BoundArguments.arguments]: names with what is bound to them, in order. *)
Definition bindings := list (pname * bval).

(** Python's dict operations on keyword arguments (no code in /repo). *)
Definition kget (kw : kwdict) (n : pname) : option V := dict_get String.eqb kw n.
(** See kget. *)
Definition khas (kw : kwdict) (n : pname) : bool :=
  match kget kw n with Some _ => true | None => false end.
(** See kget. *)
Definition kdel (kw : kwdict) (n : pname) : kwdict := dict_del String.eqb kw n.
(** inspect.Parameter.default is not empty (no code in /repo). *)
Definition has_default (p : param) : bool :=
  match p_default p with Some _ => true | None => false end.

(** *** [inspect.Signature._bind] of the standard library (used by [resolve_bindings],
    arity.py 414-421, and by Python itself when a function is called) *)
(** First loop: positional arguments against parameters.  The result is [arguments] so far
    and the parameters left for the second loop. *)
Fixpoint bind1 (part : bool) (ps : signature) (args : list V) (kw : kwdict)
  : outcome (bindings * signature) :=
  match ps with
  | [] => match args with [] => Ok ([], []) | _ :: _ => Raise TypeError end
  | p :: ps' =>
      match args with
      | [] =>
          if kind_eqb (p_kind p) VarPos then Ok ([], ps')
          else if khas kw (p_name p) then
            if kind_eqb (p_kind p) PosOnly then Raise TypeError else Ok ([], p :: ps')
          else if kind_eqb (p_kind p) VarKw || has_default p then Ok ([], p :: ps')
          else if part then Ok ([], p :: ps')
          else Raise TypeError
      | a :: args' =>
          if kind_eqb (p_kind p) VarKw || kind_eqb (p_kind p) KwOnly then Raise TypeError
          else if kind_eqb (p_kind p) VarPos then Ok ([(p_name p, BTup (a :: args'))], ps')
          else if khas kw (p_name p) && negb (kind_eqb (p_kind p) PosOnly) then Raise TypeError
          else do (b, r) <- bind1 part ps' args' kw; Ok ((p_name p, BV a) :: b, r)
      end
  end.
(** Second loop: the remaining parameters against the named arguments.  The result is the
    further [arguments], the [**kwargs] parameter if any, and the leftover names. *)
Fixpoint bind2 (part : bool) (ps : signature) (kw : kwdict)
  : outcome (bindings * option pname * kwdict) :=
  match ps with
  | [] => Ok ([], None, kw)
  | p :: ps' =>
      if kind_eqb (p_kind p) VarKw then
        do (b, kp, kw') <- bind2 part ps' kw;
        Ok (b, match kp with None => Some (p_name p) | Some q => Some q end, kw')
      else if kind_eqb (p_kind p) VarPos then bind2 part ps' kw
      else match kget kw (p_name p) with
           | None =>
               if negb part && negb (has_default p) then Raise TypeError
               else bind2 part ps' kw
           | Some v =>
               if kind_eqb (p_kind p) PosOnly then Raise TypeError
               else do (b, kp, kw') <- bind2 part ps' (kdel kw (p_name p));
                    Ok ((p_name p, BV v) :: b, kp, kw')
           end
  end.
(** [inspect.Signature.bind] and [bind_partial] ([part]), which arity.py 414-421 describes. *)
Definition sig_bind (part : bool) (ps : signature) (args : list V) (kw : kwdict)
  : outcome bindings :=
  do (b1, rest) <- bind1 part ps args kw;
  do (b2, kp, kw') <- bind2 part rest kw;
  match kw' with
  | [] => Ok (b1 ++ b2)
  | _ :: _ => match kp with
              | Some n => Ok (b1 ++ b2 ++ [(n, BDict kw')])
              | None => Raise TypeError
              end
  end.

(** [inspect.BoundArguments.apply_defaults] *)
Fixpoint bget (b : bindings) (n : pname) : option bval :=
  match b with
  | [] => None
  | (m, v) :: b' => if String.eqb m n then Some v else bget b' n
  end.
(** [inspect.BoundArguments.apply_defaults], which arity.py 414-421 uses. *)
Fixpoint apply_defaults (ps : signature) (b : bindings) : bindings :=
  match ps with
  | [] => []
  | p :: ps' =>
      match bget b (p_name p) with
      | Some v => (p_name p, v) :: apply_defaults ps' b
      | None =>
          match p_default p with
          | Some d => (p_name p, BV d) :: apply_defaults ps' b
          | None =>
              match p_kind p with
              | VarPos => (p_name p, BTup []) :: apply_defaults ps' b
              | VarKw => (p_name p, BDict []) :: apply_defaults ps' b
              | _ => apply_defaults ps' b
              end
          end
      end
  end.

(** Python's call f(... args, kw ...): what the body sees, or TypeError. *)
Definition py_call_bind (ps : signature) (args : list V) (kw : kwdict) : outcome bindings :=
  do b <- sig_bind false ps args kw; Ok (apply_defaults ps b).

(** [inspect._signature_get_partial]: the signature of functools.partial(f, a..., k...) for an
    [f] with signature [ps].  The standard library moves the parameters to the end one by one
    once [transform_to_kwonly] is set; all later ones are moved too, so the order stays. *)
Fixpoint partial_params (ps : signature) (ba : bindings) (k : kwdict) (tk : bool) : signature :=
  match ps with
  | [] => []
  | p :: ps' =>
      let '(drop, tk', p') :=
        match bget ba (p_name p) with
        | None => (false, tk, p)
        | Some bv =>
            match p_kind p, bv with
            | PosOnly, _ => (true, tk, p)
            | PosOrKw, BV v =>
                if khas k (p_name p)
                then (false, true, mkparam (p_name p) PosOrKw (Some v))
                else (true, tk, p)
            | KwOnly, BV v => (false, tk, mkparam (p_name p) KwOnly (Some v))
            | _, _ => (false, tk, p)
            end
        end in
      if drop : bool then partial_params ps' ba k tk'
      else if tk' then
        match p_kind p' with
        | PosOrKw => mkparam (p_name p') KwOnly (p_default p') :: partial_params ps' ba k tk'
        | VarPos => partial_params ps' ba k tk'
        | _ => p' :: partial_params ps' ba k tk'
        end
      else p' :: partial_params ps' ba k tk'
  end.
(** The signature of [functools.partial(f, *a, **k)] (inspect; used by arity.py 205-277 and fun.py 110-176). *)
Definition partial_signature (ps : signature) (a : list V) (k : kwdict) : outcome signature :=
  match sig_bind true ps a k with
  | Raise _ => Raise ValueError
  | Ok ba => Ok (partial_params ps ba k false)
  end.

(** *** memoization keys *)
(** resolve_bindings: arity.py 342-412, 414-421 *)
Definition resolve_bindings (ps : signature) (args : list V) (kw : kwdict) : outcome bindings :=
  do b <- sig_bind false ps args kw; Ok (apply_defaults ps b).
(** resolve_bindings_partial: arity.py 342-347 *)
Definition resolve_bindings_partial (ps : signature) (args : list V) (kw : kwdict)
  : outcome bindings :=
  do b <- sig_bind true ps args kw; Ok (apply_defaults ps b).
(** tuplify_bindings: arity.py 423-461; the key is a tuple of pairs, in which the value of the
    [**kwargs] parameter is itself a tuple of pairs (in the order of the dict). *)
Inductive tval := TV (v : V) | TTup (l : list V) | TItems (l : list (pname * V)).
(** tuplify_bindings: arity.py 423-461 *)
Definition tuplify (b : bindings) : list (pname * tval) :=
  map (fun nb => (fst nb, match snd nb with
                          | BV v => TV v
                          | BTup l => TTup l
                          | BDict d => TItems d
                          end)) b.
(** the key memoize uses: fun.py 77 *)
Definition memo_key (ps : signature) (args : list V) (kw : kwdict)
  : outcome (list (pname * tval)) :=
  do b <- resolve_bindings ps args kw; Ok (tuplify b).

(** *** [_bind]: arity.py 472-614, always called with partial=False (fun.py 500-506) *)
(** First loop, arity.py 487-559.  A positional argument that meets a keyword-only or
    [**kwargs] parameter is recorded as extra (541-546) and the code goes on to bind the
    parameter to it as well (559). *)
Fixpoint ubind1 (ps : signature) (args : list V) (kw : kwdict)
  : outcome (bindings * signature * list V * signature) :=
  match ps with
  | [] => Ok ([], [], args, [])
  | p :: ps' =>
      match args with
      | [] =>
          if kind_eqb (p_kind p) VarPos then Ok ([], [], [], ps')
          else if khas kw (p_name p) then
            if kind_eqb (p_kind p) PosOnly then Raise TypeError else Ok ([], [], [], p :: ps')
          else if kind_eqb (p_kind p) VarKw || has_default p then Ok ([], [], [], p :: ps')
          else do (b, u, e, r) <- ubind1 ps' [] kw; Ok (b, p :: u, e, r)
      | a :: args' =>
          let extra :=
            if kind_eqb (p_kind p) VarKw || kind_eqb (p_kind p) KwOnly then [a] else [] in
          if kind_eqb (p_kind p) VarPos then Ok ([(p_name p, BTup (a :: args'))], [], [], ps')
          else if khas kw (p_name p) && negb (kind_eqb (p_kind p) PosOnly) then Raise TypeError
          else do (b, u, e, r) <- ubind1 ps' args' kw;
               Ok ((p_name p, BV a) :: b, u, extra ++ e, r)
      end
  end.
(** Second loop, arity.py 561-600 *)
Fixpoint ubind2 (ps : signature) (kw : kwdict)
  : outcome (bindings * signature * option pname * kwdict) :=
  match ps with
  | [] => Ok ([], [], None, kw)
  | p :: ps' =>
      if kind_eqb (p_kind p) VarKw then
        do (b, u, kp, kw') <- ubind2 ps' kw;
        Ok (b, u, match kp with None => Some (p_name p) | Some q => Some q end, kw')
      else if kind_eqb (p_kind p) VarPos then ubind2 ps' kw
      else match kget kw (p_name p) with
           | None =>
               do (b, u, kp, kw') <- ubind2 ps' kw;
               Ok (b, (if has_default p then u else p :: u), kp, kw')
           | Some v =>
               if kind_eqb (p_kind p) PosOnly then Raise TypeError
               else do (b, u, kp, kw') <- ubind2 ps' (kdel kw (p_name p));
                    Ok ((p_name p, BV v) :: b, u, kp, kw')
           end
  end.
(** What _bind reports, the bindings, and what is missing or too much: arity.py 472-614 *)
Record analysis := mkanalysis {
  bound_arguments : bindings;
  unbound_parameters : signature;
  extra_args : list V;
  extra_kwargs : kwdict }.
(** arity.py 602-614 *)
Definition ubind (ps : signature) (args : list V) (kw : kwdict) : outcome analysis :=
  do (b1, u1, e, rest) <- ubind1 ps args kw;
  do (b2, u2, kp, kw') <- ubind2 rest kw;
  match kw' with
  | [] => Ok (mkanalysis (b1 ++ b2) (u1 ++ u2) e [])
  | _ :: _ => match kp with
              | Some n => Ok (mkanalysis (b1 ++ b2 ++ [(n, BDict kw')]) (u1 ++ u2) e [])
              | None => Ok (mkanalysis (b1 ++ b2) (u1 ++ u2) e kw')
              end
  end.

(** *** arities: arity.py 205-277.  [None] as upper end stands for the float infinity.
    Builtins in the table [_builtin_arities] and uninspectable callables are not modelled. *)
Definition is_pos (p : param) : bool :=
  kind_eqb (p_kind p) PosOnly || kind_eqb (p_kind p) PosOrKw.
(** The range of the number of arguments, as arities returns it: arity.py 205-277 *)
Definition zarity : Type := Z * option Z.
(** The loop over the parameters in arities: arity.py 205-277 *)
Definition arity_step (lu : zarity) (p : param) : zarity :=
  let '(lower, upper) := lu in
  if is_pos p then
    (if has_default p then lower else (lower + 1)%Z,
     option_map (fun u => (u + 1)%Z) upper)
  else if kind_eqb (p_kind p) VarPos then (lower, None)
  else (lower, upper).
(** [bound_self]: [f] is a bound instance method or a classmethod; [ps] is the signature of
    the raw function, including self or cls. *)
Definition arities (bound_self : bool) (ps : signature) : zarity :=
  let '(lower, upper) := fold_left arity_step ps (0%Z, Some 0%Z) in
  if bound_self then ((lower - 1)%Z, option_map (fun u => (u - 1)%Z) upper)
  else (lower, upper).
(** generic functions: arity.py 249-258; [None] as lower end stands for infinity (no
    multimethods) *)
Definition omin (a : option Z) (b : Z) : Z :=
  match a with None => b | Some x => if (b <? x)%Z then b else x end.
(** max of upper ends, [None] being infinite: arity.py 249-258 *)
Definition omax (a : option Z) (b : option Z) : option Z :=
  match a, b with
  | None, _ => None
  | _, None => None
  | Some x, Some y => if (x <? y)%Z then Some y else Some x
  end.
(** arities of a generic function: arity.py 249-258 *)
Definition generic_arities (bound_self : bool) (methods : list signature) : option Z * option Z :=
  fold_left (fun lu ps =>
               let '(l, u) := lu in
               let '(lower, upper) := arities bound_self ps in
               (Some (omin l lower), omax u upper))
            methods (None, Some 0%Z).
(** arity_includes: arity.py 334-340 *)
Definition arity_includes (bound_self : bool) (ps : signature) (n : Z) : bool :=
  let '(lower, upper) := arities bound_self ps in
  (lower <=? n)%Z && match upper with None => true | Some u => (n <=? u)%Z end.
(** arity_includes of a generic function: arity.py 334-340 with 249-258 *)
Definition generic_arity_includes (bound_self : bool) (methods : list signature) (n : Z) : bool :=
  let '(lower, upper) := generic_arities bound_self methods in
  match lower with None => false | Some l => (l <=? n)%Z end
  && match upper with None => true | Some u => (n <=? u)%Z end.
(** required_kwargs and optional_kwargs of a plain function: arity.py 279-301, 314-322; a
    set comprehension, as a duplicate-free list because the names are distinct *)
Definition kwargs_of (optionals : bool) (ps : signature) : list pname :=
  map p_name (filter (fun p => kind_eqb (p_kind p) KwOnly &&
                               (if optionals then has_default p else negb (has_default p))) ps).
(** The same for a generic function: arity.py 307-312.  The accumulator is an (empty) dict,
    and [dict.update] of a set of strings takes each string apart as a (key, value) pair. *)
Definition dict_update_from_strings (d : dict string string) (names : list pname)
  : outcome (dict string string) :=
  fold_left (fun acc n =>
               do d' <- acc;
               match n with
               | String a (String b EmptyString) =>
                   Ok (dict_set String.eqb d' (String a EmptyString) (String b EmptyString))
               | _ => Raise ValueError
               end) names (Ok d).
(** required_kwargs and optional_kwargs of a generic function: arity.py 307-312 *)
Definition generic_kwargs (optionals : bool) (methods : list signature)
  : outcome (dict string string) :=
  fold_left (fun acc ps => do d <- acc; dict_update_from_strings d (kwargs_of optionals ps))
            methods (Ok []).
End Bind.
Arguments param : clear implicits.
Arguments signature : clear implicits.
Arguments bval : clear implicits.
Arguments bindings : clear implicits.
Arguments tval : clear implicits.
Arguments analysis : clear implicits.
