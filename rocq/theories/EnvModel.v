(** Model of env (unpythonic/env.py), assignonce (assignonce.py), let and letrec (let.py and
    lispylet.py), do, do0, begin and friends (seq.py). *)
From Coq Require Import List Bool String.
From Verif Require Import Base CollModel.
Import ListNotations.
Open Scope string_scope.

(** Names. *)
Definition name := string.
(** env.py 54-56 *)
Definition direct_write : list name := ["_env"; "_finalized"].
(** _reserved_names: env.py 54-56 *)
Definition reserved_names : list name :=
  ["set"; "clear"; "finalize"; "_env"; "_finalized"; "_direct_write"; "_reserved_names"].
(** What ordinary attribute lookup finds on an instance before [__getattr__] is tried: its
    two instance attributes, the attributes of class env, and those of object. *)
Definition class_attrs : list name :=
  direct_write ++
  ["_reserved_names"; "_direct_write"; "items"; "keys"; "values"; "get"; "pop"; "popitem"; "clear";
   "update"; "setdefault"; "set"; "_set"; "finalize"; "_passthrough_lazy_args";
   "__new__"; "__init__"; "__setattr__"; "__getattr__"; "__delattr__"; "__contains__"; "__iter__";
   "__eq__"; "__len__"; "__getitem__"; "__setitem__"; "__delitem__"; "__enter__"; "__exit__";
   "__repr__"; "__lshift__"; "__module__"; "__doc__"; "__dict__"; "__weakref__"; "__hash__";
   "__class__"; "__dir__"; "__format__"; "__ge__"; "__getattribute__"; "__gt__";
   "__init_subclass__"; "__le__"; "__lt__"; "__ne__"; "__reduce__"; "__reduce_ex__";
   "__sizeof__"; "__str__"; "__subclasshook__"; "__getstate__"].
(** [n in l]. *)
Definition mem (n : name) (l : list name) : bool := existsb (String.eqb n) l.

Section Env.
Context {V : Type}.
(** str.isidentifier *)
Variable isid : name -> bool.

(** An env: its bindings (env.py, self._env) and whether it is finalized (self._finalized). *)
Record envst := mkenv { binds : dict name V; finalized : bool }.
(** A new env without bindings (env.py, env.__init__). *)
Definition env0 : envst := mkenv [] false.
(** `name in env` (env.py, __contains__). *)
Definition has (e : envst) (n : name) : bool :=
  match dict_get String.eqb (binds e) n with Some _ => true | None => false end.
(** The bindings of an env, replaced. *)
Definition with_binds (e : envst) (d : dict name V) : envst := mkenv d (finalized e).

(** The effect of writing _env or _finalized from outside (env.py 75-77: not protected) is
    left open. *)
Variable direct_effect : envst -> name -> V -> envst.

(** Results of operations: None, a value, an attribute of the class, an item, self. *)
Inductive res := RNone | RVal (v : V) | RAttr (n : name) | RItem (n : name) (v : V) | RBool (b : bool).
(** The result of an operation, and the env after it. *)
Definition result : Type := outcome res * envst.

(** env.py 74-86 *)
Definition env_setattr (e : envst) (n : name) (v : V) : result :=
  if mem n direct_write then (Ok RNone, direct_effect e n v)
  else if mem n reserved_names then (Raise AttributeError, e)
  else if finalized e && negb (has e n) then (Raise AttributeError, e)
  else if negb (isid n) then (Raise ValueError, e)
  else (Ok RNone, with_binds e (dict_set String.eqb (binds e) n v)).
(** Attribute access: the class first; then env.py 88-95. *)
Definition env_getattr (e : envst) (n : name) : outcome res :=
  if mem n class_attrs then Ok (RAttr n)
  else if negb (isid n) then Raise ValueError
  else match dict_get String.eqb (binds e) n with
       | Some v => Ok (RVal v)
       | None => Raise AttributeError
       end.
(** env.py 97-105 *)
Definition env_delattr (e : envst) (n : name) : result :=
  if negb (isid n) then (Raise ValueError, e)
  else if finalized e then (Raise TypeError, e)
  else if negb (has e n) then (Raise AttributeError, e)
  else (Ok RNone, with_binds e (dict_del String.eqb (binds e) n)).
(** env.py 133-136 *)
Definition env_pop (e : envst) (n : name) (default : option V) : result :=
  if finalized e then (Raise TypeError, e)
  else match dict_get String.eqb (binds e) n, default with
       | Some v, _ => (Ok (RVal v), with_binds e (dict_del String.eqb (binds e) n))
       | None, Some d => (Ok (RVal d), e)
       | None, None => (Raise KeyError, e)
       end.
(** env.py 137-140; dict.popitem removes the last item *)
Definition env_popitem (e : envst) : result :=
  if finalized e then (Raise TypeError, e)
  else match rev (binds e) with
       | [] => (Raise KeyError, e)
       | (n, v) :: r => (Ok (RItem n v), with_binds e (rev r))
       end.
(** env.py 141-144 *)
Definition env_clear (e : envst) : result :=
  if finalized e then (Raise TypeError, e) else (Ok RNone, with_binds e []).
(** env.py 145-155.  The positional argument: a mapping, or an iterable of pairs (iterating
    over which gives pairs, which are not names of the env). *)
Inductive umap := UMapping (d : dict name V) | UPairs (l : list (name * V)).
(** The pairs that the positional argument of update gives: env.py 145-155 *)
Definition pairs_of (m : umap) : list (name * V) := match m with UMapping d => d | UPairs l => l end.
(** Whether update would make new names: env.py 145-155 *)
Definition has_new (e : envst) (m : umap) : bool :=
  match m with
  | UMapping d => existsb (fun kv => negb (has e (fst kv))) d
  | UPairs l => match l with [] => false | _ => true end
  end.
(** update: env.py 145-155 *)
Definition env_update (e : envst) (ms : list umap) (b : dict name V) : result :=
  match ms with
  | _ :: _ :: _ => (Raise ValueError, e)
  | _ =>
      if existsb (fun m => finalized e && has_new e m) ms then (Raise AttributeError, e)
      else if finalized e && has_new e (UMapping b) then (Raise AttributeError, e)
      else (Ok RNone, with_binds e (dict_update String.eqb (dict_update String.eqb (binds e) (flat_map pairs_of ms)) b))
  end.
(** env.py 156-159; [none] is the value used when no default is given *)
Definition env_setdefault (e : envst) (n : name) (d : V) : result :=
  if finalized e && negb (has e n) then (Raise AttributeError, e)
  else match dict_get String.eqb (binds e) n with
       | Some v => (Ok (RVal v), e)
       | None => (Ok (RVal d), with_binds e (dict_set String.eqb (binds e) n d))
       end.
(** env.py 185-199; also [e << (n, v)], 201-211 *)
Definition env_set (e : envst) (n : name) (v : V) : result :=
  if negb (has e n) then (Raise AttributeError, e)
  else match env_setattr e n v with
       | (Ok _, e') => (Ok (RVal v), e')
       | (Raise x, e') => (Raise x, e')
       end.

(** assignonce.py 26-30 *)
Definition once_setattr (e : envst) (n : name) (v : V) : result :=
  if mem n reserved_names || negb (has e n) then env_setattr e n v
  else (Raise AttributeError, e).
(** assignonce.py 32-39 *)
Definition once_set (e : envst) (n : name) (v : V) : result :=
  if negb (has e n) then (Raise AttributeError, e)
  else match env_setattr e n v with
       | (Ok _, e') => (Ok (RVal v), e')
       | (Raise x, e') => (Raise x, e')
       end.

(** What can be done to an env. *)
Inductive eop :=
| ESetattr (n : name) (v : V)   (* e.n = v, e[n] = v *)
| EGet (n : name)               (* e.n, e[n] *)
| EGetDefault (n : name) (d : V)(* e.get(n, d) *)
| EContains (n : name)
| EDel (n : name)               (* del e.n, del e[n] *)
| EPop (n : name) (d : option V)
| EPopitem
| EClear
| EUpdate (ms : list umap) (b : dict name V)
| ESetdefault (n : name) (d : V)
| ESet (n : name) (v : V)       (* e.set(n, v), e << (n, v) *)
| EFinalize
| EExit.                        (* leaving a with block, 175-176 *)
Definition step_gen (sa st : envst -> name -> V -> result) (e : envst) (o : eop) : result :=
  match o with
  | ESetattr n v => sa e n v
  | EGet n => (env_getattr e n, e)
  | EGetDefault n d => (if has e n then env_getattr e n else Ok (RVal d), e)  (* 124-125 *)
  | EContains n => (Ok (RBool (has e n)), e)
  | EDel n => env_delattr e n
  | EPop n d => env_pop e n d
  | EPopitem => env_popitem e
  | EClear => env_clear e
  | EUpdate ms b => env_update e ms b
  | ESetdefault n d => env_setdefault e n d
  | ESet n v => st e n v
  | EFinalize => (Ok RNone, mkenv (binds e) true)
  | EExit => (Ok RNone, with_binds e [])
  end.
(** One operation on an env object: env.py 12-222 *)
Definition env_step : envst -> eop -> result := step_gen env_setattr env_set.
(** One operation on an assignonce object: assignonce.py 8-39 *)
Definition once_step : envst -> eop -> result := step_gen once_setattr once_set.
(** a program that catches every exception *)
Definition run_ops (step : envst -> eop -> result) (e : envst) (os : list eop) : envst :=
  fold_left (fun e o => snd (step e o)) os e.

(** env.py 67-69 *)
Fixpoint env_init (sa : envst -> name -> V -> result) (e : envst) (b : list (name * V)) : outcome envst :=
  match b with
  | [] => Ok e
  | (n, v) :: b' => match sa e n v with
                    | (Ok _, e') => env_init sa e' b'
                    | (Raise x, _) => Raise x
                    end
  end.
(** env.py 60-65: [__new__] calls [__init__], and then the class call does so again *)
Definition construct (sa : envst -> name -> V -> result) (b : list (name * V)) : outcome envst :=
  do e <- env_init sa env0 b ; env_init sa e b.

(** ** let, letrec.  A value: the object, and if it is callable, whether it accepts one
    argument, and what calling it on an env does. *)
Definition fn : Type := envst -> outcome V * envst.
(** An initializer of let or an item of do: an object, and, if it is callable, whether it takes an env, and what it does. *)
Record init := mkinit { obj : V; callable : option (bool * fn) }.
(** The body of let: let.py 215-253 *)
Inductive body := NoBody | Body (b : init).
(** What let gives: the env, if there is no body, or the value of the body: let.py 215-253 *)
Inductive letres := LEnv (e : envst) | LVal (v : V).

(** The value of a binding: itself, or in letrec the call of it with the env (let.py and lispylet.py, as cited at the let functions below). *)
Definition init_value (letrec : bool) (e : envst) (i : init) : outcome V * envst :=
  match letrec, callable i with
  | true, Some (ar, f) => if ar then f e else (Raise TypeError, e)
  | _, _ => (Ok (obj i), e)
  end.
(** [e[k] = v] *)
Definition setitem (e : envst) (k : name) (v : V) : outcome envst :=
  match env_setattr e k v with (Ok _, e') => Ok e' | (Raise x, _) => Raise x end.
(** The body of let: let.py 215-253 *)
Definition run_body (e : envst) (b : body) : outcome letres :=
  match b with
  | NoBody => Ok (LEnv e)
  | Body i => match callable i with
              | Some (true, f) => match fst (f e) with Ok v => Ok (LVal v) | Raise x => Raise x end
              | _ => Raise TypeError
              end
  end.
(** finalize: env.py 213-222 *)
Definition finalize (e : envst) : envst := mkenv (binds e) true.
(** let.py 229-242 *)
Fixpoint let_loop (letrec : bool) (e : envst) (bs : list (name * init)) : outcome envst :=
  match bs with
  | [] => Ok e
  | (k, i) :: bs' =>
      if has e k then Raise AttributeError
      else match init_value letrec e i with
           | (Raise x, _) => Raise x
           | (Ok v, e1) => do e2 <- setitem e1 k v ; let_loop letrec e2 bs'
           end
  end.
(** let.py 215-253 *)
Definition let_ (letrec : bool) (bs : list (name * init)) (b : body) : outcome letres :=
  do e <- let_loop letrec env0 bs ; run_body (finalize e) b.
(** lispylet.py 221-250; [env or _envcls()] makes a new env when the given one is empty *)
Fixpoint lispylet (letrec : bool) (env : option envst) (bs : list (name * init)) (b : body) : outcome letres :=
  let e := match env with
           | Some e => match binds e with [] => env0 | _ => e end
           | None => env0
           end in
  match bs with
  | [] => run_body (finalize e) b
  | (k, i) :: more =>
      if has e k then Raise AttributeError
      else match init_value letrec e i with
           | (Raise x, _) => Raise x
           | (Ok v, e1) => do e2 <- setitem e1 k v ; lispylet letrec (Some e2) more b
           end
  end.

(** ** do, do0: seq.py 511-592 and 594-618 *)
Inductive item := Assign (k : name) (i : init) | Item (i : init).
(** An item is called if it is callable: seq.py 511-592 *)
Definition maybe_call (e : envst) (i : init) : outcome V * envst :=
  match callable i with
  | Some (true, f) => f e
  | Some (false, _) => (Raise ValueError, e)
  | None => (Ok (obj i), e)
  end.
(** One item of do: seq.py 511-592 *)
Definition do_item (e : envst) (it : item) : outcome V * envst :=
  match it with
  | Item i => maybe_call e i
  | Assign k i => match maybe_call e i with
                  | (Ok v, e1) => match setitem e1 k v with
                                  | Ok e2 => (Ok v, e2)
                                  | Raise x => (Raise x, e1)
                                  end
                  | r => r
                  end
  end.
(** [last] is the variable [item] *)
Fixpoint do_loop (e : envst) (last : option V) (its : list item) : outcome V * envst :=
  match its with
  | [] => (match last with Some v => Ok v | None => Raise UnboundLocalError end, e)
  | it :: its' => match do_item e it with
                  | (Ok v, e1) => do_loop e1 (Some v) its'
                  | (Raise x, e1) => (Raise x, e1)
                  end
  end.
(** do: seq.py 511-592 *)
Definition do_ (its : list item) : outcome V * envst := do_loop env0 None its.
(** reading [e[k]], [e.k]; [attr n] is the attribute [n] of the class as a value *)
Variable attr : name -> V.
Definition read (k : name) : fn := fun e =>
  (match env_getattr e k with Ok (RVal v) => Ok v | Ok _ => Ok (attr k) | Raise x => Raise x end, e).
(** The name that do0 uses: seq.py 594-618 *)
Definition do0_key : name := "_do0_result".
(** do0: seq.py 594-618 *)
Definition do0_ (lam : V) (its : list item) : outcome V * envst :=
  match its with
  | [] => (Raise ValueError, env0)
  | first :: rest =>
      let head := match first with
                  | Assign k i => [first; Assign do0_key (mkinit lam (Some (true, read k)))]
                  | Item i => [Assign do0_key i]
                  end in
      do_ (head ++ rest ++ [Item (mkinit lam (Some (true, read do0_key)))])
  end.
End Env.
Arguments envst : clear implicits.
Arguments eop : clear implicits.
Arguments init : clear implicits.
Arguments item : clear implicits.
Arguments fn : clear implicits.

(** ** begin, begin0 (seq.py 21-49), lazy_begin, lazy_begin0 (51-100): bodies act on a state *)
Section Begin.
Context {V S : Type}.
(** seq.py 21-34. *)
Definition begin (none : V) (vals : list V) : V := match vals with [] => none | _ => last vals none end.
(** seq.py 36-49. *)
Definition begin0 (none : V) (vals : list V) : V := match vals with [] => none | v :: _ => v end.
(** The bodies of lazy_begin: functions without arguments. *)
Definition bodyfn : Type := S -> outcome V * S.
(** The loop that calls bodies for their effects (seq.py 51-100). *)
Fixpoint run_all (s : S) (bs : list bodyfn) : outcome unit * S :=
  match bs with
  | [] => (Ok tt, s)
  | b :: bs' => match b s with (Ok _, s1) => run_all s1 bs' | (Raise x, s1) => (Raise x, s1) end
  end.
(** seq.py 51-74. *)
Definition lazy_begin (none : V) (s : S) (bs : list bodyfn) : outcome V * S :=
  match bs with
  | [] => (Ok none, s)
  | [b] => b s
  | b0 :: _ => match run_all s (removelast bs) with
         | (Ok _, s1) => (last bs b0) s1
         | (Raise x, s1) => (Raise x, s1)
         end
  end.
(** seq.py 76-100. *)
Definition lazy_begin0 (none : V) (s : S) (bs : list bodyfn) : outcome V * S :=
  match bs with
  | [] => (Ok none, s)
  | [b] => b s
  | first :: rest => match first s with
                     | (Raise x, s1) => (Raise x, s1)
                     | (Ok out, s1) => match run_all s1 rest with
                                       | (Ok _, s2) => (Ok out, s2)
                                       | (Raise x, s2) => (Raise x, s2)
                                       end
                     end
  end.
End Begin.
