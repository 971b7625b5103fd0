(** Model of the decorators dlet, dletrec, blet and bletrec (unpythonic/let.py 257-274, lispylet.py 253-268): programs
    that define functions with them, call the functions, also from one another, and use the env in the bodies. *)
From Coq Require Import String List Bool Arith.
From Verif Require Import Base CollModel EnvModel.
Import ListNotations.
Open Scope string_scope.
Open Scope list_scope.

Section Dlet.
Context {V : Type}.
Variable isid : name -> bool.
Variable de : envst V -> name -> V -> envst V.

(** What a body does.  The env is the one that the body gets as its argument [_envname]; it does not leave the body. *)
Inductive prog :=
| Done (r : outcome V)
| UseEnv (o : eop V) (k : outcome (@res V) -> prog)
(** @dlet(...) def ...: [lispy]: of lispylet.py; the rest of the program gets the function *)
| DefD (lispy letrec : bool) (envname : name) (bs : list (name * init V)) (b : list V -> list (name * V) -> prog) (k : outcome nat -> prog)
| CallD (f : nat) (args : list V) (kws : list (name * V)) (k : outcome V -> prog)
(** @blet(...) def ...: ... *)
| DefB (lispy letrec : bool) (envname : name) (bs : list (name * init V)) (b : list V -> list (name * V) -> prog) (k : outcome V -> prog).
(** A decorated function: the env made when it was decorated, the name of the argument, and the body *)
Record dfun := mkD { dname : name; denv : nat; dbody : list V -> list (name * V) -> prog }.
(** For the statements: what happened to the env of which function *)
Inductive event := Defined (lispy letrec : bool) (bs : list (name * init V)) | Did (f : nat) (o : eop V) (r : outcome (@res V)).
(** The envs made so far, the decorated functions, and what happened. *)
Record st := mkst { envs : list (envst V); dfuns : list dfun; events : list event }.
(** Before the first decorator. *)
Definition st0 : st := mkst [] [] [].

(** An argument given by name: a value, or an env *)
Inductive arg := AVal (v : V) | AEnv (i : nat).
(** let.py 255-268, lispylet.py 254-262 *)
Definition decorate (lispy letrec : bool) (envname : name) (bs : list (name * init V)) (b : list V -> list (name * V) -> prog) (s : st) : outcome nat * st :=
  match (if lispy then lispylet isid de letrec None bs NoBody else let_ isid de letrec bs NoBody) with
  | Ok (LEnv e) =>
      (Ok (length (dfuns s)),
       mkst (envs s ++ [e]) (dfuns s ++ [mkD envname (length (envs s)) b]) (events s ++ [Defined lispy letrec bs]))
  | Ok (LVal _) => (Raise RuntimeError, s)
  | Raise x => (Raise x, s)
  end.
(** let.py 263-266, lispylet.py 257-260: what the body gets *)
Definition withenv (d : dfun) (kws : list (name * V)) : list (name * arg) :=
  dict_set String.eqb (map (fun kw => (fst kw, AVal (snd kw))) kws) (dname d) (AEnv (denv d)).
(** how the body, def f(..., *, env, ...), sees it: its env, and the other arguments *)
Definition its_env (n : name) (kws : list (name * arg)) : option nat :=
  match dict_get String.eqb kws n with Some (AEnv i) => Some i | _ => None end.
(** The named arguments other than env: let.py 257-268 *)
Definition its_others (n : name) (kws : list (name * arg)) : list (name * V) :=
  flat_map (fun kw => match snd kw with AVal v => if String.eqb (fst kw) n then [] else [(fst kw, v)] | AEnv _ => [] end) kws.

Section Calls.
Variable calls : nat -> list V -> list (name * V) -> st -> option (outcome V * st).
(** [me]: the function whose body it is, and its env; None at top level *)
Fixpoint exec (me : option (nat * nat)) (p : prog) (s : st) {struct p} : option (outcome V * st) :=
  match p with
  | Done r => Some (r, s)
  | UseEnv o k =>
      match me with
      | None => exec me (k (Raise NameError)) s
      | Some (f, i) =>
          match nth_error (envs s) i with
          | None => exec me (k (Raise NameError)) s
          | Some e =>
              let (r, e') := env_step isid de e o in
              exec me (k r) (mkst (upd (envs s) i e') (dfuns s) (events s ++ [Did f o r]))
          end
      end
  | DefD lispy letrec n bs b k => let (r, s) := decorate lispy letrec n bs b s in exec me (k r) s
  | CallD f args kws k =>
      match calls f args kws s with
      | Some (r, s) => exec me (k r) s
      | None => None
      end
  | DefB lispy letrec n bs b k =>                          (* let.py 270-274, lispylet.py 264-268 *)
      match decorate lispy letrec n bs b s with
      | (Ok f, s) => match calls f [] [] s with Some (r, s) => exec me (k r) s | None => None end
      | (Raise x, s) => exec me (k (Raise x)) s
      end
  end.
End Calls.
(** [fuel]: how many calls may be nested *)
Fixpoint calls (fuel : nat) (f : nat) (args : list V) (kws : list (name * V)) (s : st) : option (outcome V * st) :=
  match fuel with
  | 0 => None
  | S fuel =>
      match nth_error (dfuns s) f with
      | None => Some (Raise NameError, s)
      | Some d =>
          let kws := withenv d kws in
          match its_env (dname d) kws with
          | Some i => exec (calls fuel) (Some (f, i)) (dbody d args (its_others (dname d) kws)) s
          | None => Some (Raise TypeError, s)
          end
      end
  end.
(** A program from the start. *)
Definition run (fuel : nat) (p : prog) : option (outcome V * st) := exec (calls fuel) None p st0.
End Dlet.
Arguments prog : clear implicits.
Arguments dfun : clear implicits.
Arguments event : clear implicits.
Arguments st : clear implicits.
