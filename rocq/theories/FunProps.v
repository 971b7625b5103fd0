(** C48-C51: composition and pipes, Values, argument rearrangers, logic *)
From Coq Require Import String List Bool ZArith.
From Verif Require Import Base CollModel BindModel FunModel FunSpec FunProofs FunArgProofs.
Import ListNotations.
Open Scope string_scope.
Open Scope nat_scope.
Open Scope list_scope.

(** ** C48.  [chain ctx f fs args kw s] calls [f] with the arguments, and each of [fs] on the
    result of the one before, from the state [s]. *)
(** composel of functions that are not curried.  (A composition of a single function sets an
    attribute on it, which built-in functions do not accept.) *)
Theorem C48_composel : forall (D S : Type) (f : func D S) fs,
  has_dict f = true \/ fs <> [] -> Forall plain (f :: fs) ->
  exists c, composel (f :: fs) = Ok c /\ plain c /\
    forall ctx args kw s, code c ctx args kw s = chain ctx f fs args kw s.
Proof. exact @composel_ok. Qed.
Print Assumptions C48_composel.
Theorem C48_composer : forall (D S : Type) (f : func D S) fs,
  has_dict f = true \/ fs <> [] -> Forall plain (f :: fs) ->
  exists c, composer (rev (f :: fs)) = Ok c /\ plain c /\
    forall ctx args kw s, code c ctx args kw s = chain ctx f fs args kw s.
Proof. exact @composer_ok. Qed.
Print Assumptions C48_composer.
(** Composition is associative. *)
Theorem C48_assoc : forall (D S : Type) (f : func D S) fs g gs cf cg,
  Forall plain (f :: fs ++ g :: gs) ->
  composel (f :: fs) = Ok cf -> composel (g :: gs) = Ok cg ->
  exists whole pair, composel (f :: fs ++ g :: gs) = Ok whole /\ composel [cf; cg] = Ok pair /\
    same whole pair.
Proof. exact @composel_assoc. Qed.
Print Assumptions C48_assoc.
(** The pipes compute the same; at the exit, a Values with one value is replaced by it. *)
Theorem C48_pipe : forall (D S : Type) ctx (f : func D S) fs args kw s,
  Forall plain (f :: fs) ->
  pipe ctx (Vals args kw) (f :: fs) s = at_exit (chain ctx f fs args kw s).
Proof. exact @pipe_ok. Qed.
Print Assumptions C48_pipe.
Theorem C48_piped : forall (D S : Type) ctx (h : heap D S) i f fs args kw s,
  nth_error h i = Some (Piped (Vals args kw)) ->
  exists h', por_chain ctx h i (f :: fs) s =
    let '(r, s') := at_exit (chain ctx f fs args kw s) in Some (h', s', omap Value r).
Proof. exact @piped_ok. Qed.
Print Assumptions C48_piped.
Theorem C48_lazy_piped : forall (D S : Type) ctx (h : heap D S) i f fs args kw s,
  nth_error h i = Some (LazyPiped (Vals args kw) []) ->
  exists h', por_chain ctx h i (f :: fs) s =
    let '(r, s') := at_exit (chain ctx f fs args kw s) in Some (h', s', omap Value r).
Proof. exact @lazy_piped_ok. Qed.
Print Assumptions C48_lazy_piped.
(** Piping into a function or out of the pipe changes no existing pipe. *)
Theorem C48_persistent : forall (D S : Type) ctx (h : heap D S) i op s h' s' r,
  por ctx h i op s = Some (h', s', r) ->
  forall j p, nth_error h j = Some p -> nth_error h' j = Some p.
Proof. exact @por_keeps. Qed.
Print Assumptions C48_persistent.
(** The one-argument versions *)
Theorem C48_composel1 : forall (D S : Type) (f : func D S) fs,
  has_dict f = true \/ fs <> [] ->
  exists c, composel1 (f :: fs) = Ok c /\
    forall ctx x s, code c ctx [x] [] s = chain1 ctx (f :: fs) x s.
Proof. exact @composel1_ok. Qed.
Print Assumptions C48_composel1.
Theorem C48_composer1 : forall (D S : Type) (f : func D S) fs,
  has_dict f = true \/ fs <> [] ->
  exists c, composer1 (rev (f :: fs)) = Ok c /\
    forall ctx x s, code c ctx [x] [] s = chain1 ctx (f :: fs) x s.
Proof. exact @composer1_ok. Qed.
Print Assumptions C48_composer1.
(** Called in any other way than with one argument, by position or as [x], a composition of two or more is a
    TypeError and none of the functions is called. *)
Theorem C48_compose1_arity : forall (D S : Type) (f : func D S) fs c ctx args kw s, fs <> [] ->
  composel1 (f :: fs) = Ok c \/ composer1 (f :: fs) = Ok c ->
  (forall x, (args, kw) <> ([x], [])) -> (forall x, (args, kw) <> ([], [("x"%string, x)])) ->
  code c ctx args kw s = (Raise TypeError, s).
Proof. exact @compose1_arity. Qed.
Print Assumptions C48_compose1_arity.
Theorem C48_compose1_named : forall (D S : Type) (f : func D S) fs c ctx x s, fs <> [] ->
  composel1 (f :: fs) = Ok c \/ composer1 (f :: fs) = Ok c ->
  code c ctx [] [("x"%string, x)] s = code c ctx [x] [] s.
Proof. exact @compose1_named. Qed.
Print Assumptions C48_compose1_named.
Theorem C48_pipe1 : forall (D S : Type) ctx (fs : list (func D S)) x s,
  pipe1 ctx x fs s = chain1 ctx fs x s.
Proof. exact @pipe1_ok. Qed.
Print Assumptions C48_pipe1.
Theorem C48_piped1 : forall (D S : Type) ctx (fs : list (func D S)) h i x s,
  nth_error h i = Some (Piped1 x) ->
  exists h', por_chain ctx h i fs s =
    let '(r, s') := chain1 ctx fs x s in Some (h', s', omap Value r).
Proof. exact @piped1_ok. Qed.
Print Assumptions C48_piped1.
Theorem C48_lazy_piped1 : forall (D S : Type) ctx (fs : list (func D S)) h i x s,
  nth_error h i = Some (LazyPiped1 x []) ->
  exists h', por_chain ctx h i fs s =
    let '(r, s') := chain1 ctx fs x s in Some (h', s', omap Value r).
Proof. exact @lazy_piped1_ok. Qed.
Print Assumptions C48_lazy_piped1.
(** For curried functions, pipec and composelc agree. *)
Theorem C48_curried : forall (D S : Type) (f : func D S) fs,
  has_dict f = true \/ fs <> [] ->
  Forall (fun g => curried g = true /\ ctx_blind g) (f :: fs) ->
  exists c, composel (f :: fs) = Ok c /\ forall ctx args kw s,
    pipe ctx (Vals args kw) (f :: fs) s = at_exit (code c ctx args kw s).
Proof. exact @curried_ok. Qed.
Print Assumptions C48_curried.

(** Functions for the examples; the state is the list of calls so far.  [add] takes two
    numbers, [inc] increments one, [cadd] and [cinc] are their curried versions (with surplus
    arguments, [cinc] follows C47). *)
Definition num (v : val Z) : Z := match v with Obj z => z | Vals _ _ => 0%Z end.
Definition fadd (c : bool) : func Z (list nat) := mkfunc c true (fun ctx args kw s =>
  match args, kw with [x; y], [] => (Ok (Obj (num x + num y)%Z), s ++ [2]) | _, _ => (Raise TypeError, s) end).
Definition inc : func Z (list nat) := mkfunc false true (fun ctx args kw s =>
  match args, kw with [x], [] => (Ok (Obj (num x + 1)%Z), s ++ [1]) | _, _ => (Raise TypeError, s) end).
Definition cinc : func Z (list nat) := mkfunc true true (fun ctx args kw s =>
  match args, kw with
  | [x], [] => (Ok (Obj (num x + 1)%Z), s ++ [1])
  | x :: more, [] => (match ctx with O => Raise TypeError | _ => Ok (Vals (Obj (num x + 1)%Z :: more) []) end, s ++ [1])
  | _, _ => (Raise TypeError, s)
  end).
(** lambda x: Values(x, x) and lambda x: Values(x) *)
Definition dup : func Z (list nat) := mkfunc false true (fun ctx args kw s =>
  match args, kw with [x], [] => (Ok (Vals [x; x] []), s) | _, _ => (Raise TypeError, s) end).
Definition wrap : func Z (list nat) := mkfunc false true (fun ctx args kw s =>
  match args, kw with [x], [] => (Ok (Vals [x] []), s) | _, _ => (Raise TypeError, s) end).
Example C48_compose1_arity_case : exists c, composel1 [inc; inc; inc] = Ok c /\
  code c 0 [Obj 4%Z; Obj 4%Z] [] [] = (Raise TypeError, []) /\ code c 0 [] [("x"%string, Obj 4%Z)] [] = (Ok (Obj 7%Z), [1; 1; 1]).
Proof. eexists. split; [reflexivity|]. split; reflexivity. Qed.
Example C48_case :
  Forall plain [inc; dup; fadd false] /\
  chain 0 inc [dup; fadd false] [Obj 4%Z] [] [] = (Ok (Obj 10%Z), [1; 2]) /\
  pipe 0 (Vals [Obj 4%Z] []) [inc; dup; fadd false] [] = (Ok (Obj 10%Z), [1; 2]) /\
  Forall (fun g => curried g = true /\ ctx_blind g) [cinc; cinc; fadd true] /\
  pipe 0 (Vals [Obj 4%Z; Obj 5%Z] []) [cinc; cinc; fadd true] [] = (Ok (Obj 11%Z), [1; 1; 2]).
Proof.
  split; [repeat constructor|]. split; [reflexivity|]. split; [reflexivity|]. split; [|reflexivity].
  repeat constructor; intros c c' args kw s; destruct args as [|x [|y l]], kw; reflexivity.
Qed.

(** Refuted: composition and pipes agree on all functions.  (1) A Values with one value is
    unwrapped by a pipe but not by a composition. *)
Theorem C48_single_value_refuted :
  exists c, composel [inc; wrap] = Ok c /\
    code c 0 [Obj 1%Z] [] [] = (Ok (Vals [Obj 2%Z] []), [1]) /\
    pipe 0 (Vals [Obj 1%Z] []) [inc; wrap] [] = (Ok (Obj 2%Z), [1]).
Proof. eexists. split; [reflexivity|]. split; reflexivity. Qed.
Print Assumptions C48_single_value_refuted.
(** (2) With no function, pipes give the value, compositions raise AttributeError; likewise for
    one built-in function. *)
Theorem C48_empty_refuted :
  @composel Z (list nat) [] = Raise AttributeError /\ @composer Z (list nat) [] = Raise AttributeError /\
  pipe 0 (Vals [Obj 1%Z] []) [] ([] : list nat) = (Ok (Obj 1%Z), []) /\
  (forall (D S : Type) (f : func D S), has_dict f = false -> composel [f] = Raise AttributeError).
Proof.
  repeat (split; [reflexivity|]). intros D S f H. unfold composel. cbn. rewrite H. reflexivity.
Qed.
Print Assumptions C48_empty_refuted.
(** (3) composerc of three functions gives its innermost function no curry context, so that
    composerc(add, inc, inc)(4, 5) raises TypeError where composelc(inc, inc, add)(4, 5) and
    pipec give 11. *)
Theorem C48_composerc_refuted :
  exists l r, composel [cinc; cinc; fadd true] = Ok l /\ composer [fadd true; cinc; cinc] = Ok r /\
    code l 0 [Obj 4%Z; Obj 5%Z] [] [] = (Ok (Obj 11%Z), [1; 1; 2]) /\
    code r 0 [Obj 4%Z; Obj 5%Z] [] [] = (Raise TypeError, [1]).
Proof. do 2 eexists. split; [reflexivity|]. split; [reflexivity|]. split; reflexivity. Qed.
Print Assumptions C48_composerc_refuted.
(** (4) piped gives its functions no curry context. *)
Theorem C48_piped_curried_refuted :
  pipe 0 (Vals [Obj 4%Z; Obj 5%Z] []) [cinc; fadd true] [] = (Ok (Obj 10%Z), [1; 2]) /\
  por_chain 0 [Piped (Vals [Obj 4%Z; Obj 5%Z] [])] 0 [cinc; fadd true] [] =
    Some ([Piped (Vals [Obj 4%Z; Obj 5%Z] [])], [1], Raise TypeError).
Proof. split; reflexivity. Qed.
Print Assumptions C48_piped_curried_refuted.
(** (5) An empty Values at the end of a pipe is an IndexError. *)
Theorem C48_no_values_refuted : forall (D S : Type) (s : S),
  pipe 0 (Vals [] []) [] s = (Raise (A := val D) IndexError, s).
Proof. reflexivity. Qed.
Print Assumptions C48_no_values_refuted.

(** ** C49.  Named values have distinct names. *)
Theorem C49_eq : forall (D : Type) (deq : D -> D -> bool) r k r' k',
  NoDup (map fst k) -> NoDup (map fst k') ->
  (val_eqb deq (Vals r k) (Vals r' k') = true <->
   Forall2 (fun x y => val_eqb deq x y = true) r r' /\
   same_named (fun x y => val_eqb deq x y = true) k k').
Proof. exact @vals_eq_iff. Qed.
Print Assumptions C49_eq.
Theorem C49_not_values : forall (D : Type) (deq : D -> D -> bool) r k x,
  val_eqb deq (Vals r k) (Obj x) = false /\ val_eqb deq (Obj x) (Vals r k) = false.
Proof. split; reflexivity. Qed.
Print Assumptions C49_not_values.
Theorem C49_iter : forall (D : Type) (r : list (val D)) k,
  (k = [] -> vals_iter r k = Ok r) /\ (k <> [] -> vals_iter r k = Raise ValueError).
Proof. intros D r [|x k]; split; intros H; try reflexivity; try congruence; discriminate. Qed.
Print Assumptions C49_iter.
Theorem C49_subscript : forall (D : Type) (r : list (val D)) k,
  NoDup (map fst k) ->
  (forall i x, (0 <= i)%Z -> znth r i = Some x ->
     vals_getitem r k (SInt i) = Ok [x] /\ vals_getitem r k (SInt (i - zlen r)) = Ok [x]) /\
  (forall i, (i < - zlen r \/ zlen r <= i)%Z -> vals_getitem r k (SInt i) = Raise IndexError) /\
  (forall n x, In (n, x) k -> vals_getitem r k (SStr n) = Ok [x] /\ vals_contains k n = true) /\
  (forall n, ~ In n (map fst k) -> vals_getitem r k (SStr n) = Raise KeyError /\ vals_contains k n = false) /\
  vals_getitem r k SOther = Raise TypeError.
Proof. exact @subscript_ok. Qed.
Print Assumptions C49_subscript.
Theorem C49_get : forall (D : Type) (k : kwvals D) n d, NoDup (map fst k) ->
  (forall x, In (n, x) k -> vals_get k n d = x) /\ (~ In n (map fst k) -> vals_get k n d = d).
Proof. exact vals_get_ok. Qed.
Print Assumptions C49_get.
(** identity returns what it is given: nothing as None, one value as it is, other arguments as a Values of them *)
Theorem C49_identity : forall (D : Type) (none : D) x args kw,
  identity none [] [] = Obj none /\ identity none [x] [] = x /\
  (length args + length kw > 1 \/ args = [] /\ kw <> [] -> identity none args kw = Vals args kw).
Proof.
  intros D none x args kw. repeat split. intros H. destruct args as [|a [|b args]]; destruct kw; cbn in *; try reflexivity;
  exfalso; destruct H as [H|[H1 H2]]; try congruence; inversion H; inversion H1.
Qed.
Print Assumptions C49_identity.
(** Passing the result of identity on is passing the arguments on: identity is the unit of compose. *)
Theorem C49_identity_unit : forall (D S : Type) none (f : func D S) ctx args kw s,
  (args = [] -> kw <> []) -> (forall x, args = [x] -> kw = [] -> exists d, x = Obj d) ->
  call_unpacked f ctx (identity none args kw) s = code f ctx args kw s.
Proof. exact identity_ok. Qed.
Print Assumptions C49_identity_unit.
Example C49_identity_case : forall ctx s,
  let f := mkfunc (D := nat) (S := unit) false true (fun _ args _ s => (Ok (Obj (length args)), s)) in
  call_unpacked f ctx (identity 0 [Obj 7; Obj 8] []) s = (Ok (Obj 2), s).
Proof. reflexivity. Qed.
(** const(...) gives the same at each call, whatever the arguments of the call *)
Theorem C49_const : forall (D S : Type) none args kw ctx args' kw' (s : S),
  code (const (D := D) none args kw) ctx args' kw' s = (Ok (identity none args kw), s).
Proof. reflexivity. Qed.
Print Assumptions C49_const.
Theorem C49_valuify : forall (D S : Type) (items : D -> option (list (val D))) (f : func D S) ctx args kw s,
  match code f ctx args kw s with
  | (Ok (Obj d), s') =>
      match items d with
      | Some l => code (valuify items f) ctx args kw s = (Ok (Vals l []), s')
      | None => code (valuify items f) ctx args kw s = (Ok (Obj d), s')
      end
  | r => code (valuify items f) ctx args kw s = r
  end.
Proof. exact @valuify_ok. Qed.
Print Assumptions C49_valuify.
Example C49_case :
  val_eqb Z.eqb (Vals [Obj 1%Z] [("a", Obj 2%Z); ("b", Obj 3%Z)]) (Vals [Obj 1%Z] [("b", Obj 3%Z); ("a", Obj 2%Z)]) = true /\
  val_eqb Z.eqb (Vals [Obj 1%Z] [("a", Obj 2%Z)]) (Vals [Obj 1%Z] [("a", Obj 2%Z); ("b", Obj 3%Z)]) = false /\
  val_eqb Z.eqb (Vals [Obj 1%Z] []) (Vals [Obj 1%Z; Obj 1%Z] []) = false.
Proof. repeat split. Qed.

(** ** C50 *)
Theorem C50_flip : forall (D S : Type) (f : func D S) ctx args kw s,
  code (flip f) ctx args kw s = code f ctx (rev args) kw s.
Proof. reflexivity. Qed.
Print Assumptions C50_flip.
Theorem C50_rotate : forall (D S : Type) k (f : func D S) ctx args kw s,
  (- zlen args < k < zlen args)%Z ->
  exists l, shifted k args l /\ code (rotate k f) ctx args kw s = code f ctx l kw s.
Proof. exact @rotate_ok. Qed.
Print Assumptions C50_rotate.
(** rotate(j) after rotate(k) shifts by j + k; hence, in range, it is rotate(j + k). *)
Theorem C50_rotate_rotate : forall (D S : Type) j k (f : func D S) ctx args kw s,
  (- zlen args < k < zlen args)%Z -> (- zlen args < j < zlen args)%Z ->
  exists l, shifted (k + j) args l /\ code (rotate k (rotate j f)) ctx args kw s = code f ctx l kw s /\
  ((- zlen args < k + j < zlen args)%Z ->
   code (rotate k (rotate j f)) ctx args kw s = code (rotate (k + j) f) ctx args kw s).
Proof. exact @rotate_twice. Qed.
Print Assumptions C50_rotate_rotate.
Theorem C50_rotate_range : forall (D S : Type) k (f : func D S) ctx args kw s,
  (args = [] -> code (rotate k f) ctx args kw s = (Raise TypeError, s)) /\
  (args <> [] -> (k <= - zlen args \/ zlen args <= k)%Z ->
   code (rotate k f) ctx args kw s = (Raise IndexError, s)).
Proof. exact @rotate_range. Qed.
Print Assumptions C50_rotate_range.
Example C50_rotate_case :
  rotate_args 1 [1; 2; 3] = Ok [2; 3; 1] /\ rotate_args (-1) [1; 2; 3] = Ok [3; 1; 2].
Proof. split; reflexivity. Qed.

(** tokth: the k-th argument, counted from the start, or from the end for a negative k.  The
    first argument of a list, counted from the end, is missing (see below). *)
Theorem C50_tokth_partial : forall (D S : Type) k (f : func D S) before x after ctx kw s,
  (k = zlen before \/ (k = - zlen (x :: after) /\ before <> []))%Z ->
  code (tokth k f) ctx (before ++ x :: after) kw s =
  match code f ctx [x] [] s with
  | (Ok y, s') => (Ok (Vals (before ++ y :: after) kw), s')
  | (Raise e, s') => (Raise e, s')
  end.
Proof. exact @tokth_eq. Qed.
Print Assumptions C50_tokth_partial.
(** to1st and to2nd are instances; so is tolast, for two or more arguments. *)
Theorem C50_tolast_partial : forall (D S : Type) (f : func D S) w before x ctx kw s,
  code (tolast f) ctx ((w :: before) ++ [x]) kw s =
  match code f ctx [x] [] s with
  | (Ok y, s') => (Ok (Vals ((w :: before) ++ [y]) kw), s')
  | (Raise e, s') => (Raise e, s')
  end.
Proof. exact @tolast_eq. Qed.
Print Assumptions C50_tolast_partial.
Theorem C50_to1st : forall (D S : Type) (f : func D S) x after ctx kw s,
  code (to1st f) ctx (x :: after) kw s =
  match code f ctx [x] [] s with
  | (Ok y, s') => (Ok (Vals (y :: after) kw), s')
  | (Raise e, s') => (Raise e, s')
  end.
Proof. exact @to1st_eq. Qed.
Print Assumptions C50_to1st.
Theorem C50_to2nd : forall (D S : Type) (f : func D S) w x after ctx kw s,
  code (to2nd f) ctx (w :: x :: after) kw s =
  match code f ctx [x] [] s with
  | (Ok y, s') => (Ok (Vals (w :: y :: after) kw), s')
  | (Raise e, s') => (Raise e, s')
  end.
Proof. exact @to2nd_eq. Qed.
Print Assumptions C50_to2nd.
(** Refuted: tolast(f) on one argument raises IndexError; so does rotate(-1). *)
Theorem C50_tolast_refuted : forall (D S : Type) (f : func D S) x ctx kw s,
  code (tolast f) ctx [x] kw s = (Raise IndexError, s).
Proof. exact @tolast_one. Qed.
Print Assumptions C50_tolast_refuted.
(** to(...): the updates in sequence *)
Theorem C50_to : forall (D S : Type) k (f : func D S) specs,
  exists c, to ((k, f) :: specs) = Ok c /\ forall ctx args kw s,
    code c ctx args kw s = chain ctx (tokth k f) (map (fun kf => tokth (fst kf) (snd kf)) specs) args kw s.
Proof. exact @to_eq. Qed.
Print Assumptions C50_to.
Example C50_to_case :
  exists c, to [(0%Z, inc); ((-1)%Z, inc); (0%Z, inc)] = Ok c /\
    code c 0 [Obj 10%Z; Obj 20%Z] [] [] = (Ok (Vals [Obj 12%Z; Obj 21%Z] []), [1; 1; 1]).
Proof. eexists. split; reflexivity. Qed.
(** apply(f, a, b, ..., lst) = f(a, b, ..., [*lst]) *)
Theorem C50_apply : forall (D S : Type) items ctx (f : func D S) front v l kw s,
  items v = Ok l ->
  match front ++ [v] with
  | arg0 :: more => apply items ctx f arg0 more kw s
  | [] => (Raise TypeError, s)
  end = code f ctx (front ++ l) kw s.
Proof. exact @apply_eq. Qed.
Print Assumptions C50_apply.

(** What they return can be composed like any other function.  A rearranged or valuified curried
    function still counts as curried; the others do not. *)
Theorem C50_results_compose : forall (D S : Type) (f : func D S) k items none args kw truthy tt_ ff fs,
  (forall g, In g [flip f; rotate k f; valuify items f] -> curried g = curried f /\ composel [g] = Ok g) /\
  (forall g, In g [tokth k f; const none args kw; notf truthy tt_ ff f; andf truthy tt_ ff fs; orf truthy tt_ ff fs] ->
     curried g = false /\ composel [g] = Ok g).
Proof. exact @results_compose. Qed.
Print Assumptions C50_results_compose.

(** ** C51.  [truthy] is Python's truth value, [tt_] and [ff] the objects True and False. *)
Theorem C51_notf : forall (D S : Type) (truthy : val D -> bool) tt_ ff (f : func D S) ctx args kw s,
  code (notf truthy tt_ ff f) ctx args kw s =
  match code f ctx args kw s with
  | (Ok v, s') => (Ok (if truthy v then Obj ff else Obj tt_), s')
  | (Raise e, s') => (Raise e, s')
  end.
Proof. exact @notf_eq. Qed.
Print Assumptions C51_notf.
(** The functions are called in order up to the first falsy result. *)
Theorem C51_andf : forall (D S : Type) (truthy : val D -> bool) tt_ ff,
  truthy (Obj tt_) = true ->
  forall (fs : list (func D S)) ctx args kw s,
  code (andf truthy tt_ ff fs) ctx args kw s =
  match call_until (fun v => negb (truthy v)) ctx args kw fs s with
  | (Ok vs, s') => (Ok (if forallb truthy vs then last vs (Obj tt_) else Obj ff), s')
  | (Raise e, s') => (Raise e, s')
  end.
Proof. exact @andf_eq. Qed.
Print Assumptions C51_andf.
(** The functions are called in order up to the first truthy result. *)
Theorem C51_orf : forall (D S : Type) (truthy : val D -> bool) tt_ ff,
  truthy (Obj ff) = false ->
  forall (fs : list (func D S)) ctx args kw s,
  code (orf truthy tt_ ff fs) ctx args kw s =
  match call_until truthy ctx args kw fs s with
  | (Ok vs, s') => (Ok (if existsb truthy vs then last vs (Obj ff) else Obj ff), s')
  | (Raise e, s') => (Raise e, s')
  end.
Proof. exact @orf_eq. Qed.
Print Assumptions C51_orf.
Example C51_case :
  let t v := negb (Z.eqb (num v) 0) in
  let f (n : nat) (z : Z) : func Z (list nat) := mkfunc false true (fun _ _ _ s => (Ok (Obj z), s ++ [n])) in
  code (andf t 1%Z 0%Z [f 1 5%Z; f 2 6%Z]) 0 [] [] [] = (Ok (Obj 6%Z), [1; 2]) /\
  code (andf t 1%Z 0%Z [f 1 5%Z; f 2 0%Z; f 3 7%Z]) 0 [] [] [] = (Ok (Obj 0%Z), [1; 2]) /\
  code (orf t 1%Z 0%Z [f 1 0%Z; f 2 6%Z; f 3 7%Z]) 0 [] [] [] = (Ok (Obj 6%Z), [1; 2]).
Proof. repeat split. Qed.
