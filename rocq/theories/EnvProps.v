(** C27, C28, C54: env, assignonce, let, letrec, do, begin. *)
From Coq Require Import String List Bool.
From Verif Require Import Base CollModel CollSpec EnvModel EnvSpec EnvProofs.
Import ListNotations.
Open Scope string_scope.
Open Scope list_scope.

(** Throughout: [isid] decides what an identifier is; [de] is what a write to one of the two
    unprotected internal attributes does. *)

(** ** C27 *)

(** e.n = v succeeds exactly when it is acceptable; then n has the value v and no other name
    is affected; otherwise it raises and nothing changes. *)
Theorem C27_assign : forall (V : Type) (isid : name -> bool) de (e : envst V) n v, ~ In n direct_write ->
  (can_assign isid e n ->
     fst (env_step isid de e (ESetattr n v)) = Ok RNone
     /\ bound (snd (env_step isid de e (ESetattr n v))) n = Some v
     /\ (forall n', n' <> n -> bound (snd (env_step isid de e (ESetattr n v))) n' = bound e n')
     /\ finalized (snd (env_step isid de e (ESetattr n v))) = finalized e)
  /\ (~ can_assign isid e n ->
      exists x, env_step isid de e (ESetattr n v) = (Raise x, e) /\ (x = AttributeError \/ x = ValueError)).
Proof. exact @assign_spec. Qed.
Print Assumptions C27_assign.

(** A value is read back after any operations that do not concern its name, if the class has
    no attribute of that name. *)
Theorem C27_read_back_partial : forall (V : Type) (isid : name -> bool) de (e : envst V) n v os,
  can_assign isid e n -> ~ In n class_attrs ->
  (forall o, In o os -> public o /\ ~ touches n o) ->
  let e1 := snd (env_step isid de e (ESetattr n v)) in
  fst (env_step isid de (run_ops (env_step isid de) e1 os) (EGet n)) = Ok (RVal v).
Proof. exact @read_back. Qed.
Print Assumptions C27_read_back_partial.
Example C27_read_back_ex :
  let isid := fun n => negb (n =? "1x") in
  can_assign isid (@env0 nat) "x" /\ ~ In "x" class_attrs /\
  ~ touches "x" (EUpdate [UMapping [("y", 1)]] [("z", 2)]) /\ ~ touches "x" (EPop "y" (Some 3)).
Proof.
  repeat split; auto; unfold class_attrs, direct_write; simpl; intuition discriminate.
Qed.

(** e.items = 5 is accepted, but e.items is still the method. *)
Theorem C27_read_back_refuted : exists (n : name), forall (isid : name -> bool) de, isid n = true ->
  exists e1, env_step isid de (@env0 nat) (ESetattr n 5) = (Ok RNone, e1)
  /\ fst (env_step isid de e1 (EGet n)) = Ok (RAttr n).
Proof. exact read_back_items. Qed.
Print Assumptions C27_read_back_refuted.

(** An operation that raises changes nothing; in particular update is all or nothing. *)
Theorem C27_failed_is_noop : forall (V : Type) (isid : name -> bool) de (e : envst V) o x,
  public o -> fst (env_step isid de e o) = Raise x -> snd (env_step isid de e o) = e.
Proof. exact @failed. Qed.
Print Assumptions C27_failed_is_noop.

(** After finalize the names stay the same, whatever happens, except leaving a with block. *)
Theorem C27_finalized : forall (V : Type) (isid : name -> bool) de os (e : envst V),
  (forall o, In o os -> public o /\ is_exit o = false) -> finalized e = true ->
  names (run_ops (env_step isid de) e os) = names e /\ finalized (run_ops (env_step isid de) e os) = true.
Proof. exact @run_finalized. Qed.
Print Assumptions C27_finalized.
Example C27_finalized_ex :
  let e := snd (env_step (fun _ => true) (fun e _ _ => e) (mkenv [("x", 1); ("y", 2)] false) EFinalize) in
  let os := [ESetattr "x" 5; ESetattr "z" 1; EUpdate [UMapping [("x", 6); ("w", 1)]] []; EUpdate [UMapping [("y", 7)]] [];
             EDel "x"; EPopitem; EClear; ESetdefault "q" 1] in
  binds (run_ops (env_step (fun _ => true) (fun e _ _ => e)) e os) = [("x", 5); ("y", 7)].
Proof. reflexivity. Qed.

(** Leaving a with block removes all bindings, finalized or not. *)
Theorem C27_with_block : forall (V : Type) (isid : name -> bool) de (e : envst V),
  fst (env_step isid de e EExit) = Ok RNone /\ forall n, bound (snd (env_step isid de e EExit)) n = None.
Proof. exact exit_clears. Qed.
Print Assumptions C27_with_block.

(** Looking up changes nothing and finds what is bound. *)
Theorem C27_lookup : forall (V : Type) (isid : name -> bool) de (e : envst V) n d,
  env_step isid de e (EContains n) = (Ok (RBool (match bound e n with Some _ => true | None => false end)), e) /\
  (bound e n = None -> env_step isid de e (EGetDefault n d) = (Ok (RVal d), e)) /\
  (forall v, bound e n = Some v -> ~ In n class_attrs -> isid n = true ->
     env_step isid de e (EGet n) = (Ok (RVal v), e) /\ env_step isid de e (EGetDefault n d) = (Ok (RVal v), e)) /\
  (bound e n = None -> ~ In n class_attrs -> isid n = true -> env_step isid de e (EGet n) = (Raise AttributeError, e)).
Proof. exact @lookup_spec. Qed.
Print Assumptions C27_lookup.

(** No name is bound twice, after any operations; *)
Theorem C27_distinct : forall (V : Type) (isid : name -> bool) de os (e : envst V),
  (forall o, In o os -> public o) -> NoDup (names e) -> NoDup (names (run_ops (env_step isid de) e os)).
Proof. exact @distinct_run. Qed.
Print Assumptions C27_distinct.
(** del and pop remove just this name; *)
Theorem C27_delete : forall (V : Type) (isid : name -> bool) de (e : envst V) n, NoDup (names e) -> isid n = true ->
  let r := env_step isid de e (EDel n) in
  if finalized e then r = (Raise TypeError, e)
  else match bound e n with
       | None => r = (Raise AttributeError, e)
       | Some _ => fst r = Ok RNone /\ finalized (snd r) = false /\ forall n', bound (snd r) n' = if String.eqb n n' then None else bound e n'
       end.
Proof. exact @del_spec. Qed.
Print Assumptions C27_delete.
Theorem C27_pop : forall (V : Type) (isid : name -> bool) de (e : envst V) n d, NoDup (names e) ->
  let r := env_step isid de e (EPop n d) in
  if finalized e then r = (Raise TypeError, e)
  else match bound e n, d with
       | Some v, _ => fst r = Ok (RVal v) /\ finalized (snd r) = false /\ forall n', bound (snd r) n' = if String.eqb n n' then None else bound e n'
       | None, Some d => r = (Ok (RVal d), e)
       | None, None => r = (Raise KeyError, e)
       end.
Proof. exact @pop_spec. Qed.
Print Assumptions C27_pop.
(** popitem the name bound last, clear all of them. *)
Theorem C27_popitem : forall (V : Type) (isid : name -> bool) de (e : envst V),
  let r := env_step isid de e EPopitem in
  if finalized e then r = (Raise TypeError, e)
  else (binds e = [] -> r = (Raise KeyError, e)) /\
       (forall b n v, binds e = b ++ [(n, v)] -> r = (Ok (RItem n v), mkenv b false)).
Proof. exact @popitem_spec. Qed.
Print Assumptions C27_popitem.
Theorem C27_clear : forall (V : Type) (isid : name -> bool) de (e : envst V),
  env_step isid de e EClear = if finalized e then (Raise TypeError, e) else (Ok RNone, mkenv [] false).
Proof. exact @clear_spec. Qed.
Print Assumptions C27_clear.
(** update binds the last value given for each name, keyword arguments after the mapping; *)
Theorem C27_update : forall (V : Type) (isid : name -> bool) de (e : envst V) ms b,
  let r := env_step isid de e (EUpdate ms b) in
  let new := flat_map pairs_of ms ++ b in
  (length ms <= 1 -> finalized e = false -> fst r = Ok RNone) /\
  (fst r = Ok RNone -> length ms <= 1 /\ finalized (snd r) = finalized e /\
     forall n, bound (snd r) n = match last_for String.eqb n new with Some v => Some v | None => bound e n end).
Proof. exact (fun V isid de e ms b => conj (update_accepted isid de e ms b) (update_spec isid de e ms b)). Qed.
Print Assumptions C27_update.
(** A finalized env accepts just mappings and keywords that rebind names it has; of iterables of
    pairs only the empty one. *)
Theorem C27_update_finalized : forall (V : Type) (isid : name -> bool) de (e : envst V) ms b, finalized e = true ->
  let r := env_step isid de e (EUpdate ms b) in
  (2 <= length ms -> r = (Raise ValueError, e)) /\
  (length ms <= 1 ->
     (fst r = Ok RNone <->
       (forall m, In m ms -> match m with UMapping d => forall n, In n (map fst d) -> bound e n <> None | UPairs l => l = [] end) /\
       (forall n, In n (map fst b) -> bound e n <> None)) /\
     (fst r <> Ok RNone -> r = (Raise AttributeError, e))).
Proof. exact @update_finalized. Qed.
Print Assumptions C27_update_finalized.
(** Refuted: update with pairs does what update with the dict of these does. *)
Theorem C27_update_pairs_refuted : exists (e : envst nat), finalized e = true /\ forall isid de,
  env_step isid de e (EUpdate [UPairs [("x", 2)]] []) = (Raise AttributeError, e) /\
  env_step isid de e (EUpdate [UMapping [("x", 2)]] []) = (Ok RNone, mkenv [("x", 2)] true).
Proof. exists (mkenv [("x", 1)] true). split; [reflexivity|]. intros. split; reflexivity. Qed.
Print Assumptions C27_update_pairs_refuted.
(** setdefault binds unbound names only. *)
Theorem C27_setdefault : forall (V : Type) (isid : name -> bool) de (e : envst V) n d,
  let r := env_step isid de e (ESetdefault n d) in
  match bound e n with
  | Some v => r = (Ok (RVal v), e)
  | None => if finalized e then r = (Raise AttributeError, e)
            else fst r = Ok (RVal d) /\ finalized (snd r) = false /\ forall n', bound (snd r) n' = if String.eqb n n' then Some d else bound e n'
  end.
Proof. exact @setdefault_spec. Qed.
Print Assumptions C27_setdefault.
Example C27_operations_ex :
  let step := env_step (fun _ => true) (fun e _ _ => e) in
  let e := run_ops step (mkenv [("x", 1)] false)
             [EUpdate [UMapping [("y", 2); ("x", 3)]] [("x", 4); ("z", 5)]; EDel "y"; ESetdefault "z" 6; ESetdefault "w" 7; EPopitem; EPop "q" (Some 1)] in
  NoDup (names e) /\ binds e = [("x", 4); ("z", 5)] /\ fst (step e (EGetDefault "z" 8)) = Ok (RVal 5) /\ fst (step e (EGetDefault "w" 8)) = Ok (RVal 8).
Proof. split; [repeat constructor; simpl; intuition discriminate|]. repeat split. Qed.

(** Only valid names get in, as long as update and setdefault are not used ... *)
Theorem C27_names_valid_partial : forall (V : Type) (isid : name -> bool) de os (e : envst V),
  (forall o, In o os -> checked o) -> (forall n, In n (names e) -> validname isid n) ->
  forall n, In n (names (run_ops (env_step isid de) e os)) -> validname isid n.
Proof. exact @run_valid. Qed.
Print Assumptions C27_names_valid_partial.
(** ... but those accept any name, reserved or not an identifier. *)
Theorem C27_names_valid_refuted : forall (isid : name -> bool) de (n : name) (v : nat),
  bound (snd (env_step isid de env0 (EUpdate [UMapping [(n, v)]] []))) n = Some v
  /\ bound (snd (env_step isid de env0 (ESetdefault n v))) n = Some v.
Proof. exact update_any_name. Qed.
Print Assumptions C27_names_valid_refuted.

(** env(n1=v1, ...) has exactly these bindings. *)
Theorem C27_construct : forall (V : Type) (isid : name -> bool) de (b : list (name * V)),
  (forall n, In n (map fst b) -> validname isid n) -> NoDup (map fst b) ->
  construct (env_setattr isid de) b = Ok (mkenv b false).
Proof. exact @construct_ok. Qed.
Print Assumptions C27_construct.
Example C27_construct_ex : forall n, In n ["x"; "y"] -> validname (fun _ => true) n.
Proof. intros n H. split; auto. unfold reserved_names. simpl in *. intuition; subst; discriminate. Qed.

(** ** C28 *)

(** Setting a bound name raises AttributeError and leaves everything; setting an unbound one is as for env. *)
Theorem C28_set_bound : forall (V : Type) (isid : name -> bool) de (e : envst V) n v,
  ~ In n direct_write -> bound e n <> None ->
  once_step isid de e (ESetattr n v) = (Raise AttributeError, e).
Proof. exact @once_bound. Qed.
Print Assumptions C28_set_bound.
Theorem C28_set_unbound : forall (V : Type) (isid : name -> bool) de (e : envst V) n v,
  bound e n = None -> once_step isid de e (ESetattr n v) = env_step isid de e (ESetattr n v).
Proof. exact @once_unbound. Qed.
Print Assumptions C28_set_unbound.
(** set() rebinds bound names only, and only the one given. *)
Theorem C28_rebind : forall (V : Type) (isid : name -> bool) de (e : envst V) n v, ~ In n direct_write ->
  (bound e n = None -> once_step isid de e (ESet n v) = (Raise AttributeError, e))
  /\ (bound e n <> None -> validname isid n ->
      fst (once_step isid de e (ESet n v)) = Ok (RVal v) /\ bound (snd (once_step isid de e (ESet n v))) n = Some v
      /\ (forall n', n' <> n -> bound (snd (once_step isid de e (ESet n v))) n' = bound e n')
      /\ names (snd (once_step isid de e (ESet n v))) = names e).
Proof. exact @once_set_spec. Qed.
Print Assumptions C28_rebind.
(** A value stays through any history without set() on it, removal, or update() of it. *)
Theorem C28_history_partial : forall (V : Type) (isid : name -> bool) de os n v (e : envst V),
  (forall o, In o os -> public o /\ ~ touches_once n o) -> bound e n = Some v ->
  bound (run_ops (once_step isid de) e os) n = Some v.
Proof. exact @once_run_keeps. Qed.
Print Assumptions C28_history_partial.
Example C28_ex :
  let s := once_step (fun _ => true) (fun e _ _ => e) in
  bound (run_ops s env0 [ESetattr "x" 1; ESetattr "x" 2; ESetdefault "x" 3; ESetattr "y" 4; ESet "y" 5]) "x" = Some 1
  /\ bound (run_ops s env0 [ESetattr "x" 1; ESetattr "x" 2; ESetdefault "x" 3; ESetattr "y" 4; ESet "y" 5]) "y" = Some 5.
Proof. split; reflexivity. Qed.
(** update() rebinds without complaint. *)
Theorem C28_update_refuted : exists (e : envst nat) v, forall isid de, bound e "x" = Some 1
  /\ bound (snd (once_step isid de e (EUpdate [] [("x", v)]))) "x" = Some v /\ v <> 1.
Proof. exact once_update_rebinds. Qed.
Print Assumptions C28_update_refuted.
(** assignonce(x=1, ...) always raises: the bindings are set twice. *)
Theorem C28_constructor_refuted : forall (V : Type) (isid : name -> bool) de (b : list (name * V)),
  b <> [] -> (forall n, In n (map fst b) -> validname isid n) -> NoDup (map fst b) ->
  construct (once_setattr isid de) b = Raise AttributeError.
Proof. exact @once_construct_error. Qed.
Print Assumptions C28_constructor_refuted.

(** ** C54 *)

(** letrec: on success the env has the names of the list, all different, and the value of the
    j-th one is what its initializer gives in the env of exactly the j first bindings. *)
Theorem C54_letrec : forall (V : Type) (isid : name -> bool) de bs (e : envst V),
  (forall k i, In (k, i) bs -> ~ In k direct_write /\ reads_only i) ->
  let_loop isid de true env0 bs = Ok e ->
  names e = map fst bs /\ NoDup (map fst bs)
  /\ forall j k i, nth_error bs j = Some (k, i) -> exists v, nth_error (binds e) j = Some (k, v)
     /\ fst (init_value true (mkenv (firstn j (binds e)) false) i) = Ok v.
Proof. exact @letrec_sees. Qed.
Print Assumptions C54_letrec.
(** let: the values are the objects given, not called. *)
Theorem C54_let : forall (V : Type) (isid : name -> bool) de (bs : list (name * init V)),
  (forall n, In n (map fst bs) -> validname isid n) -> NoDup (map fst bs) ->
  let_loop isid de false env0 bs = Ok (mkenv (map (fun ki => (fst ki, obj (snd ki))) bs) false).
Proof. exact @let_plain. Qed.
Print Assumptions C54_let.
(** The body is called with these bindings in a finalized env. *)
Theorem C54_body : forall (V : Type) (isid : name -> bool) de lr bs (e : envst V) o f,
  let_loop isid de lr env0 bs = Ok e ->
  let_ isid de lr bs (Body (mkinit o (Some (true, f)))) =
  match fst (f (mkenv (binds e) true)) with Ok v => Ok (LVal v) | Raise x => Raise x end.
Proof. exact body_env. Qed.
Print Assumptions C54_body.
Theorem C54_duplicate : forall (V : Type) (isid : name -> bool) de lr bs bs' (e : envst V) k i b,
  let_loop isid de lr env0 bs = Ok e -> In k (names e) ->
  let_ isid de lr (bs ++ (k, i) :: bs') b = Raise AttributeError.
Proof. exact @let_duplicate. Qed.
Print Assumptions C54_duplicate.
(** A reference to a name bound later (or never) raises AttributeError. *)
Theorem C54_forward_reference : forall (V : Type) (isid : name -> bool) de attr lam bs bs' (e : envst V) k i0 b,
  let_loop isid de true env0 bs = Ok e ->
  ~ In i0 (names e) -> ~ In k (names e) -> isid k = true -> ~ In k class_attrs ->
  let_ isid de true (bs ++ (i0, mkinit lam (Some (true, read isid attr k))) :: bs') b = Raise AttributeError.
Proof. exact @let_forward. Qed.
Print Assumptions C54_forward_reference.
(** lispylet's let and letrec do the same as let.py's. *)
Theorem C54_lispylet : forall (V : Type) (isid : name -> bool) de lr (bs : list (name * init V)) b,
  (forall k i, In (k, i) bs -> ~ In k direct_write) ->
  lispylet isid de lr None bs b = let_ isid de lr bs b.
Proof. exact @lispylet_eq. Qed.
Print Assumptions C54_lispylet.
(** letrec: a = 1, b = lambda e: e.a + 1 *)
Example C54_letrec_ex :
  let isid := fun _ => true in let de := fun (e : envst nat) _ _ => e in
  let rd := read isid (fun _ => 0) in
  let bs := [("a", mkinit 1 None); ("b", mkinit 0 (Some (true, fun e => (match fst (rd "a" e) with Ok v => Ok (v + 1) | r => r end, e))))] in
  let_loop isid de true env0 bs = Ok (mkenv [("a", 1); ("b", 2)] false)
  /\ let_ isid de true (rev bs) NoBody = Raise AttributeError
  /\ (forall k i, In (k, i) bs -> ~ In k direct_write /\ reads_only i).
Proof.
  split; [reflexivity|]. split; [reflexivity|]. unfold direct_write. simpl.
  intros k i [H|[H|[]]]; injection H as <- <-; (split; [intuition discriminate|]); unfold reads_only; simpl; auto.
Qed.

(** do: runs the items in order, each on the env the earlier ones left, stops at an exception,
    and returns the value of the last; do() without items raises UnboundLocalError. *)
Theorem C54_do : forall (V : Type) (isid : name -> bool) de (its : list (item V)),
  do_ isid de its =
  match sequence env0 (map (fun it e => do_item isid de e it) its) with
  | (Ok vs, e1) => (match rev vs with v :: _ => Ok v | [] => Raise UnboundLocalError end, e1)
  | (Raise x, e1) => (Raise x, e1)
  end.
Proof. exact @do_spec. Qed.
Print Assumptions C54_do.
(** do0 returns the value of the first item, if the other items succeed and do not use the
    name _do0_result, and if a first assignment is not to the name of a method. *)
Theorem C54_do0_partial : forall (V : Type) (isid : name -> bool) de attr lam it its (v : V) e1,
  isid do0_key = true ->
  match it with Item _ => True | Assign k _ => ~ In k class_attrs /\ ~ In k direct_write /\ k <> do0_key end ->
  do_item isid de env0 it = (Ok v, e1) -> finalized e1 = false ->
  Forall (leaves_alone isid de do0_key) its ->
  fst (do0_ isid de attr lam (it :: its)) = Ok v.
Proof. exact @do0_first. Qed.
Print Assumptions C54_do0_partial.
Example C54_do0_ex :
  let isid := fun _ => true in let de := fun (e : envst nat) _ _ => e in
  do0_ isid de (fun _ => 0) 0 [Assign "x" (mkinit 17 None); Item (mkinit 23 None); Assign "y" (mkinit 1 None)]
  = (Ok 17, mkenv [("x", 17); ("_do0_result", 17); ("y", 1)] false)
  /\ leaves_alone isid de do0_key (Item (mkinit 23 None)).
Proof. split; [reflexivity|]. intro e. simpl. eauto. Qed.
(** do0(assign(items=17)) returns the method [items] instead *)
Theorem C54_do0_refuted : forall isid de attr lam, isid "items" = true -> isid do0_key = true ->
  fst (do0_ isid de attr lam [Assign "items" (mkinit 17 None)]) = Ok (attr "items").
Proof. exact do0_items. Qed.
Print Assumptions C54_do0_refuted.

(** What an item of a do does: a callable is called with the env, and must accept this one argument;
    anything else is its own value.  An assignment binds the name to the value. *)
Theorem C54_do_item : forall (V : Type) (isid : name -> bool) de (e : envst V) o,
  (forall f, do_item isid de e (Item (mkinit o (Some (true, f)))) = f e) /\
  (forall f, do_item isid de e (Item (mkinit o (Some (false, f)))) = (Raise ValueError, e)) /\
  do_item isid de e (Item (mkinit o None)) = (Ok o, e) /\
  (forall i k, ~ In k direct_write ->
     match do_item isid de e (Item i) with
     | (Raise x, e1) => do_item isid de e (Assign k i) = (Raise x, e1)
     | (Ok v, e1) =>
         (can_assign isid e1 k -> exists e2, do_item isid de e (Assign k i) = (Ok v, e2) /\ finalized e2 = finalized e1 /\
            forall n, bound e2 n = if String.eqb k n then Some v else bound e1 n) /\
         (~ can_assign isid e1 k -> exists x, do_item isid de e (Assign k i) = (Raise x, e1) /\ (x = AttributeError \/ x = ValueError))
     end).
Proof. exact @do_item_spec. Qed.
Print Assumptions C54_do_item.
(** A body of let that is not a callable of one argument is a TypeError; so is such an initializer
    of letrec, if it is callable. *)
Theorem C54_not_callable : forall (V : Type) (isid : name -> bool) de lr bs (e : envst V) i f o,
  let_loop isid de lr env0 bs = Ok e ->
  (callable i = None \/ callable i = Some (false, f) -> let_ isid de lr bs (Body i) = Raise TypeError) /\
  (forall k bs' b, ~ In k (names e) -> lr = true -> let_ isid de lr (bs ++ (k, mkinit o (Some (false, f))) :: bs') b = Raise TypeError).
Proof. exact @not_callable. Qed.
Print Assumptions C54_not_callable.
Example C54_not_callable_ex : let_loop (fun _ => true) (fun e _ _ => e) true env0 [("x", mkinit 1 None)] = Ok (mkenv [("x", 1)] false) /\
  let_ (fun _ => true) (fun e _ _ => e) true [("x", mkinit 1 None)] (Body (mkinit 7 None)) = Raise TypeError.
Proof. split; reflexivity. Qed.

(** begin returns its last argument, begin0 its first, both None without arguments. *)
Theorem C54_begin : forall (V : Type) (none v : V) vs,
  begin none (vs ++ [v]) = v /\ begin0 none (v :: vs) = v /\ begin none [] = none /\ begin0 none [] = none.
Proof. exact (fun V none v vs => conj (begin_last none vs v) (conj eq_refl (conj eq_refl eq_refl))). Qed.
Print Assumptions C54_begin.
(** lazy_begin and lazy_begin0 run every body once, in order, up to the first exception. *)
Theorem C54_lazy_begin : forall (V S : Type) (none : V) (s : S) bs,
  lazy_begin none s bs =
  match sequence s bs with (Ok vs, s1) => (Ok (last vs none), s1) | (Raise x, s1) => (Raise x, s1) end
  /\ lazy_begin0 none s bs =
  match sequence s bs with (Ok vs, s1) => (Ok (hd none vs), s1) | (Raise x, s1) => (Raise x, s1) end.
Proof. exact (fun V S none s bs => conj (lazy_begin_eq none s bs) (lazy_begin0_eq none s bs)). Qed.
Print Assumptions C54_lazy_begin.
