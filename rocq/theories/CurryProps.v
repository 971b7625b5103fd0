(** C46, C47: currying *)
From Coq Require Import String List Bool.
From Verif Require Import Base CollModel BindModel BindSpec CurryModel CurrySpec CurryProofs.
Import ListNotations.
Open Scope string_scope.
Open Scope list_scope.

(** ** C46 *)
(** [ss ++ [last]] are the steps: [curry(f)] is called with the first one, its result with the
    second one, and so on.  If Python accepts all the arguments in one call of [f] (binding
    the parameters as in [b]), then the steps give what that call gives, and the function is
    called once.  The last step has an argument, unless it is the only step.

    Missing in the [_partial] theorems: more than two steps before the last one, for which the
    claim is false, see [C46_third_step_refuted]; and functions whose parameters are not fixed
    (defaults, *args, **kwargs). *)
Theorem C46_grouping_partial : forall (D : Type) (sigs : nat -> signature (val D)) body i,
  fixed (sigs i) -> NoDup (map p_name (sigs i)) ->
  forall ss last fuel ctx b, length ss <= 2 ->
  is_dict (all_kws (ss ++ [last])) -> (ss = [] \/ last <> ([], [])) ->
  py_call_bind (sigs i) (all_args (ss ++ [last])) (all_kws (ss ++ [last])) = Ok b ->
  call_steps sigs body (S fuel) ctx (VCur (Raw i)) (ss ++ [last]) = Some ([(i, b)], body i b).
Proof. exact @grouping. Qed.
Print Assumptions C46_grouping_partial.

(** Before the last parameter is bound, the function is not called; the result is a curried
    function. *)
Theorem C46_waits_partial : forall (D : Type) (sigs : nat -> signature (val D)) body i,
  fixed (sigs i) -> NoDup (map p_name (sigs i)) ->
  forall ss more fuel ctx b, length ss <= 2 ->
  is_dict (all_kws (ss ++ [more])) -> more <> ([], []) ->
  py_call_bind (sigs i) (all_args (ss ++ [more])) (all_kws (ss ++ [more])) = Ok b ->
  exists g, call_steps sigs body (S fuel) ctx (VCur (Raw i)) ss = Some ([], Ok (One (VCur g))).
Proof. exact @waits. Qed.
Print Assumptions C46_waits_partial.

(** Refuted for more than two steps before the last one: the third step that leaves a parameter
    unbound always raises TypeError, so that for def f(a, b, c, d), curry(f)(1)(2)(3)(4) fails
    although f(1, 2, 3, 4) is a valid call. *)
Theorem C46_third_step_refuted : forall (D : Type) (sigs : nat -> signature (val D)) body i,
  fixed (sigs i) -> NoDup (map p_name (sigs i)) ->
  forall s1 s2 s3 more fuel ctx b,
  let ss := [s1; s2; s3] in
  is_dict (all_kws (ss ++ [more])) -> more <> ([], []) ->
  py_call_bind (sigs i) (all_args (ss ++ [more])) (all_kws (ss ++ [more])) = Ok b ->
  call_steps sigs body (S fuel) ctx (VCur (Raw i)) ss = Some ([], Raise TypeError).
Proof. exact @third. Qed.
Print Assumptions C46_third_step_refuted.

(** def foo(a, b, *, c, d) from the docstring: foo(5, c=23)(17, d=42) *)
Definition foo_sig : signature (val nat) :=
  [mkparam "a" PosOrKw None; mkparam "b" PosOrKw None; mkparam "c" KwOnly None; mkparam "d" KwOnly None].
Definition foo_body (i : nat) (b : bindings (val nat)) : outcome (ret nat) :=
  Ok (Many (flat_map (fun nb => match snd nb with BV v => [v] | _ => [] end) b) []).
Example C46_case :
  fixed foo_sig /\ NoDup (map p_name foo_sig) /\
  py_call_bind foo_sig [VData 5; VData 17] [("c", VData 23); ("d", VData 42)] =
    Ok [("a", BV (VData 5)); ("b", BV (VData 17)); ("c", BV (VData 23)); ("d", BV (VData 42))] /\
  option_map snd (call_steps (fun _ => foo_sig) foo_body 1 [] (VCur (Raw 0))
    [([VData 5], [("c", VData 23)]); ([VData 17], [("d", VData 42)])]) =
  Some (Ok (Many [VData 5; VData 17; VData 23; VData 42] [])) /\
  call_steps (fun _ => foo_sig) foo_body 1 [] (VCur (Raw 0))
    [([VData 5], []); ([], [("c", VData 23)]); ([VData 17], []); ([], [("d", VData 42)])] =
  Some ([], Raise TypeError).
Proof.
  split; [intros p H; cbn in H; intuition (subst; cbn in *; auto)|].
  split; [repeat constructor; cbn; intuition congruence|].
  split; [|split]; vm_compute; reflexivity.
Qed.

(** ** C47 *)
(** Missing in the [_partial] theorems below: more than two steps before the last one (the third
    one raises TypeError, see C46), and parameters that are keyword-only, have defaults, or
    collect arguments; see the refutations at the end.  A function [i] with [n] positional parameters gets more than [n] positional arguments, the
    surplus in the last step.  It is called once with the first [n]; the others, [later], go to
    the result. *)
Theorem C47_to_callable_partial : forall (D : Type) (sigs : nat -> signature (val D)) body i,
  fixed (sigs i) -> NoDup (map p_name (sigs i)) -> positional (sigs i) ->
  forall ss last fuel ctx, length ss <= 2 ->
  all_kws (ss ++ [last]) = [] ->
  (ss = [] \/ length (all_args ss) < length (sigs i)) ->
  length (sigs i) < length (all_args (ss ++ [last])) ->
  let now := given (sigs i) (firstn (length (sigs i)) (all_args (ss ++ [last]))) in
  let later := skipn (length (sigs i)) (all_args (ss ++ [last])) in
  forall g,
  (body i now = Ok (One (VCur g)) \/
   (body i now = Ok (One (VFn g)) /\ exists ps, signature_of sigs g = Ok ps)) ->
  call_steps sigs body (S fuel) ctx (VCur (Raw i)) (ss ++ [last]) =
  match call_curried sigs body fuel [Raw i] g later [] with
  | Some (l, r) => Some ((i, now) :: l, r)
  | None => None
  end.
Proof. exact @pass_callable. Qed.
Print Assumptions C47_to_callable_partial.

(** If the result is not callable: inside a curry context, it is returned followed by the
    surplus arguments; at the top level, TypeError. *)
Theorem C47_to_data_partial : forall (D : Type) (sigs : nat -> signature (val D)) body i,
  fixed (sigs i) -> NoDup (map p_name (sigs i)) -> positional (sigs i) ->
  forall ss last fuel ctx, length ss <= 2 ->
  all_kws (ss ++ [last]) = [] ->
  (ss = [] \/ length (all_args ss) < length (sigs i)) ->
  length (sigs i) < length (all_args (ss ++ [last])) ->
  let now := given (sigs i) (firstn (length (sigs i)) (all_args (ss ++ [last]))) in
  let later := skipn (length (sigs i)) (all_args (ss ++ [last])) in
  forall d, body i now = Ok (One (VData d)) ->
  call_steps sigs body (S fuel) ctx (VCur (Raw i)) (ss ++ [last]) =
  Some ([(i, now)], match ctx with
                    | [] => Raise TypeError
                    | _ :: _ => Ok (Many (VData d :: later) [])
                    end).
Proof. exact @pass_data. Qed.
Print Assumptions C47_to_data_partial.

(** If the result is several values, the others come before the surplus arguments. *)
Theorem C47_to_values_partial : forall (D : Type) (sigs : nat -> signature (val D)) body i,
  fixed (sigs i) -> NoDup (map p_name (sigs i)) -> positional (sigs i) ->
  forall ss last fuel ctx, length ss <= 2 ->
  all_kws (ss ++ [last]) = [] ->
  (ss = [] \/ length (all_args ss) < length (sigs i)) ->
  length (sigs i) < length (all_args (ss ++ [last])) ->
  let now := given (sigs i) (firstn (length (sigs i)) (all_args (ss ++ [last]))) in
  let later := skipn (length (sigs i)) (all_args (ss ++ [last])) in
  forall v others, body i now = Ok (Many (v :: others) []) ->
  call_steps sigs body (S fuel) ctx (VCur (Raw i)) (ss ++ [last]) =
  match v with
  | VData d =>
      Some ([(i, now)], match ctx with
                        | [] => Raise TypeError
                        | _ :: _ => Ok (Many (VData d :: others ++ later) [])
                        end)
  | VCur g =>
      match call_curried sigs body fuel [Raw i] g (others ++ later) [] with
      | Some (l, r) => Some ((i, now) :: l, r)
      | None => None
      end
  | VFn g =>
      match signature_of sigs g with
      | Raise e => Some ([(i, now)], Raise e)
      | Ok _ => match call_curried sigs body fuel [Raw i] g (others ++ later) [] with
                | Some (l, r) => Some ((i, now) :: l, r)
                | None => None
                end
      end
  end.
Proof. exact @pass_values. Qed.
Print Assumptions C47_to_values_partial.
Theorem C47_exception_partial : forall (D : Type) (sigs : nat -> signature (val D)) body i,
  fixed (sigs i) -> NoDup (map p_name (sigs i)) -> positional (sigs i) ->
  forall ss last fuel ctx, length ss <= 2 ->
  all_kws (ss ++ [last]) = [] ->
  (ss = [] \/ length (all_args ss) < length (sigs i)) ->
  length (sigs i) < length (all_args (ss ++ [last])) ->
  let now := given (sigs i) (firstn (length (sigs i)) (all_args (ss ++ [last]))) in
  forall e, body i now = Raise e ->
  call_steps sigs body (S fuel) ctx (VCur (Raw i)) (ss ++ [last]) = Some ([(i, now)], Raise e).
Proof. exact @pass_raise. Qed.
Print Assumptions C47_exception_partial.

(** Function 0 is lambda x: g where g is function 1 = lambda y: 10; function 2 has a
    keyword-only parameter, function 3 has a **kwargs parameter. *)
Definition ex_sigs (i : nat) : signature (val nat) :=
  match i with
  | 0 => [mkparam "x" PosOrKw None]
  | 1 => [mkparam "y" PosOrKw None]
  | 2 => [mkparam "x" PosOrKw None; mkparam "y" KwOnly None]
  | _ => [mkparam "x" PosOrKw None; mkparam "kw" VarKw None]
  end.
Definition ex_body (i : nat) (b : bindings (val nat)) : outcome (ret nat) :=
  match i with 0 => Ok (One (VFn (Raw 1))) | _ => Ok (One (VData 10)) end.
Example C47_case :
  positional (ex_sigs 0) /\
  call_steps ex_sigs ex_body 3 [] (VCur (Raw 0)) [([VData 1; VData 2], [])] =
    Some ([(0, [("x", BV (VData 1))]); (1, [("y", BV (VData 2))])], Ok (One (VData 10))) /\
  option_map snd (call_steps ex_sigs ex_body 3 [Raw 9] (VCur (Raw 1)) [([VData 1; VData 2], [])]) =
    Some (Ok (Many [VData 10; VData 2] [])) /\
  option_map snd (call_steps ex_sigs ex_body 3 [] (VCur (Raw 1)) [([VData 1; VData 2], [])]) =
    Some (Raise TypeError).
Proof.
  split; [intros p [<- | []]; cbn; auto|]. split; [|split]; vm_compute; reflexivity.
Qed.

(** Refuted: at the top level, surplus arguments do not raise TypeError if the first result was
    callable; curry(lambda x: lambda y: 10)(1, 2, 3) returns Values(10, 3). *)
Theorem C47_top_level_refuted :
  call_steps ex_sigs ex_body 3 [] (VCur (Raw 0)) [([VData 1; VData 2; VData 3], [])] =
  Some ([(0, [("x", BV (VData 1))]); (1, [("y", BV (VData 2))])],
        Ok (Many [VData 10; VData 3] [])).
Proof. vm_compute. reflexivity. Qed.
Print Assumptions C47_top_level_refuted.

(** Refuted for functions with keyword-only parameters: for def f(x, *, y), even inside a curry
    context, curry(f)(1, 2, y=3) raises TypeError ("multiple values for argument 'y'") without
    calling [f], although f(1, y=3) is a valid call and 2 is surplus. *)
Theorem C47_keyword_only_refuted :
  (exists b, py_call_bind (ex_sigs 2) [VData 1] [("y", VData 3)] = Ok b) /\
  call_steps ex_sigs ex_body 3 [Raw 9] (VCur (Raw 2)) [([VData 1; VData 2], [("y", VData 3)])] =
  Some ([], Raise TypeError).
Proof. split; [eexists; vm_compute; reflexivity | vm_compute; reflexivity]. Qed.
Print Assumptions C47_keyword_only_refuted.

(** Refuted for functions with a **kwargs parameter: for def f(x, **kw), a surplus positional
    argument makes [f] lose its named arguments; they are passed on instead. *)
Theorem C47_var_keyword_refuted :
  (exists b, py_call_bind (ex_sigs 3) [VData 1] [("z", VData 3)] = Ok b /\
     bget b "kw" = Some (BDict [("z", VData 3)])) /\
  call_steps ex_sigs ex_body 3 [Raw 9] (VCur (Raw 3)) [([VData 1; VData 2], [("z", VData 3)])] =
  Some ([(3, [("x", BV (VData 1)); ("kw", BDict [])])],
        Ok (Many [VData 10; VData 2] [("z", VData 3)])).
Proof.
  split; [eexists; split; vm_compute; reflexivity | vm_compute; reflexivity].
Qed.
Print Assumptions C47_var_keyword_refuted.

(** Refuted for surplus named arguments that come before the function is complete:
    curry(f)(z=3) for def f(x) raises ValueError at once. *)
Theorem C47_early_named_refuted :
  call_steps ex_sigs ex_body 3 [Raw 9] (VCur (Raw 0)) [([], [("z", VData 3)]); ([VData 1], [])] =
  Some ([], Raise ValueError).
Proof. vm_compute. reflexivity. Qed.
Print Assumptions C47_early_named_refuted.
