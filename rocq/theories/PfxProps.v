(** C89: prefix syntax for function calls (syntax/prefix.py). *)
From Coq Require Import String List ZArith Bool Arith.
From Verif Require Import Base PfxModel PfxSpec PfxProofs.
Import ListNotations.
Open Scope string_scope.
Open Scope list_scope.
Open Scope nat_scope.

(** *** C89: what prefix code means *)
Theorem C89_meaning_partial : forall V W tuple const name call item_of letd dod other e lvl d, nostars e = true ->
  (means V W tuple const name call item_of letd dod other lvl e d <->
   exists e', pfx e lvl = Ok e' /\ d = eval V W tuple const name call item_of letd dod other e').
Proof. exact meaning. Qed.
Print Assumptions C89_meaning_partial.

Theorem C89_untouched : forall e lvl, notuples e = true -> pfx e lvl = Ok e.
Proof. exact untouched. Qed.
Print Assumptions C89_untouched.

Theorem C89_quote_unquote : forall l lvl, l <> [] ->
  pfx (ETuple (EName "q" :: EName "u" :: l)) lvl = pfx (ETuple l) lvl.
Proof. exact quote_unquote. Qed.
Print Assumptions C89_quote_unquote.

Theorem C89_stray_unquote : forall l, pfx (ETuple (EName "u" :: l)) 0 = Raise SyntaxError.
Proof. exact stray_unquote. Qed.
Print Assumptions C89_stray_unquote.

(** kw( **a), kw( **b): accepted, and the first argument is dropped *)
Theorem C89_starred_refuted :
  exists e e', e = ETuple [EName "f"; ECall (EName "kw") [] [(None, EName "a")]; ECall (EName "kw") [] [(None, EName "b")]] /\
    pfx e 0 = Ok e' /\ e' = ECall (EName "f") [] [(None, EName "b")].
Proof. exact (ex_intro _ _ (ex_intro _ _ (conj eq_refl (conj eq_refl eq_refl)))). Qed.
Print Assumptions C89_starred_refuted.

(** the empty tuple is not data, not even quoted *)
Theorem C89_empty_refuted :
  exists e, e = ETuple [EName "q"; EConst 1%Z; ETuple []] /\ pfx e 0 = Raise ValueError.
Proof. exact (ex_intro _ _ (conj eq_refl eq_refl)). Qed.
Print Assumptions C89_empty_refuted.

(** (f, (q, 1, (u, g, 2)), kw(k=3), (h, 4), kw(k=5)) is f((1, g(2)), h(4), k=5) *)
Definition ex_code : ex :=
  ETuple [EName "f"; ETuple [EName "q"; EConst 1; ETuple [EName "u"; EName "g"; EConst 2]];
          ECall (EName "kw") [] [(Some "k", EConst 3)]; ETuple [EName "h"; EConst 4];
          ECall (EName "kw") [] [(Some "k", EConst 5)]]%Z.
Example C89_ex_run : nostars ex_code = true /\
  pfx ex_code 0 =
    Ok (ECall (EName "f") [ETuple [EConst 1; ECall (EName "g") [EConst 2] []]; ECall (EName "h") [EConst 4] []] [(Some "k", EConst 5)])%Z.
Proof. split; reflexivity. Qed.
Example C89_ex_means : exists d, means nat nat (fun l => length l) (fun _ => 1) (fun _ w => (Ok 7, w))
   (fun f a k w => (Ok (f + length a + 10 * length k), S w)) (fun _ _ w => (Ok 0, w)) (fun _ d => d) (fun _ w => (Ok 0, w))
   (fun _ _ w => (Ok 0, w)) 0 ex_code d /\ d 0 = (Ok 19, 3).
Proof.
  eexists. split; [apply C89_meaning_partial; [reflexivity|eexists; split; reflexivity]|reflexivity].
Qed.
Example C89_ex_rejected : pfx (ETuple [EName "q"; EConst 1%Z; ECall (EName "kw") [] [(Some "k", EConst 3%Z)]]) 0 = Raise SyntaxError /\
  pfx (ETuple [EName "f"; ECall (EName "kw") [EConst 3%Z] []]) 0 = Raise SyntaxError /\
  pfx (ETuple [EName "q"]) 0 = Raise SyntaxError.
Proof. repeat split. Qed.
Example C89_ex_untouched : notuples (ECall (EName "f") [ESub (EName "a") true [EConst 1%Z; EConst 2%Z]] [(None, EName "d")]) = true.
Proof. reflexivity. Qed.
