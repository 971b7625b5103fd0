(** Specification vocabulary for C35 and C36. *)
From Coq Require Import List Bool Arith.
From Verif Require Import Base EcModel.
Import ListNotations.
Open Scope list_scope.

(** The documented table (ec.py 105-129): does a catch point with these tags accept a throw? *)
Definition accepts (tags : option (list nat)) (catch_untagged : bool) (t : option tag) (allow_catchall : bool) : Prop :=
  match tags, t with
  | None, None => allow_catchall = true \/ catch_untagged = true   (* a0 a1 b0 b1 *)
  | None, Some _ => allow_catchall = true                          (* a2 a3 b2 b3 *)
  | Some _, None => catch_untagged = true                          (* c0 c1 d0 d1 *)
  | Some ts, Some t => exists n, t = User n /\ In n ts             (* c2 c3 d2 d3 *)
  end.
Definition hashable (t : option tag) : Prop := forall n, t <> Some (Unhashable n).

Section EcSpec.
Context {D St : Type}.
(** What encloses a point of the program. *)
Inductive frame :=
| FCatch (tags : option (list nat)) (catch_untagged : bool)
| FEc (i : nat)                  (* inside the call_ec that made this ec *)
| FFinally (g : St -> St)
| FExcept.                       (* except Exception *)
(** The run of [c] from [s] gets to the point where it runs [c'] in [s'], with [fs] around it
    (outermost first). *)
Inductive reaches : cmd D St -> state St -> list frame -> cmd D St -> state St -> Prop :=
| RHere c s : reaches c s [] c s
| RFirst c k s fs c' s' : reaches c s fs c' s' -> reaches (Bind c k) s fs c' s'
| RSecond c k s v s1 fs c' s' :
    eval c s = (RVal v, s1) -> reaches (k v) s1 fs c' s' -> reaches (Bind c k) s fs c' s'
| RCatch ts u c s fs c' s' : reaches c s fs c' s' -> reaches (Catch ts u c) s (FCatch ts u :: fs) c' s'
| REc f s fs c' s' :
    reaches (f (Ec (fst (enter_ec s)))) (snd (enter_ec s)) fs c' s' ->
    reaches (CallEc f) s (FEc (fst (enter_ec s)) :: fs) c' s'
| RFin c g s fs c' s' : reaches c s fs c' s' -> reaches (Finally c g) s (FFinally g :: fs) c' s'
| RTry c h s fs c' s' : reaches c s fs c' s' -> reaches (Except c h) s (FExcept :: fs) c' s'
| RHandler c h s e s1 fs c' s' :
    eval c s = (RExc e, s1) -> reaches (h e) s1 fs c' s' -> reaches (Except c h) s fs c' s'.

(** Leaving the frames, innermost first: finally clauses run, escape continuations expire. *)
Definition leave (f : frame) (s : state St) : state St :=
  match f with
  | FFinally g => mkstate (ecs s) (active s) (g (user s))
  | FEc i => leave_ec i s
  | FCatch _ _ | FExcept => s
  end.
Fixpoint unwind (fs : list frame) (s : state St) : state St :=
  match fs with [] => s | f :: fs' => leave f (unwind fs' s) end.
(** No enclosing catch point accepts the throw. *)
Definition passes (t : option tag) (allow_catchall : bool) (f : frame) : Prop :=
  match f with FCatch ts u => ~ accepts ts u t allow_catchall | _ => True end.
(** A tag that the program can write *)
Definition program_tag (t : option tag) : Prop := forall u, t <> Some (Uid u).
End EcSpec.
