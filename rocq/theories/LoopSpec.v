(** Specification for C55: loops as loops. *)
From Coq Require Import List.
From Verif Require Import Base LoopModel.
Import ListNotations.
Open Scope list_scope.

Section LoopSpec.
Context {V U : Type}.

(** What one iteration decides: return loop(args), return cnt(args), brk(v), return v, raise e *)
Inductive decision := DLoop (args : list V) | DCnt (args : list V) | DBreak (v : V) | DReturn (v : V) | DRaise (e : exn).
(** [return loop(...)]: hands on whatever the call gives *)
Definition hand_on {J} (r : outcome (rv (V:=V) J)) : prog V U J := match r with Ok r => Ret r | Raise e => Throw e end.
(** [decides p u d u']: the body [p], started in the state [u], decides [d] and leaves [u'] *)
Inductive decides {J} : prog V U J -> U -> decision -> U -> Prop :=
| DecLoop args k u : (forall r, k r = hand_on r) -> decides (Loop args k) u (DLoop args) u
| DecCnt args k u : (forall r, k r = hand_on r) -> decides (Cnt args k) u (DCnt args) u
| DecBreak v u : decides (Brk v) u (DBreak v) u
| DecReturn v u : decides (Ret (RVal v)) u (DReturn v) u
| DecRaise e u : decides (Throw e) u (DRaise e) u
| DecEff g k u u1 v d u2 : g u = (u1, v) -> decides (k v) u1 d u2 -> decides (Eff g k) u d u2.

(** while True: run the body; the first thing that is not loop(...) ends it *)
Inductive loops (body : list V -> prog V U (list V)) : list V -> U -> outcome V -> U -> Prop :=
| LpLoop args u args' u1 r u2 : decides (body args) u (DLoop args') u1 -> loops body args' u1 r u2 -> loops body args u r u2
| LpReturn args u v u1 : decides (body args) u (DReturn v) u1 -> loops body args u (Ok v) u1
| LpBreak args u v u1 : decides (body args) u (DBreak v) u1 -> loops body args u (Ok v) u1
| LpRaise args u e u1 : decides (body args) u (DRaise e) u1 -> loops body args u (Raise e) u1.

Context {X It : Type}.
Variable next : It -> itres (X:=X) (It:=It).
(** for x in it: body(x, acc, *rest) *)
Inductive for_loop (body : X -> V -> list V -> prog V U (jump_args V X)) : It -> V -> list V -> U -> outcome V -> U -> Prop :=
| FlEnd it acc rest u : next it = IStop -> for_loop body it acc rest u (Ok acc) u
| FlBad it acc rest u e : next it = IRaise e -> for_loop body it acc rest u (Raise e) u
| FlLoop it acc rest u x it' acc' rest' u1 r u2 : next it = INext x it' ->
    decides (body x acc rest) u (DLoop (acc' :: rest')) u1 -> for_loop body it' acc' rest' u1 r u2 -> for_loop body it acc rest u r u2
| FlSkip it acc rest u x it' u1 r u2 : next it = INext x it' ->           (* acc is kept *)
    decides (body x acc rest) u (DLoop []) u1 -> for_loop body it' acc [] u1 r u2 -> for_loop body it acc rest u r u2
| FlContinue it acc rest u x it' rest' u1 r u2 : next it = INext x it' -> (* acc is kept *)
    decides (body x acc rest) u (DCnt rest') u1 -> for_loop body it' acc rest' u1 r u2 -> for_loop body it acc rest u r u2
| FlBreak it acc rest u x it' v u1 : next it = INext x it' ->
    decides (body x acc rest) u (DBreak v) u1 -> for_loop body it acc rest u (Ok v) u1
| FlReturn it acc rest u x it' v u1 : next it = INext x it' ->
    decides (body x acc rest) u (DReturn v) u1 -> for_loop body it acc rest u (Ok v) u1
| FlRaise it acc rest u x it' e u1 : next it = INext x it' ->
    decides (body x acc rest) u (DRaise e) u1 -> for_loop body it acc rest u (Raise e) u1.

(** The body always makes one of these decisions *)
Definition decisive {A J} (body : A -> prog V U J) : Prop := forall a u, exists d u1, decides (body a) u d u1.
(** ... and does not use cnt, which looped and looped_over do not provide *)
Definition no_continue {A J} (body : A -> prog V U J) : Prop := forall a u args u1, ~ decides (body a) u (DCnt args) u1.
End LoopSpec.
Arguments decision : clear implicits.
