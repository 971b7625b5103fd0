(** C134: mogrify with a function that raises. *)
From Coq Require Import List Arith Bool.
From Verif Require Import Base MgxModel MgxSpec MgxProofs.
Import ListNotations.

(** If no call raises: the function has been called once for each atom, from left to right; the
    result is the value with every atom replaced, mutable containers are the same objects, and
    nothing else has changed. *)
Theorem C134_calls : forall (A K : Type) (same : xval A K -> xval A K -> bool) (func : A -> outcome A) (g : A -> A)
    (t : tree A K) fuel s,
  depth t <= fuel -> in_heap (heap s) t -> NoDup (refs t) -> well_formed t ->
  (forall a, In a (leaves t) -> func a = Ok (g a)) ->
  exists s', doit same func fuel s (value t) = Done s' (value (replace same g t)) /\
    calls s' = calls s ++ leaves t /\ in_heap (heap s') (replace same g t) /\
    forall r, ~ In r (refs t) -> heap s' r = heap s r.
Proof. exact @mogrify_ok. Qed.
Print Assumptions C134_calls.

(** If a call raises: no further call is made; every part of the structure that was finished
    before has its new contents, and every other container holds exactly the items it held, so
    no container is left empty or half filled; the exception is passed on, except that
    StopIteration that leaves a tuple is seen as RuntimeError. *)
Theorem C134_raises : forall (A K : Type) (same : xval A K -> xval A K -> bool) (func : A -> outcome A) (g : A -> A)
    (t : tree A K) fuel s pre a post e,
  depth t <= fuel -> in_heap (heap s) t -> NoDup (refs t) -> well_formed t ->
  leaves t = pre ++ a :: post -> (forall b, In b pre -> func b = Ok (g b)) -> func a = Raise e ->
  exists s' e', doit same func fuel s (value t) = Failed s' e' /\ seen_as (length pre) t e e' /\
    calls s' = calls s ++ pre ++ [a] /\
    (forall i u, sub i u t -> finished i u (length pre) -> in_heap (heap s') (replace same g u)) /\
    (forall r, (forall i u, sub i u t -> finished i u (length pre) -> ident u <> Some r) -> heap s' r = heap s r).
Proof. exact @mogrify_fails. Qed.
Print Assumptions C134_raises.

(** ** Examples: [[1], Values(2, x={3, 4}), box(0)], where the function raises for 0 *)
Definition ex_same (x y : xval nat nat) : bool :=
  match x, y with XAtom a, XAtom b => a =? b | _, _ => false end.
Definition ex_func (e : exn) (n : nat) : outcome nat :=
  match n with 0 => Raise e | S _ => Ok (n / 2) end.
Definition ex_tree : tree nat nat :=
  Node (Mut 0 MList)
    [ Node (Mut 1 MList) [Leaf 2];
      Node (Imm KValues) [ Node (Imm KTuple) [Leaf 4];
                           Node (Imm (KFrozendict [7])) [Node (Mut 2 MSet) [Leaf 2; Leaf 3]]];
      Node (Mut 3 MBox) [Leaf 0] ].
Definition ex_state : state nat nat :=
  mkstate (fun r => match r with
    | 0 => Some (MList, [XRef 1; XImm KValues [XImm KTuple [XAtom 4]; XImm (KFrozendict [7]) [XRef 2]]; XRef 3])
    | 1 => Some (MList, [XAtom 2])
    | 2 => Some (MSet, [XAtom 2; XAtom 3])
    | 3 => Some (MBox, [XAtom 0])
    | _ => None
    end) [].
Definition ex_look (r : res nat nat (xval nat nat)) :=
  match r with
  | Done s x => Some (map (heap s) [0; 1; 2; 3], calls s, Ok x)
  | Failed s e => Some (map (heap s) [0; 1; 2; 3], calls s, Raise e)
  | Stuck => None
  end.

Example C134_raises_ex :
  depth ex_tree <= 5 /\ in_heap (heap ex_state) ex_tree /\ NoDup (refs ex_tree) /\ well_formed ex_tree /\
  leaves ex_tree = [2; 4; 2; 3] ++ 0 :: [] /\
  (forall b, In b [2; 4; 2; 3] -> ex_func ValueError b = Ok (b / 2)) /\ ex_func ValueError 0 = Raise ValueError /\
  ex_look (doit ex_same (ex_func ValueError) 5 ex_state (value ex_tree)) =
    Some ([ Some (MList, [XRef 1; XImm KValues [XImm KTuple [XAtom 4]; XImm (KFrozendict [7]) [XRef 2]]; XRef 3]);
            Some (MList, [XAtom 1]); Some (MSet, [XAtom 1]); Some (MBox, [XAtom 0])],
          [2; 4; 2; 3; 0], Raise ValueError).
Proof.
  split; [repeat constructor|]. split; [|split; [|split; [|split; [|split; [|split]]]]]; try reflexivity.
  - intros i u Hs. apply sub_parts in Hs. cbn in Hs.
    repeat (destruct Hs as [<-|Hs]; [cbn; auto|]). destruct Hs.
  - repeat constructor; cbn; intuition discriminate.
  - intros i u Hs. apply sub_parts in Hs. cbn in Hs.
    repeat (destruct Hs as [<-|Hs]; [cbn; auto; repeat eexists|]). destruct Hs.
  - intros b Hb. repeat (destruct Hb as [<-|Hb]; [reflexivity|]). destruct Hb.
Qed.

Example C134_calls_ex :
  let f n := Ok (n + 1) in
  (forall a, In a (leaves ex_tree) -> f a = Ok (a + 1)) /\
  ex_look (doit ex_same f 5 ex_state (value ex_tree)) =
    Some ([ Some (MList, [XRef 1; XImm KValues [XImm KTuple [XAtom 5]; XImm (KFrozendict [7]) [XRef 2]]; XRef 3]);
            Some (MList, [XAtom 3]); Some (MSet, [XAtom 3; XAtom 4]); Some (MBox, [XAtom 1])],
          [2; 4; 2; 3; 0], Ok (XRef 0)).
Proof. split; [auto|reflexivity]. Qed.

(** That a call that fails changes nothing is false: [[2], 0] with a function that raises for 0
    leaves [[1], 0]; doing it again after a failure replaces the finished parts twice. *)
Theorem C134_atomic_refuted : exists (func : nat -> outcome nat) (s : state nat nat) (x : xval nat nat) s' e r,
  doit ex_same func 3 s x = Failed s' e /\ heap s' r <> heap s r.
Proof.
  exists (ex_func ValueError),
    (mkstate (fun r => match r with 0 => Some (MList, [XRef 1; XAtom 0]) | 1 => Some (MList, [XAtom 2]) | _ => None end) []),
    (XRef 0).
  do 2 eexists. exists 1. split; [reflexivity|discriminate].
Qed.
Print Assumptions C134_atomic_refuted.

(** That the exception of the function is always passed on unchanged is false: StopIteration in
    a tuple. *)
Theorem C134_exception_refuted : exists (func : nat -> outcome nat) (s : state nat nat) (x : xval nat nat) s',
  (forall a, func a = Raise StopIterationE) /\ doit ex_same func 2 s x = Failed s' RuntimeError.
Proof.
  exists (fun _ => Raise StopIterationE), (mkstate (fun _ => None) []), (XImm KTuple [XAtom 0]).
  eexists. split; reflexivity.
Qed.
Print Assumptions C134_exception_refuted.
