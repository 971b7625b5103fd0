(** What interleaved code should see: the blocks entered and not left yet, the one entered last being innermost; a block
    that is left, is left, whichever blocks were entered since. *)
From Coq Require Import List Bool Arith.
From Verif Require Import Base CollModel DynModel DynSpec DboModel DboSpec DgnModel.
Import ListNotations.
Open Scope nat_scope.
Open Scope list_scope.

Section Spec.
Context {N V : Type}.
Variable neqb : N -> N -> bool.
(** The blocks entered and not left: which code entered it, and which block it is; the one entered last is first *)
Definition opened : Type := list (nat * nat).
(** The block the code [t] entered last is left *)
Fixpoint leave (t : nat) (os : opened) : option opened :=
  match os with
  | [] => None
  | p :: os => if fst p =? t then Some os else match leave t os with Some os' => Some (p :: os') | None => None end
  end.
(** The locations bound by the open blocks *)
Definition visible (made : list (env (N := N))) (os : opened) : env (N := N) := concat (map (fun p => nth (snd p) made []) os).
Definition sstate : Type := opened * ost (N := N) (V := V).
Definition sstep (e : event N V) (s : sstate) : option (obs V * sstate) :=
  let (t, a) := e in
  let (os, h) := s in
  let env := visible (fst h) os in
  match a with
  | ANew b => let (e1, h1) := alloc b (snd h) in Some (ODone (Ok tt), (os, (fst h ++ [e1], h1)))
  | AEnter o => if o <? length (fst h) then Some (ODone (Ok tt), ((t, o) :: os, h)) else None
  | ALeave => match leave t os with Some os' => Some (ODone (Ok tt), (os', h)) | None => None end
  | ARead n => Some (OVal match sget neqb env (snd h) n with Some v => Ok v | None => Raise AttributeError end, s)
  | AAssign n v =>
      match sget neqb env (snd h) n with
      | Some _ => Some (ODone (Ok tt), (os, (fst h, sset neqb env (snd h) n v)))
      | None => Some (ODone (Raise AttributeError), s)
      end
  | AUpdate b =>
      if forallb (fun nv => match sget neqb env (snd h) (fst nv) with Some _ => true | None => false end) b
      then Some (ODone (Ok tt), (os, (fst h, fold_left (fun h nv => sset neqb env h (fst nv) (snd nv)) b (snd h))))
      else Some (ODone (Raise AttributeError), s)
  | AMake b => Some (ODone (Ok tt), (os, (fst h, mksst (store (snd h)) (next (snd h)) (dict_update neqb (sglobals (snd h)) b))))
  end.
Fixpoint srun (es : list (event N V)) (s : sstate) : option (list (obs V) * sstate) :=
  match es with
  | [] => Some ([], s)
  | e :: es =>
      match sstep e s with
      | Some (x, s1) => match srun es s1 with Some (xs, s2) => Some (x :: xs, s2) | None => None end
      | None => None
      end
  end.
Definition s0 (defaults : dict N V) (v0 : V) : sstate := ([], ([], sst0 defaults v0)).

(** Blocks are left in the reverse of the order in which they were entered: whoever leaves one has entered the last. *)
Fixpoint orderly (owners : list nat) (es : list (event N V)) : Prop :=
  match es with
  | [] => True
  | (t, AEnter _) :: es => orderly (t :: owners) es
  | (t, ALeave) :: es => match owners with u :: owners => t = u /\ orderly owners es | [] => True end
  | _ :: es => orderly owners es
  end.
(** While one is in a block, no other code runs: nothing yields inside a block. *)
Fixpoint undisturbed (owners : list nat) (es : list (event N V)) : Prop :=
  match es with
  | [] => True
  | (t, a) :: es =>
      Forall (eq t) owners /\
      undisturbed (match a with AEnter _ => t :: owners | ALeave => tl owners | _ => owners end) es
  end.
(** Nothing assigns *)
Definition quiet (es : list (event N V)) : Prop :=
  Forall (fun e => match snd e with AAssign _ _ | AUpdate _ | AMake _ => False | _ => True end) es.
(** The same steps, all by one piece of code *)
Definition by_one (es : list (event N V)) : list (event N V) := map (fun e => (0, snd e)) es.
(** No block is empty *)
Definition binding (es : list (event N V)) : Prop := Forall (fun e => snd e <> ANew []) es.
End Spec.
