(** Reference semantics of block objects: making a block makes a location for each of its names; `with` binds the names to
    these locations for the extent of its body. *)
From Coq Require Import List Bool Arith.
From Verif Require Import Base CollModel DynModel DynSpec DboModel.
Import ListNotations.
Open Scope nat_scope.
Open Scope list_scope.

Section Spec.
Context {N V : Type}.
Variable neqb : N -> N -> bool.
(** The blocks made so far, and the locations *)
Definition ost : Type := list (env (N := N)) * sst (N := N) (V := V).
Fixpoint bmeaning (c : bcmd N V) (e : env (N := N)) (s : ost) : outcome unit * ost * list V :=
  match c with
  | BSkip => (Ok tt, s, [])
  | BSeq c1 c2 =>
      match bmeaning c1 e s with
      | (Ok _, s1, t1) => match bmeaning c2 e s1 with (r, s2, t2) => (r, s2, t1 ++ t2) end
      | r => r
      end
  | BRead n k =>
      match sget neqb e (snd s) n with
      | Some v => match bmeaning (k v) e s with (r, s1, t) => (r, s1, v :: t) end
      | None => (Raise AttributeError, s, [])
      end
  | BAssign n v =>
      match sget neqb e (snd s) n with
      | Some _ => (Ok tt, (fst s, sset neqb e (snd s) n v), [])
      | None => (Raise AttributeError, s, [])
      end
  | BUpdate b =>
      if forallb (fun nv => match sget neqb e (snd s) (fst nv) with Some _ => true | None => false end) b
      then (Ok tt, (fst s, fold_left (fun s nv => sset neqb e s (fst nv) (snd nv)) b (snd s)), [])
      else (Raise AttributeError, s, [])
  | BMakeDynvar b => (Ok tt, (fst s, mksst (store (snd s)) (next (snd s)) (dict_update neqb (sglobals (snd s)) b)), [])
  | BThrow x => (Raise x, s, [])
  | BTry c1 h =>
      match bmeaning c1 e s with
      | (Raise x, s1, t1) => match bmeaning (h x) e s1 with (r, s2, t2) => (r, s2, t1 ++ t2) end
      | r => r
      end
  | BNew b k => let (e1, s1) := alloc b (snd s) in bmeaning (k (length (fst s))) e (fst s ++ [e1], s1)
  | BWith o body =>
      match nth_error (fst s) o with
      | Some e1 => bmeaning body (e1 ++ e) s
      | None => (Raise NameError, s, [])
      end
  end.
(** A program of C29 (DynModel): each `with dyn.let(...)` makes a block object and enters it once. *)
Fixpoint embed (c : cmd N V) : bcmd N V :=
  match c with
  | Skip => BSkip
  | Seq c1 c2 => BSeq (embed c1) (embed c2)
  | Read n k => BRead n (fun v => embed (k v))
  | Assign n v => BAssign n v
  | Update b => BUpdate b
  | MakeDynvar b => BMakeDynvar b
  | Throw x => BThrow x
  | Try c h => BTry (embed c) (fun x => embed (h x))
  | Let b body => BNew b (fun o => BWith o (embed body))
  end.
(** A program that assigns nothing *)
Fixpoint assigns_nothing (c : bcmd N V) : Prop :=
  match c with
  | BSkip | BThrow _ => True
  | BSeq c1 c2 => assigns_nothing c1 /\ assigns_nothing c2
  | BRead _ k => forall v, assigns_nothing (k v)
  | BAssign _ _ | BUpdate _ | BMakeDynvar _ => False
  | BTry c h => assigns_nothing c /\ forall x, assigns_nothing (h x)
  | BNew _ k => forall o, assigns_nothing (k o)
  | BWith _ body => assigns_nothing body
  end.
(** A program that does not enter the object [o], which is there already *)
Fixpoint avoids (o : nat) (c : bcmd N V) : Prop :=
  match c with
  | BSkip | BThrow _ | BAssign _ _ | BUpdate _ | BMakeDynvar _ => True
  | BSeq c1 c2 => avoids o c1 /\ avoids o c2
  | BRead _ k => forall v, avoids o (k v)
  | BTry c h => avoids o c /\ forall x, avoids o (h x)
  | BNew _ k => forall i, i <> o -> avoids o (k i)
  | BWith i body => i <> o /\ avoids o body
  end.
End Spec.
