(** Reference semantics of dynamic assignment: variables are locations; [let] binds names to
    new locations for the extent of its body and nothing needs to be restored. *)
From Coq Require Import List Bool Arith.
From Verif Require Import Base CollModel DynModel.
Import ListNotations.
Open Scope nat_scope.

Section Spec.
Context {N V : Type}.
Variable neqb : N -> N -> bool.
Definition env : Type := list (N * nat).
Record sst := mksst { store : nat -> V; next : nat; sglobals : dict N V }.

Definition sget (e : env) (s : sst) (n : N) : option V :=
  match dict_get neqb e n with
  | Some l => Some (store s l)
  | None => dict_get neqb (sglobals s) n
  end.
Definition sset (e : env) (s : sst) (n : N) (v : V) : sst :=
  match dict_get neqb e n with
  | Some l => mksst (fun l' => if l' =? l then v else store s l') (next s) (sglobals s)
  | None => mksst (store s) (next s) (dict_set neqb (sglobals s) n v)
  end.
Fixpoint alloc (b : list (N * V)) (s : sst) : env * sst :=
  match b with
  | [] => ([], s)
  | (n, v) :: b' =>
      let (e, s1) := alloc b' (mksst (fun l => if l =? next s then v else store s l) (S (next s)) (sglobals s)) in
      ((n, next s) :: e, s1)
  end.

Fixpoint meaning (c : cmd N V) (e : env) (s : sst) : outcome unit * sst * list V :=
  match c with
  | Skip => (Ok tt, s, [])
  | Seq c1 c2 =>
      match meaning c1 e s with
      | (Ok _, s1, t1) => match meaning c2 e s1 with (r, s2, t2) => (r, s2, t1 ++ t2) end
      | r => r
      end
  | Read n k =>
      match sget e s n with
      | Some v => match meaning (k v) e s with (r, s1, t) => (r, s1, v :: t) end
      | None => (Raise AttributeError, s, [])
      end
  | Assign n v =>
      match sget e s n with
      | Some _ => (Ok tt, sset e s n v, [])
      | None => (Raise AttributeError, s, [])
      end
  | Update b =>
      if forallb (fun nv => match sget e s (fst nv) with Some _ => true | None => false end) b
      then (Ok tt, fold_left (fun s nv => sset e s (fst nv) (snd nv)) b s, [])
      else (Raise AttributeError, s, [])
  | MakeDynvar b => (Ok tt, mksst (store s) (next s) (dict_update neqb (sglobals s) b), [])
  | Throw x => (Raise x, s, [])
  | Try c1 h =>
      match meaning c1 e s with
      | (Raise x, s1, t1) => match meaning (h x) e s1 with (r, s2, t2) => (r, s2, t1 ++ t2) end
      | r => r
      end
  | Let b body =>
      let (e1, s1) := alloc b s in meaning body (e1 ++ e) s1
  end.
(** A program that reads, opens blocks, raises and catches, but assigns nothing. *)
Fixpoint no_assignment (c : cmd N V) : Prop :=
  match c with
  | Skip | Throw _ => True
  | Seq c1 c2 => no_assignment c1 /\ no_assignment c2
  | Read _ k => forall v, no_assignment (k v)
  | Assign _ _ | Update _ | MakeDynvar _ => False
  | Try c1 h => no_assignment c1 /\ forall x, no_assignment (h x)
  | Let _ body => no_assignment body
  end.
(** Nothing bound but defaults. *)
Definition sst0 (g : dict N V) (v0 : V) : sst := mksst (fun _ => v0) 0 g.
End Spec.
