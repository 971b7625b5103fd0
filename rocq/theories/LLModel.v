(** Model of unpythonic/llist.py. *)
From Verif Require Import Base ItrModel FoldModel.
From Coq Require Import List Bool ZArith.
Import ListNotations.
Open Scope nat_scope.

Section LL.
Context {A : Type}.
(** [==] on atoms; an atom never equals a cons or nil *)
Variable aeqb : A -> A -> bool.

(** A value: an object that is neither a cons nor nil (and not iterable), [nil], or a
    cons cell (llist.py 210-218; cells are immutable, so they are values). *)
Inductive val : Type :=
| Atom (a : A)
| Nil
| Cons (car cdr : val).
(** isinstance(v, cons): llist.py 210-270 *)
Definition is_cons (v : val) : bool := match v with Cons _ _ => true | _ => false end.
(** [v is nil]: llist.py 37-45 *)
Definition is_nil (v : val) : bool := match v with Nil => true | _ => false end.

(** What iterating produces: the items, and whether the iteration ends with
    StopIteration ([true]) or with a TypeError ([false]). *)
Definition gen (B : Type) : Type := list B * bool.
(** [list(...)] of an iterator; an improper end raises TypeError: llist.py 75-89 *)
Definition drain {B} (g : gen B) : outcome (list B) := if snd g then Ok (fst g) else Raise TypeError.

(** llist.py 78-88, the walker of LinkedListIterator; an atom is only met as a cdr *)
Fixpoint ll_walk (cell : val) : gen val :=
  match cell with
  | Nil => ([], true)
  | Cons a d => let '(l, ok) := ll_walk d in (a :: l, ok)
  | Atom _ => ([], false)
  end.
(** llist.py 64-67, 75-89: the start cell must be a cons *)
Definition linked_list_iterator (head : val) : outcome (gen val) :=
  if is_cons head then Ok (ll_walk head) else Raise TypeError.
(** llist.py 101-121 *)
Definition list_or_cell_iterator (head : val) : outcome (gen val) :=
  match head with
  | Cons a d => match d with
                | Atom _ => Ok ([a; d], true)
                | _ => let '(l, ok) := ll_walk d in Ok (a :: l, ok)
                end
  | _ => Raise TypeError
  end.
(** llist.py 123-139 *)
Fixpoint tail_walk (cell : val) : gen val :=
  match cell with
  | Nil => ([], true)
  | Cons a d => let '(l, ok) := tail_walk d in (cell :: l, ok)
  | Atom _ => ([], false)
  end.
(** TailIterator: llist.py 123-139 *)
Definition tail_iterator (head : val) : outcome (gen val) :=
  if is_cons head then Ok (tail_walk head) else Raise TypeError.
(** [iter(v)]: llist.py 40-43, 223-225 *)
Definition iter (v : val) : outcome (gen val) :=
  match v with
  | Nil => Ok ([], true)
  | Cons _ _ => list_or_cell_iterator v
  | Atom _ => Raise TypeError
  end.
(** [list(v)] *)
Definition items (v : val) : outcome (list val) := do g <- iter v; drain g.

(** llist.py 141-208: the explicit stack, top first.  [keepnil]: [true] for
    BinaryTreeIterator, [false] for JackOfAllTradesIterator.  [None]: out of fuel. *)
Fixpoint tree_loop (keepnil : bool) (fuel : nat) (stack : list val) : option (list val) :=
  match stack with
  | [] => Some []
  | cell :: stack =>
      match fuel with
      | O => None
      | S fuel =>
          match cell with
          | Cons a d =>
              let out_a := if is_cons a then [] else [a] in
              let out_d := if is_cons d then [] else if negb keepnil && is_nil d then [] else [d] in
              let stack := if is_cons d then d :: stack else stack in
              let stack := if is_cons a then a :: stack else stack in
              option_map (fun l => out_a ++ out_d ++ l) (tree_loop keepnil fuel stack)
          | _ => None  (* only cons cells are pushed *)
          end
      end
  end.
(** number of cons cells *)
Fixpoint cells (v : val) : nat := match v with Cons a d => S (cells a + cells d) | _ => 0 end.
(** BinaryTreeIterator: llist.py 141-164 *)
Definition binary_tree_iterator (root : val) : outcome (option (list val)) :=
  if is_cons root then Ok (tree_loop true (cells root) [root]) else Raise TypeError.
(** JackOfAllTradesIterator: llist.py 166-208 *)
Definition jack_iterator (root : val) : outcome (option (list val)) :=
  if is_cons root then Ok (tree_loop false (cells root) [root]) else Raise TypeError.

(** llist.py 272-321: car, cdr and the accessors; [true] is "a".  [composer1i] applies the
    rightmost letter first. *)
Definition car (x : val) : outcome val := match x with Cons a _ => Ok a | _ => Raise TypeError end.
(** cdr: llist.py 288-290 *)
Definition cdr (x : val) : outcome val := match x with Cons _ d => Ok d | _ => Raise TypeError end.
(** caar, cadr and so on: llist.py 280-283 *)
Definition accessor (spec : list bool) (x : val) : outcome val :=
  fold_right (fun c r => do v <- r; if c : bool then car v else cdr v) (Ok x) spec.

(** [cons] as the fold procedure: [cons(elt, acc)] *)
Definition consproc (xs : list val) (acc : val) : val :=
  match xs with [x] => Cons x acc | _ => acc (* rows of a single input have one item *) end.
(** llist.py 363-369 on an iterable with the given items *)
Definition lreverse (its : list val) : val := foldl consproc Nil None [its].
(** llist.py 323-361 *)
Definition llist (its : list val) : val := lreverse (rev_ its).
(** ... on a linked list *)
Definition lreverse_v (v : val) : outcome val := do its <- items v; Ok (lreverse its).
(** llist of a linked list: llist.py 337-361 *)
Definition llist_v (v : val) : outcome val := do its <- items v; Ok (llist its).
(** llist.py 371-375 *)
Definition lappend_two (l1 l2 : val) : outcome val := do its <- items l1; Ok (foldr consproc l2 None [its]).
(** lappend: llist.py 371-375 *)
Definition lappend (ls : list val) : outcome val :=
  foldr (fun xs acc => match xs with [l1] => do l2 <- acc; lappend_two l1 l2 | _ => acc end) (Ok Nil) None [ls].
(** Outcomes of a list, from the left (no code in /repo). *)
Fixpoint mapM {B C} (f : B -> outcome C) (l : list B) : outcome (list C) :=
  match l with
  | [] => Ok []
  | x :: l' => do y <- f x; do ys <- mapM f l'; Ok (y :: ys)
  end.
(** llist.py 388-393.  Simplification: every input is walked to its end first, so an
    improper list is a TypeError also when a shorter input would have ended the zip
    before that. *)
Definition lzip (ls : list val) : outcome val :=
  match ls with
  | [] => Raise TypeError
  | _ => do cols <- mapM items ls; Ok (llist (map_ llist cols))
  end.

(** A reverse iterator (llist.py 91-99): its internal data and the number of items
    consumed so far; and [llist] of one (llist.py 358-360). *)
Record reviter := mkreviter { rv_data : val; rv_pos : nat }.
(** reversed(l): llist.py 226-228 *)
Definition reversed (head : val) : outcome reviter := do d <- lreverse_v head; Ok (mkreviter d 0).
(** The items that are still to come. *)
Definition rv_remaining (r : reviter) : list val := skipn (rv_pos r) (fst (ll_walk (rv_data r))).
(** One item is taken. *)
Definition rv_next (r : reviter) : reviter := mkreviter (rv_data r) (S (rv_pos r)).
(** llist() of a reverse iterator takes its internal data: llist.py 337-361 *)
Definition llist_reviter (r : reviter) : val := rv_data r.

(** llist.py 251-264 and [==] on the other values.  [fuel] bounds the depth of nested
    comparisons, [None] = out of fuel.  The shortcut for identical objects is not
    modelled (values have no identity; it agrees when every item equals itself). *)
Fixpoint veq (fuel : nat) (v w : val) : option bool :=
  match fuel with
  | O => None
  | S f =>
      match v, w with
      | Atom x, Atom y => Some (aeqb x y)
      | Nil, Nil => Some true
      | Cons a1 d1, Cons a2 d2 =>
          let fallback := match veq f a1 a2 with Some true => veq f d1 d2 | r => r end in
          let '(la, oka) := ll_walk v in
          let '(lb, okb) := ll_walk w in
          (fix loop (la lb : list val) : option bool :=  (* zip_longest *)
             match la, lb with
             | x :: la', y :: lb' => match veq f x y with Some true => loop la' lb' | r => r end
             | [], [] => if oka then if okb then Some true else fallback else fallback
             | [], _ :: _ => if oka then Some false else fallback
             | _ :: _, [] => if okb then Some false else fallback
             end) la lb
      | _, _ => Some false
      end
  end.
(** llist.py 377-386: [Some None] = the Python False; outer [None] = out of fuel *)
Fixpoint member_loop (fuel : nat) (x : val) (tails : list val) (ok : bool) : option (outcome (option val)) :=
  match tails with
  | [] => Some (if ok then Ok None else Raise TypeError)
  | t :: tails' =>
      match t with
      | Cons a _ => match veq fuel a x with
                    | None => None
                    | Some true => Some (Ok (Some t))
                    | Some false => member_loop fuel x tails' ok
                    end
      | _ => None  (* tails are cons cells *)
      end
  end.
(** member: llist.py 377-386 *)
Definition member (fuel : nat) (x l : val) : option (outcome (option val)) :=
  match tail_iterator l with
  | Raise e => Some (Raise e)
  | Ok (tails, ok) => member_loop fuel x tails ok
  end.

(** llist.py 265-270; [ha] hashes atoms, [hn] is the hash of nil, [ht] combines the
    hashes of the items of a tuple. *)
Variables (ha : A -> Z) (hn : Z) (ht : list Z -> Z).
Fixpoint sequence {B} (l : list (option B)) : option (list B) :=
  match l with
  | [] => Some []
  | None :: _ => None
  | Some x :: l' => match sequence l' with Some r => Some (x :: r) | None => None end
  end.
(** cons.__hash__: llist.py 265-270 *)
Fixpoint vhash (fuel : nat) (v : val) : option Z :=
  match fuel with
  | O => None
  | S f =>
      match v with
      | Atom a => Some (ha a)
      | Nil => Some hn
      | Cons a d =>
          let '(l, ok) := ll_walk v in
          option_map ht (sequence (map (vhash f) (if ok then l else [a; d])))
      end
  end.
End LL.
Arguments val : clear implicits.
Arguments reviter : clear implicits.
