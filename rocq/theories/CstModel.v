(** Model of the stacks of unpythonic/conditions.py with many threads: the blocks [with handlers] and
    [with restarts] as objects that are made, entered and left (75-79, 419-440, 488-496), and what the
    functions that look at the stacks find (506-576).  What is run in between, and the use of what was
    found, is in CondModel. *)
From Coq Require Import String List Bool Arith.
From Verif Require Import Base.
Import ListNotations.
Open Scope list_scope.

(** A block is known by the thread that made it and a number.  Functions are numbers. *)
Definition obj := (nat * nat)%type.
(** Equality of blocks. *)
Definition oeqb (a b : obj) : bool := Nat.eqb (fst a) (fst b) && Nat.eqb (snd a) (snd b).
(** What a block holds: for handlers, the types and the function; for restarts, names with functions. *)
Inductive bindings :=
| Handlers (l : list (list nat * nat))       (* types (one or a tuple), handler *)
| Restarts (l : list (string * nat)).        (* a dict: name, restart *)
Inductive op :=
| New (n : nat) (b : bindings)               (* handlers(...) or Restarts(...) *)
| Enter (o : obj)                            (* its __enter__ *)
| Exit (o : obj)                             (* its __exit__ *)
| FindRestart (name : string)
| AvailableRestarts
| AvailableHandlers
| FindHandlers (cls : nat).                  (* what signal does first *)
Inductive result :=
| Nothing
| Fails (e : exn)
| Found (r : option (obj * nat))
| TheRestarts (l : list (string * nat))
| TheHandlers (l : list (nat * nat))
| Matching (l : list nat).
(** [hst], [rst]: the two deques of each thread (made empty on first use, conditions.py 76-79).  Restarts are told
    apart by the identity of the dict. *)
Record world := mkw { objs : list (obj * bindings); hst : nat -> list (list (list nat * nat)); rst : nat -> list (obj * list (string * nat)) }.
(** Before any block is made. *)
Definition w0 : world := mkw [] (fun _ => []) (fun _ => []).
(** A function changed at one place. *)
Definition set_at {A} (f : nat -> A) (t : nat) (a : A) : nat -> A := fun u => if Nat.eqb u t then a else f u.
(** The bindings of a block. *)
Fixpoint lookup (o : obj) (l : list (obj * bindings)) : option bindings :=
  match l with [] => None | (o', b) :: l => if oeqb o o' then Some b else lookup o l end.
(** The function of a name in a block of restarts. *)
Fixpoint assoc (n : string) (l : list (string * nat)) : option nat :=
  match l with [] => None | (m, f) :: l => if String.eqb n m then Some f else assoc n l end.

Section Sub.
(** issubclass *)
Variable sub : nat -> nat -> bool.
(** conditions.py 506-515 *)
Definition find_handlers (cls : nat) (l : list (list (list nat * nat))) : list nat :=
  flat_map (fun e => flat_map (fun th : list nat * nat => if existsb (sub cls) (fst th) then [snd th] else []) e) l.
(** conditions.py 518-534 *)
Fixpoint find_restart (n : string) (l : list (obj * list (string * nat))) : option (obj * nat) :=
  match l with
  | [] => None
  | (o, e) :: l => match assoc n e with Some f => Some (o, f) | None => find_restart n l end
  end.
(** conditions.py 546-554 and 566-576, before they are sorted *)
Fixpoint unseen {K} (eqb : K -> K -> bool) (seen : list K) (l : list (K * nat)) : list (K * nat) :=
  match l with
  | [] => []
  | (k, f) :: l => if existsb (eqb k) seen then unseen eqb seen l else (k, f) :: unseen eqb (k :: seen) l
  end.
(** available_restarts: conditions.py 536-554 *)
Definition available_restarts (l : list (obj * list (string * nat))) : list (string * nat) := unseen String.eqb [] (flat_map snd l).
(** available_handlers: conditions.py 556-576 *)
Definition available_handlers (l : list (list (list nat * nat))) : list (nat * nat) :=
  unseen Nat.eqb [] (flat_map (fun e => flat_map (fun th : list nat * nat => map (fun t => (t, snd th)) (fst th)) e) l).
(** The deque that a block uses is that of the thread which made it (440, 496). *)
Definition step (w : world) (e : nat * op) : world * result :=
  let (t, o) := e in
  match o with
  | New n b => (mkw (((t, n), b) :: objs w) (hst w) (rst w), Nothing)
  | Enter o =>
      match lookup o (objs w) with
      | None => (w, Nothing)                 (* there is no such block *)
      | Some (Handlers l) => (mkw (objs w) (set_at (hst w) (fst o) (l :: hst w (fst o))) (rst w), Nothing)
      | Some (Restarts l) => (mkw (objs w) (hst w) (set_at (rst w) (fst o) ((o, l) :: rst w (fst o))), Nothing)
      end
  | Exit o =>
      match lookup o (objs w) with
      | None => (w, Nothing)
      | Some (Handlers _) =>
          match hst w (fst o) with
          | [] => (w, Fails IndexError)
          | _ :: r => (mkw (objs w) (set_at (hst w) (fst o) r) (rst w), Nothing)
          end
      | Some (Restarts _) =>
          match rst w (fst o) with
          | [] => (w, Fails IndexError)
          | _ :: r => (mkw (objs w) (hst w) (set_at (rst w) (fst o) r), Nothing)
          end
      end
  | FindRestart n => (w, Found (find_restart n (rst w t)))
  | AvailableRestarts => (w, TheRestarts (available_restarts (rst w t)))
  | AvailableHandlers => (w, TheHandlers (available_handlers (hst w t)))
  | FindHandlers c => (w, Matching (find_handlers c (hst w t)))
  end.
(** A whole history of several threads. *)
Fixpoint run (w : world) (es : list (nat * op)) : world :=
  match es with [] => w | e :: es => run (fst (step w e)) es end.
(** The results, in order *)
Fixpoint results (w : world) (es : list (nat * op)) : list (nat * result) :=
  match es with [] => [] | e :: es => (fst e, snd (step w e)) :: results (fst (step w e)) es end.
End Sub.
