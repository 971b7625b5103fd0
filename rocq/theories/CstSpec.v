(** What a thread should see: the blocks that it has entered and not left yet, the innermost first. *)
From Coq Require Import String List Bool Arith.
From Verif Require Import Base CstModel.
Import ListNotations.
Open Scope list_scope.

(** The open blocks of thread [t] after a history *)
Definition opens (t : nat) (l : list obj) (e : nat * op) : list obj :=
  if Nat.eqb (fst e) t
  then match snd e with
       | Enter o => o :: l
       | Exit o => filter (fun o' => negb (oeqb o o')) l
       | _ => l
       end
  else l.
Definition open (t : nat) (es : list (nat * op)) : list obj := fold_left (opens t) es [].
(** What a block was made with *)
Fixpoint made (es : list (nat * op)) (o : obj) : option bindings :=
  match es with
  | [] => None
  | (t, New n b) :: es => if oeqb o (t, n) then Some b else made es o
  | _ :: es => made es o
  end.
(** Every thread uses the blocks that it made. *)
Definition own_use (es : list (nat * op)) : Prop := forall t o, In (t, Enter o) es \/ In (t, Exit o) es -> fst o = t.
(** Blocks of handlers, or blocks of restarts *)
Definition same_kind (es : list (nat * op)) (o o' : obj) : Prop :=
  match made es o, made es o' with
  | Some (Handlers _), Some (Handlers _) | Some (Restarts _), Some (Restarts _) => True
  | _, _ => False
  end.
(** Each block is made once, and is not entered before that or while it is open; and a thread leaves the innermost of its
    blocks of the same kind.  (Handlers and restarts need not be nested in each other.) *)
Definition proper (es : list (nat * op)) : Prop :=
  (forall before t n b after, es = before ++ (t, New n b) :: after -> made before (t, n) = None) /\
  (forall before t o after, es = before ++ (t, Enter o) :: after -> made before o <> None /\ ~ In o (open t before)) /\
  (forall before t o after, es = before ++ (t, Exit o) :: after ->
     exists inner outer, open t before = inner ++ o :: outer /\ forall o', In o' inner -> ~ same_kind before o o').
(** The same, but that a thread may leave any of its open blocks *)
Definition any_order (es : list (nat * op)) : Prop :=
  (forall before t n b after, es = before ++ (t, New n b) :: after -> made before (t, n) = None) /\
  (forall before t o after, es = before ++ (t, Enter o) :: after -> made before o <> None /\ ~ In o (open t before)) /\
  (forall before t o after, es = before ++ (t, Exit o) :: after -> In o (open t before)).
(** The handlers of the open blocks, in the order in which they are to be tried *)
Definition in_order (es : list (nat * op)) (t : nat) : list (list nat * nat) :=
  flat_map (fun o => match made es o with Some (Handlers l) => l | _ => [] end) (open t es).
(** The result if no block is open *)
Definition empty_result (o : op) : result :=
  match o with
  | New _ _ | Enter _ | Exit _ => Nothing
  | FindRestart _ => Found None
  | AvailableRestarts => TheRestarts []
  | AvailableHandlers => TheHandlers []
  | FindHandlers _ => Matching []
  end.
(** The innermost block that has a restart of that name *)
Definition restart_of (es : list (nat * op)) (n : string) (o : obj) : option nat :=
  match made es o with Some (Restarts l) => assoc n l | _ => None end.
Definition innermost (es : list (nat * op)) (t : nat) (n : string) (o : obj) (f : nat) : Prop :=
  exists inner outer, open t es = inner ++ o :: outer /\ restart_of es n o = Some f /\
    forall o', In o' inner -> restart_of es n o' = None.
(** The right results, after the history [es] *)
Definition right (sub : nat -> nat -> bool) (es : list (nat * op)) (t : nat) (o : op) (r : result) : Prop :=
  match o with
  | New _ _ | Enter _ | Exit _ => r = Nothing
  | FindRestart n =>
      (exists o f, r = Found (Some (o, f)) /\ innermost es t n o f) \/
      (r = Found None /\ forall o, In o (open t es) -> restart_of es n o = None)
  | AvailableRestarts => exists l, r = TheRestarts l /\ NoDup (map fst l) /\
      forall n f, In (n, f) l <-> exists o, innermost es t n o f
  | AvailableHandlers => exists l, r = TheHandlers l /\ NoDup (map fst l) /\
      forall ty h, In (ty, h) l <-> exists before ts after, in_order es t = before ++ (ts, h) :: after /\ In ty ts /\
        forall ts' h', In (ts', h') before -> ~ In ty ts'
  | FindHandlers c => r = Matching (map snd (filter (fun th => existsb (sub c) (fst th)) (in_order es t)))
  end.
