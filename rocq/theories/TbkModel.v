(** Model of [equip_with_traceback] (unpythonic/excutil.py 150-216) and of how conditions are
    prepared for signaling (unpythonic/conditions.py 91-230, 729-796, 840-850). *)
From Verif Require Import Base.
From Coq Require Import List Bool ZArith.
Import ListNotations.
Open Scope nat_scope.

(** ** The call stack: a frame is of some function and at some line.  Top of stack first. *)
Inductive code := User (n : nat) | SignalF | PrepareF | CanonizeF | EquipF | ErrorF | CerrorF | WarnF | RaiseErrorF.
(** A frame of the call stack (no code in /repo). *)
Record frame := mkframe { fn : code; line : nat }.
(** The call stack, innermost first (no code in /repo). *)
Definition stack := list frame.
(** the running function calls [c] in line [n] *)
Definition at_line (n : nat) (st : stack) : stack :=
  match st with f :: st' => mkframe (fn f) n :: st' | [] => [] end.
(** A call (no code in /repo). *)
Definition enter (c : code) (n : nat) (st : stack) : stack := mkframe c 0 :: at_line n st.

(** types.TracebackType: tb_next, and tb_frame with tb_lineno *)
Inductive tback := TB (tb_next : option tback) (tb_frame : frame).

(** ** Exception objects.  [named]: the object mentioned in the message of a ControlError. *)
Inductive pyval := PNone | PExc (r : nat) | PClass (c : nat) | POther (n : nat).
(** An exception object: class, cause, protocol, traceback: conditions.py 202-230 *)
Record exc := mkexc { cls : nat; named : option pyval; cause : option nat; protocol : option code; trace : option tback }.
(** The exception objects. *)
Definition heap := list exc.
(** The class ControlError: conditions.py 81-89 *)
Definition ControlErrorC : nat := 0.
(** what is raised: an exception object, or one that the interpreter makes *)
Inductive raised := RExc (r : nat) | RPy (e : exn).
(** A value, or what is raised. *)
Inductive res (A : Type) := Done (h : heap) (a : A) | Fail (h : heap) (x : raised).
Arguments Done {A} h a.  Arguments Fail {A} h x.
(** One evaluation after another; an exception ends it (no code in /repo). *)
Definition bind {A B} (m : res A) (k : heap -> A -> res B) : res B :=
  match m with Done h a => k h a | Fail h x => Fail h x end.
(** A new exception object. *)
Definition alloc (h : heap) (e : exc) : heap * nat := (h ++ [e], length h).
(** An attribute of an exception object is assigned. *)
Definition write (h : heap) (r : nat) (f : exc -> exc) : heap :=
  match nth_error h r with Some e => firstn r h ++ f e :: skipn (S r) h | None => h end.

(** ** excutil.py 196-203: [getframe(depth)] is a ValueError beyond the root *)
Fixpoint collect (fuel : nat) (st : stack) (depth : nat) : list frame :=
  match fuel with
  | O => []
  | S fuel => match nth_error st depth with Some f => f :: collect fuel st (S depth) | None => [] end
  end.
(** excutil.py 206-211: the loop; [nxt] is the traceback made last *)
Fixpoint chain_up (nxt : option tback) (frames : list frame) : list tback :=
  match frames with
  | [] => []
  | f :: frames' => let tb := TB nxt f in tb :: chain_up (Some tb) frames'
  end.
(** excutil.py 212-215: [tracebacks[-1]] *)
Definition root_level (tracebacks : list tback) : option tback :=
  match rev tracebacks with tb :: _ => Some tb | [] => None end.
(** excutil.py 184-216; [st] has the frame of equip_with_traceback on top.  f_lineno is read in line 209.
    Simplification: the level is an int. *)
Definition equip_with_traceback (st : stack) (h : heap) (e : pyval) (stacklevel : Z) : res pyval :=
  match e with
  | PExc r =>
      if (stacklevel <? 0)%Z then Fail h (RPy ValueError)
      else
        let st := at_line 209 st in
        let frames := collect (S (length st)) st (Z.to_nat stacklevel) in
        let tb := root_level (chain_up None frames) in
        Done (write h r (fun x => mkexc (cls x) (named x) (cause x) (protocol x) tb)) e
  | _ => Fail h (RPy TypeError)
  end.

Section Signal.
(** What calling a class of exceptions without arguments raises, if anything.
    Simplification: it has no side effects. *)
Variable ctor : nat -> option exn.
(** The handlers for a condition, called one after the other: conditions.py 192-196 (see
    CondModel.v).  They may do anything to exception objects, and may raise (invoke a restart). *)
Variable run_handlers : heap -> nat -> res unit.

(** [err] is error(ControlError(... which mentions x)) called in conditions.py line 220 *)
Definition canonize (err : heap -> pyval -> res pyval) (h : heap) (condition x : pyval) : res pyval :=
  match x with
  | PNone => Done h PNone
  | PExc _ => Done h x
  | PClass c =>
      match ctor c with
      | None => let (h, r) := alloc h (mkexc c None None None None) in Done h (PExc r)
      | Some TypeError => err h condition
      | Some e => Fail h (RPy e)
      end
  | POther _ => err h condition
  end.

(** The functions call each other (an invalid condition is an error, which is signaled), so
    they have a number that bounds the depth; two levels are all that is ever needed. *)
Section Level.
(** [error(...)] on the level below, called with the stack of the caller *)
Variable error_below : stack -> heap -> pyval -> res pyval.

(** conditions.py 202-230; setting an attribute of None is an AttributeError *)
Definition prepare_signal_instance (st : stack) (h : heap) (condition cause_ : pyval) (protocol_ : code) (stacklevel : Z) : res pyval :=
  let err n h x :=
    let (h, r) := alloc h (mkexc ControlErrorC (Some x) None None None) in
    error_below (enter CanonizeF n st) h (PExc r) in
  bind (canonize (err 222) h condition condition) (fun h condition' =>
  bind (canonize (err 223) h condition' cause_) (fun h cause' =>
  match condition' with
  | PExc r =>
      let h := write h r (fun x => mkexc (cls x) (named x) (match cause' with PExc q => Some q | _ => None end) (Some protocol_) (trace x)) in
      equip_with_traceback (enter EquipF 228 st) h condition' stacklevel
  | _ => Fail h (RPy AttributeError)
  end)).
(** conditions.py 91-200 *)
Definition signal_ (st : stack) (h : heap) (condition cause_ : pyval) (protocol_ : option code) : res pyval :=
  let protocol_ := match protocol_ with Some p => p | None => SignalF end in
  bind (prepare_signal_instance (enter PrepareF 182 st) h condition cause_ protocol_ 3) (fun h c =>
  match c with
  | PExc r => bind (run_handlers (h : heap) r) (fun h _ => Done h c)
  | _ => Fail h (RPy TypeError) (* not reached *)
  end).
(** conditions.py 784-796 *)
Definition raise_error (st : stack) (h : heap) (condition cause_ : pyval) (protocol_ : code) : res pyval :=
  bind (signal_ (enter SignalF 789 st) h condition cause_ (Some protocol_)) (fun h c =>
  let (h, r) := alloc h (mkexc ControlErrorC None (match c with PExc q => Some q | _ => None end) None None) in
  Fail h (RExc r)).
(** conditions.py 746 *)
Definition error_ (st : stack) (h : heap) (condition cause_ : pyval) : res pyval :=
  raise_error (enter RaiseErrorF 746 st) h condition cause_ ErrorF.
End Level.

(** error(...) inside canonize; [O]: too deep, not reached *)
Fixpoint below (n : nat) (st : stack) (h : heap) (condition : pyval) : res pyval :=
  match n with
  | O => Fail h (RPy RuntimeError)
  | S n => error_ (below n) (enter ErrorF 220 st) h condition PNone
  end.

(** The user's function, on top of [st], calls them in its current line. *)
Definition call_user (c : code) (st : stack) : stack := mkframe c 0 :: st.
(** signal, called by the user: conditions.py 91-200 *)
Definition signal (st : stack) (h : heap) (condition cause_ : pyval) : res pyval :=
  signal_ (below 2) (call_user SignalF st) h condition cause_ None.
(** error, called by the user: conditions.py 729-746 *)
Definition error (st : stack) (h : heap) (condition cause_ : pyval) : res pyval :=
  error_ (below 2) (call_user ErrorF st) h condition cause_.
(** conditions.py 781-782.  Simplification here and in warn: the restarts that they offer are in
    CondModel.v; when a handler invokes one, run_handlers raises. *)
Definition cerror (st : stack) (h : heap) (condition cause_ : pyval) : res pyval :=
  raise_error (below 2) (enter RaiseErrorF 782 (call_user CerrorF st)) h condition cause_ CerrorF.
(** conditions.py 844-850: what is passed to warnings.warn, and the frame it is attributed to *)
Variable is_warning : nat -> bool.
Inductive emission := EmitObject (r : nat) | EmitText (x : pyval).
(** warn, called by the user: conditions.py 798-850 *)
Definition warn (st : stack) (h : heap) (condition cause_ : pyval) : res (emission * option frame) :=
  bind (signal_ (below 2) (enter SignalF 846 (call_user WarnF st)) h condition cause_ (Some WarnF)) (fun h _ =>
  let isinstance := match condition with
                    | PExc r => match nth_error h r with Some x => is_warning (cls x) | None => false end
                    | _ => false
                    end in
  Done h (match condition with PExc r => if isinstance then EmitObject r else EmitText condition | _ => EmitText condition end,
          nth_error (call_user WarnF st) 1)).
End Signal.
