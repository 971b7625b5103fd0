(** A Python with proper tail calls, for the statement of what `with tco` does to the use of the stack.
    The programs are those of PyModel, and run as there, except that a call which is the last thing that a
    function does (in `return f(x)`, in the branches of a conditional, as the last item of a chain of
    `and`s or `or`s; in the body of a lambda) is made after the function has been left.  So a limit on the
    number of calls in progress counts only the other calls.  (A `return` in a try or with that is still
    active is not treated apart here: the programs spoken of have no calls there.) *)
From Coq Require Import String List ZArith Arith Bool.
From Verif Require Import Base PyModel.
Import ListNotations.
Open Scope string_scope.
Open Scope list_scope.
Open Scope nat_scope.

Section Ptc.
Variable W : Type.
Variable prim : nat -> list value -> W -> outcome value * W.
Notation heap := (heap W).

Section Eval.
(** an ordinary call, and a call in tail position *)
Variables call last_call : value -> list value -> M W value.
Variable loops : nat.
Notation eval := (eval W prim call).

Definition eval_all (cur : nat) := fix eval_all (l : list expr) (h : heap) : option (outcome (list value) * heap) :=
  match l with
  | [] => Some (Ok [], h)
  | e :: l =>
      match eval cur e h with
      | Some (Ok v, h) => match eval_all l h with Some (Ok vs, h) => Some (Ok (v :: vs), h) | r => r end
      | Some (Raise x, h) => Some (Raise x, h)
      | None => None
      end
  end.
(** An expression in tail position *)
Fixpoint eval_last (cur : nat) (e : expr) (h : heap) {struct e} : option (outcome value * heap) :=
  match e with
  | ECall f args =>
      match eval cur f h with
      | Some (Ok g, h) =>
          match eval_all cur args h with
          | Some (Ok vs, h) => last_call g vs h
          | Some (Raise x, h) => Some (Raise x, h)
          | None => None
          end
      | r => r
      end
  | EIf t a b =>
      match eval cur t h with
      | Some (Ok v, h) => if truthy v then eval_last cur a h else eval_last cur b h
      | r => r
      end
  | EBool isand l =>
      (fix items (l : list expr) (h : heap) : option (outcome value * heap) :=
         match l with
         | [] => Some (Ok VNone, h)
         | [e] => eval_last cur e h
         | e :: l =>
             match eval cur e h with
             | Some (Ok v, h) => if Bool.eqb (truthy v) isand then items l h else Some (Ok v, h)
             | r => r
             end
         end) l h
  | e => eval cur e h
  end.
(** As [PyModel.exec], except for `return` *)
Fixpoint exec (cur : nat) (s : stmt) (h : heap) {struct s} : option (comp * heap) :=
  let block := fix block (l : list stmt) (last : value) (h : heap) : option (comp * heap) :=
    match l with [] => Some (CNormal last, h) | s :: l => and_then W (exec cur s h) (fun v h => block l v h) end in
  match s with
  | SReturn e => of_expr W (fun v h => Some (CReturn v, h)) (eval_last cur e h)
  | SExpr e => of_expr W (fun v h => Some (CNormal v, h)) (eval cur e h)
  | SAssign x e => of_expr W (fun v h => Some (CNormal VNone, assign W cur x v h)) (eval cur e h)
  | SPass => Some (CNormal VNone, h)
  | SRaise e => of_expr W (fun v h => Some (CRaise match v with VExn x => x | _ => TypeError end, h)) (eval cur e h)
  | SBreak => Some (CBreak, h)
  | SContinue => Some (CContinue, h)
  | SIf e a b => of_expr W (fun v h => block (if truthy v then a else b) VNone h) (eval cur e h)
  | SWhile e a b =>
      (fix loop (k : nat) (h : heap) : option (comp * heap) :=
         match k with
         | 0 => None
         | S k =>
             of_expr W (fun v h =>
               if truthy v
               then match block a VNone h with
                    | Some (CNormal _, h) | Some (CContinue, h) => loop k h
                    | Some (CBreak, h) => Some (CNormal VNone, h)
                    | r => r
                    end
               else and_then W (block b VNone h) (fun _ h => Some (CNormal VNone, h))) (eval cur e h)
         end) loops h
  | STry a hs b c =>
      let r := match block a VNone h with
               | Some (CNormal v, h) => match b with [] => Some (CNormal v, h) | _ => block b VNone h end
               | Some (CRaise x, h) =>
                   (fix first (hs : list ((exn -> bool) * list stmt)) : option (comp * heap) :=
                      match hs with
                      | [] => Some (CRaise x, h)
                      | (m, l) :: hs => if m x then block l VNone h else first hs
                      end) hs
               | r => r
               end in
      at_last W r (fun h => block c VNone h)
  | SWith e x a =>
      of_expr W (fun v h => leave_with W call v (block a VNone (match x with Some x => assign W cur x v h | None => h end))) (eval cur e h)
  | SDef tr x ps b =>
      let v := VFun (length (funs h)) in
      Some (CNormal v, assign W cur x v (new_fun W (mkFun tr ps (BBlock b) (outer W cur h)) h))
  | SClass x b =>
      let n := length (frames h) in
      match (fix cblock (l : list stmt) (h : heap) : option (comp * heap) :=
               match l with [] => Some (CNormal VNone, h) | s :: l => and_then W (exec n s h) (fun _ h => cblock l h) end)
              b (new_frame W (mkFrame (unbound (binds_all b)) (Some (outer W cur h)) true) h) with
      | Some (CNormal _, h) => let v := VObj (length (objs h)) in Some (CNormal v, assign W cur x v (new_obj W n h))
      | Some (CRaise e, h) => Some (CRaise e, h)
      | Some (_, h) => Some (CRaise SyntaxError, h)
      | None => None
      end
  | SList l => block l VNone h
  end.
Definition block (cur : nat) := fix block (l : list stmt) (last : value) (h : heap) : option (comp * heap) :=
  match l with [] => Some (CNormal last, h) | s :: l => and_then W (exec cur s h) (fun v h => block l v h) end.
Definition run_body (f : fobj) (args : list value) : M W value := fun h =>
  match bound (fparams f) args with
  | None => Some (Raise TypeError, h)
  | Some l =>
      let cur := length (frames h) in
      match fcode f with
      | BExpr e => eval_last cur e (new_frame W (mkFrame l (Some (fenv f)) false) h)
      | BBlock b =>
          match block cur b VNone (new_frame W (mkFrame (l ++ unbound (binds_all b)) (Some (fenv f)) false) h) with
          | Some (c, h) => Some (result false c, h)
          | None => None
          end
      end
  end.
End Eval.

(** A call.  [room]: how many calls can be nested yet, if there is a limit.  A call in tail position
    takes the place of the call that ends with it.  What is not a function is given no result when it is
    called. *)
Fixpoint call (fuel : nat) (room : option nat) (last : bool) (g : value) (args : list value) (h : heap)
    : option (outcome value * heap) :=
  match fuel with
  | 0 => None
  | S fuel =>
      let body f room := run_body (call fuel room false) (call fuel room true) fuel f args h in
      match g with
      | VPrim o => let (r, w) := prim o args (world h) in Some (r, set_world W w h)
      | VFun n =>
          match nth_error (funs h) n with
          | None => None
          | Some f =>
              match last, room with
              | true, _ | _, None => body f room
              | false, Some 0 => Some (Raise RecursionError, h)
              | false, Some (S room) => body f (Some room)
              end
          end
      | _ => None
      end
  end.
Definition module (fuel : nat) (room : option nat) (l : list stmt) (h : heap) : option (comp * heap) :=
  block (call fuel room false) (call fuel room true) fuel 0 l VNone h.
End Ptc.
