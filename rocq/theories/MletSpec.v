(** let, letseq, letrec and do with lexical scoping, without environments as objects: the meaning of
    programs before expansion.  *)
From Coq Require Import String List Bool Arith.
From Verif Require Import Base CollModel EnvModel MletModel.
Import ListNotations.
Open Scope string_scope.
Open Scope list_scope.
Open Scope nat_scope.

(** What surrounds an expression, innermost first: the parameters of a function, with their values; the
    variables of a let or do that are visible, and the number of their frame. *)
Inductive layer := Params (l : list (string * value)) | Vars (isdo : bool) (names : list string) (k : nat).
Definition senv := list layer.
Inductive place := PParam (v : value) | PVar (isdo : bool) (k : nat) | PGlobal.
Fixpoint find_param (x : string) (l : list (string * value)) : option value :=
  match l with [] => None | (y, v) :: l => if String.eqb y x then Some v else find_param x l end.
Fixpoint find (x : string) (env : senv) : place :=
  match env with
  | [] => PGlobal
  | Params l :: env => match find_param x l with Some v => PParam v | None => find x env end
  | Vars isdo names k :: env => if mems x names then PVar isdo k else find x env
  end.

(** The names that an item of a do declares, and deletes *)
Fixpoint declares (t : ex) : list string := match t with XLocal (XAsgn x v) => x :: declares v | _ => [] end.
Definition discards (t : ex) : list string := match t with XDelete (XVar x) => [x] | _ => [] end.
Definition next_names (names : list string) (t : ex) : list string :=
  filter (fun x => negb (mems x (discards t))) (names ++ declares t).

Section Run.
Variable W : Type.
Variable prim : nat -> list value -> W -> outcome value * W.
Variable globals : string -> option value.

(** A frame has the values of those variables that have one *)
Definition frame := dict string value.
Record sheap := mkS { sfuns : list (senv * list string * ex); sframes : list frame; sworld : W }.
Definition SM (A : Type) := sheap -> option (outcome A * sheap).
Definition slot (k : nat) (x : string) (h : sheap) : option value :=
  match nth_error (sframes h) k with Some d => dict_get String.eqb d x | None => None end.
Definition store (k : nat) (x : string) (v : value) (h : sheap) : sheap :=
  match nth_error (sframes h) k with
  | Some d => mkS (sfuns h) (upd (sframes h) k (dict_set String.eqb d x v)) (sworld h)
  | None => h
  end.
Definition remove (k : nat) (x : string) (h : sheap) : sheap :=
  match nth_error (sframes h) k with
  | Some d => mkS (sfuns h) (upd (sframes h) k (dict_del String.eqb d x)) (sworld h)
  | None => h
  end.
Definition new_frame (h : sheap) : sheap := mkS (sfuns h) (sframes h ++ [[]]) (sworld h).

Section Eval.
Variable call : value -> list value -> SM value.

Fixpoint seval (env : senv) (t : ex) (h : sheap) {struct t} : option (outcome value * sheap) :=
  let evals := fix evals (l : list ex) (h : sheap) : option (outcome (list value) * sheap) :=
    match l with
    | [] => Some (Ok [], h)
    | t :: l =>
        match seval env t h with
        | Some (Ok v, h) => match evals l h with Some (Ok vs, h) => Some (Ok (v :: vs), h) | r => r end
        | Some (Raise x, h) => Some (Raise x, h)
        | None => None
        end
    end in
  match t with
  | XConst v => Some (Ok v, h)
  | XVar x =>
      Some (match find x env with
            | PParam v => Ok v
            | PVar _ k => match slot k x h with Some v => Ok v | None => Raise AttributeError end   (* has no value yet, or no more *)
            | PGlobal => match globals x with Some v => Ok v | None => Raise NameError end
            end, h)
  | XPrim o l =>
      match evals l h with
      | Some (Ok vs, h) => let (r, w) := prim o vs (sworld h) in Some (r, mkS (sfuns h) (sframes h) w)
      | Some (Raise x, h) => Some (Raise x, h)
      | None => None
      end
  | XCall f l =>
      match seval env f h with
      | Some (Ok g, h) =>
          match evals l h with
          | Some (Ok vs, h) => call g vs h
          | Some (Raise x, h) => Some (Raise x, h)
          | None => None
          end
      | r => r
      end
  | XIf a b c =>
      match seval env a h with
      | Some (Ok v, h) => if truthy v then seval env b h else seval env c h
      | r => r
      end
  | XLam ps b => Some (Ok (VFun (length (sfuns h))), mkS (sfuns h ++ [(env, ps, b)]) (sframes h) (sworld h))
  | XAsgn x v =>                              (* the variable of the innermost let or do that has it *)
      match seval env v h with
      | Some (Ok v, h) =>
          match find x env with
          | PVar isdo k =>
              match isdo, slot k x h with
              | false, None => Some (Raise AttributeError, h)      (* a variable of a letrec that has no value yet *)
              | _, _ => Some (Ok v, store k x v h)
              end
          | _ => Some (Raise SyntaxError, h)  (* see [scoped] *)
          end
      | r => r
      end
  | XLocal (XAsgn x v) =>                     (* an item of a do, whose frame is the innermost *)
      match seval env v h with
      | Some (Ok v, h) =>
          match env with Vars _ _ k :: _ => Some (Ok v, store k x v h) | _ => Some (Raise SyntaxError, h) end
      | r => r
      end
  | XDelete (XVar x) =>
      match env with
      | Vars _ _ k :: _ =>
          match slot k x h with Some v => Some (Ok v, remove k x h) | None => Some (Raise KeyError, h) end
      | _ => Some (Raise SyntaxError, h)
      end
  | XLet MLet bs b =>                         (* the values do not see the variables; no variable twice *)
      match (fix values (bs : list ex) (h : sheap) : option (outcome (list (string * value)) * sheap) :=
               match bs with
               | [] => Some (Ok [], h)
               | XAsgn x v :: bs =>
                   match seval env v h with
                   | Some (Ok v, h) => match values bs h with Some (Ok vs, h) => Some (Ok ((x, v) :: vs), h) | r => r end
                   | Some (Raise y, h) => Some (Raise y, h)
                   | None => None
                   end
               | _ => Some (Raise SyntaxError, h)
               end) bs h with
      | Some (Ok vs, h) =>
          let k := length (sframes h) in
          let h := new_frame h in
          match (fix fill (vs : list (string * value)) (d : frame) : option frame :=
                   match vs with
                   | [] => Some d
                   | (x, v) :: vs => match dict_get String.eqb d x with Some _ => None | None => fill vs (dict_set String.eqb d x v) end
                   end) vs [] with
          | Some d => seval (Vars false (map fst vs) k :: env) b (mkS (sfuns h) (upd (sframes h) k d) (sworld h))
          | None => Some (Raise AttributeError, h)
          end
      | Some (Raise y, h) => Some (Raise y, h)
      | None => None
      end
  | XLet MLetseq bs b =>                      (* each value sees the variables before *)
      (fix nest (bs : list ex) (env : senv) (h : sheap) : option (outcome value * sheap) :=
         match bs with
         | [] => seval env b h
         | XAsgn x v :: bs =>
             match seval env v h with
             | Some (Ok v, h) => let k := length (sframes h) in nest bs (Vars false [x] k :: env) (store k x v (new_frame h))
             | r => r
             end
         | _ => Some (Raise SyntaxError, h)
         end) bs env h
  | XLet MLetrec bs b =>                      (* the values see the variables *)
      let k := length (sframes h) in
      let env' := Vars false (flat_map (fun b => match b with XAsgn x _ => [x] | _ => [] end) bs) k :: env in
      match (fix fill (bs : list ex) (h : sheap) : option (outcome unit * sheap) :=
               match bs with
               | [] => Some (Ok tt, h)
               | XAsgn x v :: bs =>
                   match slot k x h with
                   | Some _ => Some (Raise AttributeError, h)
                   | None =>
                       match seval env' v h with
                       | Some (Ok v, h) => fill bs (store k x v h)
                       | Some (Raise y, h) => Some (Raise y, h)
                       | None => None
                       end
                   end
               | _ => Some (Raise SyntaxError, h)
               end) bs (new_frame h) with
      | Some (Ok _, h) => seval env' b h
      | Some (Raise y, h) => Some (Raise y, h)
      | None => None
      end
  | XDo _ l =>                                (* an item sees the variables that the items before declare *)
      let k := length (sframes h) in
      (fix items (l : list ex) (names : list string) (last : outcome value) (h : sheap) : option (outcome value * sheap) :=
         match l with
         | [] => Some (last, h)
         | t :: l =>
             match seval (Vars true names k :: env) t h with
             | Some (Ok v, h) => items l (next_names names t) (Ok v) h
             | r => r
             end
         end) l [] (Raise UnboundLocalError) (new_frame h)
  | _ => Some (Raise SyntaxError, h)
  end.
End Eval.
Fixpoint scall (fuel : nat) (g : value) (vs : list value) (h : sheap) : option (outcome value * sheap) :=
  match fuel with
  | 0 => None
  | S fuel =>
      match g with
      | VPrim o => let (r, w) := prim o vs (sworld h) in Some (r, mkS (sfuns h) (sframes h) w)
      | VFun n =>
          match nth_error (sfuns h) n with
          | Some (env, ps, b) =>
              if Nat.eqb (length ps) (length vs) then seval (scall fuel) (Params (combine ps vs) :: env) b h
              else Some (Raise TypeError, h)
          | None => Some (Raise TypeError, h)
          end
      | _ => Some (Raise TypeError, h)
      end
  end.
Definition srun (fuel : nat) (t : ex) (w : W) : option (outcome value * W) :=
  match seval (scall fuel) [] t (mkS [] [] w) with Some (r, h) => Some (r, sworld h) | None => None end.
End Run.

(** * The programs that are considered *)
(** Written by the user; every `x := v` is for a variable of a let or do (not a parameter or a global
    variable, and not a variable that is just being declared by the local[] around it); variables do not
    have the names of methods of env. *)
Inductive shape := SParams (ps : list string) | SVars (names pending : list string).
Fixpoint assignable (x : string) (l : list shape) : bool :=
  match l with
  | [] => false
  | SParams ps :: l => negb (mems x ps) && assignable x l
  | SVars names pending :: l => negb (mems x pending) && (mems x names || assignable x l)
  end.
Definition var_ok (x : string) : bool := negb (mem x class_attrs).
(** [top]: is this an item of a do? *)
Fixpoint scoped (top : bool) (l : list shape) (t : ex) {struct t} : bool :=
  match t with
  | XConst _ | XVar _ => true
  | XPrim _ ts => forallb (scoped false l) ts
  | XCall f ts => scoped false l f && forallb (scoped false l) ts
  | XIf a b c => scoped false l a && scoped false l b && scoped false l c
  | XLam ps b => scoped false (SParams ps :: l) b
  | XAsgn x v => assignable x l && scoped false l v
  | XLocal (XAsgn x v) => top && var_ok x && scoped top l v
  | XDelete (XVar x) => top
  | XLet m bs b =>
      let names := flat_map (fun b => match b with XAsgn x _ => [x] | _ => [] end) bs in
      match bs with [] => false | _ => true end && forallb var_ok names &&
      match m with
      | MLet => forallb (fun b => match b with XAsgn _ v => scoped false l v | _ => false end) bs && scoped false (SVars names [] :: l) b
      | MLetrec => forallb (fun b => match b with XAsgn _ v => scoped false (SVars names [] :: l) v | _ => false end) bs && scoped false (SVars names [] :: l) b
      | MLetseq =>
          (fix nest (bs : list ex) (l : list shape) : bool :=
             match bs with
             | [] => scoped false l b
             | XAsgn x v :: bs => scoped false l v && nest bs (SVars [x] [] :: l)
             | _ => false
             end) bs l
      end
  | XDo _ ts =>
      (fix items (ts : list ex) (names : list string) : bool :=
         match ts with
         | [] => true
         | t :: ts => scoped true (SVars names (declares t) :: l) t && items ts (next_names names t)
         end) ts []
  | _ => false
  end.

(** * The programs that are accepted *)
(** Around an expression are functions, and items of dos.  Is [x] a variable of a do here?  With [new], also
    one that the item itself declares. *)
Fixpoint taken (new : bool) (x : string) (l : list shape) : bool :=
  match l with
  | [] => false
  | SParams ps :: l => negb (mems x ps) && taken new x l
  | SVars names pending :: l => mems x names || (new && mems x pending) || taken new x l
  end.
(** Is there a local[] or delete[] that is not inside a do[]?  (The extra brackets around the body of a let
    are not a do[] here.) *)
Fixpoint loose (t : ex) : bool :=
  match t with
  | XLocal _ | XDelete _ => true
  | XAsgn _ v => loose v
  | XPrim _ l | XDo true l => existsb loose l
  | XCall f l => loose f || existsb loose l
  | XIf a b c => loose a || loose b || loose c
  | XLam _ b => loose b
  | XLet _ bs b => existsb loose bs || loose b
  | _ => false
  end.
Fixpoint local_value (t : ex) : ex := match t with XLocal (XAsgn _ v) => local_value v | _ => t end.
(** [top]: is this an item of a do? *)
Fixpoint accepted (top : bool) (l : list shape) (t : ex) {struct t} : bool :=
  match t with
  | XConst _ | XVar _ => true
  | XPrim _ ts => forallb (accepted false l) ts
  | XCall f ts => accepted false l f && forallb (accepted false l) ts
  | XIf a b c => accepted false l a && accepted false l b && accepted false l c
  | XLam ps b => accepted false (SParams ps :: l) b
  | XAsgn _ v => accepted false l v
  | XLocal (XAsgn _ v) => top && accepted top l v
  | XLet _ bs b =>                            (* a variable must not have the name of a variable of a do around *)
      forallb (fun b => match b with XAsgn x v => negb (taken true x l) && accepted false l v | _ => false end) bs &&
      accepted false l b
  | XDo _ ts =>
      (fix items (ts : list ex) (names : list string) : bool :=
         match ts with
         | [] => true
         | t :: ts =>
             match t with
             | XDelete (XVar x) => negb (taken false x l)
             | XDelete _ => false
             | _ =>
                 forallb (fun x => negb (taken true x l) && negb (mems x names)) (declares t) &&
                 negb (loose (local_value t)) &&
                 accepted true (SVars names (declares t) :: l) t
             end && items ts (next_names names t)
         end) ts []
  | _ => false
  end.
(** Programs as the user writes them, not the result of macros *)
Fixpoint written (t : ex) : bool :=
  match t with
  | XConst _ | XVar _ => true
  | XPrim _ l | XDo _ l => forallb written l
  | XCall f l => written f && forallb written l
  | XIf a b c => written a && written b && written c
  | XLam _ b | XAsgn _ b | XLocal b | XDelete b => written b
  | XLet _ bs b => forallb written bs && written b
  | _ => false
  end.
