(** The meaning of programs with cond, aif, and multiple expressions in brackets, without expanding them:
    that of MletSpec for the other forms. *)
From Coq Require Import String List Bool Arith.
From Verif Require Import Base CollModel EnvModel MletModel MletSpec IfeModel.
Import ListNotations.
Open Scope string_scope.
Open Scope list_scope.
Open Scope nat_scope.

(** The names that an item of a do declares, and deletes *)
Fixpoint sdeclares (t : sx) : list string := match t with SLocal (SAsgn x v) => x :: sdeclares v | _ => [] end.
Definition sdiscards (t : sx) : list string := match t with SDelete (SVar x) => [x] | _ => [] end.
Definition snext_names (names : list string) (t : sx) : list string :=
  filter (fun x => negb (mems x (sdiscards t))) (names ++ sdeclares t).

Section Run.
Variable multi : bool.                        (* with multilambda *)
Variable W : Type.
Variable prim : nat -> list value -> W -> outcome value * W.
Variable globals : string -> option value.

Record xheap := mkX { xfuns : list (senv * list string * sx); xframes : list frame; xworld : W }.
Definition xslot (k : nat) (x : string) (h : xheap) : option value :=
  match nth_error (xframes h) k with Some d => dict_get String.eqb d x | None => None end.
Definition xstore (k : nat) (x : string) (v : value) (h : xheap) : xheap :=
  match nth_error (xframes h) k with
  | Some d => mkX (xfuns h) (upd (xframes h) k (dict_set String.eqb d x v)) (xworld h)
  | None => h
  end.
Definition xremove (k : nat) (x : string) (h : xheap) : xheap :=
  match nth_error (xframes h) k with
  | Some d => mkX (xfuns h) (upd (xframes h) k (dict_del String.eqb d x)) (xworld h)
  | None => h
  end.
Definition xnew_frame (h : xheap) : xheap := mkX (xfuns h) (xframes h ++ [[]]) (xworld h).

Section Eval.
Variable call : value -> list value -> xheap -> option (outcome value * xheap).

(** [seq]: do brackets here mean multiple expressions? *)
Fixpoint xeval (seq : bool) (env : senv) (t : sx) (h : xheap) {struct t} : option (outcome value * xheap) :=
  let evals := fix evals (l : list sx) (h : xheap) : option (outcome (list value) * xheap) :=
    match l with
    | [] => Some (Ok [], h)
    | t :: l =>
        match xeval false env t h with
        | Some (Ok v, h) => match evals l h with Some (Ok vs, h) => Some (Ok (v :: vs), h) | r => r end
        | Some (Raise x, h) => Some (Raise x, h)
        | None => None
        end
    end in
  let operate := fun (o : nat) (l : list sx) (h : xheap) =>
    match evals l h with
    | Some (Ok vs, h) => let (r, w) := prim o vs (xworld h) in Some (r, mkX (xfuns h) (xframes h) w)
    | Some (Raise x, h) => Some (Raise x, h)
    | None => None
    end in
  (* one after the other, an item sees the variables that the items before declare; the value of the last *)
  let sequence := fun (l : list sx) (h : xheap) =>
    let k := length (xframes h) in
    (fix items (l : list sx) (names : list string) (last : outcome value) (h : xheap) : option (outcome value * xheap) :=
       match l with
       | [] => Some (last, h)
       | t :: l =>
           match xeval false (Vars true names k :: env) t h with
           | Some (Ok v, h) => items l (snext_names names t) (Ok v) h
           | r => r
           end
       end) l [] (Raise UnboundLocalError) (xnew_frame h) in
  match t with
  | SConst v => Some (Ok v, h)
  | SVar x =>
      Some (match find x env with
            | PParam v => Ok v
            | PVar _ k => match xslot k x h with Some v => Ok v | None => Raise AttributeError end
            | PGlobal => match globals x with Some v => Ok v | None => Raise NameError end
            end, h)
  | SPrim o l => operate o l h
  | SCall f l =>
      match xeval false env f h with
      | Some (Ok g, h) =>
          match evals l h with
          | Some (Ok vs, h) => call g vs h
          | Some (Raise x, h) => Some (Raise x, h)
          | None => None
          end
      | r => r
      end
  | SIf a b c =>
      match xeval false env a h with
      | Some (Ok v, h) => if truthy v then xeval false env b h else xeval false env c h
      | r => r
      end
  | SLam ps b => Some (Ok (VFun (length (xfuns h))), mkX (xfuns h ++ [(env, ps, b)]) (xframes h) (xworld h))
  | SAsgn x v =>
      match xeval false env v h with
      | Some (Ok v, h) =>
          match find x env with
          | PVar isdo k =>
              match isdo, xslot k x h with
              | false, None => Some (Raise AttributeError, h)
              | _, _ => Some (Ok v, xstore k x v h)
              end
          | _ => Some (Raise SyntaxError, h)
          end
      | r => r
      end
  | SLocal (SAsgn x v) =>
      match xeval false env v h with
      | Some (Ok v, h) =>
          match env with Vars _ _ k :: _ => Some (Ok v, xstore k x v h) | _ => Some (Raise SyntaxError, h) end
      | r => r
      end
  | SDelete (SVar x) =>
      match env with
      | Vars _ _ k :: _ =>
          match xslot k x h with Some v => Some (Ok v, xremove k x h) | None => Some (Raise KeyError, h) end
      | _ => Some (Raise SyntaxError, h)
      end
  | SLet MLet bs b =>
      match (fix values (bs : list sx) (h : xheap) : option (outcome (list (string * value)) * xheap) :=
               match bs with
               | [] => Some (Ok [], h)
               | SAsgn x v :: bs =>
                   match xeval false env v h with
                   | Some (Ok v, h) => match values bs h with Some (Ok vs, h) => Some (Ok ((x, v) :: vs), h) | r => r end
                   | Some (Raise y, h) => Some (Raise y, h)
                   | None => None
                   end
               | _ => Some (Raise SyntaxError, h)
               end) bs h with
      | Some (Ok vs, h) =>
          let k := length (xframes h) in
          let h := xnew_frame h in
          match (fix fill (vs : list (string * value)) (d : frame) : option frame :=
                   match vs with
                   | [] => Some d
                   | (x, v) :: vs => match dict_get String.eqb d x with Some _ => None | None => fill vs (dict_set String.eqb d x v) end
                   end) vs [] with
          | Some d => xeval true (Vars false (map fst vs) k :: env) b (mkX (xfuns h) (upd (xframes h) k d) (xworld h))
          | None => Some (Raise AttributeError, h)
          end
      | Some (Raise y, h) => Some (Raise y, h)
      | None => None
      end
  | SLet MLetseq bs b =>
      (fix nest (bs : list sx) (env : senv) (h : xheap) : option (outcome value * xheap) :=
         match bs with
         | [] => xeval true env b h
         | SAsgn x v :: bs =>
             match xeval false env v h with
             | Some (Ok v, h) => let k := length (xframes h) in nest bs (Vars false [x] k :: env) (xstore k x v (xnew_frame h))
             | r => r
             end
         | _ => Some (Raise SyntaxError, h)
         end) bs env h
  | SLet MLetrec bs b =>
      let k := length (xframes h) in
      let env' := Vars false (flat_map (fun b => match b with SAsgn x _ => [x] | _ => [] end) bs) k :: env in
      match (fix fill (bs : list sx) (h : xheap) : option (outcome unit * xheap) :=
               match bs with
               | [] => Some (Ok tt, h)
               | SAsgn x v :: bs =>
                   match xslot k x h with
                   | Some _ => Some (Raise AttributeError, h)
                   | None =>
                       match xeval false env' v h with
                       | Some (Ok v, h) => fill bs (xstore k x v h)
                       | Some (Raise y, h) => Some (Raise y, h)
                       | None => None
                       end
                   end
               | _ => Some (Raise SyntaxError, h)
               end) bs (xnew_frame h) with
      | Some (Ok _, h) => xeval true env' b h
      | Some (Raise y, h) => Some (Raise y, h)
      | None => None
      end
  | SDo l => sequence l h
  | SBr l => if seq then sequence l h else operate oplist l h
  | SCond t a l =>                            (* test after test, up to one that is true; its branch only *)
      (fix clauses (l : list sx) (h : xheap) : option (outcome value * xheap) :=
         match l with
         | [] => Some (Raise SyntaxError, h)
         | [otherwise] => xeval true env otherwise h
         | test :: branch :: l =>
             match xeval true env test h with
             | Some (Ok v, h) => if truthy v then xeval true env branch h else clauses l h
             | r => r
             end
         end) (t :: a :: l) h
  | SAif test a b =>                          (* the test, once; its value is `it` in the branches *)
      match xeval true env test h with
      | Some (Ok v, h) =>
          let k := length (xframes h) in
          xeval true (Vars false ["it"] k :: env) (if truthy v then a else b) (xstore k "it" v (xnew_frame h))
      | r => r
      end
  | _ => Some (Raise SyntaxError, h)
  end.
End Eval.
Fixpoint xcall (fuel : nat) (g : value) (vs : list value) (h : xheap) : option (outcome value * xheap) :=
  match fuel with
  | 0 => None
  | S fuel =>
      match g with
      | VPrim o => let (r, w) := prim o vs (xworld h) in Some (r, mkX (xfuns h) (xframes h) w)
      | VFun n =>
          match nth_error (xfuns h) n with
          | Some (env, ps, b) =>              (* in a multilambda block brackets around the body are multiple expressions *)
              if Nat.eqb (length ps) (length vs) then xeval (xcall fuel) multi (Params (combine ps vs) :: env) b h
              else Some (Raise TypeError, h)
          | None => Some (Raise TypeError, h)
          end
      | _ => Some (Raise TypeError, h)
      end
  end.
Definition xrun (fuel : nat) (t : sx) (w : W) : option (outcome value * W) :=
  match xeval (xcall fuel) false [] t (mkX [] [] w) with Some (r, h) => Some (r, xworld h) | None => None end.
End Run.

(** The programs that are accepted, as far as these macros are concerned: every `it` is in the then or
    otherwise part of an aif, and is not assigned; every cond ends with an otherwise. *)
Fixpoint proper (inside : bool) (t : sx) {struct t} : bool :=
  match t with
  | SConst _ => true
  | SVar x => inside || negb (String.eqb x "it")
  | SPrim _ l | SDo l | SBr l => forallb (proper inside) l
  | SCall f l => proper inside f && forallb (proper inside) l
  | SIf a b c => proper inside a && proper inside b && proper inside c
  | SLam _ b | SLocal b | SDelete b => proper inside b
  | SAsgn x v => negb (String.eqb x "it") && proper inside v
  | SLet _ bs b => forallb (proper inside) bs && proper inside b
  | SCond t a l => proper inside t && proper inside a && Nat.odd (length l) && forallb (proper inside) l
  | SAif t a b => proper inside t && proper true a && proper true b
  end.
