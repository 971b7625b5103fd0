(** fn[...] without names for its parameters: the meaning of programs before expansion.  Where the i-th
    underscore of an fn[...] stands, from the left, the value is that of the i-th argument. *)
From Coq Require Import String List Bool Arith.
From Verif Require Import Base FnlModel.
Import ListNotations.
Open Scope string_scope.
Open Scope list_scope.
Open Scope nat_scope.

(** The number of underscores, not counting those of an fn[...] inside *)
Fixpoint slots (t : ex) : nat :=
  match t with
  | FConst _ | FFn _ => 0
  | FName (User "_") => 1
  | FName _ => 0
  | FPrim _ l => list_sum (map slots l)
  | FCall f l => slots f + list_sum (map slots l)
  | FIf a t b => slots a + slots t + slots b
  | FDict l => list_sum (map (fun kv => slots (fst kv) + slots (snd kv)) l)
  | FLam _ b => slots b
  end.

Section Run.
Variable W : Type.
Variable prim : nat -> list value -> W -> outcome value * W.
Variable mkdict : list (value * value) -> W -> outcome value * W.
Variable globals : string -> option value.

(** Functions: of a lambda inside of an fn[...] that got the arguments [args] ([None]: not inside of one),
    the body having [off] underscores on its left; of an fn[...] *)
Inductive sfun :=
| SLam (e : env) (args : option (list value)) (off : nat) (ps : list nm) (b : ex)
| SFn (e : env) (b : ex).
Record sheap := mkSH { sfuns : list sfun; sworld : W }.

Section Eval.
Variable call : value -> list value -> sheap -> option (outcome value * sheap).
Fixpoint seval (e : env) (args : option (list value)) (off : nat) (t : ex) (h : sheap) {struct t} : option (outcome value * sheap) :=
  let evals := fix evals (off : nat) (l : list ex) (h : sheap) : option (outcome (list value) * sheap) :=
    match l with
    | [] => Some (Ok [], h)
    | t :: l =>
        match seval e args off t h with
        | Some (Ok v, h) => match evals (off + slots t) l h with Some (Ok vs, h) => Some (Ok (v :: vs), h) | r => r end
        | Some (Raise x, h) => Some (Raise x, h)
        | None => None
        end
    end in
  match t with
  | FConst v => Some (Ok v, h)
  | FName x =>
      let var := match look x e with
                 | Some v => Ok v
                 | None => match x with User x => match globals x with Some v => Ok v | None => Raise NameError end | Gen _ => Raise NameError end
                 end in
      Some (match args, x with
            | Some vs, User "_" => match nth_error vs off with Some v => Ok v | None => Raise NameError end
            | _, _ => var
            end, h)
  | FPrim o l =>
      match evals off l h with
      | Some (Ok vs, h) => let (r, w) := prim o vs (sworld h) in Some (r, mkSH (sfuns h) w)
      | Some (Raise x, h) => Some (Raise x, h)
      | None => None
      end
  | FCall f l =>
      match seval e args off f h with
      | Some (Ok g, h) =>
          match evals (off + slots f) l h with
          | Some (Ok vs, h) => call g vs h
          | Some (Raise x, h) => Some (Raise x, h)
          | None => None
          end
      | r => r
      end
  | FIf a t b =>
      match seval e args (off + slots a) t h with
      | Some (Ok v, h) => if truthy v then seval e args off a h else seval e args (off + slots a + slots t) b h
      | r => r
      end
  | FDict l =>
      match (fix items (off : nat) (l : list (ex * ex)) (h : sheap) : option (outcome (list (value * value)) * sheap) :=
               match l with
               | [] => Some (Ok [], h)
               | (k, t) :: l =>
                   match seval e args off k h with
                   | Some (Ok kv, h) =>
                       match seval e args (off + slots k) t h with
                       | Some (Ok v, h) =>
                           match items (off + slots k + slots t) l h with Some (Ok vs, h) => Some (Ok ((kv, v) :: vs), h) | r => r end
                       | Some (Raise x, h) => Some (Raise x, h)
                       | None => None
                       end
                   | Some (Raise x, h) => Some (Raise x, h)
                   | None => None
                   end
               end) off l h with
      | Some (Ok vs, h) => let (r, w) := mkdict vs (sworld h) in Some (r, mkSH (sfuns h) w)
      | Some (Raise x, h) => Some (Raise x, h)
      | None => None
      end
  | FLam ps b => Some (Ok (VFun (length (sfuns h))), mkSH (sfuns h ++ [SLam e args off ps b]) (sworld h))
  | FFn b => Some (Ok (VFun (length (sfuns h))), mkSH (sfuns h ++ [SFn e b]) (sworld h))
  end.
End Eval.
Fixpoint scall (fuel : nat) (g : value) (vs : list value) (h : sheap) : option (outcome value * sheap) :=
  match fuel with
  | 0 => None
  | S fuel =>
      match g with
      | VFun n =>
          match nth_error (sfuns h) n with
          | Some (SLam e args off ps b) =>
              if Nat.eqb (length ps) (length vs) then seval (scall fuel) (combine ps vs ++ e) args off b h else Some (Raise TypeError, h)
          | Some (SFn e b) =>                 (* as many arguments as underscores *)
              if Nat.eqb (slots b) (length vs) then seval (scall fuel) e (Some vs) 0 b h else Some (Raise TypeError, h)
          | None => Some (Raise TypeError, h)
          end
      | _ => Some (Raise TypeError, h)
      end
  end.
Definition srun (fuel : nat) (t : ex) (w : W) : option (outcome value * W) :=
  match seval (scall fuel) [] None 0 t (mkSH [] w) with Some (r, h) => Some (r, sworld h) | None => None end.
End Run.

(** Written by the user; within an fn[...]:
    - no lambda has a parameter `_`;
    - `a if t else b` does not have underscores in both a and t;
    - in a dictionary display, no underscore in a value is to the left of one in a key. *)
Fixpoint dict_ok (seen : bool) (l : list (ex * ex)) : bool :=
  match l with
  | [] => true
  | (k, v) :: l => (negb seen || Nat.eqb (slots k) 0) && dict_ok (seen || negb (Nat.eqb (slots v) 0)) l
  end.
Definition is_user (x : nm) : bool := match x with User _ => true | Gen _ => false end.
Fixpoint plain (infn : bool) (t : ex) : bool :=
  match t with
  | FConst _ => true
  | FName x => is_user x
  | FPrim _ l => forallb (plain infn) l
  | FCall f l => plain infn f && forallb (plain infn) l
  | FIf a t b => (negb infn || Nat.eqb (slots a) 0 || Nat.eqb (slots t) 0) && plain infn a && plain infn t && plain infn b
  | FDict l => (negb infn || dict_ok false l) && forallb (fun kv => plain infn (fst kv) && plain infn (snd kv)) l
  | FLam ps b => forallb is_user ps && (negb infn || negb (existsb (nmeqb (User "_")) ps)) && plain infn b
  | FFn b => plain true b
  end.
