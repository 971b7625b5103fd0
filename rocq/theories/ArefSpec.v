(** What [with autoref] means, said of the program as it is written, without expanding it. *)
From Coq Require Import String List Bool Arith.
From Verif Require Import Base ArefModel.
Import ListNotations.
Open Scope string_scope.
Open Scope list_scope.
Open Scope nat_scope.

(** The code at hand is inside some blocks; [bs] are the variables that hold their objects,
    the innermost block first: the [as] name if it has one, else a variable of its own that the
    program cannot name.

    A name is [exempt] if it is the [as] name of one of these blocks or one of the names that
    other macros use ([reserved]). *)
Definition reserved : list string :=
  ["letter"; "dof"; "namelambda"; "curry"; "curryfcurrycall"; "lazy"; "lazyrec";
   "maybe_force_args"; "callsite_filename"; "returns_normally"; "unpythonic_assert";
   "unpythonic_assert_signals"; "unpythonic_assert_raises"].
Definition exempt (bs : list var) (x : string) : Prop := In x reserved \/ In (U x) bs.
Definition exemptb (bs : list var) (x : string) : bool :=
  existsb (String.eqb x) reserved || existsb (var_eqb (U x)) bs.

(** The value of the bare name [x]: the attribute x of the first of the objects that has one
    now, the innermost block first; otherwise, and if the name is exempt, the variable x. *)
Definition name {C} (w : world C) (ch : list nat) (bs : list var) (x : string) : res C val :=
  if exemptb bs x then read w ch (U x)
  else
    bind (reads w ch bs) (fun os w =>
    match find (fun o => match attr w o x with Some _ => true | None => false end) os with
    | Some o => match attr w o x with Some v => ret v w | None => read w ch (U x) end
    | None => read w ch (U x)
    end).

(** A function remembers the blocks that its definition is in.  [target] says whether the names
    in t, in the assignment t.a = v, are looked up in the objects too. *)
Record sclo := mksclo { s_blocks : list var; s_clo : clo }.

Fixpoint seval (target : bool) (n : nat) (bs : list var) (ch : list nat) (w : world sclo) (t : term)
  : res sclo val :=
  match n with
  | O => None
  | S n =>
      match t with
      | ENum k => ret (VNum k) w
      | EName x => name w ch bs x
      | EAttr e a =>
          bind (seval target n bs ch w e) (fun v w =>
          match attr w v a with Some x => ret x w | None => raise AttributeError w end)
      | ECall f args =>
          bind (seval target n bs ch w f) (fun v w =>
          bind (sevals target n bs ch w args) (fun vs w => scall target n w v vs))
      | ELam ps b =>
          let (v, w) := new_fun w (mksclo bs (mkclo ch ps (inl b))) in ret v w
      | EObj l =>
          bind (sevals target n bs ch w (map snd l)) (fun vs w =>
          let (v, w) := new_obj w (combine (map fst l) vs) in ret v w)
      | EPrint e => bind (seval target n bs ch w e) (fun v w => ret v (print w v))
      | ERef _ _ => raise SyntaxError w         (* not in programs *)
      end
  end
with sevals (target : bool) (n : nat) (bs : list var) (ch : list nat) (w : world sclo) (l : list term)
  : res sclo (list val) :=
  match n with
  | O => None
  | S n =>
      match l with
      | [] => ret [] w
      | t :: l' =>
          bind (seval target n bs ch w t) (fun v w =>
          bind (sevals target n bs ch w l') (fun vs w => ret (v :: vs) w))
      end
  end
with scall (target : bool) (n : nat) (w : world sclo) (f : val) (args : list val) : res sclo val :=
  match n with
  | O => None
  | S n =>
      match f with
      | VFun i =>
          match nth_error (funs w) i with
          | Some (mksclo bs c) =>
              if negb (length (c_params c) =? length args) then raise TypeError w
              else
                let (j, w) := new_scope w (combine (map U (c_params c)) args) in
                match c_body c with
                | inl e => seval target n bs (j :: c_scopes c) w e
                | inr b =>
                    bind (sexec target n bs (j :: c_scopes c) w b) (fun r w =>
                    ret (match r with Ret v => v | Next => VNone end) w)
                end
          | None => raise TypeError w
          end
      | _ => raise TypeError w
      end
  end
with sexec (target : bool) (n : nat) (bs : list var) (ch : list nat) (w : world sclo) (b : list stmt)
  : res sclo ending :=
  match n with
  | O => None
  | S n =>
      match b with
      | [] => ret Next w
      | s :: b' =>
          bind
            (match s with
             | SExpr e => bind (seval target n bs ch w e) (fun _ w => ret Next w)
             | SAssign x e =>
                 bind (seval target n bs ch w e) (fun v w => ret Next (assign w ch (U x) v))
             | SSetAttr t a e =>
                 bind (seval target n bs ch w e) (fun v w =>
                 bind (seval target n (if target then bs else []) ch w t) (fun o w =>
                 match set_attr w o a v with
                 | Some w => ret Next w
                 | None => raise AttributeError w
                 end))
             | SIf c x y =>
                 bind (seval target n bs ch w c) (fun v w =>
                 sexec target n bs ch w (if truthy v then x else y))
             | SWhile c x =>
                 bind (seval target n bs ch w c) (fun v w =>
                 if truthy v
                 then bind (sexec target n bs ch w x) (fun r w =>
                      match r with
                      | Ret v => ret (Ret v) w
                      | Next => sexec target n bs ch w [SWhile c x]
                      end)
                 else ret Next w)
             | SDef f ps x =>
                 let (v, w) := new_fun w (mksclo bs (mkclo ch ps (inr x))) in
                 ret Next (assign w ch (U f) v)
             | SReturn e => bind (seval target n bs ch w e) (fun v w => ret (Ret v) w)
             | SWith k o e x =>
                 (* the object is evaluated in the surrounding blocks, and stored; the body
                    runs with one more block around it *)
                 let b := match o with Some x => U x | None => H k end in
                 bind (seval target n bs ch w e) (fun v w =>
                 sexec target n (b :: bs) ch (assign w ch b v) x)
             | SMark _ _ _ => raise SyntaxError w      (* not in programs *)
             end)
            (fun r w =>
             match r with
             | Ret v => ret (Ret v) w
             | Next => sexec target n bs ch w b'
             end)
      end
  end.
Definition srun (target : bool) (n : nat) (p : list stmt) : res sclo ending := sexec target n [] [0] start p.

(** ** Programs *)
(** Code that a program may contain: no nodes that only the macro makes. *)
Fixpoint source_term (t : term) : Prop :=
  match t with
  | ENum _ | EName _ => True
  | EAttr e _ | EPrint e | ELam _ e => source_term e
  | ECall f args => source_term f /\ fold_right (fun t P => source_term t /\ P) True args
  | EObj l => fold_right (fun p P => source_term (snd p) /\ P) True l
  | ERef _ _ => False
  end.
(** The names that an expression mentions. *)
Fixpoint names (t : term) : list string :=
  match t with
  | ENum _ => []
  | EName x => [x]
  | EAttr e _ | EPrint e | ELam _ e => names e
  | ECall f args => names f ++ flat_map names args
  | EObj l => flat_map (fun p => names (snd p)) l
  | ERef _ x => [x]
  end.
(** A program.  [inside] says whether the code is inside a block: there, the object of an inner
    block must not mention the [as] name of that block. *)
Fixpoint source (inside : bool) (s : stmt) : Prop :=
  match s with
  | SExpr e | SAssign _ e | SReturn e => source_term e
  | SSetAttr t _ v => source_term t /\ source_term v
  | SIf c a b =>
      source_term c /\ fold_right (fun s P => source inside s /\ P) True a /\
      fold_right (fun s P => source inside s /\ P) True b
  | SWhile c b => source_term c /\ fold_right (fun s P => source inside s /\ P) True b
  | SDef _ _ b => fold_right (fun s P => source inside s /\ P) True b
  | SWith _ o e b =>
      source_term e /\
      (inside = true -> match o with Some x => ~ In x (names e) | None => True end) /\
      fold_right (fun s P => source true s /\ P) True b
  | SMark _ _ _ => False
  end.
Definition program (p : list stmt) : Prop := forall s, In s p -> source false s.

(** What there is to see of a run: how it ended, what was printed, the objects, and the
    variables. *)
Definition seen {C} (r : res C ending)
  : option (outcome ending * list val * list (list (string * val)) * list (list (var * val))) :=
  match r with
  | None => None
  | Some (o, w) => Some (o, out w, objs w, scopes w)
  end.
(** How it ended, and what was printed. *)
Definition printed {C} (r : res C ending) : option (outcome ending * list val) :=
  match r with None => None | Some (o, w) => Some (o, out w) end.
