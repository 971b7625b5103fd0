(** Model of the recognition and destructuring of let and do forms that are expanded already
    (unpythonic/syntax/letdoutil.py 177-192, 296-304, 617-885, with nameutil.py 52-96), of the trees that the
    macros make (letdo.py 399-417, 540-554, 913-919), and of what autocurry makes of those (autocurry.py
    80-140).  On the trees of LvwModel. *)
From Coq Require Import String List ZArith Bool Arith.
From Verif Require Import Base LvwModel.
Import ListNotations.
Open Scope string_scope.
Open Scope list_scope.
Open Scope nat_scope.

(** nameutil.py 52-96 *)
Fixpoint getname (t : tree) : option string :=
  match t with TDone t => getname t | TName x | TCap x | TAttr _ x => Some x | _ => None end.
(** isx with a name: nameutil.py 51-75 *)
Definition isx (t : tree) (x : string) : bool := match getname t with Some y => String.eqb y x | None => false end.

(** [t.args[i]] (no code in /repo). *)
Definition nth_arg (i : nat) (t : tree) : outcome tree :=            (* t.args[i] *)
  match t with
  | TCall _ args _ => match nth_error args i with Some a => Ok a | None => Raise IndexError end
  | _ => Raise AttributeError
  end.
(** [t.args[i] = new] (no code in /repo). *)
Definition put_arg (i : nat) (new t : tree) : outcome tree :=        (* t.args[i] = new *)
  match t with
  | TCall f args kws => if i <? length args then Ok (TCall f (upd args i new) kws) else Raise IndexError
  | _ => Raise AttributeError
  end.
(** [t.elts] (no code in /repo). *)
Definition elts (t : tree) : outcome (list tree) := match t with TTup l | TLst l => Ok l | _ => Raise AttributeError end.
(** A constant (no code in /repo). *)
Definition is_const (t : tree) : bool := match t with TStr _ | TConst _ => true | _ => false end.

(** letdoutil.py 177-192: islet with expanded=True.  The mode is the constant, as a tree. *)
Record xkind := mkK { curried : bool; decorator : bool; mode : tree }.
(** islet, with expanded=True: letdoutil.py 139-232 *)
Definition xislet (t : tree) : outcome (option xkind) :=
  match t with
  | TCall f args kws =>
      do c <- (if isx f "currycall" then match args with [] => Raise IndexError | a :: _ => Ok (isx a "letter") end else Ok false) ;
      if negb c && negb (isx f "letter") then Ok None
      else match filter (fun kw => String.eqb (fst kw) "mode") kws with
           | [(_, m)] => if is_const m then Ok (Some (mkK c (existsb (fun kw => String.eqb (fst kw) "_envname") kws) m)) else Raise AssertionError
           | _ => Raise AssertionError
           end
  | _ => Ok None
  end.
(** [mode == "letrec"]: letdoutil.py 617-797 *)
Definition is_letrec (k : xkind) : bool := match mode k with TStr s => String.eqb s "letrec" | _ => false end.

(** letdoutil.py 698-719 *)
Definition thebindings (k : xkind) (t : tree) : outcome tree := nth_arg (if curried k then 1 else 0) t.
(** The lambda of a binding, inside of namelambda and currycall: letdoutil.py 698-719 *)
Definition the_lambda (k : xkind) (v : tree) : outcome tree :=
  if curried k then do c <- nth_arg 1 v ; nth_arg 0 c else nth_arg 0 v.
(** Outcomes of a list, from the left (no code in /repo). *)
Fixpoint map_outcome {A B} (f : A -> outcome B) (l : list A) : outcome (list B) :=
  match l with [] => Ok [] | a :: l => do b <- f a ; do r <- map_outcome f l ; Ok (b :: r) end.
(** Unpacking into two names (no code in /repo). *)
Definition two (l : list tree) : outcome (tree * tree) := match l with [a; b] => Ok (a, b) | _ => Raise ValueError end.
(** _getbindings: letdoutil.py 698-719 *)
Definition xget_bindings (k : xkind) (t : tree) : outcome tree :=
  do tb <- thebindings k t ;
  if is_letrec k then
    do l <- elts tb ;
    do r <- map_outcome (fun b => do bl <- elts b ; do kv <- two bl ; do lam <- the_lambda k (snd kv) ; Ok (TTup [fst kv; lam])) l ;
    Ok (TTup r)
  else Ok tb.
(** letdoutil.py 772-782 *)
Definition xget_body (k : xkind) (t : tree) : outcome tree :=
  if decorator k then Raise TypeError
  else if curried k then do b <- nth_arg 2 t ; do c <- nth_arg 1 b ; nth_arg 0 c
  else do b <- nth_arg 1 t ; nth_arg 0 b.
(** letdoutil.py 671-696 *)
Definition first_param (t : tree) : outcome string :=
  match t with TLam (p :: _) _ => Ok p | TLam [] _ => Raise IndexError | _ => Raise TypeError end.
(** _deduce_envname: letdoutil.py 671-696 *)
Definition xenvname (k : xkind) (t : tree) : outcome (option string) :=
  match (do b <- xget_body k t ; first_param b) with
  | Ok e => Ok (Some e)
  | Raise TypeError | Raise AttributeError =>
      if is_letrec k then
        match (do tb <- xget_bindings k t ; do l <- elts tb ;
               match l with [] => Raise ValueError | b :: _ => do bl <- elts b ; do kv <- two bl ; first_param (snd kv) end) with
        | Ok e => Ok (Some e)
        | Raise TypeError | Raise AttributeError | Raise ValueError => Ok None
        | Raise y => Raise y
        end
      else Ok None
  | Raise y => Raise y
  end.
(** letdoutil.py 660-669: ExpandedLetView *)
Record xview := mkX { xtree : tree; xkind_of : xkind; envname : option string }.
(** Making an ExpandedLetView: letdoutil.py 660-669 *)
Definition xview_of (t : tree) : outcome xview :=
  do r <- xislet t ;
  match r with
  | None => Raise TypeError
  | Some k => do e <- xenvname k t ; Ok (mkX t k e)
  end.
(** The bindings attribute: letdoutil.py 698-719 *)
Definition xbindings (v : xview) : outcome tree := xget_bindings (xkind_of v) (xtree v).
(** The body attribute: letdoutil.py 772-782 *)
Definition xbody (v : xview) : outcome tree := xget_body (xkind_of v) (xtree v).
(** [new.args.args[0].arg = envname] (None is left out: then there was no lambda to take the name from) *)
Definition inject (e : option string) (t : tree) : outcome tree :=
  match t with
  | TLam (p :: ps) b => Ok (TLam (match e with Some x => x | None => p end :: ps) b)
  | TLam [] _ => Raise IndexError
  | _ => Raise TypeError
  end.
(** letdoutil.py 783-796 *)
Definition xset_body (v : xview) (new : tree) : outcome tree :=
  let k := xkind_of v in
  let t := xtree v in
  if decorator k then Raise TypeError
  else do new <- inject (envname v) new ;
       if curried k then do b <- nth_arg 2 t ; do c <- nth_arg 1 b ; do c' <- put_arg 0 new c ; do b' <- put_arg 1 c' b ; put_arg 2 b' t
       else do b <- nth_arg 1 t ; do b' <- put_arg 0 new b ; put_arg 1 b' t.
(** letdoutil.py 720-769 *)
Definition const_text (t : tree) : string := match t with TStr s => s | _ => "" end.   (* a number is left out *)
Definition relabel (c : bool) (name : string) (thev : tree) : outcome tree :=
  if c then do f <- nth_arg 0 thev ; do f' <- put_arg 1 (TStr ("letrec_binding_" ++ name)) f ; put_arg 0 f' thev
  else match thev with
       | TCall f args kws => do f' <- put_arg 0 (TStr ("letrec_binding_" ++ name)) f ; Ok (TCall f' args kws)
       | _ => Raise AttributeError
       end.
(** A new lambda in the place of the old one: letdoutil.py 720-769 *)
Definition replace_lambda (c : bool) (new thev : tree) : outcome tree :=
  if c then do cf <- nth_arg 1 thev ; do cf' <- put_arg 0 new cf ; put_arg 1 cf' thev else put_arg 0 new thev.
(** The bindings of a letrec are replaced one by one: letdoutil.py 720-769 *)
Fixpoint set_rec (k : xkind) (e : option string) (old new : list tree) : outcome (list tree) :=
  match old, new with
  | ob :: old, nb :: new =>
      do ol <- elts ob ; do okv <- two ol ;
      do nl <- elts nb ; do nkv <- two nl ;
      do lam <- inject e (snd nkv) ;
      do thev <- replace_lambda (curried k) lam (snd okv) ;
      do thev <- relabel (curried k) (const_text (fst nkv)) thev ;
      do r <- set_rec k e old new ;
      Ok (TTup [fst nkv; thev] :: r)
  | _, _ => Ok []
  end.
(** A tuple of two: letdoutil.py 720-769 *)
Definition is_pair_tuple (t : tree) : bool := match t with TTup [_; _] => true | _ => false end.
(** Assigning to bindings: letdoutil.py 720-769 *)
Definition xset_bindings (v : xview) (new : tree) : outcome tree :=
  let k := xkind_of v in
  let t := xtree v in
  match new with
  | TTup nl =>
      if negb (forallb is_pair_tuple nl) then Raise TypeError
      else
        do old <- xbindings v ;
        do ol <- elts old ;
        if negb (length nl =? length ol) then Raise NotImplementedError
        else if negb (forallb (fun b => match b with TTup (k :: _) => is_const k | _ => false end) nl) then Raise TypeError
        else
          do tb <- thebindings k t ;
          do tl <- elts tb ;
          do r <- (if is_letrec k then set_rec k (envname v) tl nl else Ok nl) ;
          put_arg (if curried k then 1 else 0) (match tb with TLst _ => TLst r | _ => TTup r end) t
  | _ => Raise TypeError
  end.

(** letdoutil.py 296-304, 799-885: ExpandedDoView *)
Definition xisdo (t : tree) : outcome (option bool) :=
  match t with
  | TCall f args _ =>
      do c <- (if isx f "currycall" then match args with [] => Raise IndexError | a :: _ => Ok (isx a "dof") end else Ok false) ;
      if negb c && negb (isx f "dof") then Ok None else Ok (Some c)
  | _ => Ok None
  end.
(** The items of a do: letdoutil.py 850-860 *)
Definition do_items (c : bool) (t : tree) : outcome (list tree) :=
  match t with TCall _ args _ => Ok (if c then tl args else args) | _ => Raise AttributeError end.
(** The lambda of an item: letdoutil.py 850-860 *)
Definition item_lambda (c : bool) (item : tree) : outcome tree :=
  if c then do x <- nth_arg 1 item ; nth_arg 0 x else nth_arg 0 item.
(** _getbody: letdoutil.py 850-860 *)
Definition xdo_body (c : bool) (t : tree) : outcome (list tree) := do l <- do_items c t ; map_outcome (item_lambda c) l.
(** _deduce_envname: letdoutil.py 836-848 *)
Definition xdo_envname (c : bool) (t : tree) : outcome (option string) :=
  match (do l <- xdo_body c t ; match l with [] => Raise ValueError | i :: _ => first_param i end) with
  | Ok e => Ok (Some e)
  | Raise TypeError | Raise AttributeError | Raise ValueError => Ok None
  | Raise y => Raise y
  end.
(** ExpandedDoView: letdoutil.py 799-885 *)
Record dview := mkD { dtree : tree; dcurried : bool; denvname : option string }.
(** Making an ExpandedDoView: letdoutil.py 828-834 *)
Definition dview_of (t : tree) : outcome dview :=
  do r <- xisdo t ;
  match r with None => Raise TypeError | Some c => do e <- xdo_envname c t ; Ok (mkD t c e) end.
(** The body attribute: letdoutil.py 850-860 *)
Definition dbody (v : dview) : outcome (list tree) := xdo_body (dcurried v) (dtree v).
(** The items replaced one by one: letdoutil.py 861-884.  (When one of them is rejected, those before it have been
    replaced already; what becomes of the tree then is not modelled.) *)
Fixpoint set_items (c : bool) (e : option string) (old new : list tree) : outcome (list tree) :=
  match old, new with
  | o :: old, n :: new =>
      do lam <- inject e n ;
      do o' <- replace_lambda c lam o ;
      do r <- set_items c e old new ;
      Ok (o' :: r)
  | _, _ => Ok []
  end.
(** Assigning to body: letdoutil.py 861-884 *)
Definition dset_body (v : dview) (new : list tree) : outcome tree :=
  do b <- dbody v ;
  if negb (length new =? length b) then Raise NotImplementedError
  else match dtree v with
       | TCall f args kws =>
           if dcurried v then do r <- set_items true (denvname v) (tl args) new ; Ok (TCall f (firstn 1 args ++ r) kws)
           else do r <- set_items false (denvname v) args new ; Ok (TCall f r kws)
       | _ => Raise AttributeError
       end.

(** * What the macros make *)
Definition named (label : string) (t : tree) : tree := TCall (TCall (TCap "namelambda") [TStr label] []) [t] [].
(** [enumerate], which letdo.py 825-920 uses. *)
Fixpoint number {A} (j : nat) (l : list A) : list (nat * A) := match l with [] => [] | a :: l => (j, a) :: number (S j) l end.
(** letdo.py 399-417, 540-554.  [text]: numbers as text.  The values and the body are those that
    [_letlike_transform] makes. *)
Section Make.
Variable text : nat -> string.
(** The bindings in the expanded form, as cited above. *)
Definition make_bindings (m e : string) (bs : list (string * tree)) : tree :=
  TTup (map (fun jb => let '(j, (x, v)) := jb in
                       TTup [TStr x; if String.eqb m "letrec" then named ("letrec_binding" ++ text j ++ "_" ++ x) (TLam [e] v) else v])
            (number 1 bs)).
(** The expanded let, as cited above. *)
Definition make_let (m e : string) (bs : list (string * tree)) (body : tree) : tree :=
  TCall (TCap "letter") [make_bindings m e bs; named (m ++ "_body") (TLam [e] body)] [("mode", TStr m)].
(** The expanded decorator, as cited above. *)
Definition make_dlet (m e : string) (bs : list (string * tree)) : tree :=
  TCall (TCap "letter") [make_bindings m e bs] [("mode", TStr m); ("_envname", TStr e)].
(** letdo.py 913-919 *)
Definition make_do (e : string) (items : list tree) : tree :=
  TCall (TCap "dof") (map (fun jt => named ("do_line" ++ text (fst jt)) (TLam [e] (snd jt))) (number 1 items)) [].
End Make.
(** autocurry.py 80-140, for programs where nothing is curried by hand, and without `Values` and
    `chain_conts` *)
Fixpoint autocurry (t : tree) : tree :=
  match t with
  | TCall f args kws =>
      let args' := map autocurry args in
      let kws' := map (fun kw => (fst kw, autocurry (snd kw))) kws in
      if isx f "curry" || isx f "currycall" then TCall (autocurry f) args' kws'
      else TCall (TCap "currycall") (autocurry f :: args') kws'
  | TLam ps b => TCall (TCap "curryf") [TLam ps (autocurry b)] []
  | TDone t => TDone (autocurry t)
  | TAttr t x => TAttr (autocurry t) x
  | TSub a b => TSub (autocurry a) (autocurry b)
  | TTup l => TTup (map autocurry l)
  | TLst l => TLst (map autocurry l)
  | TShl a b => TShl (autocurry a) (autocurry b)
  | TWal a b => TWal (autocurry a) (autocurry b)
  | TCmp a ops l => TCmp (autocurry a) ops (map autocurry l)
  | TOther n l => TOther n (map autocurry l)
  | TName _ | TCap _ | TStr _ | TConst _ | TKnot => t
  end.
