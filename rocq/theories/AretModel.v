(** Model of `with autoreturn` (unpythonic/syntax/tailtools.py 672-719). *)
From Coq Require Import String List.
From Verif Require Import Base PyModel.
Import ListNotations.
Open Scope list_scope.

(** tailtools.py 685-716: TailStatementTransformer.  Where the replacement of the last item of a block is a list of
    statements, line 680 splices it, and lines 689-702 put the list in the place of the statement: [SList]
    in both cases, which the semantics takes as spliced (what the expander does with it is not in this
    repository). *)
Fixpoint tail (s : stmt) : stmt :=
  let block := fix block (l : list stmt) : list stmt :=
    match l with [] => [] | [s] => [tail s] | s :: l => s :: block l end in
  match s with
  | SIf e a b => SIf e (block a) (block b)                                        (* 688-691 *)
  | SWith e x a => SWith e x (block a)                                            (* 692-693 *)
  | STry a hs b c =>                                                              (* 694-702 *)
      let hs := (fix hl (hs : list ((exn -> bool) * list stmt)) :=
                   match hs with [] => [] | (m, l) :: hs => (m, block l) :: hl hs end) hs in
      match b with [] => STry (block a) hs b c | _ => STry a hs (block b) c end
  | SDef _ x _ _ | SClass x _ => SList [s; SReturn (EVar x)]                      (* 703-711 *)
  | SExpr e => SReturn e                                                          (* 712-715 *)
  | SList l => SList (block l)                                                    (* not in program text *)
  | s => s
  end.
(** tailtools.py 685-716, on a list of statements: only the last one is in tail position. *)
Fixpoint tail_block (l : list stmt) : list stmt :=
  match l with [] => [] | [s] => [tail s] | s :: l => s :: tail_block l end.
(** tailtools.py 673-683: AutoreturnTransformer.  The code transforms the tail of a function body first and then
    visits the new body; here the two are done in the other order (see the lemma [visit_def]). *)
Fixpoint visit (s : stmt) : stmt :=
  let all := fix all (l : list stmt) : list stmt := match l with [] => [] | s :: l => visit s :: all l end in
  match s with
  | SDef tr x ps b => SDef tr x ps (tail_block (all b))
  | SClass x b => SClass x (all b)
  | SIf e a b => SIf e (all a) (all b)
  | SWhile e a b => SWhile e (all a) (all b)
  | STry a hs b c =>
      STry (all a) ((fix hl (hs : list ((exn -> bool) * list stmt)) :=
                       match hs with [] => [] | (m, l) :: hs => (m, all l) :: hl hs end) hs) (all b) (all c)
  | SWith e x a => SWith e x (all a)
  | SList l => SList (all l)
  | s => s
  end.
(** tailtools.py 719 *)
Definition autoreturn (l : list stmt) : list stmt := map visit l.
