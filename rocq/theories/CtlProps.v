(** The control channel of the REPL server (C109) and jobs in the background (C110). *)
From Coq Require Import String List ZArith Bool Arith.
From Verif Require Import Base CollModel EnvModel MsgModel MsgSpec CtlModel CtlSpec CtlProofs.
Import ListNotations.
Open Scope string_scope.
Open Scope list_scope.
Open Scope nat_scope.

(** Ctrl+C: a thread is interrupted exactly when a KeyboardInterrupt request arrives in a control session that is up, and
    it is the thread of the REPL session most recently paired with that control session, provided that session is alive
    and has its thread; nothing else ever interrupts any thread. *)
Theorem C109_interrupt : forall complete ps1 ps2 h e, let steps := steps complete ps1 ps2 in
  (forall t, hits (steps (h ++ [e])) = hits (steps h) ++ [t] <->
     exists c r i, e = Request c (Ok tt) r /\ up (steps h) c /\ command r "KeyboardInterrupt" /\ paired_with h c i /\ runs_in h i t) /\
  (hits (steps (h ++ [e])) = hits (steps h) \/ exists t, hits (steps (h ++ [e])) = hits (steps h) ++ [t]).
Proof. exact interrupt. Qed.
Print Assumptions C109_interrupt.

(** The active sessions are those opened and not yet closed, numbered in the order of opening; a number is not used again. *)
Theorem C109_sessions : forall complete ps1 ps2 h i,
  (exists o, dict_get Z.eqb (active (steps complete ps1 ps2 h)) i = Some o) <-> alive h i.
Proof. exact sessions_ok. Qed.
Print Assumptions C109_sessions.
Theorem C109_fresh : forall h h' i, alive (h ++ Close i :: h') i -> (opened h < i)%Z.
Proof. exact never_again. Qed.
Print Assumptions C109_fresh.

(** Every sound request gets one reply, which says whether it succeeded, and the control session goes on. *)
Theorem C109_reply_partial : forall complete ps1 ps2 h c ar r, let steps := steps complete ps1 ps2 in
  up (steps h) c -> sound complete r -> expected ar ->
  exists rep, replies (steps (h ++ [Request c ar r])) = replies (steps h) ++ [(c, rep)] /\ up (steps (h ++ [Request c ar r])) c /\
    (succeeds h c ar r -> field rep "status" = Some (JStr "ok")) /\ (~ succeeds h c ar r -> field rep "status" = Some (JStr "failed")) /\
    (forall t s x, command r "TabComplete" -> field r "text" = Some t -> field r "state" = Some s -> complete t s = Ok x -> field rep "result" = Some x) /\
    (command r "DescribeServer" -> field rep "prompts" = Some (JObj [("ps1", ps1); ("ps2", ps2)])).
Proof. exact reply. Qed.
Print Assumptions C109_reply_partial.
(** A control session that ends does so without a reply, and only upon a request that is not sound, or when async_raise
    fails in a way not expected. *)
Theorem C109_end : forall complete ps1 ps2 h c ar r, let steps := steps complete ps1 ps2 in
  up (steps h) c -> ~ up (steps (h ++ [Request c ar r])) c ->
  replies (steps (h ++ [Request c ar r])) = replies (steps h) /\ (~ sound complete r \/ ~ expected ar).
Proof. exact ends. Qed.
Print Assumptions C109_end.
(** An empty request of any kind ends the control session, and has no other effect. *)
Theorem C109_empty_request : forall complete ps1 ps2 h c ar r, let steps := steps complete ps1 ps2 in
  up (steps h) c -> In r [JNull; JBool false; JInt 0; JStr ""; JList []; JObj []] ->
  let v := steps (h ++ [Request c ar r]) in
  ~ up v c /\ replies v = replies (steps h) /\ hits v = hits (steps h) /\ active v = active (steps h) /\
  forall c', c' <> c -> nth_error (ctls v) c' = nth_error (ctls (steps h)) c'.
Proof. exact empty_request. Qed.
Print Assumptions C109_empty_request.
(** Not every JSON object gets a reply: the empty one, and one whose id is a list, end the control session. *)
Theorem C109_reply_refuted : forall complete ps1 ps2 r, In r [JObj []; JObj [("command", JStr "PairWithSession"); ("id", JList [])]] ->
  let v := steps complete ps1 ps2 [Connect; Request 0 (Ok tt) r] in
  up (steps complete ps1 ps2 [Connect]) 0 /\ replies v = [] /\ ~ up v 0.
Proof.
  intros complete ps1 ps2 r [<-|[<-|[]]]; cbn; (split; [exists None; reflexivity|]); (split; [reflexivity|]); intros [p H]; discriminate.
Qed.
Print Assumptions C109_reply_refuted.
(** A request has no effect on the REPL sessions or on any other control session. *)
Theorem C109_alone : forall complete ps1 ps2 h c ar r, let v := steps complete ps1 ps2 h in let v' := steps complete ps1 ps2 (h ++ [Request c ar r]) in
  active v' = active v /\ (forall c', c' <> c -> nth_error (ctls v') c' = nth_error (ctls v) c') /\
  (replies v' = replies v \/ exists rep, replies v' = replies v ++ [(c, rep)]) /\
  (~ command r "KeyboardInterrupt" -> hits v' = hits v).
Proof. exact alone. Qed.
Print Assumptions C109_alone.

(** Over the wire: however requests and replies are cut into pieces the decoder can cope with, the client's calls give what
    they would without the wire: the reply to this request if its status is "ok", else None. *)
Theorem C109_wire_partial : forall complete ps1 ps2 uni dumps loads l, arrives dumps loads complete ps1 ps2 None l ->
  talk complete ps1 ps2 uni dumps loads [] [] [] [] None l = conversation complete ps1 ps2 None l.
Proof. intros complete ps1 ps2 uni dumps loads l H. now apply (wire complete ps1 ps2 uni dumps loads l [] [] [] [] None). Qed.
Print Assumptions C109_wire_partial.
(** The client's [complete] gives what the server's completer gives. *)
Theorem C109_complete : forall complete ps1 ps2 a paired ar r t s x rep q hit,
  command r "TabComplete" -> field r "text" = Some t -> field r "state" = Some s -> complete t s = Ok x ->
  handle complete ps1 ps2 a paired ar r = Reply rep q hit -> client_complete (Ok (Some rep)) = Ok (Some x).
Proof. intros complete ps1 ps2 a paired ar r t s x rep q hit. exact (complete_ok complete ps1 ps2 paired a ar r t s x rep q hit). Qed.
Print Assumptions C109_complete.

Definition pair_ (i : Z) : json := JObj [("command", JStr "PairWithSession"); ("id", JInt i)].
Definition ctrl_c : json := JObj [("command", JStr "KeyboardInterrupt")].
Definition h0 : list event := [Open; Ready 1 10; Open; Ready 2 20; Connect; Request 0 (Ok tt) (pair_ 1); Request 0 (Ok tt) (pair_ 2); Request 0 (Ok tt) (pair_ 7)].
Definition nocomplete (t s : json) : outcome json := Ok JNull.
(** Two sessions; paired with the second one; the failed pairing does not matter; after it has closed, Ctrl+C fails. *)
Example C109_ex1 : hits (steps nocomplete JNull JNull (h0 ++ [Request 0 (Ok tt) ctrl_c])) = [20] /\
  hits (steps nocomplete JNull JNull (h0 ++ [Close 2; Request 0 (Ok tt) ctrl_c])) = [] /\
  map (fun x => field (snd x) "status") (replies (steps nocomplete JNull JNull (h0 ++ [Close 2; Request 0 (Ok tt) ctrl_c]))) =
  [Some (JStr "ok"); Some (JStr "ok"); Some (JStr "failed"); Some (JStr "failed")].
Proof. repeat split. Qed.
Example C109_ex2 : up (steps nocomplete JNull JNull h0) 0 /\ sound nocomplete ctrl_c /\ paired_with h0 0 2 /\ runs_in h0 2 20 /\ succeeds h0 0 (Ok tt) ctrl_c.
Proof.
  assert (P : paired_with h0 0 2).
  { exists [Open; Ready 1 10; Open; Ready 2 20; Connect; Request 0 (Ok tt) (pair_ 1)], (Request 0 (Ok tt) (pair_ 2)), [Request 0 (Ok tt) (pair_ 7)].
    split; [reflexivity|]. split.
    - exists (Ok tt), (pair_ 2), (JInt 2). repeat split; [left; reflexivity| |apply Nat.lt_0_1].
      exists [Open; Ready 1 10], [Ready 2 20; Connect; Request 0 (Ok tt) (pair_ 1)]. repeat split. cbn. intuition discriminate.
    - intros [|x [|y b1]] e' b2 i' H; inversion H; subst. intros (ar & r & j & X & _ & F & N & A & _). inversion X; subst. cbn in F. inversion F; subst.
      assert (i' = 7%Z) as -> by (destruct N as [N|[[N _]|[N _]]]; inversion N; auto). apply alive_range in A. cbn in A. destruct A as [_ A]. apply A. reflexivity. }
  assert (R : runs_in h0 2 20).
  { exists [Open; Ready 1 10], [], [Connect; Request 0 (Ok tt) (pair_ 1); Request 0 (Ok tt) (pair_ 2); Request 0 (Ok tt) (pair_ 7)].
    repeat split; auto. cbn. intuition discriminate. }
  split; [exists (Some (JInt 2)); reflexivity|]. split; [|split; [exact P|split; [exact R|]]].
  - split; [exists [("command", JStr "KeyboardInterrupt")]; split; [reflexivity|discriminate]|]. split; intros; discriminate.
  - right. right. right. split; [reflexivity|]. split; [reflexivity|]. exists 2%Z, 20. auto.
Qed.
(** Two exchanges, in pieces. *)
Definition reply2 : json := failed (JStr "This control channel is not currently paired with a REPL session.").
Definition dumps0 (j : json) : bytes := if is_str (match field j "command" with Some c => c | None => JNull end) "DescribeServer" then [1%Z; 2%Z; 3%Z]
  else if is_str (match field j "command" with Some c => c | None => JNull end) "KeyboardInterrupt" then [4%Z]
  else if is_str (match field j "status" with Some c => c | None => JNull end) "ok" then [5%Z; 6%Z] else [7%Z].
Definition describe_ : json := JObj [("command", JStr "DescribeServer")].
Definition loads0 (b : bytes) : outcome json :=
  match b with [1%Z; 2%Z; 3%Z] => Ok describe_ | [4%Z] => Ok ctrl_c | [5%Z; 6%Z] => Ok (describe JNull JNull) | [7%Z] => Ok reply2 | _ => Raise ValueError end.
Definition split3 (b : bytes) : list bytes := [firstn 3 b; skipn 3 b].
Definition talk0 : list exchange :=
  [mkX describe_ (split3 (encodemsg (dumps0 describe_))) split3 (Ok tt) [];
   mkX ctrl_c (split3 (encodemsg (dumps0 ctrl_c))) (fun b => [b]) (Ok tt) []].
Example C109_ex3 : arrives dumps0 loads0 nocomplete JNull JNull None talk0 /\
  conversation nocomplete JNull JNull None talk0 = [Some (describe JNull JNull); None].
Proof.
  split; [|reflexivity]. cbn [arrives talk0].
  assert (F : forall p m, forallb (fun c => Z.leb (zlen c + header_len m) 4096) p = true -> Z.leb (header_len m) 4096 = true -> fits p m).
  { intros p m H G. split; [now apply Z.leb_le|]. intros c I. rewrite forallb_forall in H. now apply Z.leb_le, H. }
  split; [|split; [|split; [|split; [|exact Logic.I]]]]; (split; [reflexivity|]); (split; [apply F; reflexivity|]); (split; [discriminate|reflexivity]).
Qed.

(** Jobs in the background: fg does not work with what bg returns.  Whatever happened before, it raises TypeError, and
    the result of a job that has ended stays where it is. *)
Theorem C110_thread_refuted : forall h i s h2, (forall e, In e h2 -> exists k, e = Fg (Thread k)) ->
  dict_get Z.eqb (fst (jobs (h ++ Ended i s :: h2))) i = Some s /\
  snd (jobs (h ++ Ended i s :: h2)) = snd (jobs h) ++ map (fun _ => Raise TypeError) h2.
Proof. exact job_stuck. Qed.
Print Assumptions C110_thread_refuted.
(** With an object that has the ident of the thread and says it contains "ident", fg gives the value, or raises the exception,
    of the job of that ident that ended last, once; then it raises ValueError.  If the job runs, it gives the object. *)
Theorem C110_container_partial : forall h h2 i s, forallb (fun e => negb (about i e)) h2 = true ->
  let h1 := h ++ Ended i s :: h2 in
  snd (jobs (h1 ++ [Fg (container i); Fg (container i)])) = snd (jobs h1) ++
    match s with Running => [Ok Itself; Ok Itself] | Success v => [Ok (Value v); Raise ValueError] | Fail x => [Raise x; Raise ValueError] end.
Proof. exact job_done. Qed.
Print Assumptions C110_container_partial.
Example C110_ex : snd (jobs [Started 5; Started 6; Fg (container 5); Ended 5 (Success 42); Ended 6 (Fail KeyError); Fg (Thread 5); Fg (container 5); Fg (container 6); Fg (container 5)]) =
  [Ok Itself; Raise TypeError; Ok (Value 42); Raise KeyError; Raise ValueError].
Proof. reflexivity. Qed.
