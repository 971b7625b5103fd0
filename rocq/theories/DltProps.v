(** C107: dlet, dletrec, blet, bletrec *)
From Coq Require Import String List Bool Arith.
From Verif Require Import Base CollModel EnvModel EnvSpec DltModel DltSpec DltProofs.
Import ListNotations.
Open Scope string_scope.
Open Scope list_scope.

(** Whatever a program does, the env of each decorated function is the one made from its bindings when it was defined,
    changed by exactly what its own body did to it, in all calls so far, in this order; and the body saw the results of
    that. *)
Theorem C107_state : forall (V : Type) isid de fuel (p : prog V) r s, run isid de fuel p = Some (r, s) ->
  forall f l lr bs, nth_error (definitions (events s)) f = Some (l, lr, bs) ->
  exists e0 e, made isid de l lr bs e0 /\ nth_error (envs s) f = Some e /\ follows isid de e0 (uses f (events s)) e.
Proof. exact @state. Qed.
Print Assumptions C107_state.

(** The names bound in it stay those of the bindings (unless the body leaves a with block over it). *)
Theorem C107_names : forall (V : Type) isid de fuel (p : prog V) r s, run isid de fuel p = Some (r, s) ->
  forall f l lr bs e0 e, nth_error (definitions (events s)) f = Some (l, lr, bs) -> made isid de l lr bs e0 -> nth_error (envs s) f = Some e ->
  (forall o x, In (o, x) (uses f (events s)) -> public o /\ is_exit o = false) -> names e = names e0.
Proof. exact @names_stay. Qed.
Print Assumptions C107_names.

(** The body gets the arguments given, and its env. *)
Theorem C107_call : forall (V : Type) isid de fuel f (d : dfun V) args kws s,
  nth_error (dfuns s) f = Some d -> (forall k v, In (k, v) kws -> k <> dname d) ->
  calls isid de (S fuel) f args kws s = exec isid de (calls isid de fuel) (Some (f, denv d)) (dbody d args kws) s.
Proof. exact @call_eq. Qed.
Print Assumptions C107_call.

(** A caller cannot give another env: such an argument has no effect. *)
Theorem C107_env_argument : forall (V : Type) isid de fuel f (d : dfun V) args kws kws' v s,
  nth_error (dfuns s) f = Some d ->
  calls isid de fuel f args (kws ++ (dname d, v) :: kws') s = calls isid de fuel f args (kws ++ kws') s.
Proof. exact @env_kw. Qed.
Print Assumptions C107_env_argument.

(** blet: dlet, and a call without arguments *)
Theorem C107_blet : forall (V : Type) isid de calls me l lr n bs b k (s : st V),
  exec isid de calls me (DefB l lr n bs b k) s =
  exec isid de calls me (DefD l lr n bs b (fun r => match r with Ok f => CallD f [] [] k | Raise x => k (Raise x) end)) s.
Proof. exact @blet_eq. Qed.
Print Assumptions C107_blet.

(** Two counters; the body of the second calls the first:
      @dlet(n=0)
      def f(env): env.n = env.n + 1; return env.n
      @dletrec(a=5, n=lambda env: env.a + 1)
      def g(env): env.n = env.n + 10; f(); return env.n
      f(); g(); g(env=3); r = f()                  r = 4, and g's n is 26 *)
Example C107_ex :
  let isid := fun _ => true in let de := fun (e : envst nat) _ _ => e in
  let val (r : outcome res) := match r with Ok (RVal v) => v | _ => 0 end in
  let f := fun (_ : list nat) (_ : list (name * nat)) =>
    UseEnv (EGet "n") (fun r => UseEnv (ESetattr "n" (val r + 1)) (fun _ => UseEnv (EGet "n") (fun r => Done (Ok (val r))))) in
  let g := fun (_ : list nat) (_ : list (name * nat)) =>
    UseEnv (EGet "n") (fun r => UseEnv (ESetattr "n" (val r + 10)) (fun _ => CallD 0 [] [] (fun _ => UseEnv (EGet "n") (fun r => Done (Ok (val r)))))) in
  let p := DefD false false "env" [("n", mkinit 0 None)] f (fun _ =>
    DefD true true "env" [("a", mkinit 5 None); ("n", mkinit 0 (Some (true, fun e => (match dict_get String.eqb (binds e) "a" with Some v => Ok (v + 1) | None => Raise AttributeError end, e))))] g (fun _ =>
    CallD 0 [] [] (fun _ => CallD 1 [] [] (fun _ => CallD 1 [] [("env", 3)] (fun _ => CallD 0 [] [] (fun r => Done r)))))) in
  exists s, run isid de 3 p = Some (Ok 4, s) /\ envs s = [mkenv [("n", 4)] true; mkenv [("a", 5); ("n", 26)] true]
    /\ List.length (definitions (events s)) = 2 /\ List.length (uses 1 (events s)) = 6
    /\ (forall o x, In (o, x) (uses 0 (events s)) -> public o /\ is_exit o = false).
Proof.
  cbv zeta. eexists. split; [vm_compute; reflexivity|]. split; [reflexivity|]. split; [reflexivity|]. split; [reflexivity|].
  vm_compute. intros o x H.
  repeat match goal with H : _ \/ _ |- _ => destruct H as [H|H] end; try contradiction; injection H as <- <-;
    (split; [|reflexivity]); cbn; intuition discriminate.
Qed.
