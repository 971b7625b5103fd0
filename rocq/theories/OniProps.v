(** C114: getattrrec and setattrrec. *)
From Coq Require Import String List Bool Arith ZArith.
From Verif Require Import Base OniModel OniSpec OniProofs.
Import ListNotations.
Open Scope string_scope.
Open Scope list_scope.
Open Scope nat_scope.

(** getattrrec returns what is in the innermost layer, and nothing else. *)
Theorem C114_get h n o v : (exists k, getattrrec k h o n None = Some (Ok v)) <-> exists p, innermost h n o p v.
Proof. exact (get_iff h n o v). Qed.
Print Assumptions C114_get.
Theorem C114_unique h n o p v q w : innermost h n o p v -> innermost h n o q w -> p = q /\ v = w.
Proof. intros H. exact (inner_det h n o p v H q w). Qed.
Print Assumptions C114_unique.
(** A default does not matter when there is a layer. *)
Theorem C114_with_default h n o p v d : innermost h n o p v -> exists k, getattrrec k h o n (Some d) = Some (Ok v).
Proof. exact (getattrrec_inner h n o p v (Some d)). Qed.
Print Assumptions C114_with_default.
(** When there is none: AttributeError, or the default if it has no such attribute itself. *)
Theorem C114_missing h n o : attr h o n = None ->
  (forall k, getattrrec k h o n None = Some (Raise AttributeError)) /\
  (forall k d, attr h d n = None -> getattrrec (S k) h o n (Some d) = Some (Ok d)).
Proof.
  intros H. unfold getattrrec, getattr. rewrite H. split; [reflexivity|]. intros k d D. cbn.
  rewrite (hasattr_false _ _ _ D). reflexivity.
Qed.
Print Assumptions C114_missing.
(** The documentation says that the default acts as in getattr; but a default that has the attribute is not
    returned, its own innermost layer is. *)
Theorem C114_default_refuted : exists h n o d k v, attr h o n = None /\
  getattr h o n (Some d) = Ok d /\ getattrrec k h o n (Some d) = Some (Ok v) /\ v <> d.
Proof. exists [[]; [("x", Data 1)]], "x", (Obj 0), (Obj 1), 5, (Data 1). repeat split; discriminate. Qed.
Print Assumptions C114_default_refuted.
(** It does not end exactly for onions without a core; and it is decided in as many rounds as there are objects. *)
Theorem C114_endless h n o d : attr h o n <> None -> ((forall k, getattrrec k h o n d = None) <-> endless h n o).
Proof. exact (endless_iff h n o d). Qed.
Print Assumptions C114_endless.
Theorem C114_bounded h n o d : getattrrec (S (length h)) h o n d = None -> forall k, getattrrec k h o n d = None.
Proof. exact (bounded h n o d). Qed.
Print Assumptions C114_bounded.

(** setattrrec writes to the innermost layer, and to nothing else. *)
Theorem C114_set h n o p v x : innermost h n o p v ->
  exists k h', setattrrec k h o n x = Some (Ok h') /\ attr h' p n = Some x /\ length h' = length h /\
    forall q m, (q, m) <> (p, n) -> attr h' q m = attr h q m.
Proof. exact (set_spec h n o p v x). Qed.
Print Assumptions C114_set.
Theorem C114_steps h n o x k j r s : setattrrec k h o n x = Some r -> setattrrec j h o n x = Some s -> r = s.
Proof. exact (setrec_det h n x o k j r s). Qed.
Print Assumptions C114_steps.
(** An object without the attribute gets it; data without attributes raise AttributeError. *)
Theorem C114_set_missing h n i d x : nth_error h i = Some d -> get d n = None ->
  exists h', (forall k, setattrrec (S k) h (Obj i) n x = Some (Ok h')) /\ attr h' (Obj i) n = Some x /\
    forall q m, (q, m) <> (Obj i, n) -> attr h' q m = attr h q m.
Proof. exact (set_missing h n i d x). Qed.
Print Assumptions C114_set_missing.
Theorem C114_set_data h n z x k : setattrrec (S k) h (Data z) n x = Some (Raise AttributeError).
Proof. exact eq_refl. Qed.
Print Assumptions C114_set_data.

(** Together: what was written is read; writing what was read changes nothing; of two writes, the second one
    counts.  (The value written must not be a wrapper with the same attribute itself.) *)
Theorem C114_set_get h n o p v x k h' : innermost h n o p v -> attr h x n = None ->
  setattrrec k h o n x = Some (Ok h') -> exists j, getattrrec j h' o n None = Some (Ok x).
Proof. exact (put_then_get h n o p v x k h'). Qed.
Print Assumptions C114_set_get.
Theorem C114_get_set h n o k v : getattrrec k h o n None = Some (Ok v) -> exists j, setattrrec j h o n v = Some (Ok h).
Proof. exact (get_then_put h n o k v). Qed.
Print Assumptions C114_get_set.
Theorem C114_set_set h n o p v x y k h' : innermost h n o p v -> attr h x n = None ->
  setattrrec k h o n x = Some (Ok h') ->
  exists i j r, setattrrec i h' o n y = Some r /\ setattrrec j h o n y = Some r.
Proof. exact (put_then_put h n o p v x y k h'). Qed.
Print Assumptions C114_set_set.
Theorem C114_set_get_refuted : exists h n o p v x k h', innermost h n o p v /\
  setattrrec k h o n x = Some (Ok h') /\ forall j, getattrrec j h' o n None <> Some (Ok x).
Proof.
  exists [[("x", Data 1)]; [("x", Data 2)]], "x", (Obj 0), (Obj 0), (Data 1), (Obj 1), 5. eexists.
  split; [constructor; reflexivity|]. split; [vm_compute; reflexivity|].
  intros [|[|j]]; vm_compute; discriminate.
Qed.
Print Assumptions C114_set_get_refuted.

(** An onion of three layers, and a ring. *)
Definition onion : heap := [[("x", Obj 1); ("y", Data 7)]; [("x", Obj 2)]; [("z", Data 5); ("x", Data 42)]].
Example C114_ex : innermost onion "x" (Obj 0) (Obj 2) (Data 42) /\
  getattrrec 3 onion (Obj 0) "x" None = Some (Ok (Data 42)) /\ attr onion (Data 23) "x" = None /\
  setattrrec 3 onion (Obj 0) "x" (Data 23) =
    Some (Ok [[("x", Obj 1); ("y", Data 7)]; [("x", Obj 2)]; [("z", Data 5); ("x", Data 23)]]) /\
  attr onion (Obj 0) "q" = None /\ attr onion (Obj 0) "x" <> None.
Proof. split; [do 2 (econstructor 2; [reflexivity|]); constructor; reflexivity|]. repeat split; discriminate. Qed.
Definition ring : heap := [[("x", Obj 1)]; [("x", Obj 0)]].
Example C114_ex_ring : attr ring (Obj 0) "x" <> None /\ getattrrec (S (length ring)) ring (Obj 0) "x" None = None.
Proof. split; [discriminate|reflexivity]. Qed.
