(** C81: a derived curve that the program no longer uses is released.
    [program m]: the memory [m] was reached by creating objects, deriving curves
    (Map, Offset, scans, Aggregate, Piecewise, Extremas, extensions), observing,
    binding and dropping variables, changing attributes, and by finalisers that
    ran on objects out of reach, in any order.  [reach m i]: a chain of strong
    references leads from a variable to object [i]. *)
From Coq Require Import List ZArith QArith Qcanon Bool Lia.
From Verif Require Import Base Num NumFacts Interval Curve Observer ObserverSpec Lifetime Retain RetainFacts RetainEx.
Import ListNotations.
Open Scope nat_scope.

(** it is not: a curve keeps everything derived from it, and the reverse *)
Theorem C81_kept : forall (m : mem xq) i o ts c, program m -> m_kind m i = Some (o, ts) -> m_dead m i = false -> In c (sources o) -> (reach m c <-> reach m i).
Proof. exact kept_alive. Qed.
Print Assumptions C81_kept.
(** so curves linked by derivations in any direction are released together *)
Theorem C81_together : forall (m : mem xq) i j, program m -> linked m i j -> (reach m i <-> reach m j).
Proof. exact together. Qed.
Print Assumptions C81_together.
Example C81_together_ex : program rt_net /\ m_vars rt_net = [1] /\ linked rt_net 1 0 /\ linked rt_net 1 3 /\ program rt_out /\ ~ reach rt_out 3.
Proof. split; [exact rt_net_ok|]. split; [reflexivity|]. split; [apply rt_linked|]. split; [apply rt_linked|]. split; apply rt_out_ok. Qed.

(** as long as one source is within reach, the curve has not been finalised *)
Theorem C81_never_finalised : forall m : mem xq, program m -> forall i o ts c, m_kind m i = Some (o, ts) -> In c (sources o) -> reach m c -> m_dead m i = false.
Proof. exact never_finalised. Qed.
Print Assumptions C81_never_finalised.
(** a curve within reach calls at least every curve ever derived from it *)
Theorem C81_callbacks : forall (m : mem xq) c l, program m -> reach m c -> NoDup l -> (forall i, In i l -> exists o ts, m_kind m i = Some (o, ts) /\ In c (sources o)) ->
  (length l <= length (r_tokens (h_regs (m_heap m) c))).
Proof. exact at_least. Qed.
Print Assumptions C81_callbacks.
Example C81_callbacks_ex : reach rt_net 1 /\ NoDup [2] /\ (forall i, In i [2] -> exists o ts, m_kind rt_net i = Some (o, ts) /\ In 1 (sources o)) /\ r_tokens (h_regs (m_heap rt_net) 1) = [1%Z].
Proof.
  split; [apply re_var; vm_compute; tauto|]. split; [repeat constructor; intuition|]. split; [|vm_compute; reflexivity].
  intros i [<-|[]]. eexists; eexists; split; [vm_compute; reflexivity|cbn; tauto].
Qed.
(** one variable, any number of callbacks, and nothing that can be released *)
Theorem C81_leak_refuted : forall n : nat, exists m : mem xq, program m /\ m_vars m = [0] /\ n <= length (r_tokens (h_regs (m_heap m) 0)) /\ (forall alive i, ~ allowed m (GFinal alive i)).
Proof. exact leak. Qed.
Print Assumptions C81_leak_refuted.

(** a finaliser does not change what the program can see: the registries of
    curves within reach stay as they are, but for autoremoving registrations of
    the object.  The mismatched removals of C56 therefore go unnoticed. *)
Theorem C81_finaliser_unseen : forall (m : mem xq) alive i c t, program m -> allowed m (GFinal alive i) -> reach m c ->
  (registered_at (gstep m (GFinal alive i)) c t <-> registered_at m c t /\ ~ In (c, t, i) (m_autos m)).
Proof. exact unseen. Qed.
Print Assumptions C81_finaliser_unseen.
Example C81_finaliser_ex : program rt_out /\ allowed rt_out (GFinal (fun _ => false) 2) /\ program rt_auto /\ allowed rt_auto (GFinal (fun i => Nat.eqb i 0) 1) /\ reach rt_auto 0 /\
  r_tokens (h_regs (m_heap rt_auto) 0) = [1%Z] /\ r_tokens (h_regs (m_heap (gstep rt_auto (GFinal (fun i => Nat.eqb i 0) 1))) 0) = [].
Proof.
  split; [apply rt_out_ok|]. split; [exact rt_final|]. split; [apply rt_auto_ok|]. split; [apply rt_auto_ok|]. split; [apply re_var; vm_compute; tauto|]. split; vm_compute; reflexivity.
Qed.
(** no curve within reach calls back an object that has been finalised *)
Theorem C81_no_dangling : forall (m : mem xq) c t j, program m -> reach m c -> registered_at m c t -> In j (m_holds m t) -> m_dead m j = false.
Proof. exact never_called. Qed.
Print Assumptions C81_no_dangling.

(** autoremove: the registration goes with the object *)
Theorem C81_autoremove : forall m : mem xq, program m -> forall c t i, In (c, t, i) (m_autos m) -> m_dead m i = true -> ~ registered_at m c t.
Proof. exact auto_gone. Qed.
Print Assumptions C81_autoremove.
Example C81_autoremove_ex : let m := gstep rt_auto (GFinal (fun i => Nat.eqb i 0) 1) in program m /\ In (0, 1%Z, 1) (m_autos m) /\ m_dead m 1 = true.
Proof. split; [apply pr_step; apply rt_auto_ok|]. split; vm_compute; auto. Qed.
(** but the object does not go while its own methods are the callbacks *)
Theorem C81_autoremove_refuted : forall (m : mem xq) c t i alive, program m -> reach m c -> registered_at m c t -> In i (m_holds m t) -> ~ allowed m (GFinal alive i).
Proof. exact bound_method. Qed.
Print Assumptions C81_autoremove_refuted.
