(** Runs of Retain.v. *)
From Coq Require Import List ZArith QArith Qcanon Bool Lia.
From Verif Require Import Base Num NumFacts Interval Curve Observer ObserverSpec ObserverFacts Lifetime LifetimeFacts Retain RetainFacts.
Import ListNotations.
Open Scope nat_scope.

(** one curve is kept in a variable; [n] curves are derived from it and dropped *)
Lemma grows (n : nat) : exists m : mem xq, program m /\ m_vars m = [0] /\ m_next m = S n /\ forall i, 1 <= i <= n -> exists ts, m_kind m i = Some (DOne 0, ts).
Proof.
  induction n as [|n (m & P & V & NX & K)].
  { exists (gstep mem0 (GNew [])). split; [apply pr_step; [apply pr_start|constructor]|]. split; [reflexivity|]. split; [reflexivity|]. lia. }
  exists (gstep (gstep m (GDerive (DOne 0) [])) (GDrop (S n))). split.
  { apply pr_step; [|exact Logic.I]. apply pr_step; [exact P|]. split; [|split; [constructor|exact Logic.I]]. constructor; [|constructor]. apply re_var. rewrite V. left. reflexivity. }
  cbn [gstep m_vars m_next m_kind]. rewrite V, NX. split; [cbn; rewrite Nat.eqb_refl; reflexivity|]. split; [reflexivity|].
  intros i L. destruct (Nat.eq_dec i (S n)) as [->|NE]; [rewrite put_same; eauto|]. rewrite put_other by exact NE. apply K. lia.
Qed.
Lemma leak (n : nat) : exists m : mem xq, program m /\ m_vars m = [0] /\ n <= length (r_tokens (h_regs (m_heap m) 0)) /\ (forall alive i, ~ allowed m (GFinal alive i)).
Proof.
  destruct (grows n) as (m & P & V & NX & K). exists m. split; [exact P|]. split; [exact V|].
  assert (R0 : reach m 0) by (apply re_var; rewrite V; left; reflexivity).
  split.
  - rewrite <- (seq_length n 1) at 1. apply (at_least m 0 (seq 1 n) P R0 (seq_NoDup n 1)). intros i J. apply in_seq in J. destruct (K i ltac:(lia)) as (ts & E). exists (DOne 0), ts. split; [exact E|left; reflexivity].
  - intros alive i (NR & LT & D & _). apply NR. destruct (Nat.eq_dec i 0) as [->|NE]; [exact R0|]. destruct (K i ltac:(lia)) as (ts & E).
    apply (kept_alive m i (DOne 0) ts 0 P E D); [left; reflexivity|exact R0].
Qed.

(** two sources, a sum of them, a map of the sum; only source 1 is kept *)
Definition rt_net : mem xq :=
  fold_left gstep [GNew []; GNew []; GDerive (DMany [0; 1] [1; 0]) []; GDerive (DOne 2) []; GDrop 0; GDrop 2; GDrop 3] mem0.
Ltac allow := cbn [allowed sources]; repeat split; repeat constructor; try (apply re_var; cbn; tauto).
Lemma rt_net_ok : program rt_net.
Proof.
  unfold rt_net. cbn [fold_left]. do 3 (apply pr_step; [|exact Logic.I]). apply pr_step; [|allow]. apply pr_step; [|].
  - apply pr_step; [|constructor]. apply pr_step; [apply pr_start|constructor].
  - split; [repeat constructor; apply re_var; cbn; tauto|]. split; [constructor|]. split; [repeat constructor; cbn; intuition discriminate|]. intros c. cbn. tauto.
Qed.
Lemma rt_linked : linked rt_net 1 0 /\ linked rt_net 1 3.
Proof.
  assert (L2 : linked rt_net 1 2) by (apply (ln_step _ 1 1 2 (ln_refl _ 1)); right; eexists; eexists; split; [vm_compute; reflexivity|]; split; [reflexivity|cbn; tauto]).
  split.
  - apply (ln_step _ 1 2 0 L2). left. eexists; eexists; split; [vm_compute; reflexivity|]; split; [reflexivity|cbn; tauto].
  - apply (ln_step _ 1 2 3 L2). right. eexists; eexists; split; [vm_compute; reflexivity|]; split; [reflexivity|cbn; tauto].
Qed.
(** when the last variable is gone, so is everything *)
Definition rt_out : mem xq := gstep rt_net (GDrop 1).
Lemma rt_out_ok : program rt_out /\ forall i, ~ reach rt_out i.
Proof.
  split; [apply pr_step; [exact rt_net_ok|exact Logic.I]|]. intros i R. revert i R. apply (reach_within rt_out (fun _ => False)).
  - intros j V. vm_compute in V. exact V.
  - tauto.
Qed.
Lemma rt_final : allowed rt_out (GFinal (fun _ => false) 2).
Proof. split; [apply rt_out_ok|]. split; [vm_compute; lia|]. split; [reflexivity|]. intros j R. destruct (proj2 rt_out_ok j R). Qed.

(** an object that observes curve 0 with functions that do not refer to it *)
Definition rt_auto : mem xq := fold_left gstep [GNew []; GNew []; GObserve 0 (Some 1) [] true false; GDrop 1] mem0.
Lemma rt_auto_ok : program rt_auto /\ allowed rt_auto (GFinal (fun i => Nat.eqb i 0) 1) /\ registered_at rt_auto 0 1%Z.
Proof.
  assert (P : program rt_auto).
  { unfold rt_auto. cbn [fold_left]. apply pr_step; [|exact Logic.I]. apply pr_step; [apply pr_step; [apply pr_step; [apply pr_start|constructor]|constructor]|]. split; [apply re_var; cbn; tauto|]. split; [constructor|]. apply re_var. cbn. tauto. }
  assert (Z : forall i, reach rt_auto i -> i = 0).
  { apply (reach_within rt_auto (fun i => i = 0)).
    - intros i V. vm_compute in V. intuition.
    - intros i j -> E. destruct E as [o ts K A|A|t A B].
      + vm_compute in K. discriminate K.
      + vm_compute in A. destruct A.
      + vm_compute in A. destruct A as [<-|[]]. vm_compute in B. destruct B. }
  split; [exact P|]. split.
  - split; [intros R; apply Z in R; discriminate R|]. split; [vm_compute; lia|]. split; [reflexivity|]. intros j R. rewrite (Z j R). reflexivity.
  - vm_compute. left. reflexivity.
Qed.
