(** Sampling concrete moving averages. *)
From Coq Require Import List ZArith QArith Qcanon Bool Lia.
From Verif Require Import Base Num NumFacts Interval IntervalFacts Curve Points PointsSpec PointsQuery PointsOps PointsDec PointsHist PointsRefute PointsTop PointsEx.
From Verif Require Import BaseEx Combine CombineEx Scan ScanFacts ScanSource ScanInv ScanTf SmaFacts SmaInv ScanTop ScanEx ScanView ScanSample ScanSampleFacts ScanSampleAcc ScanSampleTop ScanSampleEx.
From Verif Require Import SmaSample SmaSampleFacts SmaSampleTop.
Import ListNotations.

(** *** an average of one point, in a window that starts off the points *)
Definition one_new : acc xq num := acc_init ILinear true.
Lemma ex_one : averaged hf min_step (SmaDegree 1) ex_u one_new.
Proof. apply av_new. exact ex_u_honest. Qed.
Lemma one_raises : exists s a d D, averaged hf min_step (SmaDegree 1) s a /\ evenly min_step s d /\ spaced min_step d /\
  D = i_closed (fr 1 2) (fr 5 2) /\ (forall q, (QcofZ 1 / QcofZ 2 <= q)%Qc -> (q <= QcofZ 5 / QcofZ 2)%Qc -> exists v, snd (sma_value hf min_step (SmaDegree 1) 9 s a (Fin q)) = Ok (Some v)) /\
  snd (sma_sampling hf min_step (SmaDegree 1) 9 s a (Some D) None None) = Err EExc.
Proof.
  exists ex_u, one_new, ex_d, (i_closed (fr 1 2) (fr 5 2)). split; [exact ex_one|]. split; [exact ex_u_even|]. split; [exact ex_spaced|]. split; [reflexivity|].
  split; [|vm_compute; reflexivity].
  intros q L1 L2. destruct (sma_range hf min_step 1 ex_u ex_d q) as (v & V & R & _); auto.
  - apply Qc_is_canon. reflexivity.
  - apply Qcle_refl.
  - exact (honest_history_good _ ex_u_honest).
  - exact ex_u_even.
  - destruct R as (r & -> & _).
    + split; [cbn; lia|]. split.
      * eapply Qcle_trans; [|exact L1]. vm_compute. discriminate.
      * eapply Qcle_trans; [exact L2|]. vm_compute. discriminate.
    + exists (Fin r). apply V; [exact ex_one|cbn; lia].
Qed.

(** *** x_next after a query near the end skips points *)
Definition l5 := [(fz 0, nv 0); (fz 1, nv 1); (fz 2, nv 2); (fz 3, nv 9); (fz 4, nv 4); (fz 5, nv 6)].
Definition ex_5 : npts := st (p_init l5 ILinear true).
Definition ex_5d := zd [(0, 0); (1, 1); (2, 2); (3, 9); (4, 4); (5, 6)]%Z.
Lemma ex_5_hist : honest_history ex_5.
Proof.
  apply uniform_honest. apply uh_init with (l := l5) (ip := ILinear) (evs := evs_of (p_init l5 ILinear true)).
  - apply ascb_sound; vm_compute; reflexivity.
  - apply (eqsb_sound _ (QcofZ 0) (QcofZ 1)); vm_compute; reflexivity.
  - unfold ex_5, st, evs_of. apply pair3. vm_compute. reflexivity.
Qed.
Lemma ex_5_even : evenly min_step ex_5 ex_5d.
Proof. apply (evenb_sound _ 0 1). vm_compute. reflexivity. Qed.
Lemma ex_5_spaced : spaced min_step ex_5d.
Proof. apply spacedb_sound. vm_compute. reflexivity. Qed.
Definition late : acc xq num := fst (sma_value hf min_step (SmaDegree 2) 9 ex_5 one_new (fz 5)).
Lemma ex_late : averaged hf min_step (SmaDegree 2) ex_5 late.
Proof.
  unfold late, sma_value. eapply av_query with (dp := 0%nat) (d := ex_5d); [apply av_new, ex_5_hist| | |apply pair2]; [|cbn; lia].
  destruct ex_5_even as (D & EQ & CO). split; [exact (honest_history_good _ ex_5_hist)|auto].
Qed.
Lemma next_skips : exists s a a' d, averaged hf min_step (SmaDegree 2) s a /\ averaged hf min_step (SmaDegree 2) s a' /\ evenly min_step s d /\
  acc_next (p_crv s) (Some (Fin min_step)) a (fz 1) None None = Ok (Some (fz 2)) /\
  acc_next (p_crv s) (Some (Fin min_step)) a' (fz 1) None None = Ok (Some (fz 3)) /\
  exists v, snd (sma_value hf min_step (SmaDegree 2) 9 s a' (fz 2)) = Ok (Some v).
Proof.
  exists ex_5, one_new, late, ex_5d. split; [apply av_new, ex_5_hist|]. split; [exact ex_late|]. split; [exact ex_5_even|].
  split; [vm_compute; reflexivity|]. split; [vm_compute; reflexivity|]. exists (fr 3 2). val.
Qed.
(** *** the hypotheses of the theorems *)
Definition p32 : Qc := (QcofZ 3 / QcofZ 2)%Qc.
Lemma ex_p32_wide : forall j, (S j < length ex_5d)%nat -> (at_x ex_5d (S j) - at_x ex_5d j + min_step <= p32)%Qc.
Proof. intros j L. do 5 (destruct j as [|j]; [vm_compute; discriminate|]). cbn in L. lia. Qed.
Lemma ex_p32_first : forall j, (j <= 1)%nat -> (at_x ex_5d j <= at_x ex_5d 0 + p32 - min_step)%Qc.
Proof. intros j L. do 2 (destruct j as [|j]; [vm_compute; discriminate|]). lia. Qed.
Lemma ex_p32_full : full_from p32 min_step ex_5d 1.
Proof. intros j L1 L2. destruct j as [|[|j]]; [lia|lia|]. do 4 (destruct j as [|j]; [vm_compute; reflexivity|]). cbn in L2. lia. Qed.
Lemma ex_p32 : averaged hf min_step (SmaPeriod (Fin p32)) ex_5 one_new.
Proof. apply av_new, ex_5_hist. Qed.
