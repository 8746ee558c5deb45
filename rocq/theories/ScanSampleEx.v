(** Sampling concrete accumulating curves. *)
From Coq Require Import List ZArith QArith Qcanon Bool Lia.
From Verif Require Import Base Num NumFacts Interval IntervalFacts Curve Points PointsSpec PointsQuery PointsOps PointsDec PointsHist PointsRefute PointsTop PointsEx.
From Verif Require Import BaseEx Combine CombineEx Scan ScanFacts ScanSource ScanInv ScanTf SmaFacts SmaInv ScanTop ScanEx ScanView ScanSample ScanSampleFacts ScanSampleAcc ScanSampleTop.
Import ListNotations.

(** *** decided hypotheses *)
Definition spacedb (M : Qc) (d : list (Qc * Qc)) : bool := forallb (fun k => Qcltb (at_x d k + M) (at_x d (S k))) (seq 0 (length d - 1)).
Lemma spacedb_sound M d : spacedb M d = true -> spaced M d.
Proof.
  unfold spacedb. intros H k L. rewrite forallb_forall in H. apply Qcltb_true. apply (H k). apply in_seq. lia.
Qed.
Lemma ex_spaced : spaced min_step ex_d.
Proof. apply spacedb_sound. vm_compute. reflexivity. Qed.
Lemma ex_spaced3 : spaced (QcofZ 3 / QcofZ 4) ex_d.
Proof. apply spacedb_sound. vm_compute. reflexivity. Qed.
Lemma ex_resolve : resolve_min_step (Some (Fin min_step)) None = Some (Fin min_step).
Proof. reflexivity. Qed.
Lemma ex_resolve3 : resolve_min_step (Some (Fin min_step)) (Some (fr 3 4)) = Some (Fin (QcofZ 3 / QcofZ 4)).
Proof. apply oxq_eqb_eq. vm_compute. reflexivity. Qed.
Notation isample := (integral_sample hf IPrevious c5 min_step 9 ex_u a_int).
Ltac pts := apply is_pts_eq; vm_compute; reflexivity.

(** *** a left-open window without a far enough point raises IndexError *)
Lemma isample_open : snd (isample (Some (iv (fr 1 2) (fr 5 2) true false)) (Some (fz 3)) None) = Err EIndex.
Proof. vm_compute. reflexivity. Qed.
(** *** a point at the open end of the window is returned *)
Lemma isample_open_end : exists L y, snd (isample (Some (iv (fr 1 2) (fz 2) false true)) None None) = Ok L /\ In (fz 2, y) L.
Proof. exists [(fr 1 2, nv 5); (fz 1, nv 5); (fz 2, nv 6)], (nv 6). split; [pts|]. right. right. now left. Qed.

(** *** points at halves, exactly the minimum step apart *)
Definition half_l : list (xq * num) := [(fr 1 2, nv 1); (fr 3 2, nv 1); (fr 5 2, nv 1); (fr 7 2, nv 1)].
Definition half_d : list (Qc * Qc) := map (fun z => (QcofZ z / QcofZ 2, 1)%Qc) [1; 3; 5; 7]%Z.
Definition half_s : pts xq num := st (p_init half_l ILinear true).
Lemma half_honest : honest_history half_s.
Proof.
  apply uniform_honest. apply uh_init with (l := half_l) (ip := ILinear) (evs := evs_of (p_init half_l ILinear true)).
  - apply ascb_sound; vm_compute; reflexivity.
  - apply (eqsb_sound _ (QcofZ 1 / QcofZ 2)%Qc (QcofZ 1)); vm_compute; reflexivity.
  - reflexivity.
Qed.
Lemma half_even : evenly (QcofZ 1) half_s half_d.
Proof. apply (evenb_sound _ (QcofZ 1 / QcofZ 2)%Qc 1). vm_compute. reflexivity. Qed.
Lemma half_integral : integral_of hf ILinear c5 (QcofZ 1) half_s (acc_init ILinear true).
Proof. apply wa_new. exact half_honest. Qed.
Lemma half_raises : snd (integral_sample hf ILinear c5 (QcofZ 1) 9 half_s (acc_init ILinear true) None None None) = Err EExc.
Proof. vm_compute. reflexivity. Qed.
Lemma open_end_sampled : exists s a D x y L, integral_of hf IPrevious c5 min_step s a /\ evenly min_step s ex_d /\ iok D /\
  snd (integral_sample hf IPrevious c5 min_step 9 s a (Some D) None None) = Ok L /\ In (x, y) L /\ ~ imem D x.
Proof.
  exists ex_u, a_int, (iv (fr 1 2) (fz 2) false true), (fz 2). destruct isample_open_end as (L & y & E & I). exists y, L.
  split; [exact ex_int|]. split; [exact ex_u_even|]. split; [split; discriminate|]. split; [exact E|]. split; [exact I|].
  intros M. apply contains_iff in M; [|split; discriminate|discriminate]. vm_compute in M. discriminate.
Qed.
