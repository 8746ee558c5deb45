(** Concrete smoothed moving averages. *)
From Coq Require Import List ZArith QArith Qcanon Bool Lia.
From Verif Require Import Base Num NumFacts Interval IntervalFacts Curve Points PointsSpec PointsQuery PointsOps PointsDec PointsHist PointsRefute PointsTop PointsEx.
From Verif Require Import BaseEx Combine CombineEx Scan ScanFacts ScanSource ScanInv ScanTf SmaFacts SmaInv ScanTop ScanEx Smma SmmaFacts.
Import ListNotations.

Definition never (_ : pts xq num) (_ : xq) : acc xq num := acc_init ILinear true.
Definition a_smma : acc xq num := seen (smma_tf hf min_step 2 never) (fun v => v).
Lemma ex_smma : smma_of hf min_step 2 never ex_u a_smma.
Proof. apply seen_watched. split; [now exists ex_d0|]. apply ex_u0_even. Qed.

(** with 0 0 3 the first value of degree 3 is 3/4, not the mean 1 *)
Lemma smma_not_mean : exists s a d, smma_of hf min_step 3 never s a /\ evenly min_step s d /\ length d = 3%nat /\
  snd (smma_y hf min_step 3 never 9 s a (Fin (at_x d 2))) = Ok (Some (fr 3 4)) /\
  (total d 0 3 / QcofZ 3)%Qc = QcofZ 1.
Proof.
  exists ex_s, (acc_init ILinear true), ex_sd. split; [apply wa_new, ex_s_hist|]. split; [exact ex_s_even|]. split; [reflexivity|].
  split; [val|]. apply Qceqb_true. vm_compute. reflexivity.
Qed.
