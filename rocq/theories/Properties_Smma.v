(** C59: smoothed moving averages (curve.py:597-602, ema.py, sma.py).

    [smma_of half m n sm s a]: [a] is the scan of the smma of degree [n] over
    the source [s] after any history (see Properties_Scan.v).  [sm s x] is the
    state of the SMA that supplies the first value at the moment it is asked
    at [x]; [sma_ready] allows every state an SMA of [s] can be in, fresh or
    already asked. *)
From Coq Require Import List ZArith QArith Qcanon Bool Lia.
From Verif Require Import Base Num NumFacts Interval IntervalFacts Curve Points PointsSpec PointsOps PointsDec PointsHist PointsRefute PointsTop PointsEx.
From Verif Require Import BaseEx Combine CombineEx Scan ScanFacts ScanSource ScanInv ScanTf SmaFacts SmaInv ScanTop ScanEx Smma SmmaFacts SmmaEx.
Import ListNotations.

(** nothing before the n-th point, the SMA there, then the recurrence with
    weight 1/n at the points and straight lines between them *)
Theorem C59_smma : forall half m, (half + half = 1)%Qc -> (min_step <= m)%Qc -> forall n, (1 <= n)%nat -> forall sm, sma_ready m n sm ->
  forall fuel s a d, smma_of half m n sm s a -> evenly m s d -> (length d < fuel)%nat ->
  exists E, traces ILinear (skipn (n - 1) (table d E)) (fun x => snd (smma_y half m n sm fuel s a x)) /\
    ((n <= length d)%nat -> forall fuel' a', averaged half m (SmaDegree n) s a' -> (length d < fuel')%nat ->
      snd (sma_value half m (SmaDegree n) fuel' s a' (Fin (at_x d (n - 1)))) = Ok (Some (Fin (E (n - 1)%nat)))) /\
    (forall k, (n - 1 <= k)%nat -> (S k < length d)%nat -> E (S k) = (E k + (at_y d (S k) - E k) / QcofZ (Z.of_nat n))%Qc).
Proof. exact smma_unfold. Qed.
Print Assumptions C59_smma.
Theorem C59_weight : forall n, (1 <= n)%nat -> smma_alpha n = Ok (Fin (1 / QcofZ (Z.of_nat n))%Qc : xq).
Proof. exact weight_ok. Qed.
Print Assumptions C59_weight.
Theorem C59_degree_zero : smma_alpha (T := xq) 0 = Err EExc.
Proof. exact eq_refl. Qed.
Print Assumptions C59_degree_zero.
(** every value is within the range of the data *)
Theorem C59_range : forall half m, (half + half = 1)%Qc -> (min_step <= m)%Qc -> forall n, (1 <= n)%nat -> forall sm, sma_ready m n sm ->
  forall fuel s a d lo hi q y, smma_of half m n sm s a -> evenly m s d -> (length d < fuel)%nat -> within lo hi d ->
  snd (smma_y half m n sm fuel s a (Fin q)) = Ok (Some (Fin y)) -> (lo <= y <= hi)%Qc.
Proof. exact smma_within. Qed.
Print Assumptions C59_range.
(** the same data give the same curve, whatever was asked or changed before *)
Theorem C59_same : forall half m, (half + half = 1)%Qc -> (min_step <= m)%Qc -> forall n, (1 <= n)%nat -> forall sm, sma_ready m n sm ->
  forall fuel fuel' s s' a a' d x, smma_of half m n sm s a -> smma_of half m n sm s' a' -> evenly m s d -> evenly m s' d ->
  (length d < fuel)%nat -> (length d < fuel')%nat ->
  snd (smma_y half m n sm fuel s a (Fin x)) = snd (smma_y half m n sm fuel' s' a' (Fin x)).
Proof. exact smma_same. Qed.
Print Assumptions C59_same.
Theorem C59_notifies : forall half m, (half + half = 1)%Qc -> (min_step <= m)%Qc -> forall n, (1 <= n)%nat -> forall sm, sma_ready m n sm ->
  forall s a o s' evs, smma_of half m n sm s a -> op_ok o -> run_op s o = (s', evs, Ok tt) ->
  (p_uniform s' = true -> equally_spaced (p_pts s')) ->
  exists a', acc_events a evs =
      (a', map (fun e => match e with EvBegin D => EvBegin (update_interval D) | EvEnd D => EvEnd (update_interval D) end) evs, Ok tt) /\
    smma_of half m n sm s' a'.
Proof. exact smma_events. Qed.
Print Assumptions C59_notifies.
(** the states that [sma_ready] allows: after any history *)
Theorem C59_any_sma : forall half m n s a, (half + half = 1)%Qc -> (min_step <= m)%Qc -> (1 <= n)%nat ->
  averaged half m (SmaDegree n) s a -> sinv m (SmaDegree n) s a.
Proof. exact averaged_ready. Qed.
Print Assumptions C59_any_sma.
Theorem C59_mean_refuted : exists s a d, smma_of hf min_step 3 never s a /\ evenly min_step s d /\ length d = 3%nat /\
  snd (smma_y hf min_step 3 never 9 s a (Fin (at_x d 2))) = Ok (Some (fr 3 4)) /\
  (total d 0 3 / QcofZ 3)%Qc = QcofZ 1.
Proof. exact smma_not_mean. Qed.
Print Assumptions C59_mean_refuted.
(** values 0 1 2 9 at 0..3, degree 2: None, 1/2, 5/4, 41/8 *)
Example C59_ex : sma_ready min_step 2 never /\ smma_of hf min_step 2 never ex_u a_smma /\ evenly min_step ex_u ex_d /\
  snd (smma_y hf min_step 2 never 9 ex_u a_smma (fz 0)) = Ok None /\
  snd (smma_y hf min_step 2 never 9 ex_u a_smma (fz 1)) = Ok (Some (fr 1 2)) /\
  snd (smma_y hf min_step 2 never 9 ex_u a_smma (fz 2)) = Ok (Some (fr 5 4)) /\
  snd (smma_y hf min_step 2 never 9 ex_u a_smma (fz 3)) = Ok (Some (fr 41 8)) /\
  snd (smma_y hf min_step 2 never 9 ex_u a_smma (fr 1 2)) = Ok None /\
  snd (smma_y hf min_step 2 never 9 ex_u a_smma (fr 3 2)) = Ok (Some (fr 7 8)).
Proof.
  split; [exact (fresh_ready min_step 2)|]. split; [exact ex_smma|]. split; [exact ex_u_even|].
  split; [val|]. split; [val|]. split; [val|]. split; [val|]. split; val.
Qed.
