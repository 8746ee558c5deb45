(** C67: sampling a simple moving average (scan.py:69-81 with sma.py:13-112).

    [averaged half m deg s a]: a Points object and an average over it after any
    history of queries, reads and announced changes (C39).  [evenly m s d]: the
    source holds the points [d], equally spaced by at least [m]; [spaced M d]:
    neighbours are more than the minimum step [M] of the request apart.
    [sampled_along qry a M fuel ks smp], as in C62: without a domain the rows
    are at [ks]; in a window at its ends and at the [ks] in it that are at least
    [M] after its start; with a step at its multiples; in a domain that misses
    the curve there are none.  Each row has the value the query answers, and
    afterwards all queries answer as before. *)
From Coq Require Import List ZArith QArith Qcanon Bool Lia.
From Verif Require Import Base Num NumFacts Interval IntervalFacts Curve BaseFacts Points PointsSpec PointsOps PointsDec PointsHist PointsRefute PointsTop PointsEx.
From Verif Require Import BaseEx Combine CombineEx Scan ScanFacts ScanSource ScanInv ScanTf SmaFacts SmaInv ScanTop ScanEx ScanView ScanSample ScanSampleFacts ScanSampleAcc ScanSampleTop ScanSampleEx.
From Verif Require Import SmaSample SmaSampleFacts SmaSampleTop SmaSampleEx.
Import ListNotations.

(** an average of two or more points: along the points from the n-th *)
Theorem C67_degree : forall half m n fuel s a d ms M, (half + half = 1)%Qc -> (min_step <= m)%Qc -> (2 <= n)%nat ->
  averaged half m (SmaDegree n) s a -> evenly m s d -> (length d < fuel)%nat ->
  resolve_min_step (Some (Fin m)) ms = Some (Fin M) -> spaced M d ->
  sampled_along (fun a x => snd (sma_value half m (SmaDegree n) fuel s a x)) a M fuel (skipn (n - 1) (map fst d))
    (fun D h => sma_sampling half m (SmaDegree n) fuel s a D ms h).
Proof. exact sma_degree_sampled. Qed.
Print Assumptions C67_degree.
(** an average over a period above the spacing: along the points from the k-th,
    the last one within the period of the first point *)
Theorem C67_period : forall half m P k fuel s a d ms M, (half + half = 1)%Qc -> (min_step <= m)%Qc ->
  (forall j, (S j < length d)%nat -> (at_x d (S j) - at_x d j + m <= P)%Qc) -> (m <= P)%Qc ->
  (k < length d)%nat -> (forall j, (j <= k)%nat -> (at_x d j <= at_x d 0 + P - m)%Qc) -> full_from P m d k ->
  averaged half m (SmaPeriod (Fin P)) s a -> evenly m s d -> (length d < fuel)%nat ->
  resolve_min_step (Some (Fin m)) ms = Some (Fin M) -> spaced M d ->
  sampled_along (fun a x => snd (sma_value half m (SmaPeriod (Fin P)) fuel s a x)) a M fuel (skipn k (map fst d))
    (fun D h => sma_sampling half m (SmaPeriod (Fin P)) fuel s a D ms h).
Proof. exact sma_period_sampled. Qed.
Print Assumptions C67_period.
(** all of it: the trapezoid averages at the points from the n-th *)
Theorem C67_whole : forall half m n fuel s a d ms M, (half + half = 1)%Qc -> (min_step <= m)%Qc -> (2 <= n)%nat ->
  averaged half m (SmaDegree n) s a -> evenly m s d -> (length d < fuel)%nat ->
  resolve_min_step (Some (Fin m)) ms = Some (Fin M) -> spaced M d ->
  snd (sma_sampling half m (SmaDegree n) fuel s a None ms None) =
  Ok (map (fun k => (Fin (at_x d k), Some (Fin (area_sum ILinear d (k - (n - 1)) (n - 1) / (at_x d k - at_x d (k - (n - 1))))%Qc))) (seq (n - 1) (length d - (n - 1)))).
Proof. exact sma_degree_whole. Qed.
Print Assumptions C67_whole.
(** the average of one point, sampled whole, is the source *)
Theorem C67_one : forall half m fuel s a d ms M, (half + half = 1)%Qc -> (min_step <= m)%Qc ->
  averaged half m (SmaDegree 1) s a -> evenly m s d -> (length d < fuel)%nat ->
  resolve_min_step (Some (Fin m)) ms = Some (Fin M) -> spaced M d ->
  snd (sma_sampling half m (SmaDegree 1) fuel s a None ms None) = Ok (p_pts s).
Proof. exact sma_one_whole. Qed.
Print Assumptions C67_one.

(** The code departs from "sampling a finite window of the domain succeeds": the
    average of one point, which has a value at every x of the window, raises
    when the window starts off the points and spans two of them *)
Theorem C67_one_refuted : exists s a d D, averaged hf min_step (SmaDegree 1) s a /\ evenly min_step s d /\ spaced min_step d /\
  D = i_closed (fr 1 2) (fr 5 2) /\
  (forall q, (QcofZ 1 / QcofZ 2 <= q)%Qc -> (q <= QcofZ 5 / QcofZ 2)%Qc -> exists v, snd (sma_value hf min_step (SmaDegree 1) 9 s a (Fin q)) = Ok (Some v)) /\
  snd (sma_sampling hf min_step (SmaDegree 1) 9 s a (Some D) None None) = Err EExc.
Proof. exact one_raises. Qed.
Print Assumptions C67_one_refuted.
(** and from "x_next is the next point of the average": after a query near the
    end, points of the domain are skipped *)
Theorem C67_next_refuted : exists s a a' d, averaged hf min_step (SmaDegree 2) s a /\ averaged hf min_step (SmaDegree 2) s a' /\ evenly min_step s d /\
  acc_next (p_crv s) (Some (Fin min_step)) a (fz 1) None None = Ok (Some (fz 2)) /\
  acc_next (p_crv s) (Some (Fin min_step)) a' (fz 1) None None = Ok (Some (fz 3)) /\
  exists v, snd (sma_value hf min_step (SmaDegree 2) 9 s a' (fz 2)) = Ok (Some v).
Proof. exact next_skips. Qed.
Print Assumptions C67_next_refuted.

Example C67_ex : averaged hf min_step (SmaDegree 2) ex_5 late /\ averaged hf min_step (SmaPeriod (Fin p32)) ex_5 one_new /\
  averaged hf min_step (SmaDegree 1) ex_u one_new /\ evenly min_step ex_u ex_d /\
  evenly min_step ex_5 ex_5d /\ spaced min_step ex_5d /\ full_from p32 min_step ex_5d 1 /\
  (forall j, (S j < length ex_5d)%nat -> (at_x ex_5d (S j) - at_x ex_5d j + min_step <= p32)%Qc) /\
  (forall j, (j <= 1)%nat -> (at_x ex_5d j <= at_x ex_5d 0 + p32 - min_step)%Qc) /\
  snd (sma_sampling hf min_step (SmaDegree 2) 9 ex_5 late None None None) =
    Ok [(fz 1, Some (fr 1 2)); (fz 2, Some (fr 3 2)); (fz 3, Some (fr 11 2)); (fz 4, Some (fr 13 2)); (fz 5, nv 5)] /\
  snd (sma_sampling hf min_step (SmaDegree 2) 9 ex_5 late (Some (iv (fr 3 2) (fr 5 2) false false)) None None) =
    Ok [(fr 3 2, nv 1); (fz 2, Some (fr 3 2)); (fr 5 2, Some (fr 7 2))] /\
  snd (sma_sampling hf min_step (SmaPeriod (Fin p32)) 9 ex_5 one_new (Some (iv (fz 1) (fz 4) false false)) None (Some (fz 3))) =
    Ok [(fz 1, Some (fr 1 2)); (fz 4, Some (fr 13 2))] /\
  snd (sma_sampling hf min_step (SmaDegree 1) 9 ex_u one_new None None None) = Ok (dots ex_d).
Proof.
  split; [exact ex_late|]. split; [exact ex_p32|]. split; [exact ex_one|]. split; [exact ex_u_even|]. split; [exact ex_5_even|].
  split; [exact ex_5_spaced|]. split; [exact ex_p32_full|]. split; [exact ex_p32_wide|]. split; [exact ex_p32_first|].
  split; [pts|]. split; [pts|]. split; pts.
Qed.
