(** C75: sampling the extremas (extremas.py:86-88, scan.py:69-81, curve.py:168-210).

    [elife m dev R s l e]: extremas with the state [e] over a Points object [s]
    with the points [l], after any history of queries, appends and updates that
    leave only extremas (C42).  [extremas_of dev R l es p]: the extremas of [l],
    as specified for C42.  [stops l es]: the points before the first extrema, the
    extremas, and the points after the last.  [answers]: every later query is
    answered from the same extremas. *)
From Coq Require Import List ZArith QArith Qcanon Bool Lia Sorting.Sorted.
From Verif Require Import Base Num NumFacts Interval IntervalFacts Curve Points PointsSpec PointsQuery PointsOps PointsDec PointsRefute PointsEx.
From Verif Require Import BaseEx Combine CombineEx Scan ScanFacts ScanInv ScanTf ScanEx ScanSample ScanSampleTop ScanSampleEx TrendEx Extremas ExtremasFold ExtremasUniq ExtremasVal ExtremasInv ExtremasEx ExtremasLife ExtremasHist ExtremasHistEx ExtremasSample ExtremasSampleTop ExtremasSampleEx.
Import ListNotations.
Open Scope Qc_scope.

(** Without a domain the rows are the extremas, all of them and nothing else, when
    neighbouring stops are more than the minimum step apart. *)
Theorem C75_whole : forall m, 0 < m -> forall dev, 0 <= dev -> forall R s l e es p ms M fuel, elife m dev R s l e -> extremas_of dev R l es p ->
  (length l < fuel)%nat -> resolve_min_step (Some (Fin m)) ms = Some (Fin M) -> gaps M (map fst (stops l es)) ->
  exists e', ex_sample_points fuel (p_crv s) (Some (Fin m)) (Fin dev) (ref_fun R) e None ms None = (e', Ok (map fop es)) /\ answers m dev R s l es e'.
Proof. exact extremas_whole. Qed.
Print Assumptions C75_whole.
Example C75_whole_ex : elife min_step tenth ten (st s4) (zs three ++ zs [(3,8)]%Z) e4 /\
  extremas_of tenth ten (zs three ++ zs [(3,8)]%Z) (zd [(0,12);(1,8);(2,12)]%Z) (Some (QcofZ 3, QcofZ 8)) /\
  gaps min_step (map fst (stops (zs three ++ zs [(3,8)]%Z) (zd [(0,12);(1,8);(2,12)]%Z))) /\
  resolve_min_step (Some (Fin min_step)) None = Some (Fin min_step) /\
  snd (smp 50 (st s4) e4 None None None) = Ok (pz [(0,12);(1,8);(2,12)]%Z) /\
  snd (smp 50 src7 ex_init None None None) = Ok (pz [(1,15);(5,7)]%Z).
Proof. exact (conj e4_life (conj four_extremas' (conj gaps4 (conj resolve1 (conj (same_rows_eq _ _ whole4) (same_rows_eq _ _ whole7)))))). Qed.
(** In a window inside the source: its ends and the stops in it at least the
    minimum step after its start, with the interpolation of the extremas where
    there is one. *)
Theorem C75_window : forall m, 0 < m -> forall dev, 0 <= dev -> forall R s l e es p (v : Qc -> option xq) ms M u w fuel, elife m dev R s l e -> extremas_of dev R l es p ->
  (forall q, value ILinear (map fop es) q (v q)) -> (length l < fuel)%nat -> resolve_min_step (Some (Fin m)) ms = Some (Fin M) -> gaps M (map fst (stops l es)) ->
  span (p_pts s) u -> span (p_pts s) w -> u <= w ->
  let inner := kept M u w (map fst (stops l es)) in
  exists e', ex_sample_points fuel (p_crv s) (Some (Fin m)) (Fin dev) (ref_fun R) e (Some (i_closed (Fin u) (Fin w))) ms None =
    (e', Ok (ex_sample (map (fun x => (Fin x, v x)) (u :: inner ++ (if Qceqb (last inner u) w then [] else [w]))))) /\ answers m dev R s l es e'.
Proof. exact extremas_window. Qed.
Print Assumptions C75_window.
Example C75_window_ex : elife min_step tenth ten src7 (zs seven) ex_init /\ extremas_of tenth ten (zs seven) (zd [(1,15);(5,7)]%Z) (Some (QcofZ 6, QcofZ 13)) /\
  gaps min_step (map fst (stops (zs seven) (zd [(1,15);(5,7)]%Z))) /\ (forall q, value ILinear (map fop (zd [(1,15);(5,7)]%Z)) q (v7 q)) /\
  span (p_pts src7) (QcofZ 2) /\ span (p_pts src7) (QcofZ 4) /\
  snd (smp 50 src7 ex_init (Some (i_closed (fz 2) (fz 4))) None None) = Ok (pz [(2,13);(4,9)]%Z) /\
  snd (smp 50 src7 ex_init (Some (i_closed (fz 0) (fz 4))) None None) = Ok (pz [(1,15);(4,9)]%Z).
Proof.
  exact (conj e7_life (conj seven_extremas (conj gaps7 (conj v7_ok (conj (span7 2 ltac:(lia)) (conj (span7 4 ltac:(lia))
    (conj (same_rows_eq _ _ window7) (same_rows_eq _ _ window7')))))))).
Qed.
(** With a step: its multiples. *)
Theorem C75_steps : forall m, 0 < m -> forall dev, 0 <= dev -> forall R s l e es p (v : Qc -> option xq) ms M u w h n fuel, elife m dev R s l e -> extremas_of dev R l es p ->
  (forall q, value ILinear (map fop es) q (v q)) -> (length l < fuel)%nat -> resolve_min_step (Some (Fin m)) ms = Some (Fin M) ->
  span (p_pts s) u -> span (p_pts s) w -> u <= w -> 0 < h ->
  u + QcofZ (Z.of_nat n) * h <= w -> w < u + QcofZ (Z.of_nat (S n)) * h -> (n < fuel)%nat ->
  exists e', ex_sample_points fuel (p_crv s) (Some (Fin m)) (Fin dev) (ref_fun R) e (Some (i_closed (Fin u) (Fin w))) ms (Some (Fin h)) =
    (e', Ok (ex_sample (map (fun x => (Fin x, v x)) (map (fun i => u + QcofZ (Z.of_nat i) * h) (seq 0 (S n)))))) /\ answers m dev R s l es e'.
Proof. exact extremas_steps. Qed.
Print Assumptions C75_steps.
Example C75_steps_ex : span (p_pts src7) (QcofZ 0) /\ span (p_pts src7) (QcofZ 6) /\
  snd (smp 50 src7 ex_init (Some (i_closed (fz 0) (fz 6))) None (Some (fz 1))) = Ok (pz [(1,15);(2,13);(3,11);(4,9);(5,7)]%Z).
Proof. exact (conj (span7 0 ltac:(lia)) (conj (span7 6 ltac:(lia)) (same_rows_eq _ _ steps7))). Qed.
(** Where the source is not: nothing. *)
Theorem C75_outside : forall m, 0 < m -> forall dev, 0 <= dev -> forall R s l e es p d ms step fuel, elife m dev R s l e -> extremas_of dev R l es p -> iok d ->
  (forall q, span (p_pts s) q -> ~ imem d (Fin q)) ->
  exists e', ex_sample_points fuel (p_crv s) (Some (Fin m)) (Fin dev) (ref_fun R) e (Some d) ms step = (e', Ok []) /\ answers m dev R s l es e'.
Proof. exact extremas_outside. Qed.
Print Assumptions C75_outside.
Example C75_outside_ex : snd (smp 50 src7 ex_init (Some (i_closed (fz 7) (fz 9))) None None) = Ok [].
Proof. exact (same_rows_eq _ _ outside7). Qed.
(** Points exactly the minimum step apart, half way between its multiples, raise. *)
Theorem C75_tie_refuted : exists m s l, 0 < m /\ ex_source m ten s l /\
  snd (ex_sample_points 50 (p_crv s) (Some (Fin m)) (Fin tenth) (ref_fun ten) ex_init None None None) = Err EExc.
Proof. exact (ex_intro _ (QcofZ 1) (ex_intro _ half_s (ex_intro _ half_ps (conj eq_refl (conj half_source half_sample_raises))))). Qed.
Print Assumptions C75_tie_refuted.
(** An extrema less than the minimum step after the start of a window is missed. *)
Theorem C75_close_refuted : exists s l e es p D ms r q, elife min_step tenth ten s l e /\ extremas_of tenth ten l es p /\ In q es /\ imem D (Fin (fst q)) /\
  snd (ex_sample_points 50 (p_crv s) (Some (Fin min_step)) (Fin tenth) (ref_fun ten) e (Some D) (Some ms) None) = Ok r /\ ~ In (fop q) r.
Proof. exact close_missed. Qed.
Print Assumptions C75_close_refuted.
