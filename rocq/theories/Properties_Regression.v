(** C54: regression is the least-squares line of the sampled points
    (curve.py:360-382), and the tangent extensions built on it (C41).

    [fits l m c]: no line has a smaller sum of squared residuals over l than
    y = m x + c.  [lstsq_ok]: numpy's solver answers with such a line whenever
    the points have two different positions; nothing else is assumed of it. *)
From Coq Require Import List ZArith QArith Qcanon Bool Lia.
From Verif Require Import Base Num NumFacts Interval IntervalFacts Curve Points PointsSpec PointsQuery PointsOps PointsDec PointsHist PointsRefute PointsTop PointsEx.
From Verif Require Import BaseEx Combine CombineEx ScanFacts ScanTf ScanEx SmaFacts SmaInv Regression RegressionFacts Extension ExtensionFacts ExtensionTop ExtensionPts ExtensionEx RegressionTan RegressionEx.
Import ListNotations.
Open Scope Qc_scope.

(** ** The line *)
Theorem C54_exists : forall l, spread l -> exists m c, fits l m c.
Proof. exact (fun l S => ex_intro _ _ (ex_intro _ _ (lsq_exists l S))). Qed.
Print Assumptions C54_exists.
Theorem C54_unique : forall l m c m' c', spread l -> fits l m c -> fits l m' c' -> m = m' /\ c = c'.
Proof. exact lsq_unique. Qed.
Print Assumptions C54_unique.
Example C54_line_ex : spread du /\ lstsq_ok solve.
Proof. split; [exact du_spread|exact solve_ok]. Qed.

Theorem C54_fits : forall lstsq, lstsq_ok lstsq -> forall d, spread d ->
  exists ln m c, regress lstsq (dots d) = Ok (Some ln) /\ is_line ln m c /\ fits d m c.
Proof. exact regress_fits. Qed.
Print Assumptions C54_fits.
(** a missing value or fewer than two points give None *)
Theorem C54_none : forall lstsq l, (exists x, In (x, None) l) \/ (length l < 2)%nat -> regress (T := xq) lstsq l = Ok None.
Proof. exact regress_none. Qed.
Print Assumptions C54_none.
Example C54_none_ex : regress solve [(fz 0, nv 1); (fz 1, None); (fz 2, nv 3)] = Ok None /\ regress solve [(fz 0, nv 1)] = Ok None.
Proof. split; reflexivity. Qed.

(** ** Over Points *)
Theorem C54_window : forall lstsq, lstsq_ok lstsq -> forall s d m, honest_history s -> p_pts s = dots d -> coarse m (dots d) ->
  forall fuel D, iok D -> let w := filter (fun r => i_contains D (Fin (fst r))) d in
  (spread w -> exists ln M K, p_regression lstsq fuel s (Some D) (Some (Fin m)) None = Ok (Some ln) /\ is_line ln M K /\ fits w M K) /\
  ((length w < 2)%nat -> p_regression lstsq fuel s (Some D) (Some (Fin m)) None = Ok None).
Proof. exact window_fits. Qed.
Print Assumptions C54_window.
Example C54_window_ex : honest_history ex_u /\ p_pts ex_u = dots du /\ coarse half (dots du) /\
  is_ln (p_regression solve 20 ex_u (Some (iv (fz 1) (fz 3) false false)) (Some (Fin half)) None) (fz 4) (fz (-4)) = true.
Proof. split; [exact ex_u_honest|]. split; [exact du_pts|]. split; [exact du_coarse|exact reg_u02]. Qed.

(** ** Tangent extensions by regression *)
Theorem C41_regression_degree : forall lstsq, lstsq_ok lstsq -> forall s d m fuel, honest_history s -> p_pts s = dots d -> coarse m (dots d) -> 0 < m ->
  forall le ge st en n e, (1 <= n)%nat -> (n < length d)%nat ->
  let own := Some (Fin m) in let src := pts_src (reg_of lstsq fuel s own) s in
  lives (tangent_ext (TDegree n) own) le ge (tan_good (TDegree n) own) (tan_alike (TDegree n) own) st en src e ->
  (exists M K, fits (firstn (S n) d) M K /\ forall q, q < at_x d 0 ->
     snd (ext_y (tangent_ext (TDegree n) own) src e (Fin q)) = Ok (if st then Some (Fin (M * q + K)) else None)) /\
  (exists M K, fits (skipn (length d - S n) d) M K /\ forall q, at_x d (length d - 1) < q ->
     snd (ext_y (tangent_ext (TDegree n) own) src e (Fin q)) = Ok (if en then Some (Fin (M * q + K)) else None)).
Proof. exact degree_value. Qed.
Print Assumptions C41_regression_degree.
Theorem C41_regression_period : forall lstsq, lstsq_ok lstsq -> forall s d m fuel, honest_history s -> p_pts s = dots d -> coarse m (dots d) ->
  forall le ge st en w e, 0 < w -> (2 <= length d)%nat ->
  let own := Some (Fin m) in let src := pts_src (reg_of lstsq fuel s own) s in let z := (length d - 1)%nat in
  lives (tangent_ext (TPeriod (Fin w)) own) le ge (tan_good (TPeriod (Fin w)) own) (tan_alike (TPeriod (Fin w)) own) st en src e ->
  (at_x d 1 - at_x d 0 <= w -> exists M K, fits (filter (fun r => Qcleb (fst r) (at_x d 0 + w)) d) M K /\ forall q, q < at_x d 0 ->
     snd (ext_y (tangent_ext (TPeriod (Fin w)) own) src e (Fin q)) = Ok (if st then Some (Fin (M * q + K)) else None)) /\
  (at_x d z - at_x d (z - 1) <= w -> exists M K, fits (filter (fun r => Qcleb (at_x d z - w) (fst r)) d) M K /\ forall q, at_x d z < q ->
     snd (ext_y (tangent_ext (TPeriod (Fin w)) own) src e (Fin q)) = Ok (if en then Some (Fin (M * q + K)) else None)).
Proof. exact period_value. Qed.
Print Assumptions C41_regression_period.
Example C41_regression_ex : lives KD yes yes (tan_good (TDegree 2) (Some (Fin half))) (tan_alike (TDegree 2) (Some (Fin half))) true true SR ed /\
  (is_v (snd (ext_y KD SR ed (fz (-1)))) (nv (-1)) && is_v (snd (ext_y KD SR ed (fz 4))) (nv 12) = true)%bool /\
  lives KP yes yes (tan_good (TPeriod (Fin (Q2Qc (3 # 2)))) (Some (Fin half))) (tan_alike (TPeriod (Fin (Q2Qc (3 # 2)))) (Some (Fin half))) true true SR ep /\
  (is_v (snd (ext_y KP SR ep (fz (-1)))) (nv (-1)) && is_v (snd (ext_y KP SR ep (fz 4))) (nv 16) = true)%bool.
Proof. split; [exact ed_lives|]. split; [exact ed_val|]. split; [exact ep_lives|exact ep_val]. Qed.

(** With no more points than the degree the walk runs off the curve: the next
    step is taken from None, or an interval with it is made. *)
Theorem C41_short_refuted : forall lstsq s d m fuel, honest_history s -> p_pts s = dots d -> coarse m (dots d) -> 0 < m ->
  forall n fwd, d <> [] -> (length d <= n)%nat ->
  tangent_edge (TDegree n) (Some (Fin m)) (pts_src (reg_of lstsq fuel s (Some (Fin m))) s) fwd = Err EType.
Proof. exact edge_degree_short. Qed.
Print Assumptions C41_short_refuted.
Example C41_short_ex : du <> [] /\ (length du <= 4)%nat /\ tangent_edge (TDegree 4) (Some (Fin half)) SR true = Err EType /\
  snd (ext_y (tangent_ext (TDegree 4) (Some (Fin half))) SR (ext_init (tangent_ext (TDegree 4) (Some (Fin half))) SR true true false) (fz 5)) = Err EType.
Proof. split; [discriminate|]. split; [vm_compute; repeat constructor|]. split; vm_compute; reflexivity. Qed.

(** ** Open edges: the tangent is taken one min_step inside *)
Theorem C41_open_start : forall own le ge st en s e,
  lives (tangent_ext TSlope (Some (Fin own))) le ge (tan_good TSlope (Some (Fin own))) (tan_alike TSlope (Some (Fin own))) st en s e ->
  iok (dom s) -> i_is_empty (dom s) = false ->
  forall a u v q, i_start (dom s) = Fin a -> i_so (dom s) = true -> i_contains (dom s) (Fin (a + own)) = true ->
  c_y (s_c s) (Fin (a + own)) = Ok (Some (Fin u)) -> s_dy s (Fin (a + own)) true = Ok (Some (Fin v)) -> q <= a ->
  snd (ext_y (tangent_ext TSlope (Some (Fin own))) s e (Fin q)) = Ok (if st then Some (Fin (u + v * (q - (a + own)))) else None).
Proof. exact open_start. Qed.
Print Assumptions C41_open_start.
Theorem C41_open_end : forall own le ge st en s e,
  lives (tangent_ext TSlope (Some (Fin own))) le ge (tan_good TSlope (Some (Fin own))) (tan_alike TSlope (Some (Fin own))) st en s e ->
  iok (dom s) -> i_is_empty (dom s) = false ->
  forall z u v q, i_end (dom s) = Fin z -> i_eo (dom s) = true -> i_contains (dom s) (Fin (z - own)) = true ->
  c_y (s_c s) (Fin (z - own)) = Ok (Some (Fin u)) -> s_dy s (Fin (z - own)) false = Ok (Some (Fin v)) -> z <= q ->
  snd (ext_y (tangent_ext TSlope (Some (Fin own))) s e (Fin q)) = Ok (if en then Some (Fin (u + v * (q - (z - own)))) else None).
Proof. exact open_end. Qed.
Print Assumptions C41_open_end.
Example C41_open_ex : lives KO yes yes (tan_good TSlope (Some (Fin half))) (tan_alike TSlope (Some (Fin half))) true true SO eo /\
  i_so (dom SO) = true /\ i_eo (dom SO) = true /\ i_contains (dom SO) (Fin (QcofZ 0 + half)) = true /\
  (is_v (snd (ext_y KO SO eo (fz 0))) (Some (fr (-1) 2)) && is_v (snd (ext_y KO SO eo (fz 4))) (Some (fr 9 2)) = true)%bool.
Proof. split; [exact eo_lives|]. repeat split; try (vm_compute; reflexivity). Qed.
