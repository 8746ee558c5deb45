(** C36-C40: the accumulating curves (scan.py, accumulator.py, integral.py,
    ema.py, accumulator_map.py, sma.py).

    [integral_of], [ema_of], [trailing_of] and [averaged] relate a Points
    object and a curve over it after any history: the curve was created on any
    state of the source, then came queries of y at any x, reads of the domain,
    and appends, list appends, replaces, sets and resets of the source with
    their notifications, in any order.  [evenly m s d]: the source now holds
    the points [d], equally spaced by at least [m].  [traces ip r f]: f is r_k
    at every point of r, the ip-interpolation between neighbours, None outside. *)
From Coq Require Import List ZArith QArith Qcanon Bool Lia.
From Verif Require Import Base Num NumFacts Interval IntervalFacts Curve Points PointsSpec PointsOps PointsDec PointsHist PointsRefute PointsTop PointsEx.
From Verif Require Import BaseEx Combine CombineEx Scan ScanFacts ScanSource ScanInv ScanTf SmaFacts SmaInv ScanTop ScanEx.
Import ListNotations.

(** ** C36 Integral *)
Theorem C36_integral : forall half ip const m fuel s a d, (half + half = 1)%Qc -> (min_step <= m)%Qc ->
  integral_of half ip const m s a -> evenly m s d -> (length d < fuel)%nat ->
  traces ILinear (table d (fun k => area_sum ip d 0 k + const)%Qc) (fun x => snd (integral_y half ip const m fuel s a x)).
Proof. exact integral_traces. Qed.
Print Assumptions C36_integral.
(** what the areas are *)
Theorem C36_areas : forall ip d i n, area_sum ip d i 0 = 0%Qc /\
  area_sum ip d i (S n) = (area_sum ip d i n + (at_x d (S (i + n)) - at_x d (i + n)) *
    match ip with
    | IPrevious => at_y d (i + n)
    | ILinear => (at_y d (i + n) + at_y d (S (i + n))) / (1 + 1)
    | INext => at_y d (S (i + n))
    end)%Qc.
Proof. exact area_sum_eq. Qed.
Print Assumptions C36_areas.
Example C36_ex : integral_of hf IPrevious c5 min_step ex_u a_int /\ evenly min_step ex_u ex_d /\
  snd (integral_y hf IPrevious c5 min_step 9 ex_u a_int (fz 3)) = Ok (nv 8) /\
  snd (integral_y hf IPrevious c5 min_step 9 ex_u a_int (fr 5 2)) = Ok (nv 7) /\
  snd (integral_y hf IPrevious c5 min_step 9 ex_u a_int (fz 4)) = Ok None.
Proof. split; [exact ex_int|]. split; [exact ex_u_even|]. split; [val|]. split; val. Qed.

(** ** C37 EMA *)
Theorem C37_recurrence : forall deg init wt first m fuel s a d, (0 < m)%Qc -> weight_of deg wt -> first_of init first ->
  ema_of deg init m s a -> evenly m s d -> (length d < fuel)%nat ->
  exists E, traces ILinear (table d E) (fun x => snd (ema_y deg init m fuel s a x)) /\
    ((0 < length d)%nat -> E 0%nat = first (at_x d 0) (at_y d 0)) /\
    (forall k, (S k < length d)%nat -> E (S k) = (E k + wt (at_x d k) (at_x d (S k)) * (at_y d (S k) - E k))%Qc).
Proof. exact ema_traces. Qed.
Print Assumptions C37_recurrence.
Theorem C37_within_so_far : forall al m fuel s a d lo hi k, (0 < m)%Qc -> (0 <= al)%Qc -> (al <= 1)%Qc ->
  ema_of (EmaAlpha (Fin al)) None m s a -> evenly m s d -> (length d < fuel)%nat -> (k < length d)%nat ->
  (forall j, (j <= k)%nat -> (lo <= at_y d j <= hi)%Qc) ->
  exists y, snd (ema_y (EmaAlpha (Fin al)) None m fuel s a (Fin (at_x d k))) = Ok (Some (Fin y)) /\ (lo <= y <= hi)%Qc.
Proof. exact ema_within. Qed.
Print Assumptions C37_within_so_far.
Theorem C37_within : forall al m fuel s a d lo hi q y, (0 < m)%Qc -> (0 <= al)%Qc -> (al <= 1)%Qc ->
  ema_of (EmaAlpha (Fin al)) None m s a -> evenly m s d -> (length d < fuel)%nat -> within lo hi d ->
  snd (ema_y (EmaAlpha (Fin al)) None m fuel s a (Fin q)) = Ok (Some (Fin y)) -> (lo <= y <= hi)%Qc.
Proof. exact ema_between. Qed.
Print Assumptions C37_within.
Theorem C37_constant : forall deg c m fuel s a d k, (0 < m)%Qc -> (exists wt, weight_of deg wt) ->
  ema_of deg None m s a -> evenly m s d -> (length d < fuel)%nat -> (k < length d)%nat ->
  (forall j, (j <= k)%nat -> at_y d j = c) -> snd (ema_y deg None m fuel s a (Fin (at_x d k))) = Ok (Some (Fin c)).
Proof. exact ema_constant. Qed.
Print Assumptions C37_constant.
Example C37_ex : ema_of al4 None min_step ex_u a_ema /\ evenly min_step ex_u ex_d /\ weight_of al4 (fun _ _ => q4) /\
  first_of None (fun _ y => y) /\ (0 <= q4)%Qc /\ (q4 <= 1)%Qc /\ within (QcofZ 0) (QcofZ 9) ex_d /\
  snd (ema_y al4 None min_step 9 ex_u a_ema (fz 1)) = Ok (Some (fr 1 4)) /\
  snd (ema_y al4 None min_step 9 ex_u a_ema (fz 2)) = Ok (Some (fr 11 16)) /\
  snd (ema_y al4 None min_step 9 ex_u a_ema (fz 3)) = Ok (Some (fr 177 64)).
Proof.
  split; [exact ex_ema|]. split; [exact ex_u_even|]. split; [exists q4; auto|]. split; [intros x y; reflexivity|].
  split; [discriminate|]. split; [discriminate|]. split; [exact ex_d_within|]. split; [val|]. split; val.
Qed.

(** ** C38 trailing minimum and maximum *)
Theorem C38_max : forall deg ip n m fuel s a d, (0 < m)%Qc -> degree_positive deg ->
  trailing_of deg (fun _ => py_max) ip n m s a -> evenly m s d -> (length d < fuel)%nat ->
  exists M, traces ip (table d M) (fun x => snd (trailing_y deg (fun _ => py_max) n m fuel s a x)) /\
    forall k, (k < length d)%nat -> greatest (in_window deg d k) (M k).
Proof. exact trailing_max_traces. Qed.
Print Assumptions C38_max.
Theorem C38_min : forall deg ip n m fuel s a d, (0 < m)%Qc -> degree_positive deg ->
  trailing_of deg (fun _ => py_min) ip n m s a -> evenly m s d -> (length d < fuel)%nat ->
  exists M, traces ip (table d M) (fun x => snd (trailing_y deg (fun _ => py_min) n m fuel s a x)) /\
    forall k, (k < length d)%nat -> least (in_window deg d k) (M k).
Proof. exact trailing_min_traces. Qed.
Print Assumptions C38_min.
(** any other function of the window: accumulator_map *)
Theorem C38_map : forall deg tfm win g ip n m fuel s a d, (0 < m)%Qc -> window_of deg win -> computes tfm g ->
  trailing_of deg tfm ip n m s a -> evenly m s d -> (length d < fuel)%nat ->
  traces ip (table d (fun k => g (at_x d k) (win (firstn k d) (pt d k)))) (fun x => snd (trailing_y deg tfm n m fuel s a x)).
Proof. exact trailing_traces. Qed.
Print Assumptions C38_map.
Example C38_ex : trailing_of w2 (fun _ => py_max) ILinear 9 min_step ex_u a_max /\ evenly min_step ex_u ex_d /\ degree_positive w2 /\
  snd (trailing_y w2 (fun _ => py_max) 9 min_step 9 ex_u a_max (fz 2)) = Ok (nv 2) /\
  snd (trailing_y w2 (fun _ => py_max) 9 min_step 9 ex_u a_max (fz 3)) = Ok (nv 9) /\
  trailing_of p1 (fun _ => py_min) ILinear 9 min_step ex_u a_min /\ degree_positive p1 /\
  snd (trailing_y p1 (fun _ => py_min) 9 min_step 9 ex_u a_min (fz 3)) = Ok (nv 2) /\
  snd (trailing_y p1 (fun _ => py_min) 9 min_step 9 ex_u a_min (fz 2)) = Ok (nv 1).
Proof.
  split; [exact ex_max|]. split; [exact ex_u_even|]. split; [discriminate|]. split; [val|]. split; [val|].
  split; [exact ex_min|]. split; [exists (QcofZ 1); split; reflexivity|]. split; val.
Qed.

(** ** C39 SMA *)
(** what it is at the points: the last n - 1 trapezoids over their width *)
Theorem C39_knots : forall half m n fuel s a d k, (half + half = 1)%Qc -> (min_step <= m)%Qc -> (2 <= n)%nat ->
  averaged half m (SmaDegree n) s a -> evenly m s d -> (n - 1 <= k)%nat -> (k < length d)%nat -> (length d < fuel)%nat ->
  snd (sma_value half m (SmaDegree n) fuel s a (Fin (at_x d k))) =
  Ok (Some (Fin (area_sum ILinear d (k - (n - 1)) (n - 1) / (at_x d k - at_x d (k - (n - 1))))%Qc)).
Proof. exact sma_degree_knot. Qed.
Print Assumptions C39_knots.
Theorem C39_knots_one : forall half m fuel s a d k, (half + half = 1)%Qc -> (min_step <= m)%Qc ->
  averaged half m (SmaDegree 1) s a -> evenly m s d -> (k < length d)%nat -> (length d < fuel)%nat ->
  snd (sma_value half m (SmaDegree 1) fuel s a (Fin (at_x d k))) = Ok (Some (Fin (at_y d k))).
Proof. exact sma_degree_one. Qed.
Print Assumptions C39_knots_one.
(** the same in terms of the values: half weight on the two outermost ones *)
Theorem C39_weights : forall half m n fuel s a d k, (half + half = 1)%Qc -> (min_step <= m)%Qc -> (2 <= n)%nat ->
  averaged half m (SmaDegree n) s a -> evenly m s d -> (n - 1 <= k)%nat -> (k < length d)%nat -> (length d < fuel)%nat ->
  exists y, snd (sma_value half m (SmaDegree n) fuel s a (Fin (at_x d k))) = Ok (Some (Fin y)) /\
  (y * QcofZ (Z.of_nat (n - 1)) = total d (k - (n - 1)) n - (at_y d (k - (n - 1)) + at_y d k) / (1 + 1))%Qc.
Proof. exact sma_degree_weights. Qed.
Print Assumptions C39_weights.
(** so when it is the arithmetic mean of the last n values *)
Theorem C39_mean_iff : forall half m n fuel s a d k, (half + half = 1)%Qc -> (min_step <= m)%Qc -> (2 <= n)%nat ->
  averaged half m (SmaDegree n) s a -> evenly m s d -> (n - 1 <= k)%nat -> (k < length d)%nat -> (length d < fuel)%nat ->
  let mean := (total d (k - (n - 1)) n / QcofZ (Z.of_nat n))%Qc in
  snd (sma_value half m (SmaDegree n) fuel s a (Fin (at_x d k))) = Ok (Some (Fin mean)) <->
  (at_y d (k - (n - 1)) + at_y d k = (1 + 1) * mean)%Qc.
Proof. exact sma_mean. Qed.
Print Assumptions C39_mean_iff.
(** a period: the window starts at the first point later than x - period by
    the minimum step; it is full once the points after the k-th lie beyond the
    period of the first *)
Theorem C39_knots_period : forall half m P fuel s a d k, (half + half = 1)%Qc -> (min_step <= m)%Qc -> (m <= P)%Qc ->
  averaged half m (SmaPeriod (Fin P)) s a -> evenly m s d -> (length d < fuel)%nat -> (k < length d)%nat -> full_from P m d k ->
  exists i, (i <= k)%nat /\ (at_x d k - P + m <= at_x d i)%Qc /\ (forall j, (j < i)%nat -> (at_x d j < at_x d k - P + m)%Qc) /\
  snd (sma_value half m (SmaPeriod (Fin P)) fuel s a (Fin (at_x d k))) =
  Ok (Some (Fin (if (i =? k)%nat then at_y d k else area_sum ILinear d i (k - i) / (at_x d k - at_x d i))%Qc)).
Proof. exact sma_period_knot. Qed.
Print Assumptions C39_knots_period.
(** everywhere: a value exactly from the n-th to the last point, inside the
    range of the data, the same after every history *)
Theorem C39_range : forall half m n s d q, (half + half = 1)%Qc -> (min_step <= m)%Qc -> (1 <= n)%nat -> good s -> evenly m s d ->
  exists v, (forall fuel a, averaged half m (SmaDegree n) s a -> (length d < fuel)%nat ->
      snd (sma_value half m (SmaDegree n) fuel s a (Fin q)) = Ok v) /\
    (((n <= length d)%nat /\ (at_x d (n - 1) <= q)%Qc /\ (q <= at_x d (length d - 1))%Qc ->
       exists r, v = Some (Fin r) /\ forall lo hi, within lo hi d -> (lo <= r <= hi)%Qc) /\
     (~ ((n <= length d)%nat /\ (at_x d (n - 1) <= q)%Qc /\ (q <= at_x d (length d - 1))%Qc) -> v = None)).
Proof. exact sma_range. Qed.
Print Assumptions C39_range.
Theorem C39_mean_refuted : exists s a d, averaged hf min_step (SmaDegree 3) s a /\ evenly min_step s d /\ length d = 3%nat /\
  snd (sma_value hf min_step (SmaDegree 3) 9 s a (Fin (at_x d 2))) = Ok (Some (fr 3 4)) /\
  (total d 0 3 / QcofZ 3)%Qc = QcofZ 1.
Proof. exact sma_not_mean. Qed.
Print Assumptions C39_mean_refuted.
Theorem C39_linear_refuted : exists s a d, averaged hf min_step (SmaDegree 2) s a /\ evenly min_step s d /\
  at_x d 1 = QcofZ 1 /\ at_x d 2 = QcofZ 2 /\
  snd (sma_value hf min_step (SmaDegree 2) 9 s a (fz 1)) = Ok (Some (fr 3 2)) /\
  snd (sma_value hf min_step (SmaDegree 2) 9 s a (fz 2)) = Ok (Some (fr 5 2)) /\
  snd (sma_value hf min_step (SmaDegree 2) 9 s a (fr 5 4)) = Ok (Some (fr 9 4)).
Proof. exact sma_not_linear. Qed.
Print Assumptions C39_linear_refuted.
(** with a period longer than the data an append withdraws the value at the
    former last point without announcing it *)
Theorem C39_announced_refuted : exists s a s' evs a' out, averaged hf min_step long s a /\ evenly min_step s ex_d0 /\ evenly min_step s' ex_d /\
  run_op s (OAppend (QcofZ 3) (nv 9)) = (s', evs, Ok tt) /\ acc_events a evs = (a', out, Ok tt) /\ averaged hf min_step long s' a' /\
  snd (sma_value hf min_step long 9 s a (fz 2)) = Ok (Some (fz 1)) /\
  snd (sma_value hf min_step long 9 s' a' (fz 2)) = Ok None /\
  forall e, In e out -> match e with EvBegin D | EvEnd D => i_contains D (fz 2) = false end.
Proof. exact sma_unannounced. Qed.
Print Assumptions C39_announced_refuted.
Example C39_ex : averaged hf min_step (SmaDegree 3) ex_u (seen_sma (SmaDegree 3)) /\ evenly min_step ex_u ex_d /\ good ex_u /\
  snd (sma_value hf min_step (SmaDegree 3) 9 ex_u (seen_sma (SmaDegree 3)) (fz 2)) = Ok (nv 1) /\
  snd (sma_value hf min_step (SmaDegree 3) 9 ex_u (seen_sma (SmaDegree 3)) (fz 3)) = Ok (Some (fr 7 2)) /\
  snd (sma_value hf min_step (SmaDegree 3) 9 ex_u (seen_sma (SmaDegree 3)) (fz 1)) = Ok None /\
  averaged hf min_step (SmaPeriod (fr 3 2)) ex_u (seen_sma (SmaPeriod (fr 3 2))) /\ full_from (QcofZ 3 / QcofZ 2) min_step ex_d 1 /\
  snd (sma_value hf min_step (SmaPeriod (fr 3 2)) 9 ex_u (seen_sma (SmaPeriod (fr 3 2))) (fz 3)) = Ok (Some (fr 11 2)).
Proof.
  split; [apply ex_sma|]. split; [exact ex_u_even|]. split; [exact (honest_history_good _ ex_u_honest)|]. split; [val|]. split; [val|].
  split; [val|]. split; [apply ex_sma|]. split; [exact ex_full|]. val.
Qed.

(** ** C40 history independence *)
Theorem C40_integral : forall half ip const m fuel fuel' s s' a a' d x, (half + half = 1)%Qc -> (min_step <= m)%Qc ->
  integral_of half ip const m s a -> integral_of half ip const m s' a' -> evenly m s d -> evenly m s' d ->
  (length d < fuel)%nat -> (length d < fuel')%nat ->
  snd (integral_y half ip const m fuel s a (Fin x)) = snd (integral_y half ip const m fuel' s' a' (Fin x)).
Proof. exact integral_same. Qed.
Print Assumptions C40_integral.
Theorem C40_ema : forall deg init wt first m fuel fuel' s s' a a' d x, (0 < m)%Qc -> weight_of deg wt -> first_of init first ->
  ema_of deg init m s a -> ema_of deg init m s' a' -> evenly m s d -> evenly m s' d ->
  (length d < fuel)%nat -> (length d < fuel')%nat ->
  snd (ema_y deg init m fuel s a (Fin x)) = snd (ema_y deg init m fuel' s' a' (Fin x)).
Proof. exact ema_same. Qed.
Print Assumptions C40_ema.
Theorem C40_trailing : forall deg tfm win g ip n m fuel fuel' s s' a a' d x, (0 < m)%Qc -> window_of deg win -> computes tfm g ->
  trailing_of deg tfm ip n m s a -> trailing_of deg tfm ip n m s' a' -> evenly m s d -> evenly m s' d ->
  (length d < fuel)%nat -> (length d < fuel')%nat ->
  snd (trailing_y deg tfm n m fuel s a (Fin x)) = snd (trailing_y deg tfm n m fuel' s' a' (Fin x)).
Proof. exact trailing_same. Qed.
Print Assumptions C40_trailing.
Theorem C40_sma : forall half m deg fuel fuel' s a a' d x, (half + half = 1)%Qc -> (min_step <= m)%Qc -> degree_ok m deg ->
  averaged half m deg s a -> averaged half m deg s a' -> evenly m s d -> (length d < fuel)%nat -> (length d < fuel')%nat ->
  snd (sma_value half m deg fuel s a (Fin x)) = snd (sma_value half m deg fuel' s a' (Fin x)).
Proof. exact sma_same. Qed.
Print Assumptions C40_sma.
(** the notifications of a source operation are passed on, extended to
    everything later, and never raise *)
Theorem C40_notifies : forall half ip const m, (half + half = 1)%Qc -> (min_step <= m)%Qc ->
  forall s a o s' evs, integral_of half ip const m s a -> op_ok o -> run_op s o = (s', evs, Ok tt) ->
  (p_uniform s' = true -> equally_spaced (p_pts s')) ->
  exists a', acc_events a evs =
      (a', map (fun e => match e with EvBegin D => EvBegin (update_interval D) | EvEnd D => EvEnd (update_interval D) end) evs, Ok tt) /\
    integral_of half ip const m s' a'.
Proof. exact integral_events. Qed.
Print Assumptions C40_notifies.
Theorem C40_next : forall half ip const m, (half + half = 1)%Qc -> (min_step <= m)%Qc ->
  forall s a d x ms lim, integral_of half ip const m s a -> evenly m s d -> notnan x -> (ms <= m)%Qc ->
  acc_next (p_crv s) (Some (Fin m)) a x (Some (Fin ms)) lim = p_x_next s x (Some (Fin m)) lim.
Proof. exact integral_next. Qed.
Print Assumptions C40_next.
Theorem C40_previous_scanned : forall half ip const m, (half + half = 1)%Qc -> (min_step <= m)%Qc ->
  forall s a d x ms lim, integral_of half ip const m s a -> evenly m s d -> notnan x -> (ms <= m)%Qc ->
  (forall cur, a_cur a = Some cur -> le_x x cur) ->
  acc_prev (p_crv s) (Some (Fin m)) a x (Some (Fin ms)) lim = p_x_previous s x (Some (Fin m)) lim.
Proof. exact integral_prev. Qed.
Print Assumptions C40_previous_scanned.
(** beyond the scanned part x_previous depends on what was asked *)
Theorem C40_previous_refuted : exists s a a', integral_of hf ILinear 0 min_step s a /\ integral_of hf ILinear 0 min_step s a' /\
  evenly min_step s ex_d /\
  acc_prev (p_crv s) (Some (Fin min_step)) a (fz 3) (Some MIN_STEP) None = Ok (Some (fz 1)) /\
  acc_prev (p_crv s) (Some (Fin min_step)) a' (fz 3) (Some MIN_STEP) None = Ok (Some (fz 2)).
Proof. exact prev_differs. Qed.
Print Assumptions C40_previous_refuted.
(** the integral of a Line: the value at 1 after asking nothing, 0, 0 and 2;
    and an exception *)
Theorem C40_line_refuted : line_init (Some (fz 2)) (Some (fz 1)) None None None = Ok ln /\
  snd (line_int (asks fresh []) (fz 1)) = Ok (Some (fz 0)) /\
  snd (line_int (asks fresh [fz 0]) (fz 1)) = Ok (Some (fr 5 2)) /\
  snd (line_int (asks fresh [fz 0; fz 2]) (fz 1)) = Ok (Some (fz 3)) /\
  snd (line_int (asks fresh [fz 0; fz 1]) (fz 3)) = Err EExc.
Proof. exact line_differs. Qed.
Print Assumptions C40_line_refuted.
Example C40_ex : integral_of hf ILinear 0 min_step ex_u (asked (fz 1)) /\ integral_of hf ILinear 0 min_step ex_u (acc_init ILinear true) /\
  evenly min_step ex_u ex_d /\ a_cur (asked (fz 1)) = Some (fz 1) /\ le_x (fr 1 2) (fz 1) /\ op_ok (OAppend (QcofZ 4) (nv 0)).
Proof.
  split; [apply asked_of|]. split; [apply wa_new; exact ex_u_honest|]. split; [exact ex_u_even|].
  split; [exact asked_cur|]. split; [reflexivity|exact Logic.I].
Qed.
