(** C68: accumulating curves over accumulating curves (scan.py:6-114 and
    accumulator.py with integral.py, ema.py, accumulator_map.py), e.g. [pts.integral().ema(5).trailing_max(3)].

    [chained ks s t]: a Points object [s] with a chain [ks] of such curves over
    it (outermost first) in the states [t], after any history: each curve made
    over the one below at any time; y, domain, x_next and x_previous asked of
    any of them; the points changed, with the notifications passed upwards.
    [spread ks s d]: [s] holds the points [d], equally spaced by at least every
    minimum step, the parameters are sensible, and no point is at x = 0 where a
    layer that asks for x_previous has two accumulating curves below.
    [chain_out ks d]: each layer's list from the one below, by the equations of
    C68_integral, C68_ema and C68_map.  [traces], as in C36: the values at the
    points, linear between them, None outside. *)
From Coq Require Import List ZArith QArith Qcanon Bool Lia.
From Verif Require Import Base Num NumFacts Interval IntervalFacts Curve BaseFacts Points PointsSpec PointsOps PointsDec PointsHist PointsRefute PointsTop PointsEx.
From Verif Require Import BaseEx Combine CombineEx Scan ScanFacts ScanSource ScanInv ScanTf SmaFacts SmaInv ScanTop ScanEx Tower TowerFacts TowerTop TowerHist TowerMean TowerAgree TowerEx.
Import ListNotations.

(** the values of the outermost curve, whatever was asked before *)
Theorem C68_values : forall fuel ks s t d, ks <> [] -> chained ks s t -> spread ks s d -> (length d < fuel)%nat ->
  traces ILinear (chain_out ks d) (fun x => snd (sc_y (tower fuel (p_crv s) ks) x t)).
Proof. exact chained_traces. Qed.
Print Assumptions C68_values.
(** the layers: areas summed from the first point, plus the constant *)
Theorem C68_integral : forall half ip c own ks d k, (k < length (chain_out ks d))%nat ->
  at_x (chain_out ((LInt half ip (Fin c), own) :: ks) d) k = at_x (chain_out ks d) k /\
  at_y (chain_out ((LInt half ip (Fin c), own) :: ks) d) k = (area_sum ip (chain_out ks d) 0 k + c)%Qc.
Proof. exact (fun half ip c _ ks d k => layer_int half ip c (chain_out ks d) k). Qed.
Print Assumptions C68_integral.
(** exponential smoothing from the first value *)
Theorem C68_ema : forall deg own ks d, let b := chain_out ks d in let r := chain_out ((LEma deg, own) :: ks) d in
  (forall k, (k < length b)%nat -> at_x r k = at_x b k) /\
  ((0 < length b)%nat -> at_y r 0 = at_y b 0) /\
  (forall k, (S k < length b)%nat -> at_y r (S k) = (at_y r k +
    match deg with EmaAlpha (Fin q) => q | EmaPeriod (Fin q) => (at_x b (S k) - at_x b k) / q | _ => 0 end * (at_y b (S k) - at_y r k))%Qc).
Proof. exact (fun deg _ ks d => layer_ema deg (chain_out ks d)). Qed.
Print Assumptions C68_ema.
(** the transform of the last [n] values, newest first *)
Theorem C68_map : forall n tfm own ks d k, sound_layer (LMap n tfm) -> (k < length (chain_out ks d))%nat ->
  at_x (chain_out ((LMap n tfm, own) :: ks) d) k = at_x (chain_out ks d) k /\
  tfm (Fin (at_x (chain_out ks d) k)) (map (fun v => Some (Fin v)) (firstn (Z.to_nat n) (rev (map snd (firstn (S k) (chain_out ks d)))))) =
    Ok (Some (Fin (at_y (chain_out ((LMap n tfm, own) :: ks) d) k))).
Proof. exact (fun n tfm _ ks d k => layer_map n tfm (chain_out ks d) k). Qed.
Print Assumptions C68_map.
(** a curve for each point of the source, over the same domain *)
Theorem C68_length : forall k own ks d, length (chain_out ((k, own) :: ks) d) = length (chain_out ks d).
Proof. exact (fun k _ ks d => layer_len k (chain_out ks d)). Qed.
Print Assumptions C68_length.
Theorem C68_domain : forall fuel ks s t d, chained ks s t -> spread ks s d -> (length d < fuel)%nat ->
  snd (sc_dom (tower fuel (p_crv s) ks) t) = Ok (pts_domain (dots d)).
Proof. exact chained_domain. Qed.
Print Assumptions C68_domain.
(** x_next: the first point at least [M] later, for [M] of at least the chain's minimum steps *)
Theorem C68_next : forall fuel ks s t d q M lim, chained ks s t -> spread ks s d -> (length d < fuel)%nat -> (floor ks <= M)%Qc ->
  exists y, sc_next (tower fuel (p_crv s) ks) (Fin q) (Some (Fin M)) lim t = (t, Ok y) /\ least_from (dots d) (Fin (q + M)%Qc) y.
Proof. exact chained_next. Qed.
Print Assumptions C68_next.
(** history independence *)
Theorem C68_same : forall fuel fuel' ks s t s' t' d q, ks <> [] -> chained ks s t -> chained ks s' t' -> spread ks s d -> spread ks s' d ->
  (length d < fuel)%nat -> (length d < fuel')%nat ->
  snd (sc_y (tower fuel (p_crv s) ks) (Fin q) t) = snd (sc_y (tower fuel' (p_crv s') ks) (Fin q) t').
Proof. exact chained_same. Qed.
Print Assumptions C68_same.
(** EMAs with a weight from 0 to 1 and maps that pick one of the values keep to the range of the points *)
Theorem C68_range : forall fuel ks s t d lo hi q y, ks <> [] -> chained ks s t -> spread ks s d -> (length d < fuel)%nat ->
  Forall (fun k => mild (fst k)) ks -> within lo hi d ->
  snd (sc_y (tower fuel (p_crv s) ks) (Fin q) t) = Ok (Some (Fin y)) -> (lo <= y <= hi)%Qc.
Proof. exact chained_within. Qed.
Print Assumptions C68_range.
(** the notifications of the outermost curve: none, or one update beginning and
    ending with an interval; the values of points before that interval stay *)
Theorem C68_notifies : forall ks s t o s' evs, chained ks s t -> op_ok o -> run_op s o = (s', evs, Ok tt) ->
  (p_uniform s' = true -> equally_spaced (p_pts s')) ->
  exists t' out, tower_events ks t evs = (t', out, Ok tt) /\ chained ks s' t' /\ announces out (imgs ks (p_pts s)) (imgs ks (p_pts s')).
Proof. exact chained_notifies. Qed.
Print Assumptions C68_notifies.
Theorem C68_notified_values : forall ks d, chain_ok ks d -> imgs ks (dots d) = dots (chain_out ks d).
Proof. exact imgs_dots. Qed.
Print Assumptions C68_notified_values.
(** one layer over a Points object is the curve of C36 to C38, over any numbers *)
Theorem C68_one_layer : forall (T : Type) (N : Num T) (c : crv T (option T)) (own : option T) fuel k a, (forall n tfm, k = LMap n tfm -> (1 <= n)%Z) ->
  (forall x, sc_y (over fuel (still c) (c_ms c) own k) x (tt, a) = with_unit (acc_y fuel c own (still_tf c own k) (layer_post k) a x)) /\
  sc_dom (over fuel (still c) (c_ms c) own k) (tt, a) = with_unit (let '(a', d) := acc_dom (c_dom c) a in (a', Ok d)) /\
  (forall x ms lim, sc_next (over fuel (still c) (c_ms c) own k) x ms lim (tt, a) = with_unit (a, acc_next c own a x ms lim)) /\
  (forall x ms lim, sc_prev (over fuel (still c) (c_ms c) own k) x ms lim (tt, a) = with_unit (a, acc_prev c own a x ms lim)).
Proof. exact (fun T N => @over_still T N). Qed.
Print Assumptions C68_one_layer.
(** a point at x = 0 under three layers: `x or self.curve.x_previous(...)`
    (accumulator.py:30) takes it for none, and the value depends on what was asked before *)
Theorem C68_zero_refuted : exists k own ks s t d q, chained ((k, own) :: ks) s t /\ spread ks s d /\ sound_layer k /\
  own = Some (Fin min_step) /\ (length d < 9)%nat /\
  snd (sc_y (tower 9 (p_crv s) ((k, own) :: ks)) (Fin q) t) = Ok (Some (fr 13 2)) /\
  snd (sc_y (tower 9 (p_crv s) ((k, own) :: ks)) (Fin q) (tower_init ((k, own) :: ks))) = Ok (Some (fr 15 4)) /\
  ~ traces ILinear (chain_out ((k, own) :: ks) d) (fun x => snd (sc_y (tower 9 (p_crv s) ((k, own) :: ks)) x t)).
Proof. exact zero_wrong. Qed.
Print Assumptions C68_zero_refuted.
(** an EMA [em] over an SMA [sm]: after a change of the points, asking the SMA
    first makes the EMA raise where it answered otherwise *)
Theorem C68_sma_refuted : exists s0 o s evs x1 x2 x3, honest_history s0 /\ run_op s0 o = (s, evs, Ok tt) /\
  exists u, u = told (sm_asked s0 x2 (em_asked s0 x1 u0)) evs /\
  (exists y, snd (sc_y (em s) x3 u) = Ok (Some y)) /\ (exists y, snd (sc_y (sm s) x3 (fst u)) = Ok (Some y)) /\
  snd (sc_y (em s) x3 (sm_asked s x3 u)) = Err EExc.
Proof. exact sma_wrong. Qed.
Print Assumptions C68_sma_refuted.
(** the largest of two values of a period EMA of an integral, made and asked at
    different times around an append; and the largest of two of an EMA *)
Example C68_ex : chained h3 cs ct /\ spread h3 cs cd /\ length h3 = 3%nat /\ floor h3 = min_step /\
  snd (sc_y (tower 9 (p_crv cs) h3) (fz 1) ct) = Ok (nv 5) /\ snd (sc_y (tower 9 (p_crv cs) h3) (fz 2) ct) = Ok (Some (fr 13 2)) /\
  snd (sc_y (tower 9 (p_crv cs) h3) (fz 3) ct) = Ok (Some (fr 37 4)) /\ snd (sc_y (tower 9 (p_crv cs) h3) (fz 4) ct) = Ok (Some (fr 37 4)) /\
  snd (sc_y (tower 9 (p_crv cs) h3) (fz 5) ct) = Ok None /\
  chained m2 cs (tower_init m2) /\ spread m2 cs cd /\ Forall (fun k => mild (fst k)) m2 /\ within (QcofZ (-9)) (QcofZ 5) cd.
Proof.
  destruct ct_values as (A & B & C & D & E).
  split; [exact ct_chained|]. split; [exact cs_spread|]. split; [reflexivity|]. split; [vm_compute; reflexivity|].
  split; [exact A|]. split; [exact B|]. split; [exact C|]. split; [exact D|]. split; [exact E|].
  split; [exact m2_chained|]. split; [exact m2_spread|]. split; [exact m2_mild|exact cd_within].
Qed.
