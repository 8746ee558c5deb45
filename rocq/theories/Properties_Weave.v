(** C72: networks of accumulating curves, maps and aggregates that read one
    another and share curves (scan.py:6-114, accumulator.py, integral.py, ema.py,
    accumulator_map.py, map.py:6-48 and aggregate.py:7-62 with either value of union), over
    one Points object, e.g. MACD: [m = p.ema(a) - p.ema(b); h = m - m.ema(c)].

    [weave ns s g]: a Points object [s], curve 0, and curves [ns] that read
    curves of smaller numbers, in the states [g], after any history: curves made
    at any time over existing ones; y, domain, x_next and x_previous asked of any
    of them anywhere; the points changed, with the notifications going through
    the network.  [spun ns s d out]: [s] holds the points [d], equally spaced by
    at least every minimum step; the transforms do not raise; no point is at
    x = 0 where a curve that asks for x_previous has two accumulating curves over
    one another below; and [out j] are the points of curve [j], which
    [node_figures] determines: the source's [d]; the transform of the value read;
    of the values read; the accumulated values of C68. *)
From Coq Require Import List ZArith QArith Qcanon Bool Lia.
From Verif Require Import Base Num NumFacts Interval IntervalFacts Curve BaseFacts Points PointsSpec PointsOps PointsDec PointsHist PointsRefute PointsTop PointsEx.
From Verif Require Import BaseEx Graph Combine CombineEx Scan ScanFacts ScanSource ScanInv ScanTf SmaFacts SmaInv ScanTop ScanEx Tower TowerFacts TowerTop TowerHist TowerMean TowerEx.
From Verif Require Import Weave WeaveList WeaveFacts WeaveReady WeaveTell WeaveHist WeaveEx WeaveAgree.
Import ListNotations.

(** every curve answers at each point of the source with its own point there *)
Theorem C72_points : forall ns s g, weave ns s g -> forall d out, spun ns s d out -> forall fuel, (length d < fuel)%nat ->
  forall j k, (j < length ns)%nat -> (k < length d)%nat ->
  snd (sc_y (w_curve fuel (p_crv s) ns j) (Fin (at_x d k)) g) = Ok (Some (Fin (at_y (out j) k))).
Proof. exact weave_point. Qed.
Print Assumptions C72_points.
(** and everywhere with the one value that [worth] allows: the source's value,
    the transform of the values of the curves read, linear between the points of
    an accumulating curve *)
Theorem C72_values : forall ns s g, weave ns s g -> forall d out, spun ns s d out -> forall fuel, (length d < fuel)%nat ->
  forall j q, (j < length ns)%nat ->
  exists v, snd (sc_y (w_curve fuel (p_crv s) ns j) (Fin q) g) = Ok v /\ forall w, worth ns (p_interp s) d out j q w <-> w = v.
Proof. exact weave_value. Qed.
Print Assumptions C72_values.
(** history independence *)
Theorem C72_same : forall fuel fuel' ns s g s' g' d out j q, weave ns s g -> weave ns s' g' -> spun ns s d out -> spun ns s' d out -> p_interp s = p_interp s' ->
  (length d < fuel)%nat -> (length d < fuel')%nat -> (j < length ns)%nat ->
  snd (sc_y (w_curve fuel (p_crv s) ns j) (Fin q) g) = snd (sc_y (w_curve fuel' (p_crv s') ns j) (Fin q) g').
Proof. exact weave_same. Qed.
Print Assumptions C72_same.
(** the domain of every curve is the source's *)
Theorem C72_domain : forall ns s g, weave ns s g -> forall d out, spun ns s d out -> forall fuel, (length d < fuel)%nat ->
  forall j, (j < length ns)%nat -> snd (sc_dom (w_curve fuel (p_crv s) ns j) g) = Ok (pts_domain (dots d)).
Proof. exact weave_domain. Qed.
Print Assumptions C72_domain.
(** x_next: the first point of the source at least [M] later, for [M] of at least
    the minimum steps of the curves below, and MIN_STEP below an aggregate *)
Theorem C72_next : forall ns s g, weave ns s g -> forall d out, spun ns s d out -> forall fuel, (length d < fuel)%nat ->
  forall j q M lim, (j < length ns)%nat -> (w_floor ns j <= M)%Qc ->
  exists y, sc_next (w_curve fuel (p_crv s) ns j) (Fin q) (Some (Fin M)) lim g = (g, Ok y) /\ least_from (dots d) (Fin (q + M)%Qc) y.
Proof. exact weave_next. Qed.
Print Assumptions C72_next.
(** x_next at a point: the next point of the source, whatever the minimum steps are up to the spacing *)
Theorem C72_next_point : forall ns s g, weave ns s g -> forall d out, spun ns s d out -> forall fuel, (length d < fuel)%nat ->
  forall j k M lim, (j < length ns)%nat -> (k < length d)%nat -> (0 < M)%Qc -> coarse M (dots d) ->
  sc_next (w_curve fuel (p_crv s) ns j) (Fin (at_x d k)) (Some (Fin M)) lim g = (g, Ok (if (S k <? length d)%nat then Some (Fin (at_x d (S k))) else None)).
Proof. exact weave_next_point. Qed.
Print Assumptions C72_next_point.
(** x_previous at a point of a curve that was asked for y there: the point before,
    where no point is at x = 0 or no two accumulating curves are over one another *)
Theorem C72_previous : forall ns s g, weave ns s g -> forall d out, spun ns s d out -> forall fuel, (length d < fuel)%nat ->
  forall j k M g' r, (j < length ns)%nat -> (S k < length d)%nat -> (0 < M)%Qc -> coarse M (dots d) -> nonzero (dots d) \/ (w_deep ns j <= 1)%nat ->
  sc_y (w_curve fuel (p_crv s) ns j) (Fin (at_x d (S k))) g = (g', r) ->
  sc_prev (w_curve fuel (p_crv s) ns j) (Fin (at_x d (S k))) (Some (Fin M)) None g' = (g', Ok (Some (Fin (at_x d k)))).
Proof. exact weave_prev. Qed.
Print Assumptions C72_previous.
(** and at the first point there is none *)
Theorem C72_previous_first : forall ns s g, weave ns s g -> forall d out, spun ns s d out -> forall fuel, (length d < fuel)%nat ->
  forall j M, (j < length ns)%nat -> (0 < length d)%nat -> (0 < M)%Qc ->
  sc_prev (w_curve fuel (p_crv s) ns j) (Fin (at_x d 0)) (Some (Fin M)) None g = (g, Ok None).
Proof. exact weave_first. Qed.
Print Assumptions C72_previous_first.
(** an operation on the points: no callback raises; every curve is told of the
    beginning from where the points change, and of an end that covers all it was
    told to begin; none is left updating or with a cached domain; and the points
    before the change are the same in every curve *)
Theorem C72_notifies : forall fuel ns s g o s' evs, weave ns s g -> op_ok o -> run_op s o = (s', evs, Ok tt) ->
  (p_uniform s' = true -> equally_spaced (p_pts s')) -> (length ns <= fuel)%nat ->
  exists g' LB LE, w_tell ns fuel g evs = Ok (g', LB ++ LE) /\ weave ns s' g' /\
  (evs = [] /\ g' = g /\ LB = [] /\ LE = [] /\ p_pts s' = p_pts s \/
   exists D, evs = [EvBegin D; EvEnd D] /\ keeps D (p_pts s) (p_pts s') /\
    (forall en, In en LB -> l_end en = false /\ i_start (l_arg en) = i_start D /\ i_so (l_arg en) = i_so D) /\
    (forall en, In en LE -> l_end en = true) /\
    forall j, (0 < j < length ns)%nat ->
      is_updating (a_upd (acc_at g' j)) = false /\ u_dom (a_upd (acc_at g' j)) = None /\
      (exists en b, In en LB /\ l_node en = j /\ l_not en = Some b) /\
      (forall en, In en LB -> l_node en = j -> exists en' x, In en' LE /\ l_node en' = j /\ l_not en' = Some x /\ i_superset x (l_arg en) = true) /\
      keeps D (w_list ns (p_pts s) j) (w_list ns (p_pts s') j)).
Proof. exact weave_notifies. Qed.
Print Assumptions C72_notifies.
(** [w_list ns l j]: the points of curve [j] over the points [l], i.e. [out j] over [d] *)
Theorem C72_notified_points : forall ns d out, sensible ns d out -> forall j n, nth_error ns j = Some n -> w_list ns (dots d) j = dots (out j).
Proof. exact figures_list. Qed.
Print Assumptions C72_notified_points.
(** MACD: its line and its histogram, in terms of exponential averages ([layer_out (LEma a) d], C68_ema) *)
Theorem C72_macd : forall own a b c ns s g d fuel k, weave ns s g ->
  ns = [WBase; WScan (LEma a) own 0; WScan (LEma b) own 0; WAgg false None sub_f [1; 2]; WScan (LEma c) own 3; WAgg false None sub_f [3; 4]]%nat ->
  p_pts s = dots d -> equally_spaced (dots d) -> coarse min_step (dots d) ->
  sound_layer (LEma a) -> sound_layer (LEma b) -> sound_layer (LEma c) -> step_ok own d -> (length d < fuel)%nat -> (k < length d)%nat ->
  let line := table d (fun k => at_y (layer_out (LEma a) d) k - at_y (layer_out (LEma b) d) k)%Qc in
  snd (sc_y (w_curve fuel (p_crv s) ns 3) (Fin (at_x d k)) g) = Ok (Some (Fin (at_y line k))) /\
  snd (sc_y (w_curve fuel (p_crv s) ns 5) (Fin (at_x d k)) g) = Ok (Some (Fin (at_y line k - at_y (layer_out (LEma c) line) k)%Qc)).
Proof. exact macd_shows. Qed.
Print Assumptions C72_macd.
(** what a new curve adds *)
Theorem C72_grow : forall ns d out n r, sensible ns d out -> wreads n <> [] -> (forall p, In p (wreads n) -> (p < length ns)%nat) ->
  node_params ns d n -> node_figures d (with_out out (length ns) r) (length ns) n -> sensible (ns ++ [n]) d (with_out out (length ns) r).
Proof. exact sensible_snoc. Qed.
Print Assumptions C72_grow.
(** sources with domains of their own: an Aggregate or a Map with its kept
    domain answers everything like one that computes it each time (C25-C27, C30).
    [mirrors I s c]: in the states [I], which questions do not leave, [s] answers
    like [c].  [caches I j d]: in these curve [j] keeps no domain or [d]. *)
Theorem C72_aggregate : forall (T : Type) (N : Num T) (I : gst T -> Prop) (j : nat) (union : bool) (default : option T) (tfm : T -> list (option T) -> res (option T))
    (srcs : list (scrv T (gst T))) (cs : list (crv T (option T))),
  Forall2 (mirrors I) srcs cs -> caches I j (agg_dom union cs) -> mirrors I (fst (w_agg j union default tfm srcs)) (aggregate union default tfm cs).
Proof. exact @agg_mirrors. Qed.
Print Assumptions C72_aggregate.
Example C72_aggregate_ex : Forall2 (mirrors (cached (mkI (fz 1) (fz 2) false false))) [fst (w_base left_c); fst (w_base right_c)] [left_c; right_c] /\
  agg_dom false [left_c; right_c] = mkI (fz 1) (fz 2) false false /\ agg_dom true [left_c; right_c] = mkI (fz 0) (fz 3) false false /\
  caches (cached (mkI (fz 1) (fz 2) false false)) 0 (mkI (fz 1) (fz 2) false false) /\ cached (mkI (fz 1) (fz 2) false false) [blank] /\
  snd (sc_y (fst (w_agg 0 false None add_f [fst (w_base left_c); fst (w_base right_c)])) (fz 2) [blank]) = Ok (Some (fz 23)).
Proof.
  split; [apply two_mirrors|]. split; [reflexivity|]. split; [reflexivity|]. split; [apply cached_caches|]. split; [eexists; split; [reflexivity|left; reflexivity]|]. vm_compute. reflexivity.
Qed.
Theorem C72_map : forall (T : Type) (N : Num T) (I : gst T -> Prop) (j : nat) (skip : bool) (param : T) (tfm : T -> option T -> res (option T))
    (s : scrv T (gst T)) (c : crv T (option T)),
  mirrors I s c -> caches I j (c_dom c) -> (forall g, I g -> acc_at (fst (sc_dom s g)) j = acc_at g j) ->
  mirrors I (fst (w_map j skip (Some (map_min_step param (c_ms c))) tfm s)) (map_curve skip param tfm c).
Proof. exact @map_mirrors. Qed.
Print Assumptions C72_map.
Example C72_map_ex : mirrors (cached (c_dom left_c)) (fst (w_base left_c)) left_c /\ caches (cached (c_dom left_c)) 0 (c_dom left_c) /\
  (forall g, acc_at (fst (sc_dom (fst (w_base left_c)) g)) 0 = acc_at g 0) /\
  snd (sc_y (fst (w_map 0 false (Some (map_min_step MIN_STEP (c_ms left_c))) additive_inverse_f (fst (w_base left_c)))) (fz 2) [blank]) = Ok (Some (fz (-3))).
Proof. split; [apply base_mirrors|]. split; [apply cached_caches|]. split; [reflexivity|]. vm_compute. reflexivity. Qed.
(** with shared curves beginnings and ends do not pair up: one update of the
    points is told to a curve as one beginning and four ends *)
Theorem C72_pairs_refuted : exists ns s g o s' evs g' log j, weave ns s g /\ op_ok o /\ run_op s o = (s', evs, Ok tt) /\ w_tell ns 9 g evs = Ok (g', log) /\
  heard j false log = 1%nat /\ heard j true log = 4%nat.
Proof. exact uneven. Qed.
Print Assumptions C72_pairs_refuted.
(** MACD and twice its histogram, asked at different times around an append *)
Example C72_ex : weave mns ms1 mg /\ spun mns ms1 cd (mout cd) /\ length mns = 8%nat /\ (w_floor mns 6 = min_step)%Qc /\
  yv 3 (fz 4) = Ok (Some (fr (-39) 16)) /\ yv 4 (fz 4) = Ok (Some (fr (-29) 32)) /\ yv 6 (fz 3) = Ok (Some (fr 1 4)) /\
  yv 6 (fz 4) = Ok (Some (fr (-49) 16)) /\ yv 6 (fr 7 2) = Ok (Some (fr (-45) 32)) /\ yv 6 (fz 5) = Ok None /\
  yv 7 (fr 7 2) = Ok (Some (fr (-45) 32)) /\ pv 7 (fz 4) = Ok (Some (fz 3)) /\
  at_y (mout cd 6) 3 = (QcofZ (-49) / QcofZ 16)%Qc.
Proof.
  destruct mg_values as (A & B & C & D & E & F & G).
  split; [exact mg_weave|]. split; [apply ms1_spun; [reflexivity|apply mns_sensible; vm_compute; reflexivity]|]. split; [reflexivity|]. split; [vm_compute; reflexivity|].
  split; [exact A|]. split; [exact B|]. split; [exact C|]. split; [exact D|]. split; [exact E|]. split; [exact F|]. split; [exact G|]. split; [val|]. apply Qc_is_canon. vm_compute. reflexivity.
Qed.
