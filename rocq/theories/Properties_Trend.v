(** C43, C44 and C49-C53: trend lines. *)
From Coq Require Import List ZArith QArith Qcanon Bool Lia Sorting.Sorted Permutation.
From Verif Require Import Base Num NumFacts Interval Points PointsDec Trend TrendGeo TrendNeg TrendPred TrendPredFacts TrendLineInv TrendCol TrendTop TrendPrune TrendSet TrendApart TrendPoi TrendFork TrendEx.
Import ListNotations.
Open Scope Qc_scope.

(** ** C43 geometry *)
(** _insort_point_left: sorted in, sorted out; a repeated x is left out with
    no_repeat, and otherwise the point goes before the first one not less. *)
Theorem C43_insort : forall nr l p, StronglySorted by_x l ->
  exists l', insort (map fp l) (fp p) 0 None nr = Ok (map fp l') /\ StronglySorted by_x l' /\
    (if nr && existsb (fun q : qpt => Qceqb (fst q) (fst p)) l then l' = l
     else exists a b, l = a ++ b /\ l' = a ++ p :: b /\
       Forall (fun q => fst q < fst p) a /\ Forall (fun q => fst p <= fst q) b).
Proof. exact insort_spec. Qed.
Print Assumptions C43_insort.
Example C43_insort_ex :
  insort (zp [(0,5);(2,6);(2,7);(4,8)]%Z) (fz 2, fz 1) 0 None true = Ok (zp [(0,5);(2,6);(2,7);(4,8)]%Z) /\
  insort (zp [(0,5);(2,6);(2,7);(4,8)]%Z) (fz 2, fz 1) 0 None false = Ok (zp [(0,5);(2,1);(2,6);(2,7);(4,8)]%Z) /\
  insort (zp [(0,5);(2,6)]%Z) (fz 9, fz 1) 0 None true = Ok (zp [(0,5);(2,6);(9,1)]%Z).
Proof. chk. Qed.

(** _line_y: the point of the line above x, None exactly when there is none. *)
Theorem C43_line_y : forall l x, proper l ->
  exists o, seg_y (fs l) (Fin x) = Ok o /\
    match o with
    | Some v => exists y, v = Fin y /\ on_seg l (x, y) /\ (fst (fst l) <> fst (snd l) -> forall y', on_seg l (x, y') -> y' = y)
    | None => forall y, ~ on_seg l (x, y)
    end.
Proof. exact line_y_on. Qed.
Print Assumptions C43_line_y.
Example C43_line_y_ex : seg_y ((fz 1, fz 1), (fz 3, fz 5)) (fz 10) = Ok (Some (fz 19)) /\
  seg_y ((fz 1, fz 1), (fz 1, fz 5)) (fz 10) = Ok None /\ seg_y ((fz 1, fz 1), (fz 1, fz 5)) (fz 1) = Ok (Some (fz 1)).
Proof. chk. Qed.
Theorem C43_line_x : forall l y, proper l ->
  exists o, seg_x (fs l) (Fin y) = Ok o /\
    match o with
    | Some v => exists x, v = Fin x /\ on_seg l (x, y) /\ (snd (fst l) <> snd (snd l) -> forall x', on_seg l (x', y) -> x' = x)
    | None => forall x, ~ on_seg l (x, y)
    end.
Proof. exact line_x_on. Qed.
Print Assumptions C43_line_x.
Example C43_line_x_ex : seg_x ((fz 1, fz 1), (fz 3, fz 5)) (fz 19) = Ok (Some (fz 10)) /\
  seg_x ((fz 1, fz 1), (fz 4, fz 1)) (fz 10) = Ok None /\ seg_x ((fz 1, fz 1), (fz 1, fz 5)) (fz 7) = Ok (Some (fz 1)).
Proof. chk. Qed.
(** _line_intersection: the only common point; None exactly for parallels. *)
Theorem C43_intersection : forall l m,
  (exists o, seg_meet (fs l) (fs m) = Ok o /\
    match o with
    | Some p => exists q, p = fp q /\ on_seg l q /\ on_seg m q /\ forall q', on_seg l q' -> on_seg m q' -> q' = q
    | None => parallel l m
    end) /\ (seg_meet (fs l) (fs m) = Ok None <-> parallel l m).
Proof. exact (fun l m => conj (meet_spec l m) (meet_none l m)). Qed.
Print Assumptions C43_intersection.
Example C43_intersection_ex : seg_meet ((fz 0, fz 0), (fz 4, fz 4)) ((fz 0, fz 4), (fz 1, fz 3)) = Ok (Some (fz 2, fz 2)) /\
  seg_meet ((fz 0, fz 0), (fz 4, fz 4)) ((fz 0, fz 4), (fz 1, fz 5)) = Ok None.
Proof. chk. Qed.
Theorem C43_average : forall p q, exists m, average2 (fp p) (fp q) = Ok (fp m) /\
  fst m + fst m = fst p + fst q /\ snd m + snd m = snd p + snd q.
Proof. exact average_spec. Qed.
Print Assumptions C43_average.
Example C43_average_ex : average2 (fz 1, fz 4) (fz 2, fz (-4)) = Ok (fr 3 2, fz 0).
Proof. chk. Qed.

(** The tolerance band contains the value where it is not negative, or where
    only the absolute tolerance is in force ... *)
Theorem C43_tolerance : forall eps wd up mp di ln r a y, nonneg_o r -> nonneg_o a -> (0 <= y \/ r = None) ->
  exists lo hi, tol_min (Fin eps) (mkG wd up mp di ln (fo r) (fo a)) (Fin y) = Fin lo /\
    tol_max (Fin eps) (mkG wd up mp di ln (fo r) (fo a)) (Fin y) = Fin hi /\ lo <= y /\ y <= hi.
Proof.
  exact (fun eps wd up mp di ln r a y Hr Ha Hy =>
    ex_intro _ _ (ex_intro _ _ (conj (tol_min_fin eps wd up mp di ln r a y) (conj (tol_max_fin eps wd up mp di ln r a y) (band_around eps wd up mp di ln r a y Hr Ha Hy))))).
Qed.
Print Assumptions C43_tolerance.
Example C43_tolerance_ex : tol_min ceps (mkG (fz 1) true 2 (fz 0) (fz 10) (Some (fr 1 10)) (Some (fz 3))) (fz 20) = fz 18 /\
  tol_max ceps (mkG (fz 1) true 2 (fz 0) (fz 10) (Some (fr 1 10)) (Some (fz 3))) (fz 50) = fz 53.
Proof. chk. Qed.
(** ... and never contains a negative value when the relative one is. *)
Theorem C43_tolerance_refuted : forall eps wd up mp di ln r a y, 0 <= eps -> 0 < r -> nonneg_o a -> y < - eps ->
  exists lo hi, tol_min (Fin eps) (mkG wd up mp di ln (fo (Some r)) (fo a)) (Fin y) = Fin lo /\
    tol_max (Fin eps) (mkG wd up mp di ln (fo (Some r)) (fo a)) (Fin y) = Fin hi /\ y < lo /\ hi < y.
Proof.
  exact (fun eps wd up mp di ln r a y He Hr Ha Hy =>
    ex_intro _ _ (ex_intro _ _ (conj (tol_min_fin eps wd up mp di ln (Some r) a y) (conj (tol_max_fin eps wd up mp di ln (Some r) a y) (band_inverted eps r a y He Hr Ha Hy))))).
Qed.
Print Assumptions C43_tolerance_refuted.
Example C43_tolerance_refuted_ex : tol_min ceps (mkG (fz 1) true 2 (fz 0) (fz 10) (Some (fr 1 100)) None) (fz (-100)) = fz (-99) /\
  tol_max ceps (mkG (fz 1) true 2 (fz 0) (fz 10) (Some (fr 1 100)) None) (fz (-100)) = fz (-101).
Proof. chk. Qed.

(** The function _is_value_within_tolerance, exactly. *)
Theorem C43_within : forall eps r a y y0, 0 <= eps ->
  exists b, within_tol (Fin eps) (fo r) (fo a) (Some (Fin y)) (Some (Fin y0)) = Ok b /\
            (b = true <-> abs_ok a y y0 /\ rel_ok eps r y y0).
Proof. exact within_spec. Qed.
Print Assumptions C43_within.
Example C43_within_ex : within_tol ceps (Some (fr 1 100)) None (Some (fz 101)) (Some (fz 100)) = Ok true /\
  within_tol ceps (Some (fr 1 100)) None (Some (fz 102)) (Some (fz 100)) = Ok false /\
  within_tol ceps (Some (fr 1 100)) None (Some (fz 0)) (Some (fz 1000)) = Ok true.
Proof. chk. Qed.
(** The method of the same name answers whether the value is outside. *)
Theorem C43_method_refuted : forall eps wd up mp di ln r a y ref,
  method_within (Fin eps) (mkG wd up mp di ln (fo r) (fo a)) (Some (Fin y)) (Some (Fin ref)) = true <->
  y < tmin eps r a ref \/ tmax eps r a ref < y.
Proof. exact method_inverted. Qed.
Print Assumptions C43_method_refuted.
Example C43_method_ex : method_within ceps (lcfg true 2) (Some (fz 5)) (Some (fz 5)) = false /\
  method_within ceps (lcfg true 2) (Some (fz 50)) (Some (fz 5)) = true.
Proof. chk. Qed.
(** A point called strictly convex is below the line when the tolerance is
    positive and, for the relative one, the values are. *)
Theorem C43_convex : forall eps r a p0 p1 p2 y0, 0 <= eps -> fst p0 <> fst p2 ->
  on_seg (p0, p2) (fst p1, y0) ->
  (match a with Some a => 0 < a | None => False end) \/
    (match r with Some r => 0 < r | None => False end /\ eps < y0 /\ eps < snd p1) ->
  strictly_convex (Fin eps) (fo r) (fo a) (fp p0) (fp p1) (fp p2) = Ok true -> snd p1 < y0.
Proof. exact convex_below. Qed.
Print Assumptions C43_convex.
Example C43_convex_ex : strictly_convex ceps None (Some (fz 1)) (fz 0, fz 0) (fz 1, fz (-2)) (fz 2, fz 0) = Ok true /\
  strictly_convex ceps None (Some (fz 1)) (fz 0, fz 0) (fz 1, fz 2) (fz 2, fz 0) = Ok false.
Proof. chk. Qed.
(** Below zero the relative test says the opposite. *)
Theorem C43_convex_refuted : strictly_convex ceps (Some (fr 1 100)) None (fz 0, fz (-10)) (fz 1, fz (-5)) (fz 2, fz (-10)) = Ok true /\
  strictly_convex ceps (Some (fr 1 100)) None (fz 0, fz (-10)) (fz 1, fz (-15)) (fz 2, fz (-10)) = Ok false.
Proof. chk. Qed.
Print Assumptions C43_convex_refuted.

(** A point is on the trend exactly if it is in the search interval and between
    the two tolerance lines. *)
Theorem C43_on_trend : forall (t : tl xq) s (a1 b1 a2 b2 c1 d1 c2 d2 x y : Qc), t_line t = Some s ->
  t_lower t = Some ((Fin a1, Fin b1), (Fin a2, Fin b2)) -> t_upper t = Some ((Fin c1, Fin d1), (Fin c2, Fin d2)) -> a1 <> a2 -> c1 <> c2 ->
  exists r, on_trend t (Fin x, Fin y) = Ok r /\
    (r = true <-> i_contains (t_int t) (Fin x) = true /\ b1 + (b2 - b1) / (a2 - a1) * (x - a1) <= y /\ y <= d1 + (d2 - d1) / (c2 - c1) * (x - c1)).
Proof. exact on_band. Qed.
Print Assumptions C43_on_trend.
Example C43_on_trend_ex : on_trend band (fz 2, fz 3) = Ok true /\ on_trend band (fz 2, fz 4) = Ok false /\ on_trend band (fz 2, fz 0) = Ok false /\ on_trend band (fz 10, fz 10) = Ok false.
Proof. split; [|split; [|split]]; vm_compute; reflexivity. Qed.

(** ** C44 predictions *)
(** After any number of updates from scratch, with any points: success and
    failure exclude each other, and success has a history of points taken in
    order - at least min_points tangents, the first intersection, a last
    extremum and a tangent in time, then only extremas, of which one confirms
    and the last one fulfils. *)
Theorem C44_success : forall T (N : Num T) (eps gold gold2 : T) (g : cfg T) og us q,
  updates eps gold gold2 g og pred0 us = Ok q -> us <> [] ->
  ~ (q_ok q = true /\ q_failed q = true) /\
  (q_ok q = true -> exists ks, Forall2 (fun k u => sub k (fst u)) ks us /\ ordered_success eps gold gold2 g og q (concat ks)) /\
  (q_failed q = false -> (q_phase q <= 4)%nat /\ (q_ok q = true <-> q_phase q = 4%nat)).
Proof.
  exact (fun T N eps gold gold2 g og us q R Ne =>
    match updates_hist eps gold gold2 g og us pred0 [] q (hist_start eps gold gold2 g og) R Ne with
    | ex_intro _ ks (conj S1 H) =>
        conj (hist_excl eps gold gold2 g og q _ H)
          (conj (fun O => ex_intro _ ks (conj S1 (hist_success eps gold gold2 g og q _ H O))) (hist_phase eps gold gold2 g og q _ H))
    end).
Qed.
Print Assumptions C44_success.
Example C44_success_ex : (match updates ceps cgold cgold2 (lcfg true 2) (fz 0, fz 10) pred0
  [([(fz 2, fz 10, TTan); (fz 4, fz 10, TTan); (fz 8, fz 10, TInt); (fz 10, fz 13, TExt)], [(fz 10, fz 13)]);
   ([(fz 11, fz 10, TTan); (fz 12, fz 14, TExt); (fz 14, fz 20, TExt)], [(fz 14, fz 20)])] with
  | Ok q => q_ok q | Err _ => false end) = true.
Proof. vm_compute. reflexivity. Qed.
(** The same for a trend line fed any points and updates: the history consists
    of points underneath, apart from the intersections. *)
Theorem C44_line : forall T (N : Num T) (eps gold gold2 : T) polyfit (g : cfg T) es t,
  lrun eps gold gold2 polyfit g tl0 es = Ok t -> q_ok (t_pred t) = true ->
  exists l h, t_line t = Some l /\ ordered_success eps gold gold2 g (fst l) (t_pred t) h /\ q_failed (t_pred t) = false /\
    forall p, In p h -> snd p <> TInt -> In (fst p) (underneath es).
Proof. exact @lrun_success. Qed.
Print Assumptions C44_line.
Example C44_line_ex : has (run (lcfg true 2) walk) (fun t => phaseb t 4 true false) = true.
Proof. exact walk_ok. Qed.
(** The points a prediction is made from: exactly the extremas on the far side of
    the line (above it for an upper line), the tangents and the intersections,
    in order of position. *)
Theorem C44_points : forall (g : cfg xq) t l es ts cs, t_line t = Some (fs l) -> fst (fst l) <> fst (snd l) ->
  t_ext t = map fp es -> t_tan t = map fp ts -> t_cross t = map fp cs ->
  exists qs us, poi_points g t = Ok (map tag qs) /\ StronglySorted poi_le qs /\
    Permutation qs (map (fun p => (p, TExt)) us ++ map (fun p => (p, TTan)) ts ++ map (fun p => (p, TInt)) cs) /\
    forall p, In p us <-> In p es /\ past (g_upper g) l p.
Proof. exact poi_is. Qed.
Print Assumptions C44_points.
Example C44_points_ex :
  poi_points (lcfg true 2) (mkTL [] [] (zp [(1,5);(0,3)]%Z) (Some ((fz 0, fz 0), (fz 1, fz 1))) None None i_empty (zp [(0,0)]%Z) (zp [(2,3);(3,1);(1,2)]%Z) pred0)
  = Ok [(fz 0, fz 3, TTan); (fz 0, fz 0, TInt); (fz 1, fz 2, TExt); (fz 1, fz 5, TTan); (fz 2, fz 3, TExt)].
Proof. chk. Qed.
(** Once fulfilled or failed nothing changes any more. *)
Theorem C44_final : forall T (N : Num T) (eps gold gold2 : T) (g : cfg T) q ps under,
  q_ok q || q_failed q = true -> predict eps gold gold2 g q ps under = Ok q.
Proof. exact @predict_frozen. Qed.
Print Assumptions C44_final.
Example C44_final_ex : q_ok (set_ok (T := xq) pred0 (fz 14, fz 20)) || q_failed (set_ok (T := xq) pred0 (fz 14, fz 20)) = true.
Proof. reflexivity. Qed.
(** The phase goes up as long as no tangent arrives, and in any case it does
    not fall below 2 ... *)
Theorem C44_phase_partial : forall T (N : Num T) (eps gold gold2 : T) (g : cfg T) og q h ps under q',
  hist eps gold gold2 g og q h -> predict eps gold gold2 g q ps under = Ok q' ->
  (Nat.min 2 (q_phase q) <= q_phase q')%nat /\ ((forall p, In p ps -> snd p <> TTan) -> (q_phase q <= q_phase q')%nat).
Proof.
  exact (fun T N eps gold gold2 g og q h ps under q' H R =>
    conj (predict_low eps gold gold2 g og q h ps under q' H R) (fun Nt => predict_up eps gold gold2 g og q h ps under q' Nt H R)).
Qed.
Print Assumptions C44_phase_partial.
Example C44_phase_ex : has (run (lcfg true 2) (firstn 8 walk)) (fun t => phaseb t 1 false false) = true /\
  has (run (lcfg true 2) (firstn 9 walk)) (fun t => phaseb t 2 false false) = true.
Proof. chk. Qed.
(** ... but a tangent takes a confirmed prediction back to phase 2. *)
Theorem C44_phase_refuted : has (run (lcfg true 2) upto12) (fun t => phaseb t 3 false false) = true /\
  has (lrun ceps cgold cgold2 chord (lcfg true 2) tl0 (feed [] (zp upto12 ++ [(fr 25 2, fz 10)]))) (fun t => phaseb t 2 false false) = true.
Proof. exact back_ex. Qed.
Print Assumptions C44_phase_refuted.
(** No update raises, as long as the points are finite and none is above the
    origin of the line. *)
Theorem C44_total : forall eps gold2 gold (g : cfg xq) ox oy q h ps under, gold <> Q2Qc 0 ->
  hist eps (Fin gold) gold2 g (Fin ox, Fin oy) q h -> Forall (aside ox) h -> Forall (aside ox) ps -> under <> [] ->
  exists q', predict eps (Fin gold) gold2 g q ps under = Ok q'.
Proof. exact (fun eps gold2 gold g ox oy q h ps under Hg => predict_total eps gold2 gold g ox oy Hg q h ps under). Qed.
Print Assumptions C44_total.
Example C44_total_ex : hist ceps cgold cgold2 (lcfg true 2) (fz 0, fz 10) (set_origin pred0 (Some (fz 0, fz 10))) [] /\
  Forall (aside 0) [(fz 2, fz 10, TTan); (fz 5, fz 8, TExt)].
Proof.
  split; [ apply hist_start | ].
  repeat constructor; eexists; eexists; (split; [ reflexivity | ]); apply Qceqb_false; vm_compute; reflexivity.
Qed.
(** Points of interest at the last x processed are processed again: tangents
    are counted twice, so min_points is not enforced ... *)
Theorem C44_recount_refuted : has (run (lcfg true 2) (firstn 6 walk))
  (fun t => (q_tan (t_pred t) =? 3)%Z && (length (t_tan t) =? 2)%nat) = true.
Proof. exact recount_ex. Qed.
Print Assumptions C44_recount_refuted.
(** ... and the very intersection that started a prediction makes it fail on
    the next update. *)
Theorem C44_reprocess_refuted :
  has (run (lcfg true 2) (firstn 7 fall)) (fun t => phaseb t 1 false false && peqb (t_cross t) (zp [(8,10)]%Z)) = true /\
  has (run (lcfg true 2) fall) (fun t => phaseb t 1 false true && peqb (t_cross t) (zp [(8,10)]%Z)) = true.
Proof. exact fall_ex. Qed.
Print Assumptions C44_reprocess_refuted.

(** ** C49 collinear points *)
(** From collinear boundary points the line has all of them, the inner ones in
    reverse, and is wide enough or not ... *)
Theorem C49_collinear : forall eps wd ln up mp r a polyfit m k p0 mid z t, 0 <= eps -> nonneg_o r -> nonneg_o a ->
  let g := mkG wd up mp (Fin 0) ln (fo r) (fo a) in
  along m k (p0 :: mid ++ [z]) ->
  set_trend (Fin eps) g (map fp (p0 :: mid ++ [z])) = Ok (map fp (p0 :: rev mid ++ [z]), map fp (p0 :: mid ++ [z])) /\
  (t_pts t = map fp (p0 :: rev mid ++ [z]) -> t_line t = line_fit polyfit (t_pts t) ->
   is_valid g t = negb (n_ltb (Fin (fst z - fst p0)) wd) && (mp <=? match mid with [] => 2 | _ => 3 end)%Z).
Proof.
  exact (fun eps wd ln up mp r a polyfit m k p0 mid z t He Hr Ha A =>
    conj (set_trend_col eps wd (Fin 0) ln up mp r a He Hr Ha m k p0 mid z A)
         (fun E L => col_valid wd (Fin 0) ln up mp r a polyfit m k p0 mid z t A eq_refl E L)).
Qed.
Print Assumptions C49_collinear.
Example C49_collinear_ex : has (run (lcfg true 3) six) (fun t => is_valid (lcfg true 3) t) = true.
Proof. exact (proj2 six_ex). Qed.
(** ... so with min_points of 4 or more a line fed only points of one straight
    line, however many, never becomes valid. *)
Theorem C49_never_refuted : forall eps gold gold2 wd di ln up mp r a polyfit,
  0 <= eps -> nonneg_o r -> nonneg_o a -> forall m k, (4 <= mp)%Z -> forall dq, di = Fin dq -> 0 <= dq ->
  forall es t, Forall (fun p => exists q, p = fp q /\ col m k q) (given es) ->
  lrun (Fin eps) gold gold2 polyfit (mkG wd up mp di ln (fo r) (fo a)) tl0 es = Ok t ->
  is_valid (mkG wd up mp di ln (fo r) (fo a)) t = false.
Proof. exact never_valid. Qed.
Print Assumptions C49_never_refuted.
Example C49_never_ex : Forall (fun p => exists q, p = fp q /\ col (QcofZ 2) (QcofZ 1) q) (given (feed [] (zp six))) /\
  has (run (lcfg true 4) six) (fun t => negb (is_valid (lcfg true 4) t) && peqb (t_pts t) (zp [(0,1);(4,9);(3,7);(2,5);(1,3);(5,11)]%Z)) = true.
Proof. exact (conj six_col (proj1 six_ex)). Qed.

(** ** C50 provenance and consistency *)
Theorem C50_line : forall T (N : Num T) (eps gold gold2 : T) polyfit (g : cfg T) es t, lrun eps gold gold2 polyfit g tl0 es = Ok t ->
  incl (t_pts t) (given es) /\ incl (t_bnd t) (given es) /\
  incl (t_tan t) (underneath es) /\ incl (t_ext t) (underneath es) /\
  t_line t = line_fit polyfit (t_pts t) /\
  t_upper t = tolerance_line eps g t true /\ t_lower t = tolerance_line eps g t false.
Proof. exact @lrun_line. Qed.
Print Assumptions C50_line.
Example C50_line_ex : has (run (lcfg true 2) walk) (fun t => peqb (t_pts t) (zp [(0,10);(2,10);(4,10);(6,10);(11,10)]%Z)
  && peqb (t_ext t) (zp [(5,8);(7,8);(10,13);(14,20)]%Z) && peqb (t_tan t) (zp [(0,10);(6,10);(11,10)]%Z)) = true.
Proof. chk. Qed.
Theorem C50_trend : forall T (N : Num T) (eps gold gold2 : T) polyfit (g : cfg T) fuel es r,
  trun eps gold gold2 polyfit g fuel trend0 es = Ok r ->
  incl (r_pts r) (scanned es) /\
  (forall t, In t (concat (r_up r)) -> line_ok eps gold gold2 polyfit (line_cfg g true) (scanned es) t) /\
  (forall t, In t (concat (r_lo r)) -> line_ok eps gold gold2 polyfit (line_cfg g false) (scanned es) t).
Proof. exact @trun_lines. Qed.
Print Assumptions C50_trend.
Example C50_trend_ex : sizes (trn gg (scans zig)) = Some (3, 3)%nat.
Proof. exact (proj1 levels_ex). Qed.

(** ** C51 levels *)
Theorem C51_levels : forall T (N : Num T) (eps gold gold2 : T) polyfit (g : cfg T) fuel es r,
  (forall e, In e es -> exists x y, e = TScan x y) -> trun eps gold gold2 polyfit g fuel trend0 es = Ok r ->
  length (r_up r) = length (r_lo r).
Proof. exact @trun_levels0. Qed.
Print Assumptions C51_levels.
Example C51_levels_ex : forall e, In e (scans zig) -> exists x y, e = TScan x y.
Proof. intros e K. apply in_map_iff in K. destruct K as ([x y] & <- & _). eauto. Qed.
(** A line is begun at a point if there is none yet, or if the last one is ready
    and starts at least the least width before the point; otherwise none is. *)
Theorem C51_fork : forall T (N : Num T) (eps gold gold2 : T) polyfit (g : cfg T) lines z p under,
  (t_line z = None -> try_fork eps gold gold2 polyfit g (lines ++ [z]) p under = Ok (lines ++ [z])) /\
  (forall a l, t_pts z = a :: l -> n_ltb (n_sub (fst p) (fst a)) (g_width g) = true -> try_fork eps gold gold2 polyfit g (lines ++ [z]) p under = Ok (lines ++ [z])) /\
  (forall t b, did_append eps gold gold2 polyfit g tl0 p under = Ok (t, b) ->
     try_fork eps gold gold2 polyfit g [] p under = Ok [t] /\
     forall a l s, t_line z = Some s -> t_pts z = a :: l -> n_ltb (n_sub (fst p) (fst a)) (g_width g) = false ->
       try_fork eps gold gold2 polyfit g (lines ++ [z]) p under = Ok (lines ++ [z] ++ [t])).
Proof.
  exact (fun T N eps gold gold2 polyfit g lines z p under => conj (fork_waits eps gold gold2 polyfit g lines z p under)
    (conj (fun a l => fork_near eps gold gold2 polyfit g lines z a l p under)
      (fun t b D => conj (fork_first eps gold gold2 polyfit g p under t b D)
        (fun a l s R E W => fork_far eps gold gold2 polyfit g lines z a l p under s R E W t b D)))).
Qed.
Print Assumptions C51_fork.
Example C51_fork_ex : exists t b, did_append ceps cgold cgold2 chord gg tl0 (fz 3, fz 17) [(fz 3, fz 17)] = Ok (t, b) /\ t_line t = None /\
  try_fork ceps cgold cgold2 chord gg [] (fz 3, fz 17) [(fz 3, fz 17)] = Ok [t] /\
  try_fork ceps cgold cgold2 chord gg [t] (fz 9, fz 20) [(fz 3, fz 17); (fz 9, fz 20)] = Ok [t].
Proof. eexists. eexists. split; [vm_compute; reflexivity|]. split; [reflexivity|]. split; vm_compute; reflexivity. Qed.
(** After an update the upper and lower levels may differ, and scanning the
    same points again then raises IndexError. *)
Theorem C51_update_refuted : sizes (trn gg (scans zig)) = Some (3, 3)%nat /\
  sizes (trn gg (scans zig ++ [TBegin from6])) = Some (3, 2)%nat /\
  trn gg (scans zig ++ TBegin from6 :: scans (skipn 6 zig)) = Err EIndex.
Proof. exact levels_ex. Qed.
Print Assumptions C51_update_refuted.
(** Where it does not raise it may give other lines than scanning once. *)
Theorem C51_rescan_refuted : exists r1 r2,
  trn gg (scans (mirror zig)) = Ok r1 /\ trn gg (scans (mirror zig) ++ TBegin from6 :: scans (skipn 6 (mirror zig))) = Ok r2 /\
  r_pts r1 = r_pts r2 /\ (length (concat (r_up r1)), length (r_lo r1)) <> (length (concat (r_up r2)), length (r_lo r2)).
Proof. exact rescan_ex. Qed.
Print Assumptions C51_rescan_refuted.

(** ** C52 min_point_distance *)
(** The trend gives the same lines whatever its min_point_distance. *)
Theorem C52_distance_refuted : forall T (N : Num T) (eps gold gold2 : T) polyfit wd up mp d d' ln rel abs fuel es,
  trun eps gold gold2 polyfit (mkG wd up mp d ln rel abs) fuel trend0 es =
  trun eps gold gold2 polyfit (mkG wd up mp d' ln rel abs) fuel trend0 es.
Proof. exact @distance_ignored. Qed.
Print Assumptions C52_distance_refuted.
(** A line that is given the distance has that many gaps of it. *)
Theorem C52_line : forall T (N : Num T) (g : cfg T) t, is_valid g t = true ->
  (g_minp g <= 1 + far_count (g_dist g) (t_pts t))%Z.
Proof. exact @valid_gaps. Qed.
Print Assumptions C52_line.
Example C52_line_ex : has (run (lcfg true 3) six) (fun t => is_valid (lcfg true 3) t) = true.
Proof. exact (proj2 six_ex). Qed.

(** ** C53 fitting the boundary *)
(** From at least two points of ascending x: no exception, the pruning ends,
    the line runs from one of them to a later one through others of them, and
    the boundary keeps its ends. *)
Theorem C53_total : forall eps wd di ln up mp r a, 0 <= eps -> forall p0 mid z, StronglySorted by_xs (p0 :: mid ++ [z]) ->
  exists u v w bm, set_trend (Fin eps) (mkG wd up mp di ln (fo r) (fo a)) (map fp (p0 :: mid ++ [z])) = Ok (fp u :: w ++ [fp v], fp p0 :: bm ++ [fp z])
    /\ fst u < fst v /\ In u (p0 :: mid ++ [z]) /\ In v (p0 :: mid ++ [z]) /\ sub bm (map fp mid) /\ incl w (map fp (p0 :: mid ++ [z])).
Proof. exact set_trend_total. Qed.
Print Assumptions C53_total.
Example C53_total_ex : StronglySorted by_xs (zq [(0,1);(1,5);(3,1);(4,0)]%Z) /\
  set_trend ceps (lcfg true 3) (zp [(0,1);(1,5);(3,1);(4,0)]%Z) = Ok (zp [(1,5);(4,0)]%Z, zp [(0,1);(1,5);(4,0)]%Z).
Proof. split; [ unfold zq; cbn [map fst snd]; repeat (first [ apply SSorted_nil | apply SSorted_cons | apply Forall_nil | apply Forall_cons | reflexivity ]) | chk ]. Qed.
(** The chosen line is at least as long as the minimal distance, unless it joins
    the two ends of the boundary. *)
Theorem C53_apart : forall eps d wd ln up mp r a, 0 <= eps -> forall p0 mid z, StronglySorted by_xs (p0 :: mid ++ [z]) ->
  exists u v w bm, set_trend (Fin eps) (mkG wd up mp (Fin d) ln (fo r) (fo a)) (map fp (p0 :: mid ++ [z])) = Ok (fp u :: w ++ [fp v], fp p0 :: bm ++ [fp z])
    /\ ((u, v) = (p0, z) \/ d <= fst v - fst u).
Proof. exact set_trend_apart. Qed.
Print Assumptions C53_apart.
Example C53_apart_ex : StronglySorted by_xs (zq [(0,1);(1,5);(3,1);(4,0)]%Z) /\
  set_trend ceps (mkG (fz 1) true 3 (fz 1) (fz 10) None (Some (fr 1 10))) (zp [(0,1);(1,5);(3,1);(4,0)]%Z) = Ok (zp [(1,5);(4,0)]%Z, zp [(0,1);(1,5);(4,0)]%Z) /\
  set_trend ceps (mkG (fz 1) true 3 (fz 2) (fz 10) None (Some (fr 1 10))) (zp [(0,1);(1,5);(3,1);(4,0)]%Z) = Ok (zp [(0,1);(4,0)]%Z, zp [(0,1);(1,5);(4,0)]%Z).
Proof. split; [ unfold zq; cbn [map fst snd]; repeat (first [ apply SSorted_nil | apply SSorted_cons | apply Forall_nil | apply Forall_cons | reflexivity ]) | split; chk ]. Qed.
(** When no point is coincident, exactly the pruned points leave the boundary ... *)
Theorem C53_aligned : forall T (N : Num T) eps (g : cfg T) f bnd ex' bnd',
  prune_while eps g f bnd bnd [] = Ok (ex', bnd', []) -> ex' = bnd'.
Proof. exact (fun T N eps g f bnd ex' bnd' H => prune_while_aligned eps g f bnd bnd ex' bnd' H eq_refl). Qed.
Print Assumptions C53_aligned.
Example C53_aligned_ex : prune_while ceps (lcfg true 3) 5 (zp [(0,1);(1,5);(3,1);(4,0)]%Z) (zp [(0,1);(1,5);(3,1);(4,0)]%Z) [] =
  Ok (zp [(0,1);(1,5);(4,0)]%Z, zp [(0,1);(1,5);(4,0)]%Z, []).
Proof. chk. Qed.
(** ... otherwise another point may: the index is that of the extremas. *)
Theorem C53_boundary_refuted : exists pts bnd, set_trend ceps gb bent = Ok (pts, bnd) /\
  strictly_convex ceps None (Some (fz 1)) (fz 0, fz 0) (fz 20, fz 0) (fz 30, fr 5 2) = Ok true /\
  on_line ceps None (Some (fz 1)) ((fz 0, fz 0), (fz 30, fr 5 2)) (fz 20, fz 0) = Ok false /\
  bnd = [(fz 0, fz 0); (fz 19, fr (-3) 2); (fz 20, fz 0); (fz 30, fr 5 2)].
Proof. exact bent_ex. Qed.
Print Assumptions C53_boundary_refuted.
