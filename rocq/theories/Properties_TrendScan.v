(** C74: asking a Trend for its lines. *)
From Coq Require Import List ZArith QArith Qcanon Bool.
From Verif Require Import Base Num NumFacts Interval Curve Points PointsSpec PointsDec PointsMut PointsTop PointsRefute PointsEx BaseTop BaseEx Graph Scan ScanTf ScanFacts ScanEx ExtremasFold ExtremasEx
  Trend TrendGeo TrendCol TrendCross TrendTop TrendEx TrendMoreEx TrendScan TrendScanFacts TrendScanEx.
Import ListNotations.
Notation scans_of eps gold gold2 polyfit g lf l := (trun eps gold gold2 polyfit g lf trend0 (map (fun p : spt => TScan (Fin (fst p)) (option_map Fin (snd p))) l)).
Notation finite_config polyfit g := ((exists q, g_len g = Fin q) /\ (forall ps, (3 <= length ps)%nat -> Forall fpt ps -> exists c b, polyfit ps = (Fin c, Fin b))).

(** whatever was asked and appended, the Trend's points and lines are those of
    one scan of the first points of the source, in order, each of them once *)
Theorem C74_state : forall m eps gold gold2 polyfit g lf s l t, (0 < m)%Qc -> finite_config polyfit g -> life m eps gold gold2 polyfit g lf s l t ->
  p_pts s = map fsp l /\ exists k, (k <= length l)%nat /\ scans_of eps gold gold2 polyfit g lf (firstn k l) = Ok (ts_tr t) /\
    ts_cur t = option_map (fun p : spt => Fin (fst p)) (last_opt (firstn k l)).
Proof. exact life_state. Qed.
Print Assumptions C74_state.
Example C74_state_ex : (exists t out, ts_events ceps cgold cgold2 fitted gg (fst z1) (evs_of more) = (t, out, Ok tt) /\ ts_tr t = ts_tr (fst z1) /\
    life min_step ceps cgold cgold2 fitted gg 50 (st more) (zs zig ++ [(QcofZ 13, Some (QcofZ 5))]) t) /\ (0 < min_step)%Qc /\ finite_config fitted gg.
Proof. exact (conj more_life (conj min_pos (conj gg_len fitted_fin))). Qed.
(** y(x) at or after the first point answers with the lines at x of the points
    up to x, and of all the points when some line reaches x *)
Theorem C74_answer : forall m eps gold gold2 polyfit g lf s l t q fuel t' a, (0 < m)%Qc -> finite_config polyfit g ->
  life m eps gold gold2 polyfit g lf s l t -> (length l < fuel)%nat ->
  ts_y eps gold gold2 polyfit g fuel lf (p_crv s) (Some (Fin m)) t (Fin q) = (t', Ok a) -> (exists p, In p l /\ (fst p <= q)%Qc) ->
  exists k, scans_of eps gold gold2 polyfit g lf (firstn k l) = Ok (ts_tr t') /\ a = Some (scanned_lines g (ts_tr t') (Some (Fin q))) /\
    Forall (fun p => (q < fst p)%Qc) (skipn k l) /\ (wants_more (ts_tr t') (Fin q) = true -> firstn k l = l).
Proof. exact (fun m eps gold gold2 polyfit g lf s l t q fuel t' a Hm HC => life_y_answer m Hm eps gold gold2 polyfit g lf (proj1 HC) (proj2 HC) s l t q fuel t' a). Qed.
Print Assumptions C74_answer.
Example C74_answer_ex : life min_step ceps cgold cgold2 fitted gg 50 s_zig (zs zig) (fst z1) /\ (length (zs zig) < 50)%nat /\
  (exists t' a al, ts_y ceps cgold cgold2 fitted gg 50 50 (p_crv s_zig) (Some (Fin min_step)) (fst z1) (Fin (QcofZ 12)) = (t', Ok (Some (a :: al))) /\
    length (r_pts (ts_tr t')) = 13%nat /\ length al = 2%nat) /\ exists p, In p (zs zig) /\ (fst p <= QcofZ 12)%Qc.
Proof. exact (conj z1_life (conj zig_len (conj zig_shown zig_some))). Qed.
(** before the first point there is no answer, and nothing is scanned *)
Theorem C74_outside : forall m eps gold gold2 polyfit g lf s l t q fuel t' a, (0 < m)%Qc -> finite_config polyfit g ->
  life m eps gold gold2 polyfit g lf s l t ->
  ts_y eps gold gold2 polyfit g fuel lf (p_crv s) (Some (Fin m)) t (Fin q) = (t', Ok a) -> (forall p, In p l -> (q < fst p)%Qc) ->
  a = None /\ ts_tr t' = ts_tr t.
Proof. exact (fun m eps gold gold2 polyfit g lf s l t q fuel t' a Hm HC => life_y_outside m Hm eps gold gold2 polyfit g lf (proj1 HC) (proj2 HC) s l t q fuel t' a). Qed.
Print Assumptions C74_outside.
Example C74_outside_ex : life min_step ceps cgold cgold2 fitted gg 50 s_zig (zs zig) (fst z1) /\
  (exists t', ts_y ceps cgold cgold2 fitted gg 50 50 (p_crv s_zig) (Some (Fin min_step)) (fst z1) (Fin (QcofZ (-1))) = (t', Ok None)) /\
  forall p, In p (zs zig) -> (QcofZ (-1) < fst p)%Qc.
Proof. exact (conj z1_life (conj zig_before zig_least)). Qed.
(** an answer with lines in it is that of one scan of all the points: it does
    not depend on what was asked before, nor on when the points were appended *)
Theorem C74_full : forall m eps gold gold2 polyfit g lf s l t q fuel t' x xs, (0 < m)%Qc -> finite_config polyfit g ->
  life m eps gold gold2 polyfit g lf s l t -> (length l < fuel)%nat ->
  ts_y eps gold gold2 polyfit g fuel lf (p_crv s) (Some (Fin m)) t (Fin q) = (t', Ok (Some (x :: xs))) ->
  exists r, scans_of eps gold gold2 polyfit g lf l = Ok r /\ x :: xs = scanned_lines g r (Some (Fin q)).
Proof. exact (fun m eps gold gold2 polyfit g lf s l t q fuel t' x xs Hm HC => life_y_full m Hm eps gold gold2 polyfit g lf (proj1 HC) (proj2 HC) s l t q fuel t' x xs). Qed.
Print Assumptions C74_full.
Example C74_full_ex : life min_step ceps cgold cgold2 fitted gg 50 s_zig (zs zig) (fst z1) /\ (length (zs zig) < 50)%nat /\
  (exists t' a al, ts_y ceps cgold cgold2 fitted gg 50 50 (p_crv s_zig) (Some (Fin min_step)) (fst z1) (Fin (QcofZ 12)) = (t', Ok (Some (a :: al))) /\
    length (r_pts (ts_tr t')) = 13%nat /\ length al = 2%nat).
Proof. exact (conj z1_life (conj zig_len zig_shown)). Qed.
(** at or after the last point this holds for empty answers as well *)
Theorem C74_end : forall m eps gold gold2 polyfit g lf s l t q fuel t' a, (0 < m)%Qc -> finite_config polyfit g ->
  life m eps gold gold2 polyfit g lf s l t -> (length l < fuel)%nat ->
  ts_y eps gold gold2 polyfit g fuel lf (p_crv s) (Some (Fin m)) t (Fin q) = (t', Ok a) -> (forall p, In p l -> (fst p <= q)%Qc) ->
  exists r, scans_of eps gold gold2 polyfit g lf l = Ok r /\ a = Some (scanned_lines g r (Some (Fin q))) /\ ts_tr t' = r.
Proof. exact (fun m eps gold gold2 polyfit g lf s l t q fuel t' a Hm HC => life_y_end m Hm eps gold gold2 polyfit g lf (proj1 HC) (proj2 HC) s l t q fuel t' a). Qed.
Print Assumptions C74_end.
Example C74_end_ex : life min_step ceps cgold cgold2 fitted gg 50 s_zig (zs zig) (fst z1) /\ (length (zs zig) < 50)%nat /\
  (exists t' a al, ts_y ceps cgold cgold2 fitted gg 50 50 (p_crv s_zig) (Some (Fin min_step)) (fst z1) (Fin (QcofZ 12)) = (t', Ok (Some (a :: al))) /\
    length (r_pts (ts_tr t')) = 13%nat /\ length al = 2%nat) /\ forall p, In p (zs zig) -> (fst p <= QcofZ 12)%Qc.
Proof. exact (conj z1_life (conj zig_len (conj zig_shown zig_most))). Qed.
(** so two Trends over the same points agree, if both have lines at x *)
Theorem C74_agree : forall m eps gold gold2 polyfit g lf s1 s2 l t1 t2 q f1 f2 t1' t2' x1 xs1 x2 xs2, (0 < m)%Qc -> finite_config polyfit g ->
  life m eps gold gold2 polyfit g lf s1 l t1 -> life m eps gold gold2 polyfit g lf s2 l t2 -> (length l < f1)%nat -> (length l < f2)%nat ->
  ts_y eps gold gold2 polyfit g f1 lf (p_crv s1) (Some (Fin m)) t1 (Fin q) = (t1', Ok (Some (x1 :: xs1))) ->
  ts_y eps gold gold2 polyfit g f2 lf (p_crv s2) (Some (Fin m)) t2 (Fin q) = (t2', Ok (Some (x2 :: xs2))) ->
  x1 :: xs1 = x2 :: xs2 /\ ts_tr t1' = ts_tr t2'.
Proof. exact (fun m eps gold gold2 polyfit g lf s1 s2 l t1 t2 q f1 f2 t1' t2' x1 xs1 x2 xs2 Hm HC => life_agree m Hm eps gold gold2 polyfit g lf (proj1 HC) (proj2 HC) s1 s2 l t1 t2 q f1 f2 t1' t2' x1 xs1 x2 xs2). Qed.
Print Assumptions C74_agree.
Example C74_agree_ex : (life min_step ceps cgold cgold2 fitted gg 50 s_zig (zs zig) (fst z1) /\ life min_step ceps cgold cgold2 fitted gg 50 s_zig (zs zig) ts_new) /\
  (exists t' a al, ts_y ceps cgold cgold2 fitted gg 50 50 (p_crv s_zig) (Some (Fin min_step)) (fst z1) (Fin (QcofZ 12)) = (t', Ok (Some (a :: al))) /\
    length (r_pts (ts_tr t')) = 13%nat /\ length al = 2%nat) /\
  (exists t' a al, ts_y ceps cgold cgold2 fitted gg 50 50 (p_crv s_zig) (Some (Fin min_step)) ts_new (Fin (QcofZ 12)) = (t', Ok (Some (a :: al))) /\
    length (r_pts (ts_tr t')) = 13%nat /\ length al = 2%nat).
Proof. exact (conj (conj z1_life (life_new _ _ _ _ _ _ _ _ _ zig_src)) (conj zig_shown zig_fresh)). Qed.
(** y(x) answers whenever the points can be scanned, and an exception is one
    that scanning all the points raises *)
Theorem C74_total : forall m eps gold gold2 polyfit g lf s l t q fuel, (0 < m)%Qc -> finite_config polyfit g ->
  life m eps gold gold2 polyfit g lf s l t -> (length l < fuel)%nat ->
  (forall r, scans_of eps gold gold2 polyfit g lf l = Ok r ->
    exists t' a, ts_y eps gold gold2 polyfit g fuel lf (p_crv s) (Some (Fin m)) t (Fin q) = (t', Ok a)) /\
  forall t' er, ts_y eps gold gold2 polyfit g fuel lf (p_crv s) (Some (Fin m)) t (Fin q) = (t', Err er) -> scans_of eps gold gold2 polyfit g lf l = Err er.
Proof. exact life_total. Qed.
Print Assumptions C74_total.
Example C74_total_ex : life min_step ceps cgold cgold2 fitted gg 50 s_zig (zs zig) (fst z1) /\ (length (zs zig) < 50)%nat /\
  exists r, scans_of ceps cgold cgold2 fitted gg 50 (zs zig) = Ok r.
Proof. exact (conj z1_life (conj zig_len zig_run)). Qed.
(** asking again gives the same and scans nothing *)
Theorem C74_again : forall m eps gold gold2 polyfit g lf s l t q fuel t' a, (0 < m)%Qc -> finite_config polyfit g ->
  life m eps gold gold2 polyfit g lf s l t -> (length l < fuel)%nat ->
  ts_y eps gold gold2 polyfit g fuel lf (p_crv s) (Some (Fin m)) t (Fin q) = (t', Ok a) ->
  exists t'', ts_y eps gold gold2 polyfit g fuel lf (p_crv s) (Some (Fin m)) t' (Fin q) = (t'', Ok a) /\ ts_tr t'' = ts_tr t'.
Proof. exact (fun m eps gold gold2 polyfit g lf s l t q fuel t' a Hm HC => life_y_again m Hm eps gold gold2 polyfit g lf (proj1 HC) (proj2 HC) s l t q fuel t' a). Qed.
Print Assumptions C74_again.
Example C74_again_ex : life min_step ceps cgold cgold2 fitted gg 50 s_zig (zs zig) (fst z1) /\ (length (zs zig) < 50)%nat /\
  (exists t' a al, ts_y ceps cgold cgold2 fitted gg 50 50 (p_crv s_zig) (Some (Fin min_step)) (fst z1) (Fin (QcofZ 12)) = (t', Ok (Some (a :: al))) /\
    length (r_pts (ts_tr t')) = 13%nat /\ length al = 2%nat).
Proof. exact (conj z1_life (conj zig_len zig_shown)). Qed.
(** points appended to the source change neither the points nor the lines that
    are already there, and are announced from the first of them onwards *)
Theorem C74_append : forall m eps gold gold2 polyfit g lf s l t points s' evs, (0 < m)%Qc -> finite_config polyfit g ->
  life m eps gold gold2 polyfit g lf s l t -> ascending (map fsp points) ->
  p_append_list s (map fsp points) = (s', evs, Ok tt) -> good s' -> coarse m (p_pts s') ->
  exists t', ts_events eps gold gold2 polyfit g t evs =
      (t', map (fun v => match v with EvBegin d => EvBegin (mkI (i_start d) PInf (i_so d) true) | EvEnd d => EvEnd (mkI (i_start d) PInf (i_so d) true) end) evs, Ok tt) /\
    ts_tr t' = ts_tr t /\ life m eps gold gold2 polyfit g lf s' (l ++ points) t'.
Proof. exact (fun m eps gold gold2 polyfit g lf s l t points s' evs Hm HC => life_append_quiet m Hm eps gold gold2 polyfit g lf (proj1 HC) (proj2 HC) s l t points s' evs). Qed.
Print Assumptions C74_append.
Example C74_append_ex : life min_step ceps cgold cgold2 fitted gg 50 s_zig (zs zig) (fst z1) /\
  p_append_list s_zig [(fz 13, nv 5)] = (st more, evs_of more, Ok tt) /\ good (st more) /\ coarse min_step (p_pts (st more)) /\ length (evs_of more) = 2%nat.
Proof. exact (conj z1_life (conj more_eq (conj more_good (conj more_coarse more_evs)))). Qed.
(** upper(x) and lower(x) at or after the first point scan likewise; lower and
    upper without x only look *)
Theorem C74_sides : forall m eps gold gold2 polyfit g lf up s l t x fuel t' a, (0 < m)%Qc -> finite_config polyfit g ->
  life m eps gold gold2 polyfit g lf s l t -> (length l < fuel)%nat ->
  match x with Some q => exists p, In p l /\ (fst p <= q)%Qc | None => True end ->
  ts_side eps gold gold2 polyfit g up fuel lf (p_crv s) (Some (Fin m)) t (option_map Fin x) = (t', Ok a) ->
  exists k, scans_of eps gold gold2 polyfit g lf (firstn k l) = Ok (ts_tr t') /\
    a = (if up then scanned_upper g (ts_tr t') (option_map Fin x) else scanned_lower g (ts_tr t') (option_map Fin x)) /\
    (x = None -> t' = t) /\ forall q, x = Some q -> Forall (fun p => (q < fst p)%Qc) (skipn k l).
Proof. exact life_sides. Qed.
Print Assumptions C74_sides.
Example C74_sides_ex : life min_step ceps cgold cgold2 fitted gg 50 s_zig (zs zig) ts_new /\ (length (zs zig) < 50)%nat /\
  (exists p, In p (zs zig) /\ (fst p <= QcofZ 12)%Qc) /\
  exists t' a al, ts_side ceps cgold cgold2 fitted gg true 50 50 (p_crv s_zig) (Some (Fin min_step)) ts_new (Some (Fin (QcofZ 12))) = (t', Ok (a :: al)) /\
    length (r_pts (ts_tr t')) = 13%nat.
Proof. exact (conj (life_new _ _ _ _ _ _ _ _ _ zig_src) (conj zig_len (conj zig_some zig_side))). Qed.
(** the lines of an answer: those of any level and either side that are valid,
    not too narrow and whose interval contains x *)
Theorem C74_lines : forall T (N : Num T) (g : cfg T) (r : trend T) x t, In t (scanned_lines g r (Some x)) <->
  (In t (concat (r_lo r)) /\ is_valid (line_cfg g false) t = true \/ In t (concat (r_up r)) /\ is_valid (line_cfg g true) t = true) /\
  i_contains (t_int t) x = true /\ n_ltb (width t) (g_width g) = false.
Proof. exact (fun T N => @answered T N). Qed.
Print Assumptions C74_lines.
Example C74_lines_ex : exists t' a al, ts_y ceps cgold cgold2 fitted gg 50 50 (p_crv s_zig) (Some (Fin min_step)) ts_new (Fin (QcofZ 12)) = (t', Ok (Some (a :: al))) /\
    length (r_pts (ts_tr t')) = 13%nat /\ length al = 2%nat.
Proof. exact zig_fresh. Qed.
(** the attribute lines: what lower answers without x, then what upper answers *)
Theorem C74_all : forall T (N : Num T) eps gold gold2 polyfit (g : cfg T) f1 f2 lf (c : crv T (option T)) own t t1 t2 a b,
  ts_side eps gold gold2 polyfit g false f1 lf c own t None = (t1, Ok a) -> ts_side eps gold gold2 polyfit g true f2 lf c own t None = (t2, Ok b) ->
  ts_lines g t = a ++ b.
Proof. exact @lines_sides. Qed.
Print Assumptions C74_all.
Example C74_all_ex : (length (scanned_lower gg (ts_tr (fst z1)) None), length (ts_lines gg (fst z1))) = (2%nat, 3%nat).
Proof. exact z1_lines. Qed.
(** an empty answer may depend on what was asked before: here y(q) has no line,
    and one after y(x) *)
Theorem C74_order_refuted : exists eps gold gold2 polyfit g m s l q t1 t2 t3 ls x xs, tsrc m s l /\
  ts_y eps gold gold2 polyfit g 50 50 (p_crv s) (Some (Fin m)) ts_new (Fin q) = (t1, Ok (Some [])) /\
  ts_y eps gold gold2 polyfit g 50 50 (p_crv s) (Some (Fin m)) t1 (Fin x) = (t2, Ok (Some ls)) /\
  ts_y eps gold gold2 polyfit g 50 50 (p_crv s) (Some (Fin m)) t2 (Fin q) = (t3, Ok (Some xs)) /\ length xs = 1%nat /\
  length (r_pts (ts_tr t1)) = 5%nat /\ length l = 9%nat.
Proof. exact order_matters. Qed.
Print Assumptions C74_order_refuted.
(** upper(q) with q before the first point forgets where the scan is, but not
    the points and lines: the next question scans every point a second time *)
Theorem C74_before_refuted : exists eps gold gold2 polyfit g m lf s l t q t1 a x t2 b t3 b', life m eps gold gold2 polyfit g lf s l t /\
  (forall p, In p l -> (q < fst p)%Qc) /\
  ts_side eps gold gold2 polyfit g true 50 lf (p_crv s) (Some (Fin m)) t (Some (Fin q)) = (t1, Ok a) /\
  ts_y eps gold gold2 polyfit g 50 lf (p_crv s) (Some (Fin m)) t1 (Fin x) = (t2, Ok (Some b)) /\
  length (r_pts (ts_tr t2)) = (2 * length l)%nat /\
  ts_y eps gold gold2 polyfit g 50 lf (p_crv s) (Some (Fin m)) ts_new (Fin x) = (t3, Ok (Some b')) /\ length b <> length b'.
Proof. exact side_rescans. Qed.
Print Assumptions C74_before_refuted.
(** so does replacing a point of the source: the points before it are scanned a
    second time, and the lines are not those of the new points *)
Theorem C74_replace_refuted : exists eps gold gold2 polyfit g m lf s l t p s' evs t1 out x t2 b t3 b', life m eps gold gold2 polyfit g lf s l t /\
  p_replace s p false = (s', evs, Ok tt) /\ length (p_pts s') = 13%nat /\ ts_events eps gold gold2 polyfit g t evs = (t1, out, Ok tt) /\
  ts_y eps gold gold2 polyfit g 50 lf (p_crv s') (Some (Fin m)) t1 (Fin x) = (t2, Ok (Some b)) /\
  length (r_pts (ts_tr t2)) = 17%nat /\
  ts_y eps gold gold2 polyfit g 50 lf (p_crv s') (Some (Fin m)) ts_new (Fin x) = (t3, Ok (Some b')) /\ length b <> length b'.
Proof. exact replace_rescans. Qed.
Print Assumptions C74_replace_refuted.
