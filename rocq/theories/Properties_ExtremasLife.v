(** C42: extremas whose source and reference change. *)
From Coq Require Import List ZArith QArith Qcanon Bool Lia Sorting.Sorted.
From Verif Require Import Base Num NumFacts Interval IntervalFacts Curve Points PointsSpec PointsQuery PointsOps PointsDec PointsRefute PointsEx.
From Verif Require Import BaseEx Combine CombineEx Scan ScanFacts ScanInv ScanTf ScanEx TrendEx Extremas ExtremasFold ExtremasUniq ExtremasVal ExtremasInv ExtremasEx ExtremasLife ExtremasHist ExtremasHistEx.
Import ListNotations.
Open Scope Qc_scope.

(** After any history of queries, appends, and other updates of the source or the
    reference that leave only extremas of the new points, y answers with the
    interpolation of the extremas of all points ... *)
Theorem C42_history : forall m, 0 < m -> forall dev, 0 <= dev -> forall R s l e q fuel, elife m dev R s l e -> (length l < fuel)%nat ->
  exists e' v, ex_y fuel (p_crv s) (Some (Fin m)) (Fin dev) (ref_fun R) e (Fin q) = (e', Ok v) /\
    forall es p, extremas_of dev R l es p -> value ILinear (map fop es) q v.
Proof. exact elife_answer. Qed.
Print Assumptions C42_history.
Example C42_history_ex : elife min_step tenth ten (st s4) (zs three ++ zs [(3,8)]%Z) e4 /\
  extremas_of tenth ten (zs three ++ zs [(3,8)]%Z) (zd [(0,12);(1,8);(2,12)]%Z) (Some (QcofZ 3, QcofZ 8)) /\
  match a4 with Ok (Some v) => xq_eqb v (fz 10) | _ => false end = true.
Proof. exact (conj e4_life (conj four_extremas' a4_ok)). Qed.
(** ... and the list holds a beginning of them, in order, some more than once. *)
Theorem C42_history_list : forall m, 0 < m -> forall dev, 0 <= dev -> forall R s l e, elife m dev R s l e ->
  exists es ls, x_ext e = map fqp ls /\ rep es ls /\ StronglySorted xlt es /\ forall fes p, extremas_of dev R l fes p -> exists t, fes = es ++ t.
Proof. exact elife_state. Qed.
Print Assumptions C42_history_list.
Example C42_history_list_ex : peqb (x_ext e4) (zp [(0,12);(1,8);(1,8);(2,12)]%Z) = true.
Proof. exact e4_list. Qed.
(** An append notifies and raises nothing. *)
Theorem C42_history_append : forall m, 0 < m -> forall dev, 0 <= dev -> forall R s l e points s' evs, elife m dev R s l e -> l <> [] -> ascending (map fsp points) ->
  p_append_list s (map fsp points) = (s', evs, Ok tt) -> good s' -> coarse m (p_pts s') -> Forall (ref_nonzero R) points ->
  exists e', ex_events (ref_fun R) e evs = (e', map (fun v => match v with EvBegin d => EvBegin (update_interval d) | EvEnd d => EvEnd (update_interval d) end) evs, Ok tt) /\
    elife m dev R s' (l ++ points) e'.
Proof. exact elife_appends. Qed.
Print Assumptions C42_history_append.
Example C42_history_append_ex : elife min_step tenth ten s3 (zs three) e3 /\ p_append_list s3 (map fsp (zs [(3,8)]%Z)) = (st s4, evs_of s4, Ok tt) /\ good (st s4).
Proof. exact (conj e3_life (conj s4_run s4_good)). Qed.
(** A reference changed where there are no points ... *)
Theorem C42_keeps_reference : forall dev, 0 <= dev -> forall R R' l D, StronglySorted slt l -> Forall (ref_nonzero R) l -> (forall q, In q l -> R' (fst q) = R (fst q)) ->
  (forall q, In q l -> outside D (fst q) = true) -> keeps dev R l R' l D.
Proof. exact keeps_reference. Qed.
Print Assumptions C42_keeps_reference.
Example C42_keeps_reference_ex : exists R', R' (QcofZ 7) <> ten (QcofZ 7) /\ forall q, In q (zs seven) -> R' (fst q) = ten (fst q).
Proof. exact reference_ex. Qed.
(** ... and points replaced at the end that confirmed nothing before them. *)
Theorem C42_keeps_tail : forall dev, 0 <= dev -> forall R c t t' es p fes pf D, StronglySorted slt (c ++ t) -> Forall (ref_nonzero R) t -> extremas_of dev R c es p -> es <> [] ->
  extremas_of dev R (c ++ t) fes pf -> filter (fun q => outside D (fst q)) fes = es -> (forall q, In q c -> outside D (fst q) = true) ->
  keeps dev R (c ++ t) R (c ++ t') D.
Proof. exact keeps_tail. Qed.
Print Assumptions C42_keeps_tail.
Example C42_keeps_tail_ex : extremas_of tenth ten (zs five) (zd [(1,15)]%Z) (Some (QcofZ 3, QcofZ 8)) /\
  extremas_of tenth ten (zs five ++ zs [(5,7);(6,13)]%Z) (zd [(1,15);(5,7)]%Z) (Some (QcofZ 6, QcofZ 13)) /\
  filter (fun q => outside (update_interval (i_closed (fz 5) (fz 6))) (fst q)) (zd [(1,15);(5,7)]%Z) = zd [(1,15)]%Z /\
  (forall q, In q (zs five) -> outside (update_interval (i_closed (fz 5) (fz 6))) (fst q) = true).
Proof. exact tail_ex. Qed.
(** A replaced last point that had confirmed an extrema leaves it, and y answers. *)
Theorem C42_replace_refuted : exists s p s' evs e e' l v, good s /\ p_replace s p false = (s', evs, Ok tt) /\ p_pts s' = map fsp l /\
  e = fst (ex_y 50 (p_crv s) own1 (Fin tenth) (ref_fun ten) ex_init (fz 1)) /\ e' = fst (fst (ex_events (ref_fun ten) e evs)) /\
  extremas_of tenth ten l [] (Some v) /\
  x_ext e' = [(fz 1, fz 15)] /\ snd (ex_y 50 (p_crv s') own1 (Fin tenth) (ref_fun ten) e' (fz 1)) = Ok (Some (fz 15)).
Proof. exact replace_stale. Qed.
Print Assumptions C42_replace_refuted.
