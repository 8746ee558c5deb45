(** Properties C01-C11: the Points curve. *)
From Coq Require Import List ZArith QArith Qcanon Bool.
From Verif Require Import Base Num NumFacts Interval IntervalFacts Curve Points PointsSpec PointsQuery PointsDom PointsOps PointsMut PointsDec PointsHist PointsRefute PointsTop PointsEx.
Import ListNotations.

(** ** C01 y follows the interpolation rule, is total, and is None outside *)
Theorem C01_points_y : forall (V : Type) (W : Val xq V) (s : pts xq V) (q : Qc),
  honest_history s -> (p_interp s = ILinear -> lerp_total (V := V)) ->
  exists v, p_y s (Fin q) = Ok v /\ value (p_interp s) (p_pts s) q v /\
            forall v', value (p_interp s) (p_pts s) q v' -> v' = v.
Proof. exact (fun V W s q H L => top_y s q H L). Qed.
Print Assumptions C01_points_y.
Example C01_points_y_ex : honest_history ex_n /\ p_interp ex_n = IPrevious /\
  p_y ex_n (fr 5 2) = Ok (nv 7) /\ p_y ex_n (fz 4) = Ok (nv 2) /\ p_y ex_n (fz 6) = Ok None.
Proof.
  split; [exact ex_n_hist|]. split; [reflexivity|].
  repeat split; apply is_opt_eq; vm_compute; reflexivity.
Qed.

Theorem C01_points_y_linear : forall (s : pts xq (option xq)) l1 a ya b yb l2 q,
  honest_history s -> p_interp s = ILinear ->
  p_pts s = l1 ++ (Fin a, ya) :: (Fin b, yb) :: l2 -> (a < q)%Qc -> (q < b)%Qc ->
  (forall u v, ya = Some (Fin u) -> yb = Some (Fin v) ->
     p_y s (Fin q) = Ok (Some (Fin (u + (v - u) * ((q - a) / (b - a)))%Qc))) /\
  (ya = None \/ yb = None -> p_y s (Fin q) = Ok None).
Proof. exact top_linear. Qed.
Print Assumptions C01_points_y_linear.
Example C01_points_y_linear_ex : honest_history ex_u /\ p_interp ex_u = ILinear /\
  p_pts ex_u = [(fz 0, nv 0); (fz 1, nv 1)] ++ (Fin (QcofZ 2), nv 2) :: (Fin (QcofZ 3), nv 9) :: [] /\
  p_y ex_u (fr 5 2) = Ok (Some (fr 11 2)).
Proof.
  split; [exact ex_u_honest|]. split; [reflexivity|]. split; [exact ex_u_pts|].
  apply is_opt_eq; vm_compute; reflexivity.
Qed.

Theorem C01_points_y_nonfinite : forall (V : Type) (W : Val xq V) (s : pts xq V) (x : xq),
  honest_history s -> ~ (exists q, x = Fin q) -> p_y s x = Ok v_none.
Proof. exact (fun V W s x H N => top_y_nonfinite s x H N). Qed.
Print Assumptions C01_points_y_nonfinite.
Example C01_points_y_nonfinite_ex : honest_history ex_u /\ p_pts ex_u <> [] /\ p_y ex_u XNaN = Ok None /\ p_y ex_u PInf = Ok None.
Proof. split; [exact ex_u_honest|]. split; [vm_compute; discriminate|]. split; vm_compute; reflexivity. Qed.

(** ** C02 the domain is the closed span of the stored points, never stale *)
Theorem C02_points_domain : forall (V : Type) (W : Val xq V) (s : pts xq V), honest_history s ->
  is_updating (p_upd s) = false /\
  (i_is_empty (p_dom s) = true <-> p_pts s = []) /\
  (forall a z, head_opt (p_pts s) = Some a -> last_opt (p_pts s) = Some z -> p_dom s = i_closed (fst a) (fst z)) /\
  (forall q, i_contains (p_dom s) (Fin q) = true <-> span (p_pts s) q).
Proof. exact (fun V W s => top_domain s). Qed.
Print Assumptions C02_points_domain.
Example C02_points_domain_ex : honest_history ex_n /\ p_dom ex_n = i_closed (fz 0) (fz 5).
Proof. split; [exact ex_n_hist|vm_compute; reflexivity]. Qed.

(** ** C03 x_next / x_previous *)
Theorem C03_points_x_next : forall (V : Type) (W : Val xq V) (s : pts xq V) (x : xq) (m : Qc) (lim : option xq),
  honest_history s -> notnan x ->
  exists y, p_x_next s x (Some (Fin m)) lim = Ok y /\ least_from (p_pts s) (xq_add x (Fin m)) y.
Proof. exact (fun V W s x m lim => top_next s x m lim). Qed.
Print Assumptions C03_points_x_next.
Theorem C03_points_x_previous : forall (V : Type) (W : Val xq V) (s : pts xq V) (x : xq) (m : Qc) (lim : option xq),
  honest_history s -> notnan x ->
  exists y, p_x_previous s x (Some (Fin m)) lim = Ok y /\ greatest_upto (p_pts s) (xq_sub x (Fin m)) y.
Proof. exact (fun V W s x m lim => top_previous s x m lim). Qed.
Print Assumptions C03_points_x_previous.
Example C03_points_ex : honest_history ex_n /\
  p_x_next ex_n (fr 1 2) (Some (fz 1)) None = Ok (Some (fz 4)) /\
  p_x_previous ex_n (fr 9 2) (Some (fz 1)) None = Ok (Some (fz 1)).
Proof. split; [exact ex_n_hist|]. split; apply is_opt_eq; vm_compute; reflexivity. Qed.

(** ** C04 sample_points *)
Theorem C04_points_sample : forall (V : Type) (W : Val xq V) fuel (s : pts xq V) (dom : option (ival xq)) (ms step : option xq),
  honest_history s ->
  (forall h, p_int s = Some h ->
     (forall m, ms = Some m -> xq_ltb h m = false) /\ (forall k, step = Some k -> xq_eqb k h = true)) ->
  (forall d, dom = Some d -> iok d) ->
  p_sample_points fuel s dom ms step =
    Ok (filter (fun p => match dom with Some d => i_contains d (fst p) | None => true end) (p_pts s)).
Proof. exact (fun V W fuel s dom ms step H R Hd => top_sample s fuel dom ms step H R Hd). Qed.
Print Assumptions C04_points_sample.
Example C04_points_sample_ex : honest_history ex_n /\
  p_sample_points 0 ex_n (Some (mkI (fz 1) (fz 5) true false)) None None = Ok [(fz 4, nv 2); (fz 5, nv 11)].
Proof. split; [exact ex_n_hist|vm_compute; reflexivity]. Qed.

(** ** C05 reset *)
Theorem C05_reset : forall (V : Type) (W : Val xq V) (s : pts xq V) (d : ival xq),
  honest_history s -> p_force s = false -> iok d ->
  exists s' evs, p_reset s (Some d) = (s', evs, Ok tt) /\
    p_pts s' = filter (fun p => negb (i_contains d (fst p))) (p_pts s).
Proof. exact (fun V W s d => top_reset_nonuniform s d). Qed.
Print Assumptions C05_reset.
Theorem C05_reset_uniform : forall (V : Type) (W : Val xq V) (s : pts xq V) (d : ival xq) s' evs r,
  honest_history s -> p_uniform s = true -> iok d -> p_reset s (Some d) = (s', evs, r) ->
  (r = Ok tt /\ p_pts s' = filter (fun p => negb (i_contains d (fst p))) (p_pts s)) \/
  (r = Err EExc /\ p_force s = true /\ p_pts s' = p_pts s /\
   exists head mid tail, p_pts s = head ++ mid ++ tail /\ head <> [] /\ mid <> [] /\ tail <> [] /\
     filter (fun p => negb (i_contains d (fst p))) (p_pts s) = head ++ tail).
Proof. exact (fun V W s d s' evs r => top_reset_uniform s d s' evs r). Qed.
Print Assumptions C05_reset_uniform.
Theorem C05_reset_all : forall (V : Type) (W : Val xq V) (s : pts xq V), honest_history s ->
  exists s' evs, p_reset s None = (s', evs, Ok tt) /\ p_pts s' = [].
Proof. exact (fun V W s => top_reset_all s). Qed.
Print Assumptions C05_reset_all.
Example C05_reset_ex : honest_history ex_n /\ p_force ex_n = false /\
  rs (p_reset ex_n (Some (mkI (fz 0) (fz 4) true false))) = Ok tt /\
  p_pts (st (p_reset ex_n (Some (mkI (fz 0) (fz 4) true false)))) = [(fz 0, nv 5); (fz 5, nv 11)] /\
  honest_history ex_u /\ p_uniform ex_u = true /\
  rs (p_reset ex_u (Some (i_gte (fz 2)))) = Ok tt /\ rs (p_reset ex_u (Some (i_point (fz 2)))) = Err EExc.
Proof.
  split; [exact ex_n_hist|]. split; [reflexivity|]. split; [vm_compute; reflexivity|]. split; [vm_compute; reflexivity|].
  split; [exact ex_u_honest|]. split; [reflexivity|]. split; vm_compute; reflexivity.
Qed.

(** ** C06 replace *)
Theorem C06_replace : forall (V : Type) (W : Val xq V) (s : pts xq V) (q : Qc) (v : V) (or_append : bool) s' evs r,
  honest_history s -> p_replace s (Fin q, v) or_append = (s', evs, r) ->
  (forall l1 v0 l2, p_pts s = l1 ++ (Fin q, v0) :: l2 -> r = Ok tt /\ p_pts s' = l1 ++ (Fin q, v) :: l2) /\
  (forall l1 a b l2, p_pts s = l1 ++ a :: b :: l2 -> lt_x (fst a) (Fin q) -> lt_x (Fin q) (fst b) ->
     if p_force s then r = Err EExc /\ p_pts s' = p_pts s
     else r = Ok tt /\ p_pts s' = l1 ++ a :: (Fin q, v) :: b :: l2) /\
  (~ span (p_pts s) q ->
     if or_append then p_append (p_touch s) (Fin q, v) = (s', evs, r) else r = Err EExc /\ evs = [] /\ s' = p_touch s).
Proof. exact (fun V W s q v oa s' evs r => top_replace s q v oa s' evs r). Qed.
Print Assumptions C06_replace.
Example C06_replace_ex : honest_history ex_n /\
  p_pts (st (p_replace ex_n (fz 2, nv 8) false)) = [(fz 0, nv 5); (fz 1, nv 7); (fz 2, nv 8); (fz 4, nv 2); (fz 5, nv 11)] /\
  rs (p_replace ex_n (fz 9, nv 8) false) = Err EExc.
Proof. split; [exact ex_n_hist|]. split; vm_compute; reflexivity. Qed.

(** ** C07 append *)
Theorem C07_append_list : forall (V : Type) (W : Val xq V) (s : pts xq V) (m : list (xq * V)) s' evs r,
  honest_history s -> ascending m -> p_append_list s m = (s', evs, r) ->
  (r = Ok tt /\ p_pts s' = p_pts s ++ m /\ ascending (p_pts s')) \/ (r = Err EExc /\ p_pts s' = p_pts s).
Proof. exact (fun V W s m s' evs r => top_append s m s' evs r). Qed.
Print Assumptions C07_append_list.
Theorem C07_append_accepted : forall (V : Type) (W : Val xq V) (s : pts xq V) (q : Qc) (v : V),
  honest_history s -> p_force s = false -> (forall p, In p (p_pts s) -> lt_x (fst p) (Fin q)) ->
  exists s' evs, p_append s (Fin q, v) = (s', evs, Ok tt) /\ p_pts s' = p_pts s ++ [(Fin q, v)].
Proof. exact (fun V W s q v => top_append_nonuniform s q v). Qed.
Print Assumptions C07_append_accepted.
Theorem C07_append_uniform_accepted : forall (V : Type) (W : Val xq V) (s : pts xq V) (m : list (xq * V)),
  uniform_history s -> p_pts s <> [] -> ascending (p_pts s ++ m) -> equally_spaced (p_pts s ++ m) ->
  exists s' evs, p_append_list s m = (s', evs, Ok tt) /\ p_pts s' = p_pts s ++ m.
Proof. exact (fun V W s m => top_append_accepts s m). Qed.
Print Assumptions C07_append_uniform_accepted.
Theorem C07_append_not_greater : forall (V : Type) (W : Val xq V) (s : pts xq V) (m : list (xq * V)) a z,
  honest_history s -> head_opt m = Some a -> last_opt (p_pts s) = Some z -> xfin (fst a) ->
  le_x (fst a) (fst z) -> p_append_list s m = (s, [], Err EExc).
Proof. exact (fun V W s m a z => top_append_refused s m a z). Qed.
Print Assumptions C07_append_not_greater.
Example C07_append_ex : honest_history ex_n /\ p_force ex_n = false /\ uniform_history ex_u /\
  rs (p_append_list ex_n [(fz 7, nv 1); (fz 8, nv 1)]) = Ok tt /\ rs (p_append ex_n (fz 5, nv 1)) = Err EExc /\
  equally_spaced (p_pts ex_u ++ [(fz 4, nv 1); (fz 5, nv 1)]).
Proof.
  split; [exact ex_n_hist|]. split; [reflexivity|]. split; [exact ex_u_hist|].
  split; [vm_compute; reflexivity|]. split; [vm_compute; reflexivity|].
  rewrite ex_u_pts. apply (eqsb_sound _ (QcofZ 0) (QcofZ 1)); vm_compute; reflexivity.
Qed.

(** ** C08 uniform=True *)
Theorem C08_uniform_partial : forall (V : Type) (W : Val xq V) (s : pts xq V), uniform_history s ->
  equally_spaced (p_pts s) /\ p_uniform s = true /\ honest_history s.
Proof. exact (fun V W s => top_uniform s). Qed.
Print Assumptions C08_uniform_partial.
Example C08_uniform_partial_ex : uniform_history ex_u /\ length (p_pts ex_u) = 4%nat.
Proof. split; [exact ex_u_hist|reflexivity]. Qed.
Theorem C08_uniform_refuted : exists (l : list (xq * option xq)) (q : Qc) (y w : option xq),
  ascending l /\ ~ equally_spaced l /\ rs (p_init l ILinear true) = Ok tt /\
  In (Fin q, y) l /\ p_y (st (p_init l ILinear true)) (Fin q) = Ok w /\ w <> y.
Proof. exact uniform_accepts_irregular. Qed.
Print Assumptions C08_uniform_refuted.
Theorem C08_is_uniform_refuted : exists (l : list (xq * option xq)) (p : Qc) (v : option xq) (q : Qc) (y w : option xq),
  ascending l /\ rs (p_init l ILinear false) = Ok tt /\
  let s := st (p_init l ILinear false) in
  p_uniform s = false /\ rs (p_append s (Fin p, v)) = Ok tt /\
  let s' := st (p_append s (Fin p, v)) in
  p_uniform s' = true /\ ~ equally_spaced (p_pts s') /\ In (Fin q, y) (p_pts s') /\ p_y s' (Fin q) = Ok w /\ w <> y.
Proof. exact nonuniform_flag_flips. Qed.
Print Assumptions C08_is_uniform_refuted.
Theorem C08_set_other_step_refuted : exists (l l' : list (xq * option xq)),
  ascending l /\ equally_spaced l /\ ascending l' /\ equally_spaced l' /\
  rs (p_init l ILinear true) = Ok tt /\ rs (p_init l' ILinear true) = Ok tt /\
  rs (p_set (st (p_init l ILinear true)) l' None) = Err EExc.
Proof. exact set_uses_old_interval. Qed.
Print Assumptions C08_set_other_step_refuted.

(** ** C09 the notified interval covers every changed x *)
Theorem C09_update_covers_partial : forall (V : Type) (W : Val xq V) (s : pts xq V) (o : op V) s' evs (q : Qc),
  honest_history s -> (p_interp s = ILinear -> lerp_total (V := V)) -> op_ok o ->
  (forall q v oa, o <> OReplace q v oa) ->
  run_op s o = (s', evs, Ok tt) -> (p_uniform s' = true -> equally_spaced (p_pts s')) ->
  p_y s' (Fin q) <> p_y s (Fin q) ->
  exists D, In (EvBegin D) evs /\ In (EvEnd D) evs /\ imem D (Fin q).
Proof. exact (fun V W s o s' evs q => top_covers s o s' evs q). Qed.
Print Assumptions C09_update_covers_partial.
Example C09_update_covers_partial_ex : honest_history ex_u /\
  rs (run_op ex_u (OAppend (QcofZ 4) (nv 7))) = Ok tt /\
  evs_of (run_op ex_u (OAppend (QcofZ 4) (nv 7))) = [EvBegin (mkI (fz 3) (fz 4) true false); EvEnd (mkI (fz 3) (fz 4) true false)] /\
  p_y (st (run_op ex_u (OAppend (QcofZ 4) (nv 7)))) (fr 7 2) = Ok (nv 8) /\ p_y ex_u (fr 7 2) = Ok None.
Proof.
  split; [exact ex_u_honest|]. split; [vm_compute; reflexivity|]. split; [vm_compute; reflexivity|].
  split; apply is_opt_eq; vm_compute; reflexivity.
Qed.
Theorem C09_replace_keeps_other_points : forall (V : Type) (W : Val xq V) (s : pts xq V) (q0 : Qc) (v0 : V) oa s' evs (q : Qc) (v : V),
  honest_history s -> span (p_pts s) q0 -> p_replace s (Fin q0, v0) oa = (s', evs, Ok tt) -> q <> q0 ->
  In (Fin q, v) (p_pts s) <-> In (Fin q, v) (p_pts s').
Proof. exact (fun V W s q0 v0 oa s' evs q v => top_replace_knots s q0 v0 oa s' evs q v). Qed.
Print Assumptions C09_replace_keeps_other_points.
Theorem C09_replace_refuted : exists (s : npts) (x q : Qc) (v : option xq),
  good s /\ rs (p_replace s (Fin x, v) false) = Ok tt /\
  (forall D, In (EvEnd D) (evs_of (p_replace s (Fin x, v) false)) -> ~ imem D (Fin q)) /\
  p_y (st (p_replace s (Fin x, v) false)) (Fin q) <> p_y s (Fin q).
Proof. exact replace_underreports. Qed.
Print Assumptions C09_replace_refuted.

(** ** C10 rejected operations *)
Theorem C10_rejected_silently_partial : forall (V : Type) (W : Val xq V) (s : pts xq V) (o : op V) s' e,
  honest_history s -> op_ok o -> run_op s o = (s', [], Err e) -> s' = s \/ s' = p_touch s.
Proof. exact (fun V W s o s' e => top_refused s o s' e). Qed.
Print Assumptions C10_rejected_silently_partial.
Example C10_rejected_silently_partial_ex : honest_history ex_u /\ op_ok (OAppend (QcofZ 3) (nv 7)) /\
  rs (run_op ex_u (OAppend (QcofZ 3) (nv 7))) = Err EExc /\ evs_of (run_op ex_u (OAppend (QcofZ 3) (nv 7))) = [].
Proof. split; [exact ex_u_honest|]. split; [exact I|]. split; vm_compute; reflexivity. Qed.
Theorem C10_offgrid_append_refuted : forall (V : Type) (W : Val xq V) (s : pts xq V) (x0 h q : Qc) (v : V),
  uniform_history s -> (2 <= length (p_pts s))%nat -> (0 < h)%Qc ->
  (forall i p, nth_error (p_pts s) i = Some p -> fst p = Fin (x0 + QcofZ (Z.of_nat i) * h)%Qc) ->
  (x0 + QcofZ (Z.of_nat (length (p_pts s)) - 1) * h < q)%Qc ->
  q <> (x0 + QcofZ (Z.of_nat (length (p_pts s))) * h)%Qc ->
  exists s' D, p_append s (Fin q, v) = (s', [EvBegin D], Err EExc) /\ p_pts s' = p_pts s /\ is_updating (p_upd s') = true.
Proof. exact (fun V W s x0 h q v => top_offgrid s x0 h q v). Qed.
Print Assumptions C10_offgrid_append_refuted.
Theorem C10_rejected_poisons_refuted : exists (s : npts) (x1 x2 : Qc) (v1 v2 : option xq),
  good s /\ rs (p_append s (Fin x1, v1)) = Err EExc /\
  let s1 := st (p_append s (Fin x1, v1)) in
  is_updating (p_upd s1) = true /\
  rs (p_append s1 (Fin x2, v2)) = Ok tt /\
  let s2 := st (p_append s1 (Fin x2, v2)) in
  evs_of (p_append s1 (Fin x2, v2)) = [] /\
  In (Fin x2, v2) (p_pts s2) /\ p_y s2 (Fin x2) = Ok None /\ v2 <> None /\ is_updating (p_upd s2) = true.
Proof. exact rejected_append_poisons. Qed.
Print Assumptions C10_rejected_poisons_refuted.

(** ** C11 binary64 *)
Theorem C11_last_point_raises_refuted : exists n : nat,
  snd (p_init (bpts n) ILinear true) = Ok tt /\
  exists p, last_opt (bpts n) = Some p /\ p_y (bst n) (fst p) = Err EIndex.
Proof. exact b64_last_knot_raises. Qed.
Print Assumptions C11_last_point_raises_refuted.
Theorem C11_point_misread_refuted : exists n i p y,
  snd (p_init (bpts n) ILinear true) = Ok tt /\ nth_error (bpts n) i = Some p /\
  p_y (bst n) (fst p) = Ok y /\ y <> snd p.
Proof. exact b64_knot_misread. Qed.
Print Assumptions C11_point_misread_refuted.
Theorem C11_decimal_grid_rejected_refuted : exists l : list (b64 * option b64),
  map fst l = [b64_ofZ 0; f01; f02; f03] /\ snd (p_init l ILinear true) = Err EExc.
Proof. exact b64_decimal_literals_rejected. Qed.
Print Assumptions C11_decimal_grid_rejected_refuted.
