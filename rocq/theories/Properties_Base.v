(** Properties C18-C24: the algorithms of the base class. *)
From Coq Require Import List ZArith QArith Qcanon Bool Sorting.Sorted.
From Verif Require Import Base Num NumFacts Interval IntervalFacts Curve BaseFacts.
From Verif Require Import Points PointsSpec PointsOps PointsDec PointsHist PointsRefute PointsTop PointsEx BaseTop BaseOpt BaseEx BaseClimb BaseClimbEx.
Import ListNotations.

(** ** C02 first_point and last_point of sampled curves are the stored ends *)
Theorem C02_ends : forall s : pts xq (option xq), honest_history s ->
  first_point (p_crv s) = Ok (head_opt (p_pts s)) /\ last_point (p_crv s) = Ok (last_opt (p_pts s)).
Proof. exact ends_of. Qed.
Print Assumptions C02_ends.
Example C02_ends_ex : honest_history peak /\ head_opt (p_pts peak) = Some (fz 0, nv 1) /\ last_opt (p_pts peak) = Some (fz 2, nv 2).
Proof. exact (conj (uniform_honest peak peak_hist) (conj eq_refl eq_refl)). Qed.

(** ** C18 min_step resolution takes the coarser step *)
Theorem C18_resolve_min_step : forall own arg : option xq,
  match resolve_min_step own arg with
  | None => own = None /\ arg = None
  | Some m => (own = Some m \/ arg = Some m) /\
              (forall x, own = Some x \/ arg = Some x -> notnan x -> notnan m -> le_x x m)
  end.
Proof. exact resolve_spec. Qed.
Print Assumptions C18_resolve_min_step.
Theorem C18_resolve_idempotent : forall own arg : option xq,
  resolve_min_step own (resolve_min_step own arg) = resolve_min_step own arg.
Proof. exact resolve_idem. Qed.
Print Assumptions C18_resolve_idempotent.
Example C18_ex : resolve_min_step (Some (fz 2)) (Some PInf) = Some PInf /\ resolve_min_step (Some (fz 2)) (Some (fz 1)) = Some (fz 2).
Proof. split; vm_compute; reflexivity. Qed.

(** ** C19 base stepping *)
Theorem C19_x_next : forall (dom : ival xq) own x arg lim s, iok dom -> resolve_min_step own arg = Some s ->
  exists t, one_step dom x s lim t /\
    (notnan t -> (before_end dom t -> base_x_next dom own x arg lim = Ok (Some t)) /\
                 (~ before_end dom t -> base_x_next dom own x arg lim = Ok None)).
Proof. exact base_next_spec. Qed.
Print Assumptions C19_x_next.
Theorem C19_x_previous : forall (dom : ival xq) own x arg lim s, iok dom -> resolve_min_step own arg = Some s ->
  exists t, one_back dom x s lim t /\
    (notnan t -> (after_start dom t -> base_x_previous dom own x arg lim = Ok (Some t)) /\
                 (~ after_start dom t -> base_x_previous dom own x arg lim = Ok None)).
Proof. exact base_prev_spec. Qed.
Print Assumptions C19_x_previous.
Theorem C19_no_step : forall (dom : ival xq) x lim,
  base_x_next dom None x None lim = Err EType /\ base_x_previous dom None x None lim = Err EType.
Proof. exact base_no_step. Qed.
Print Assumptions C19_no_step.
Example C19_ex : iok (iv (fz 0) (fz 3) false true) /\
  base_x_next (iv (fz 0) (fz 3) false true) None (fz 2) (Some (fz 1)) None = Ok None /\
  base_x_next (iv (fz 0) (fz 3) false true) None (fz 2) (Some PInf) (Some (fr 5 2)) = Ok (Some (fr 5 2)) /\
  base_x_previous (iv (fz 0) (fz 3) false true) (Some (fz 2)) (fz 2) (Some (fz 1)) None = Ok (Some (fz 0)).
Proof.
  split; [split; discriminate|]. repeat split; apply is_opt_eq; vm_compute; reflexivity.
Qed.

(** ** C20 sample_points *)
Theorem C20_sample_sound : forall (V : Type) (c : crv xq V) fuel domain ms step a b pts,
  i_is_empty (sampled_domain c domain) = false ->
  i_start (sampled_domain c domain) = Fin a -> i_end (sampled_domain c domain) = Fin b -> (a < b)%Qc ->
  (forall h, step = Some h -> exists q, h = Fin q /\ (0 < q)%Qc) ->
  (step = None -> forall m, resolve_min_step (c_ms c) ms = Some m -> advances c m b) ->
  sample_points fuel c domain ms step = Ok pts ->
  StronglySorted (fun p q => lt_x (fst p) (fst q)) pts /\
  Forall (fun p => c_y c (fst p) = Ok (snd p) /\ exists q, fst p = Fin q /\ (q <= b)%Qc /\
      if i_so (sampled_domain c domain) then (a < q)%Qc else (a <= q)%Qc) pts /\
  (i_so (sampled_domain c domain) = false -> exists y, head_opt pts = Some (Fin a, y)) /\
  (step = None -> i_eo (sampled_domain c domain) = false -> exists y, last_opt pts = Some (Fin b, y)).
Proof. exact (fun V c fuel => sample_sound fuel c). Qed.
Print Assumptions C20_sample_sound.
(** both kinds of stepping advance *)
Theorem C20_base_advances : forall (V : Type) (c : crv xq V) m e, base_stepping c ->
  resolve_min_step (c_ms c) (Some (Fin m)) = Some (Fin m) -> (0 < m)%Qc -> advances c (Fin m) e.
Proof. exact (fun V c => base_advances c). Qed.
Print Assumptions C20_base_advances.
Theorem C20_points_advances : forall (s : pts xq (option xq)) m e, honest_history s -> (0 < m)%Qc -> advances (p_crv s) (Fin m) e.
Proof. exact points_advances. Qed.
Print Assumptions C20_points_advances.
Example C20_sample_sound_ex :
  i_is_empty (sampled_domain ident_crv (Some (iv (fz 0) (fr 5 2) false false))) = false /\
  i_start (sampled_domain ident_crv (Some (iv (fz 0) (fr 5 2) false false))) = fz 0 /\
  i_end (sampled_domain ident_crv (Some (iv (fz 0) (fr 5 2) false false))) = fr 5 2 /\
  base_stepping ident_crv /\
  sample_points 10 ident_crv (Some (iv (fz 0) (fr 5 2) false false)) (Some (fz 1)) None =
    Ok [(fz 0, nv 0); (fz 1, nv 1); (fz 2, nv 2); (fr 5 2, Some (fr 5 2))].
Proof.
  split; [vm_compute; reflexivity|]. split; [vm_compute; reflexivity|]. split; [vm_compute; reflexivity|].
  split; [exact ident_base|exact ident_closed_ex].
Qed.

(** with step=h: start, start+h, ... up to the end *)
Theorem C20_step_grid : forall (V : Type) (c : crv xq V) domain ms (f : Qc -> V) a b h fuel,
  i_is_empty (sampled_domain c domain) = false ->
  i_start (sampled_domain c domain) = Fin a -> i_end (sampled_domain c domain) = Fin b -> (a <= b)%Qc -> (0 < h)%Qc ->
  (forall m, resolve_min_step (c_ms c) ms = Some m -> exists q, m = Fin q /\ (0 < q)%Qc) ->
  (forall q, (a <= q)%Qc -> (q <= b)%Qc -> c_y c (Fin q) = Ok (f q)) ->
  let n := Z.to_nat (Qcfloor ((b - a) / h)) in
  (n < fuel)%nat ->
  sample_points fuel c domain ms (Some (Fin h)) =
    Ok ((if i_so (sampled_domain c domain) then [] else [(Fin a, f a)]) ++
        map (fun i => (Fin (a + QcofZ (Z.of_nat i) * h)%Qc, f (a + QcofZ (Z.of_nat i) * h)%Qc)) (seq 1 n)).
Proof. exact (fun V c domain ms f a b h fuel => sample_step_exact c domain ms f a b h fuel). Qed.
Print Assumptions C20_step_grid.
Example C20_step_grid_ex : sample_points 10 ident_crv (Some (iv (fz 0) (fr 5 2) true false)) (Some MIN_STEP) (Some (fz 1)) =
  Ok [(fz 1, nv 1); (fz 2, nv 2)] /\ (forall q, c_y ident_crv (Fin q) = Ok (Some (Fin q))).
Proof. split; [exact ident_step_ex|reflexivity]. Qed.

(** with the default stepping: start, start+m, ... and the end *)
Theorem C20_default_grid : forall (V : Type) (c : crv xq V) (f : Qc -> V) domain ms a b m fuel,
  base_stepping c -> iok (c_dom c) -> (forall d, domain = Some d -> iok d) ->
  i_is_empty (sampled_domain c domain) = false ->
  i_start (sampled_domain c domain) = Fin a -> i_end (sampled_domain c domain) = Fin b -> i_eo (sampled_domain c domain) = false ->
  resolve_min_step (c_ms c) ms = Some (Fin m) -> (0 < m)%Qc -> (a < b)%Qc -> no_tie (a / m)%Qc ->
  (forall q, (a <= q)%Qc -> (q <= b)%Qc -> c_y c (Fin q) = Ok (f q)) ->
  let n := Z.to_nat (Qcfloor ((b - a) / m)) in
  (n + 1 < fuel)%nat ->
  sample_points fuel c domain ms None =
    Ok ((if i_so (sampled_domain c domain) then [] else [(Fin a, f a)]) ++
        map (fun i => (Fin (a + QcofZ (Z.of_nat i) * m)%Qc, f (a + QcofZ (Z.of_nat i) * m)%Qc)) (seq 1 n) ++
        (if Qceqb (a + QcofZ (Z.of_nat n) * m) b then [] else [(Fin b, f b)])).
Proof. exact (fun V c => sample_grid c). Qed.
Print Assumptions C20_default_grid.
Example C20_default_grid_ex : no_tie (QcofZ 0 / QcofZ 1)%Qc /\ base_stepping ident_crv /\
  sample_points 10 ident_crv (Some (iv (fz 0) (fr 5 2) false false)) (Some (fz 1)) None =
    Ok [(fz 0, nv 0); (fz 1, nv 1); (fz 2, nv 2); (fr 5 2, Some (fr 5 2))].
Proof. split; [apply no_tieb_sound; vm_compute; reflexivity|]. split; [exact ident_base|exact ident_closed_ex]. Qed.

Theorem C20_empty : forall (V : Type) (c : crv xq V) fuel domain ms step,
  i_is_empty (sampled_domain c domain) = true -> sample_points fuel c domain ms step = Ok [].
Proof. exact (fun V c fuel => sample_empty fuel c). Qed.
Print Assumptions C20_empty.
Theorem C20_infinite : forall (V : Type) (c : crv xq V) fuel domain ms step,
  i_is_empty (sampled_domain c domain) = false -> i_is_finite (sampled_domain c domain) = false ->
  sample_points fuel c domain ms step = Err EExc.
Proof. exact (fun V c fuel => sample_infinite fuel c). Qed.
Print Assumptions C20_infinite.
Example C20_empty_infinite_ex :
  i_is_empty (sampled_domain ident_crv (Some (iv (fz 1) (fz 1) true false))) = true /\
  i_is_empty (sampled_domain ident_crv None) = false /\ i_is_finite (sampled_domain ident_crv None) = false.
Proof. repeat split; vm_compute; reflexivity. Qed.

(** the code breaks the property: the end of a right-open request is returned *)
Theorem C20_open_end_refuted : exists (c : crv xq (option xq)) d pts x y,
  base_stepping c /\ sample_points 10 c (Some d) (Some (fz 1)) None = Ok pts /\ In (x, y) pts /\ ~ imem d x.
Proof. exact open_end_refutes. Qed.
Print Assumptions C20_open_end_refuted.
(** a start half way between two multiples of min_step makes the loop raise *)
Theorem C20_tie_refuted : exists (c : crv xq (option xq)) d, base_stepping c /\
  (forall q, c_y c (Fin q) = Ok (Some (Fin q))) /\ i_is_finite d = true /\
  forall fuel, sample_points (4 + fuel) c (Some d) (Some (fz 1)) None = Err EExc.
Proof. exact (ex_intro _ ident_crv (ex_intro _ (iv (fr 1 2) (fr 7 2) false false) (conj ident_base (conj (fun q => eq_refl) (conj eq_refl ident_tie_all))))). Qed.
Print Assumptions C20_tie_refuted.
(** a one-point domain is returned twice *)
Theorem C20_point_refuted : exists (c : crv xq (option xq)) d p, base_stepping c /\
  sample_points 10 c (Some d) (Some MIN_STEP) None = Ok [p; p].
Proof. exact (ex_intro _ ident_crv (ex_intro _ (iv (fz 1) (fz 1) false false) (ex_intro _ (fz 1, nv 1) (conj ident_base ident_point_ex)))). Qed.
Print Assumptions C20_point_refuted.
(** a left-open request without a stored point inside raises IndexError on a Points curve *)
Theorem C20_index_refuted : exists (s : pts xq (option xq)) d m, honest_history s /\ iok d /\
  p_sample_points 10 s (Some d) (Some m) None = Err EIndex.
Proof.
  exact (ex_intro _ ex_u (ex_intro _ (iv (fr 1 2) (fr 3 2) true false) (ex_intro _ (fz 2)
    (conj ex_u_honest (conj (conj (notnan_fin _) (notnan_fin _)) points_index_ex))))).
Qed.
Print Assumptions C20_index_refuted.

(** ** C21 sample_points_from_x *)
Theorem C21_open_walk : forall (V : Type) (isnone : V -> bool) (c : crv xq V) x limit backward ms l,
  sample_points_from_x isnone c x limit backward true ms = Ok l ->
  let d := if (limit <? 0)%Z then negb backward else backward in
  let s := resolve_min_step (c_ms c) ms in
  linked isnone c d s x l /\ (length l <= Z.abs_nat limit)%nat /\
  (length l < Z.abs_nat limit -> stuck isnone c d s (walk_end x l))%nat.
Proof. exact (fun V isnone c => walk_open isnone c). Qed.
Print Assumptions C21_open_walk.
Theorem C21_closed_walk_partial : forall (V : Type) (isnone : V -> bool) (c : crv xq V) x limit backward ms l y,
  c_y c x = Ok y -> isnone y = false -> limit <> 0%Z ->
  sample_points_from_x isnone c x limit backward false ms = Ok l ->
  let d := if (limit <? 0)%Z then negb backward else backward in
  let s := resolve_min_step (c_ms c) ms in
  linked isnone c d s x l /\ (length l <= Z.abs_nat limit - 1)%nat /\
  (length l < Z.abs_nat limit - 1 -> stuck isnone c d s (walk_end x l))%nat.
Proof. exact (fun V isnone c => walk_closed isnone c). Qed.
Print Assumptions C21_closed_walk_partial.
Example C21_ex :
  sample_points_from_x onone (p_crv ex_u) (fz 1) 2 false true (Some MIN_STEP) = Ok [(fz 2, nv 2); (fz 3, nv 9)] /\
  sample_points_from_x onone (p_crv ex_u) (fz 2) (-5) false true (Some MIN_STEP) = Ok [(fz 1, nv 1); (fz 0, nv 0)].
Proof. split; [exact walk_ex|exact walk_neg_ex]. Qed.
(** open=False does not return the point at x itself *)
Theorem C21_closed_refuted : exists (s : pts xq (option xq)) x v, honest_history s /\ In (x, Some v) (p_pts s) /\
  exists l, sample_points_from_x onone (p_crv s) x 2 false false (Some MIN_STEP) = Ok l /\ length l = 1%nat /\ ~ In (x, Some v) l.
Proof. exact walk_closed_refutes. Qed.
Print Assumptions C21_closed_refuted.
(** the default min_step=None raises on a curve without a min_step of its own *)
Theorem C21_default_step_refuted : exists c : crv xq (option xq), base_stepping c /\ c_dom c = i_infinite /\
  sample_points_from_x onone c (fz 1) 2 false true None = Err EType.
Proof. exact (ex_intro _ ident_crv (conj ident_base (conj eq_refl walk_default_ex))). Qed.
Print Assumptions C21_default_step_refuted.

(** ** C22 d_y *)
Theorem C22_quotient : forall (c : crv xq (option xq)) (fw : bool) ms lim (p q u v : Qc),
  (if fw then c_next c (Fin p) (resolve_min_step (c_ms c) ms) lim
   else c_prev c (Fin p) (resolve_min_step (c_ms c) ms) lim) = Ok (Some (Fin q)) ->
  c_y c (Fin q) = Ok (Some (Fin v)) -> c_y c (Fin p) = Ok (Some (Fin u)) -> p <> q ->
  d_y c (Fin p) fw ms lim = Ok (Some (Fin ((v - u) / (q - p))%Qc)).
Proof. exact (fun c fw ms lim p q u v N Y1 Y0 H => dy_quotient c (Fin p) fw ms lim (Fin q) (Fin v) (Fin u) p q u v N Y1 Y0 eq_refl eq_refl eq_refl eq_refl H). Qed.
Print Assumptions C22_quotient.
Theorem C22_none : forall (c : crv xq (option xq)) x (fw : bool) ms lim,
  d_y c x fw ms lim = Ok None <->
  exists x1, (if fw then c_next c x (resolve_min_step (c_ms c) ms) lim
              else c_prev c x (resolve_min_step (c_ms c) ms) lim) = Ok x1 /\
    match x1 with
    | None => True
    | Some x1 => c_y c x1 = Ok None \/ (exists y1, c_y c x1 = Ok (Some y1)) /\ c_y c x = Ok None
    end.
Proof. exact dy_none. Qed.
Print Assumptions C22_none.
Theorem C22_points_forward : forall (s : pts xq (option xq)) l1 a u b v l2 q m lim, honest_history s ->
  p_pts s = l1 ++ (Fin a, Some (Fin u)) :: (Fin b, Some (Fin v)) :: l2 ->
  (a <= q)%Qc -> (0 < m)%Qc -> (q + m <= b)%Qc -> p_interp s = ILinear \/ q = a ->
  d_y (p_crv s) (Fin q) true (Some (Fin m)) lim = Ok (Some (Fin ((v - u) / (b - a))%Qc)).
Proof. exact dy_points_forward. Qed.
Print Assumptions C22_points_forward.
Theorem C22_points_backward : forall (s : pts xq (option xq)) l1 a u b v l2 q m lim, honest_history s ->
  p_pts s = l1 ++ (Fin a, Some (Fin u)) :: (Fin b, Some (Fin v)) :: l2 ->
  (q <= b)%Qc -> (0 < m)%Qc -> (a <= q - m)%Qc -> p_interp s = ILinear \/ q = b ->
  d_y (p_crv s) (Fin q) false (Some (Fin m)) lim = Ok (Some (Fin ((v - u) / (b - a))%Qc)).
Proof. exact dy_points_backward. Qed.
Print Assumptions C22_points_backward.
Example C22_ex : honest_history ex_u /\ p_interp ex_u = ILinear /\
  d_y (p_crv ex_u) (fr 5 2) true (Some MIN_STEP) None = Ok (nv 7) /\
  d_y (p_crv ex_u) (fz 3) false (Some MIN_STEP) None = Ok (nv 7) /\
  d_y (p_crv ex_u) (fz 3) true (Some MIN_STEP) None = Ok None.
Proof. split; [exact ex_u_honest|]. split; [reflexivity|]. repeat split; apply is_opt_eq; vm_compute; reflexivity. Qed.

(** ** C23 get_range *)
Theorem C23_range : forall (l : list (xq * option xq)) vs, map snd l = map Some vs -> Forall notnan vs ->
  match vs with
  | [] => range_of_points l = Ok i_empty
  | _ => exists lo hi, range_of_points l = Ok (i_closed lo hi) /\ In lo vs /\ In hi vs /\
           Forall (fun v => le_x lo v /\ le_x v hi) vs
  end.
Proof. exact range_spec. Qed.
Print Assumptions C23_range.
Theorem C23_get_range : forall fuel (c : crv xq (option xq)) domain ms step l,
  sample_points fuel c domain ms step = Ok l -> get_range fuel c domain ms step = range_of_points l.
Proof. exact (fun fuel c domain ms step l E => f_equal (fun r => rbind r range_of_points) E). Qed.
Print Assumptions C23_get_range.
Example C23_ex : range_of_points (T := xq) [(fz 0, nv 3); (fz 1, nv (-2)); (fz 2, nv 7)] = Ok (i_closed (fz (-2)) (fz 7)).
Proof. vm_compute. reflexivity. Qed.
(** None values are not handled: leading ones are dropped, later ones raise *)
Theorem C23_none_refuted :
  (exists (l : list (xq * option xq)) i, In (fz 0, None) l /\ range_of_points l = Ok i /\ i = i_closed (fz 5) (fz 5)) /\
  (exists l : list (xq * option xq), In (fz 0, nv 5) l /\ range_of_points l = Err EType).
Proof.
  exact (conj (ex_intro _ [(fz 0, None); (fz 1, nv 5)] (ex_intro _ _ (conj (or_introl eq_refl) (conj eq_refl eq_refl))))
              (ex_intro _ [(fz 0, nv 5); (fz 1, None)] (conj (or_introl eq_refl) eq_refl))).
Qed.
Print Assumptions C23_none_refuted.

(** ** C24 minimise / maximise *)
Theorem C24_minimise_stops : forall (c : crv xq (option xq)) ms step n x p,
  finite_values c -> strict_neighbours c ->
  minimise n c x ms step = Ok (Some (Fin p)) -> stopped_at c ms step Qclt n x p.
Proof. exact minimise_stops. Qed.
Print Assumptions C24_minimise_stops.
Theorem C24_maximise_stops : forall (c : crv xq (option xq)) ms step n x p,
  finite_values c -> strict_neighbours c ->
  maximise n c x ms step = Ok (Some (Fin p)) -> stopped_at c ms step (fun a b => b < a)%Qc n x p.
Proof. exact maximise_stops. Qed.
Print Assumptions C24_maximise_stops.
Theorem C24_points_meet_hypotheses : forall s : pts xq (option xq), honest_history s -> finite_points s ->
  finite_values (p_crv s) /\ strict_neighbours (p_crv s).
Proof. exact (fun s H F => conj (points_finite_values s H F) (points_strict s H)). Qed.
Print Assumptions C24_points_meet_hypotheses.
Example C24_ex : uniform_history vee /\ finite_points vee /\ minimise 1000 (p_crv vee) (fz 0) (Some MIN_STEP) None = Ok (Some (fz 1)) /\
  uniform_history peak /\ finite_points peak /\ maximise 1000 (p_crv peak) (fz 2) (Some MIN_STEP) None = Ok (Some (fz 1)).
Proof. exact (conj vee_hist (conj vee_finite (conj vee_min (conj peak_hist (conj peak_finite peak_max))))). Qed.
(** where the curve rises (or falls) strictly from position to position up to a
    peak, maximise walks there and stops, given the iterations; [goes] is one step
    forwards or backwards, by [step] or to the neighbour *)
Theorem C24_climbs : forall (c : crv xq (option xq)) ms step (forward : bool) (p : nat -> Qc) (k n : nat), (k < n)%nat ->
  (forall i, (i < k)%nat -> goes c ms step forward (p i) (p (S i)) /\
     exists d0 d1, slopes c (p i) d0 d1 /\ (if forward then 0 < d0 /\ 0 < d1 else d0 < 0 /\ d1 < 0)%Qc) ->
  (exists d0 d1, slopes c (p k) d0 d1 /\ (0 < d0)%Qc /\ (d1 < 0)%Qc) ->
  maximise n c (Fin (p O)) ms step = Ok (Some (Fin (p k))).
Proof. exact (fun c ms step forward p k n L H P => max_walk c ms step forward k n p None L H P). Qed.
Print Assumptions C24_climbs.
Example C24_climbs_ex : (forall i, (i < 2)%nat -> goes (p_crv hill) (Some MIN_STEP) None true (up_hill i) (up_hill (S i)) /\
    exists d0 d1, slopes (p_crv hill) (up_hill i) d0 d1 /\ (0 < d0 /\ 0 < d1)%Qc) /\
  (exists d0 d1, slopes (p_crv hill) (up_hill 2) d0 d1 /\ (0 < d0)%Qc /\ (d1 < 0)%Qc) /\ maximise 9 (p_crv hill) (fz 1) (Some MIN_STEP) None = Ok (Some (fz 3)).
Proof. exact hill_climbs. Qed.
Theorem C24_descends : forall (c : crv xq (option xq)) ms step (forward : bool) (p : nat -> Qc) (k n : nat), (k < n)%nat ->
  (forall i, (i < k)%nat -> goes c ms step forward (p i) (p (S i)) /\
     exists d0 d1, slopes c (p i) d0 d1 /\ (if forward then d0 < 0 /\ d1 < 0 else 0 < d0 /\ 0 < d1)%Qc) ->
  (exists d0 d1, slopes c (p k) d0 d1 /\ (d0 < 0)%Qc /\ (0 < d1)%Qc) ->
  minimise n c (Fin (p O)) ms step = Ok (Some (Fin (p k))).
Proof. exact (fun c ms step forward p k n L H P => min_walk c ms step forward k n p None L H P). Qed.
Print Assumptions C24_descends.
Example C24_descends_ex : (forall i, (i < 2)%nat -> goes (p_crv dip) (Some MIN_STEP) None true (up_hill i) (up_hill (S i)) /\
    exists d0 d1, slopes (p_crv dip) (up_hill i) d0 d1 /\ (d0 < 0 /\ d1 < 0)%Qc) /\
  (exists d0 d1, slopes (p_crv dip) (up_hill 2) d0 d1 /\ (d0 < 0)%Qc /\ (0 < d1)%Qc) /\ minimise 9 (p_crv dip) (fz 1) (Some MIN_STEP) None = Ok (Some (fz 3)).
Proof. exact dip_descends. Qed.
(** on a flat bottom the search goes back and forth and can end on a point that is not a minimum *)
Theorem C24_plateau_refuted : exists s : npts, uniform_history s /\ exists p q : Qc,
    c_next (p_crv s) (Fin p) (Some MIN_STEP) None = Ok (Some (Fin q)) /\
    (exists u v, p_y s (Fin p) = Ok (Some (Fin u)) /\ p_y s (Fin q) = Ok (Some (Fin v)) /\ (v < u)%Qc) /\
    forall n, minimise (n + n) (p_crv s) (Fin p) (Some MIN_STEP) None = Ok (Some (Fin p)).
Proof. exact plateau_refutes. Qed.
Print Assumptions C24_plateau_refuted.
(** the search may step off the curve and evaluate y(None) *)
Theorem C24_off_curve_refuted : exists (s : npts) x m, uniform_history s /\ minimise 1000 (p_crv s) x (Some m) None = Err EType.
Proof. exact (ex_intro _ vee (ex_intro _ (fz 0) (ex_intro _ (fz 5) (conj vee_hist vee_type)))). Qed.
Print Assumptions C24_off_curve_refuted.
