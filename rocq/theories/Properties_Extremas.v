(** C42: extremas. *)
From Coq Require Import List ZArith QArith Qcanon Bool Lia Sorting.Sorted.
From Verif Require Import Base Num NumFacts Interval Curve Points PointsSpec PointsDec PointsOps PointsRefute Scan ScanTf ScanEx TrendEx Extremas ExtremasFold ExtremasUniq ExtremasVal ExtremasInv ExtremasEx.
Import ListNotations.
Open Scope Qc_scope.

(** The points fed to _extrema_scan that deviate enough fall into runs on
    alternating sides of the reference: every run but the last has given one
    extrema, its first most extreme point, and the last run gives the possible one. *)
Theorem C42_runs : forall dev R l, 0 <= dev -> Forall (ref_nonzero R) l ->
  exists e exts poss, feed dev R ex_init l = (e, Ok tt) /\ x_ext e = map fqp exts /\ x_poss e = option_map fqp poss /\
    extremas_of dev R l exts poss.
Proof. exact feed_spec. Qed.
Print Assumptions C42_runs.
Example C42_runs_ex : fed (feed tenth ten ex_init (zs seven)) [(1,15);(5,7)]%Z (6,13)%Z = true /\
  extremas_of tenth ten (zs seven) (zd [(1,15);(5,7)]%Z) (Some (QcofZ 6, QcofZ 13)).
Proof. split; [vm_compute; reflexivity|exact seven_extremas]. Qed.
Theorem C42_unique : forall dev R l e p e' p', extremas_of dev R l e p -> extremas_of dev R l e' p' -> e = e' /\ p = p'.
Proof. exact extremas_unique. Qed.
Print Assumptions C42_unique.
Example C42_unique_ex : forall e p, extremas_of tenth ten (zs seven) e p -> e = zd [(1,15);(5,7)]%Z.
Proof. exact (fun e p H => proj1 (extremas_unique _ _ _ _ _ _ _ H seven_extremas)). Qed.

(** Ascending x, all of them points of the source that deviate enough. *)
Theorem C42_ascending : forall dev R l es p, StronglySorted slt l -> extremas_of dev R l es p ->
  StronglySorted xlt es /\ (forall q, In q es -> In (fst q, Some (snd q)) l /\ deviates dev R q) /\
  (forall q, p = Some q -> In (fst q, Some (snd q)) l /\ deviates dev R q /\ forall q', In q' es -> xlt q' q).
Proof. exact extremas_sound. Qed.
Print Assumptions C42_ascending.
Example C42_ascending_ex : StronglySorted slt (zs seven) /\ deviates tenth ten (QcofZ 5, QcofZ 7).
Proof. exact (conj seven_sorted (proj2 (proj1 (proj2 (extremas_sound _ _ _ _ _ seven_sorted seven_extremas)) (QcofZ 5, QcofZ 7) (or_intror (or_introl eq_refl))))). Qed.
Theorem C42_alternate : forall dev R l es p i q q', extremas_of dev R l es (Some p) ->
  nth_error (es ++ [p]) i = Some q -> nth_error (es ++ [p]) (S i) = Some q' -> crosses R q q'.
Proof. exact extremas_alternate. Qed.
Print Assumptions C42_alternate.
Example C42_alternate_ex : crosses ten (QcofZ 1, QcofZ 15) (QcofZ 5, QcofZ 7) /\ crosses ten (QcofZ 5, QcofZ 7) (QcofZ 6, QcofZ 13).
Proof. exact (conj (extremas_alternate _ _ _ _ _ 0 _ _ seven_extremas eq_refl eq_refl) (extremas_alternate _ _ _ _ _ 1 _ _ seven_extremas eq_refl eq_refl)). Qed.

(** More points only add extremas. *)
Theorem C42_prefix : forall dev R l1 l2 e1 p1 e2 p2, 0 <= dev -> Forall (ref_nonzero R) l2 ->
  extremas_of dev R l1 e1 p1 -> extremas_of dev R (l1 ++ l2) e2 p2 -> exists t, e2 = e1 ++ t.
Proof. exact extremas_prefix. Qed.
Print Assumptions C42_prefix.
Example C42_prefix_ex : extremas_of tenth ten (zs four) (zd [(1,15)]%Z) (Some (QcofZ 3, QcofZ 8)) /\
  zs seven = zs four ++ zs [(4,11);(5,7);(6,13)]%Z.
Proof. exact (conj four_extremas eq_refl). Qed.

(** A new Extremas over a Points source, asked for y any number of times in any
    order: every answer is interpolated from the extremas of all the points. *)
Theorem C42_value : forall m, 0 < m -> forall dev, 0 <= dev -> forall R s l fuel qs es p,
  ex_source m R s l -> (length l < fuel)%nat -> extremas_of dev R l es p ->
  exists e vs k, queries m dev R fuel s ex_init qs = (e, map Ok vs) /\ Forall2 (value ILinear (map fop es)) qs vs /\
    ex_inv dev R s l e k.
Proof. exact ex_queries. Qed.
Print Assumptions C42_value.
Example C42_value_ex : ex_source min_step ten src7 (zs seven) /\
  match ex_y 50 (p_crv src7) own1 (Fin tenth) (ref_fun ten) ex_init (fz 3) with (_, Ok (Some v)) => xq_eqb v (fz 11) | _ => false end = true.
Proof. split; [exact src7_ok|vm_compute; reflexivity]. Qed.

(** Inside the interval of the extremas x_next and x_previous step between them. *)
Theorem C42_next : forall c own e es x ms lim m, StronglySorted xlt es -> x_ext e = map fqp es -> x_int e = ext_interval (x_ext e) ->
  resolve_min_step own ms = Some (Fin m) ->
  (forall a z, head_opt es = Some a -> last_opt es = Some z -> fst a <= x + m /\ x + m <= fst z) -> es <> [] ->
  exists p, ex_next c own e (Fin x) ms lim = Ok (Some (Fin (fst p))) /\ In p es /\ x + m <= fst p /\
    forall p', In p' es -> x + m <= fst p' -> fst p <= fst p'.
Proof. exact next_extrema. Qed.
Print Assumptions C42_next.
Theorem C42_previous : forall c own e es x ms lim m, StronglySorted xlt es -> x_ext e = map fqp es -> x_int e = ext_interval (x_ext e) ->
  resolve_min_step own ms = Some (Fin m) ->
  (forall a z, head_opt es = Some a -> last_opt es = Some z -> fst a <= x - m /\ x - m <= fst z) -> es <> [] ->
  exists p, ex_prev c own e (Fin x) ms lim = Ok (Some (Fin (fst p))) /\ In p es /\ fst p <= x - m /\
    forall p', In p' es -> fst p' <= x - m -> fst p' <= fst p.
Proof. exact prev_extrema. Qed.
Print Assumptions C42_previous.
Example C42_next_ex :
  ex_next (p_crv src7) own1 (ask src7 ex_init 6) (fz 2) None None = Ok (Some (fz 5)) /\
  ex_prev (p_crv src7) own1 (ask src7 ex_init 6) (fz 4) None None = Ok (Some (fz 1)).
Proof. vm_compute. auto. Qed.

(** An update, of the source or of the reference, removes exactly the extremas
    inside it; scanning resumes at the last one left, or from the beginning. *)
Theorem C42_pruned : forall r e es D e' out, StronglySorted xlt es -> x_ext e = map fqp es -> x_int e = ext_interval (x_ext e) ->
  ex_begin r e D = (e', out, Ok tt) ->
  x_ext e' = map fqp (filter (fun p => negb (i_contains D (Fin (fst p)))) es) /\
  x_int e' = ext_interval (x_ext e') /\ x_cur e' = option_map fst (last_opt (x_ext e')) /\ x_start e' = x_start e.
Proof. exact pruned. Qed.
Print Assumptions C42_pruned.
Example C42_pruned_ex : x_ext (ask src7 ex_init 6) = map fqp (zd [(1,15);(5,7)]%Z) /\ StronglySorted xlt (zd [(1,15);(5,7)]%Z) /\
  x_int (ask src7 ex_init 6) = ext_interval (x_ext (ask src7 ex_init 6)) /\
  peqb (x_ext (fst (fst b02))) (zp [(5,7)]%Z) = true /\ x_cur (fst (fst b02)) = Some (fz 5) /\ snd b02 = Ok tt.
Proof. exact pruned_ex. Qed.
(** An update of the source that removes every extrema starts afresh ... *)
Theorem C42_restart : forall dev R s l e k s' l' es po D d, ex_inv dev R s l e k -> holds R e es po -> extremas_of dev R (firstn k l) es po ->
  (po = None \/ es <> []) -> i_start D = Fin d ->
  (forall p, In p es -> i_contains (update_interval D) (Fin (fst p)) = true) ->
  (forall c, x_cur e = Some (Fin c) -> d < c \/ (i_so D = false /\ d = c)) ->
  exists e', ex_events (ref_fun R) e [EvBegin D; EvEnd D] = (e', [EvBegin (update_interval D); EvEnd (update_interval D)], Ok tt) /\
    ex_inv dev R s' l' e' 0.
Proof. exact restart. Qed.
Print Assumptions C42_restart.
Example C42_restart_ex : exists e k es po, ex_inv tenth ten src7 (zs seven) e k /\ holds ten e es po /\
  extremas_of tenth ten (firstn k (zs seven)) es po /\ x_ext e = zp [(1,15);(5,7)]%Z /\ es <> [] /\
  (forall p, In p es -> i_contains (update_interval (i_closed (fz 0) (fz 1))) (Fin (fst p)) = true).
Proof. exact restart_ex. Qed.
(** ... and one that keeps an extrema makes it the possible one again, so that the
    next point on the other side confirms it a second time. *)
Theorem C42_kept : forall (T : Type) (N : Num T) (r : T -> res (option T)) e D e' out p, ex_begin r e D = (e', out, Ok tt) -> last_opt (x_ext e') = Some p ->
  x_poss e' = Some p /\ x_cur e' = Some (fst p) /\ exists y0, r (fst p) = Ok (Some y0) /\ x_phase e' = Some (n_sub (snd p) y0).
Proof. exact (fun T N => kept_is_possible). Qed.
Print Assumptions C42_kept.
Example C42_kept_ex : snd b34 = Ok tt /\ last_opt (x_ext (fst (fst b34))) = Some (fz 5, fz 7) /\ x_phase (fst (fst b34)) = Some (fz (-3)).
Proof. exact kept_ex. Qed.
Theorem C42_repeat_refuted : forall dev R e x y y0 p ph, x_poss e = Some (fqp p) -> x_phase e = Some (Fin ph) ->
  last_opt (x_ext e) = Some (fqp p) -> R x = Some y0 -> y0 <> 0 -> deviates dev R (x, y) -> ph * (y - y0) < 0 ->
  exists e' l, extrema_scan (Fin dev) (ref_fun R) e (Fin x) (Some (Fin y)) = (e', Ok tt) /\ x_ext e' = l ++ [fqp p; fqp p].
Proof. exact repeats. Qed.
Print Assumptions C42_repeat_refuted.
Example C42_repeat_refuted_ex :
  peqb (x_ext (fst (extrema_scan (Fin tenth) (ref_fun ten) (fst (fst b34)) (fz 7) (Some (fz 13))))) (zp [(1,15);(5,7);(5,7)]%Z) = true.
Proof. vm_compute. reflexivity. Qed.
Theorem C42_append_refuted : exists s q v s' evs e e' e'' x, good s /\ p_append s (Fin q, v) = (s', evs, Ok tt) /\
  e = fst (ex_y 50 (p_crv s) own1 (Fin tenth) (ref_fun ten) ex_init (fz 1)) /\ e' = fst (fst (ex_events (ref_fun ten) e evs)) /\
  e'' = fst (ex_y 50 (p_crv s') own1 (Fin tenth) (ref_fun ten) e' x) /\
  exists l p, x_ext e'' = l ++ [p; p; (fz 2, fz 12)].
Proof. exact append_repeats. Qed.
Print Assumptions C42_append_refuted.
(** A possible extrema survives the replacement of the points it came from. *)
Theorem C42_ghost_refuted : exists s l s' evs e e' e'' x p, good s /\ p_set s l None = (s', evs, Ok tt) /\ p_pts s' = l /\
  e = fst (ex_y 50 (p_crv s) own1 (Fin tenth) (ref_fun ten) ex_init (fz 1)) /\ e' = fst (fst (ex_events (ref_fun ten) e evs)) /\
  e'' = fst (ex_y 50 (p_crv s') own1 (Fin tenth) (ref_fun ten) e' x) /\
  head_opt (x_ext e'') = Some p /\ ~ In (fst p, Some (snd p)) l.
Proof. exact set_leaves_ghost. Qed.
Print Assumptions C42_ghost_refuted.
(** A zero of the reference raises. *)
Theorem C42_zero_refuted : forall dev R e x y, R x = Some 0 ->
  extrema_scan (Fin dev) (ref_fun R) e (Fin x) (Some (Fin y)) = (e, Err EZeroDiv).
Proof. exact zero_reference. Qed.
Print Assumptions C42_zero_refuted.
(** _i is one more than the position between two extremas. *)
Theorem C42_index_refuted : forall e es q i p1 p2, StronglySorted xlt es -> x_ext e = map fqp es -> x_int e = ext_interval (x_ext e) ->
  nth_error es i = Some p1 -> nth_error es (S i) = Some p2 -> fst p1 < q -> q < fst p2 ->
  ex_index e (Fin q) = Ok (Some (Fin (QcofZ (Z.of_nat i) + 1 + (q - fst p1) / (fst p2 - fst p1)))).
Proof. exact index_value. Qed.
Print Assumptions C42_index_refuted.
Example C42_index_refuted_ex : match idx7 with Ok (Some v) => xq_eqb v (fr 5 4) | _ => false end = true.
Proof. exact idx7_ex. Qed.
