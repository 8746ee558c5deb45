(** C63 and C64: reading, extending and copying trend lines, and their crossings. *)
From Coq Require Import List ZArith QArith Qcanon Bool Lia Sorting.Sorted.
From Verif Require Import Base Num NumFacts Interval Points PointsDec Trend TrendGeo TrendPred TrendPredFacts TrendLineInv TrendCol TrendTop TrendEx TrendMore TrendMoreFacts TrendCross TrendMoreEx.
Import ListNotations.
Open Scope Qc_scope.

(** ** C63 *)
(** line_extended keeps the first point of the line and ends on the line, at the
    least of: the greater of the line's end and the crossing asked for,
    stretched by the multiple; the greatest width; the crossing after the one
    asked for. *)
Theorem C63_extend : forall (t : tl xq) l cs mult mx k, t_line t = Some (fs l) -> fst (fst l) <> fst (snd l) ->
  t_cross t = map fp cs -> (forall k', k = Some k' -> cs = [] -> (-1 <= k')%Z) ->
  exists c nx far x y,
    line_extended t (fo mult) (fo mx) k = Ok (Some (fp (fst l), (Fin x, Some (Fin y)))) /\ on_seg l (x, y) /\
    aims cs k c nx /\ greatest far (fst (snd l) :: ox c) /\
    least x (stretched (fst (fst l)) far mult :: capped (fst (fst l)) mx ++ ox nx).
Proof. exact extended_spec. Qed.
Print Assumptions C63_extend.
Example C63_extend_ex :
  extb (wrun wave) None None (Some 0%Z) (fz 8) (fz 10) = true /\
  extb (wrun wave) (Some (fz 2)) None (Some 0%Z) (fz 12) (fz 10) = true /\
  extb (wrun wave) (Some (fz 3)) (Some (fz 20)) (Some (-1)%Z) (fz 20) (fz 10) = true /\
  extb (wrun wave) (Some (fr 5 2)) None None (fz 10) (fz 10) = true.
Proof. chk. Qed.

(** With nothing asked for it is the line. *)
Theorem C63_extend_whole : forall (t : tl xq) l, t_line t = Some (fs l) -> fst (fst l) <> fst (snd l) ->
  line_extended t None None None = Ok (Some (fp (fst l), (Fin (fst (snd l)), Some (Fin (snd (snd l)))))).
Proof. exact extended_whole. Qed.
Print Assumptions C63_extend_whole.

(** An index counted from the end, other than the last, raises on a line that
    was not crossed. *)
Theorem C63_index_refuted : forall T (N : Num T) (t : tl T) mult mx k, is_ready t = true -> t_cross t = [] -> (k <= -2)%Z ->
  line_extended t mult mx (Some k) = Err EIndex.
Proof. exact (fun T N t mult mx k => extended_raises t mult mx k). Qed.
Print Assumptions C63_index_refuted.
Example C63_index_ex : has (wrun (firstn 3 wave)) (fun t => is_ready t && match t_cross t with [] => true | _ => false end &&
  match line_extended t None None (Some (-2)%Z) with Err EIndex => true | _ => false end &&
  match line_extended t None None (Some (-1)%Z) with Ok _ => true | _ => false end) = true.
Proof. vm_compute. reflexivity. Qed.

(** The sequence protocol: len, indexing and iteration agree; without a line
    indexing raises TypeError. *)
Theorem C63_sequence : forall T (N : Num T) (t : tl T),
  length (tl_iter t) = tl_len t /\
  (forall i p, nth_error (tl_iter t) i = Some p -> tl_item t (Z.of_nat i) = Ok p /\
     tl_item t (Z.of_nat i - Z.of_nat (tl_len t)) = Ok p) /\
  (is_ready t = true -> forall i, (2 <= i \/ i < -2)%Z -> tl_item t i = Err EIndex) /\
  (is_ready t = false -> forall i, tl_item t i = Err EType).
Proof. exact (fun T N t => sequence_spec t). Qed.
Print Assumptions C63_sequence.
Example C63_sequence_ex : has (wrun wave) (fun t => Nat.eqb (tl_len t) 2 && peqb (tl_iter t) (zp [(0,10);(4,10)]%Z)) = true /\
  tl_len (T := xq) tl0 = 0%nat.
Proof. chk. Qed.

(** x and y undo each other on a line that is neither vertical nor level. *)
Theorem C63_round : forall (t : tl xq) l x, t_line t = Some (fs l) -> fst (fst l) <> fst (snd l) -> snd (fst l) <> snd (snd l) ->
  (exists y, tl_y t (Fin x) = Ok (Fin y) /\ tl_x t (Fin y) = Ok (Some (Fin x))) /\
  (exists y, tl_x t (Fin x) = Ok (Some (Fin y)) /\ tl_y t (Fin y) = Ok (Fin x)).
Proof. exact line_round. Qed.
Print Assumptions C63_round.
Example C63_round_ex : has (wrun six) (fun t => match tl_y t (fz 7) with Ok y => xq_eqb y (fz 15) | Err _ => false end &&
  match tl_x t (fz 15) with Ok (Some x) => xq_eqb x (fz 7) | _ => false end) = true.
Proof. vm_compute. reflexivity. Qed.

(** A copy reads as the original does ... *)
Theorem C63_copy : forall T (N : Num T) (g : cfg T) (t c : tl T), tl_copy t = Ok c ->
  is_ready c = true /\ is_valid g c = is_valid g t /\ width c = width t /\ tl_len c = tl_len t /\ tl_iter c = tl_iter t /\
  (forall i, tl_item c i = tl_item t i) /\ (forall x, tl_y c x = tl_y t x) /\ (forall y, tl_x c y = tl_x t y) /\
  (forall mult mx k, line_extended c mult mx k = line_extended t mult mx k).
Proof. exact (fun T N g t c => copy_reads g t c). Qed.
Print Assumptions C63_copy.
(** ... and takes points as the original does while that is not valid ... *)
Theorem C63_copy_append : forall T (N : Num T) (eps gold gold2 : T) polyfit (g : cfg T) (t c : tl T) p under,
  tl_copy t = Ok c -> is_valid g t = false -> i_contains (t_int t) (fst p) = true ->
  did_append eps gold gold2 polyfit g c p under = did_append eps gold gold2 polyfit g t p under.
Proof. exact (fun T N eps gold gold2 polyfit g t c p under => copy_append eps gold gold2 polyfit g t c p under). Qed.
Print Assumptions C63_copy_append.
(** ... but once it is valid the copy raises on the next point in the search
    interval, and a line without two points cannot be copied. *)
Theorem C63_copy_refuted : forall T (N : Num T) (eps gold gold2 : T) polyfit (g : cfg T) (t : tl T),
  (is_ready t = false -> tl_copy t = Err EType) /\
  (forall c p, tl_copy t = Ok c -> i_contains (t_int t) (fst p) = true ->
     (exists e, on_trend c p = Err e) /\
     (is_valid g t = true -> forall under, exists e, did_append eps gold gold2 polyfit g c p under = Err e)).
Proof.
  exact (fun T N eps gold gold2 polyfit g t => conj (copy_raises t) (fun c p C I =>
    conj (copy_on_trend t c p C I) (fun V under => copy_append_raises eps gold gold2 polyfit g t c p under C V I))).
Qed.
Print Assumptions C63_copy_refuted.
Example C63_copy_ex : has (wrun wave) (fun t => is_valid (lcfg true 2) t && i_contains (t_int t) (fz 20) &&
  match tl_copy t with
  | Ok c => match did_append ceps cgold cgold2 fitted (lcfg true 2) c (fz 20, fz 10) (zp wave) with Err _ => true | Ok _ => false end
  | Err _ => false
  end && match did_append ceps cgold cgold2 fitted (lcfg true 2) t (fz 20, fz 10) (zp wave) with Ok (_, b) => b | Err _ => false end) = true /\
  has (wrun (firstn 2 wave)) (fun t => negb (is_valid (lcfg true 3) t) && i_contains (t_int t) (fz 2) &&
    match tl_copy t with Ok c => true | Err _ => false end) = true.
Proof. chk. Qed.

(** The lines at a position are the lines whose search interval holds it, the
    lower ones first. *)
Theorem C63_select : forall T (N : Num T) (g : cfg T) (r : trend T) x,
  trend_upper g r (Some x) = filter (fun t => i_contains (t_int t) x) (trend_upper g r None) /\
  trend_lower g r (Some x) = filter (fun t => i_contains (t_int t) x) (trend_lower g r None) /\
  trend_lines g r = trend_lower g r None ++ trend_upper g r None /\
  scanned_lines g r (Some x) = filter (fun t => i_contains (t_int t) x) (trend_lines g r).
Proof. exact (fun T N g r x => trend_select g r x). Qed.
Print Assumptions C63_select.

(** On points that fit exactly the function says they are within tolerance ... *)
Theorem C63_fit : forall eps r a polyfit c m ps, 0 <= eps -> nonneg_o r -> nonneg_o a ->
  polyfit (map fp ps) = (Fin c, Fin m) -> Forall (fun p => snd p = c + m * fst p) ps ->
  fit_within (Fin eps) polyfit (fo r) (fo a) (map fp ps) = Ok true.
Proof. exact fit_exact'. Qed.
Print Assumptions C63_fit.
(** ... and the method of the same name that they are not. *)
Theorem C63_fit_refuted : forall eps wd di ln up mp r a polyfit c m ps, nonneg_o r -> nonneg_o a ->
  polyfit (map fp ps) = (Fin c, Fin m) -> Forall (fun p => snd p = c + m * fst p) ps ->
  (3 <= length ps)%nat -> Forall (fun p => 0 <= snd p \/ r = None) ps ->
  method_fit (Fin eps) polyfit (mkG wd up mp di ln (fo r) (fo a)) (map fp ps) = false.
Proof. exact method_exact'. Qed.
Print Assumptions C63_fit_refuted.
Example C63_fit_ex : fitted (zp six) = (fz 1, fz 2) /\
  fit_within ceps fitted (Some (fr 1 100)) None (zp six) = Ok true /\ method_fit ceps fitted (lcfg true 2) (zp six) = false.
Proof. split; [ apply pair2eq; vm_compute; reflexivity | chk ]. Qed.

(** ** C64 *)
(** The intersections of a line are in strict order, and each is where the
    underlying points pass from one side of the line to the other. *)
Theorem C64_crossings : forall eps gold gold2 polyfit (g : cfg xq) es t,
  (exists q, g_len g = Fin q) -> (forall ps, (3 <= length ps)%nat -> Forall fpt ps -> exists c m, polyfit ps = (Fin c, Fin m)) ->
  Forall forwards es -> lrun eps gold gold2 polyfit g tl0 es = Ok t ->
  t_line t = None /\ t_cross t = [] \/
  exists l cs, t_line t = Some (fs l) /\ t_cross t = map fp cs /\ StronglySorted by_xs cs /\
    Forall (passage (fun p => In p (underneath es)) l) cs.
Proof. exact crossings. Qed.
Print Assumptions C64_crossings.
Example C64_crossings_ex : Forall forwards (feed [] (zp wave)) /\
  exists t, wrun wave = Ok t /\ t_line t = Some (fs wave_line) /\
  t_cross t = map fp (zq [(8,10);(12,10);(15,10)]%Z) /\ is_valid (lcfg true 2) t = true /\ i_contains (t_int t) (fz 20) = true.
Proof. exact (conj wave_forwards wave_run). Qed.

(** So the extension to a crossing reaches it and stops at the next. *)
Theorem C64_reaches : forall eps gold gold2 polyfit (g : cfg xq) es t l mult k i p,
  (exists q, g_len g = Fin q) -> (forall ps, (3 <= length ps)%nat -> Forall fpt ps -> exists c m, polyfit ps = (Fin c, Fin m)) ->
  Forall forwards es -> lrun eps gold gold2 polyfit g tl0 es = Ok t ->
  t_line t = Some (fs l) -> fst (fst l) <> fst (snd l) -> (forall m, mult = Some m -> 1 <= m) ->
  place (length (t_cross t)) k i -> nth_error (t_cross t) i = Some (fp p) -> fst (fst l) <= fst p ->
  exists x y, line_extended t (fo mult) None (Some k) = Ok (Some (fp (fst l), (Fin x, Some (Fin y)))) /\ on_seg l (x, y) /\
    fst p <= x /\ forall q, nth_error (t_cross t) (S i) = Some (fp q) -> x <= fst q.
Proof. exact run_reaches. Qed.
Print Assumptions C64_reaches.
Example C64_reaches_ex : extb (wrun wave) (Some (fr 5 4)) None (Some (-3)%Z) (fz 10) (fz 10) = true /\
  place 3 (-3) 0 /\ extb (wrun wave) (Some (fz 2)) None (Some 0%Z) (fz 12) (fz 10) = true.
Proof. split; [ vm_compute; reflexivity | ]. split; [ unfold place; lia | vm_compute; reflexivity ]. Qed.
