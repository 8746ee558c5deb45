(** C60: offsets by steps of a duration (offset.py).

    [ticks K g]: the duration [K] has the boundaries [g i], strictly increasing
    and covering every x; floor and ceil go to the nearest boundary, step, next
    and previous move along them. *)
From Coq Require Import List ZArith QArith Qcanon Bool Lia.
From Verif Require Import Base Num NumFacts Interval Curve Points PointsSpec PointsOps PointsDec PointsHist PointsRefute PointsTop PointsEx BaseEx Combine CombineEx.
From Verif Require Import Scan ScanFacts ScanSource ScanInv ScanTf SmaFacts SmaInv ScanTop OffsetDur OffsetDurFacts OffsetDurTop OffsetDurEx.
Import ListNotations.

(** at a boundary: the source n boundaries earlier *)
Theorem C60_at : forall K g, ticks K g -> forall n (c : crv xq (option xq)) i, c_y (d_offset_curve K n c) (Fin (g i)) =
  if i_contains (c_dom c) (Fin (g (i - n)%Z)) then c_y c (Fin (g (i - n)%Z)) else Ok None.
Proof. exact off_tick. Qed.
Print Assumptions C60_at.
(** between two boundaries: the straight line between the values at them *)
Theorem C60_between : forall K g, ticks K g -> forall n, n <> 0%Z -> forall (c : crv xq (option xq)) i x, (g i < x)%Qc -> (x < g (i + 1)%Z)%Qc ->
  c_y (d_offset_curve K n c) (Fin x) =
  if i_contains (c_dom c) (Fin (g (i - n)%Z)) && i_contains (c_dom c) (Fin (g (i + 1 - n)%Z)) then
    (let! y0 := c_y c (Fin (g (i - n)%Z)) in
     let! y1 := c_y c (Fin (g (i + 1 - n)%Z)) in
     match y0, y1 with
     | Some y0, Some y1 => let u := Fin ((x - g i) / (g (i + 1)%Z - g i))%Qc in Ok (Some (y0 * (n_one - u) + y1 * u)%num)
     | _, _ => Ok None
     end)
  else Ok None.
Proof. exact off_cell. Qed.
Print Assumptions C60_between.
(** values at the boundaries of the source, moved [n] boundaries *)
Theorem C60_curve : forall K g, ticks K g -> forall n, n <> 0%Z -> forall (c : crv xq (option xq)) a v p len, (1 <= len)%nat -> (p <= len)%nat ->
  c_dom c = mkI (Fin (g a)) (Fin (g (a + Z.of_nat (len - 1))%Z)) false false ->
  (forall k, (k < p)%nat -> c_y c (Fin (g (a + Z.of_nat k)%Z)) = Ok None) ->
  (forall k, (p <= k < len)%nat -> c_y c (Fin (g (a + Z.of_nat k)%Z)) = Ok (Some (Fin (v k)))) ->
  traces ILinear (map (fun k => (g (a + n + Z.of_nat k)%Z, v k)) (seq p (len - p))) (c_y (d_offset_curve K n c)).
Proof. exact off_traces. Qed.
Print Assumptions C60_curve.
Theorem C60_domain : forall K g, ticks K g -> forall n (c : crv xq (option xq)) a b so eo, c_dom c = mkI (Fin (g a)) (Fin (g b)) so eo ->
  c_dom (d_offset_curve K n c) = mkI (Fin (g (a + n)%Z)) (Fin (g (b + n)%Z)) so eo.
Proof. exact off_dom. Qed.
Print Assumptions C60_domain.
Theorem C60_next : forall K g, ticks K g -> forall n, n <> 0%Z -> forall (c : crv xq (option xq)) i x ms lim, (g i <= x)%Qc -> (x < g (i + 1)%Z)%Qc ->
  c_next (d_offset_curve K n c) (Fin x) ms lim =
  Ok (if i_contains (c_dom c) (Fin (g (i + 1 - n)%Z)) then Some (Fin (g (i + 1)%Z)) else None).
Proof. exact off_next. Qed.
Print Assumptions C60_next.
Theorem C60_previous : forall K g, ticks K g -> forall n, n <> 0%Z -> forall (c : crv xq (option xq)) i x ms lim, (g (i - 1)%Z < x)%Qc -> (x <= g i)%Qc ->
  c_prev (d_offset_curve K n c) (Fin x) ms lim =
  Ok (if i_contains (c_dom c) (Fin (g (i - 1 - n)%Z)) then Some (Fin (g (i - 1)%Z)) else None).
Proof. exact off_prev. Qed.
Print Assumptions C60_previous.
Theorem C60_slope : forall K g, ticks K g -> forall n (c : crv xq (option xq)) i fw ms lim, d_offset_d_y K n c (Fin (g i)) fw ms lim =
  if i_contains (c_dom c) (Fin (g (i - n)%Z)) then d_y c (Fin (g (i - n)%Z)) fw ms lim else Ok None.
Proof. exact off_slope. Qed.
Print Assumptions C60_slope.
Theorem C60_zero : forall K (c : crv xq (option xq)) x,
  c_y (d_offset_curve K 0 c) (Fin x) = (if i_contains (c_dom c) (Fin x) then c_y c (Fin x) else Ok None) /\
  c_dom (d_offset_curve K 0 c) = mkI (i_start (c_dom c)) (i_end (c_dom c)) (i_so (c_dom c)) (i_eo (c_dom c)).
Proof. exact off_zero. Qed.
Print Assumptions C60_zero.
Theorem C60_twice : forall K g n k (c : crv xq (option xq)) a b so eo i, ticks K g -> c_dom c = mkI (Fin (g a)) (Fin (g b)) so eo ->
  c_y (d_offset_curve K k (d_offset_curve K n c)) (Fin (g i)) = c_y (d_offset_curve K (n + k) c) (Fin (g i)).
Proof. exact off_twice. Qed.
Print Assumptions C60_twice.
(** [c'] is the source after an update of [a, b] *)
Theorem C60_announced_partial : forall K g, ticks K g -> forall n, n <> 0%Z -> forall (c c' : crv xq (option xq)) a b so eo i x,
  (forall j, i_contains (mkI (Fin (g a)) (Fin (g b)) so eo) (Fin (g j)) = false ->
     i_contains (c_dom c) (Fin (g j)) = i_contains (c_dom c') (Fin (g j)) /\ c_y c (Fin (g j)) = c_y c' (Fin (g j))) ->
  let A := d_offset_interval K n (mkI (Fin (g a)) (Fin (g b)) so eo) in
  (g i <= x)%Qc -> (x < g (i + 1)%Z)%Qc -> i_contains A (Fin (g i)) = false ->
  (g i = x \/ i_contains A (Fin (g (i + 1)%Z)) = false) ->
  c_y (d_offset_curve K n c') (Fin x) = c_y (d_offset_curve K n c) (Fin x).
Proof. exact off_announced. Qed.
Print Assumptions C60_announced_partial.
(** the durations that [ticks] covers: fixed lengths, and any other strictly
    increasing boundaries *)
Theorem C60_fixed : forall o L, (0 < L)%Qc -> ticks (fixed o L) (fun i => o + L * QcofZ i)%Qc.
Proof. exact fixed_ticks. Qed.
Print Assumptions C60_fixed.
Theorem C60_any : forall g loc, (forall i j, (i < j)%Z -> (g i < g j)%Qc) ->
  (forall x, (g (loc x) <= x)%Qc /\ (x < g (loc x + 1)%Z)%Qc) -> ticks (boundaries g loc) g.
Proof. exact boundaries_ticks. Qed.
Print Assumptions C60_any.

Theorem C60_translate_refuted : exists K g n (s : npts) x, ticks K g /\ honest_history s /\ n <> 0%Z /\
  (exists i j, c_dom (p_crv s) = mkI (Fin (g i)) (Fin (g j)) false false) /\
  c_y (d_offset_curve K n (p_crv s)) (Fin x) = Ok (Some (fz 6)) /\
  c_y (p_crv s) (Fin (x - (g n - g 0%Z))%Qc) = Ok (Some (fz 5)).
Proof. exact off_not_translate. Qed.
Print Assumptions C60_translate_refuted.
Theorem C60_next_refuted : exists K g n (s : npts) x ms y, ticks K g /\ honest_history s /\ n <> 0%Z /\
  (x < g n)%Qc /\ c_next (d_offset_curve K n (p_crv s)) (Fin x) ms None = Ok None /\
  i_contains (c_dom (d_offset_curve K n (p_crv s))) (Fin (g n)) = true /\
  c_y (d_offset_curve K n (p_crv s)) (Fin (g n)) = Ok (Some y).
Proof. exact off_next_short. Qed.
Print Assumptions C60_next_refuted.
Theorem C60_domain_refuted : exists K g n (s : npts) x, ticks K g /\ honest_history s /\ n <> 0%Z /\
  i_contains (c_dom (d_offset_curve K n (p_crv s))) (Fin x) = true /\
  c_y (d_offset_curve K n (p_crv s)) (Fin x) = Ok None.
Proof. exact off_dom_wide. Qed.
Print Assumptions C60_domain_refuted.
Theorem C60_announced_refuted : exists K g n (s s' : npts) o D x, ticks K g /\ honest_history s /\ n <> 0%Z /\ op_ok o /\
  run_op s o = (s', [EvBegin D; EvEnd D], Ok tt) /\
  i_contains (d_offset_interval K n D) (Fin x) = false /\
  c_y (d_offset_curve K n (p_crv s)) (Fin x) = Ok (Some (fr 9 2)) /\
  c_y (d_offset_curve K n (p_crv s')) (Fin x) = Ok (Some (fr 15 2)).
Proof. exact off_unannounced. Qed.
Print Assumptions C60_announced_refuted.

(** the points 0 1 2 9 at 0..3 moved two seconds, and a calendar whose steps
    last 20 and 4 hours in turn, which moves the point at 0 to 20 *)
Example C60_ex : ticks sec sec_g /\ ticks (boundaries day_g day_loc) day_g /\
  c_y (d_offset_curve sec 2 (p_crv ex_u)) (fz 5) = Ok (Some (fz 9)) /\
  c_y (d_offset_curve sec 2 (p_crv ex_u)) (fr 9 2) = Ok (Some (fr 11 2)) /\
  c_y (d_offset_curve sec 2 (p_crv ex_u)) (fr 11 2) = Ok None /\
  c_next (d_offset_curve sec 2 (p_crv ex_u)) (fr 5 2) None None = Ok (Some (fz 3)) /\
  c_prev (d_offset_curve sec 2 (p_crv ex_u)) (fr 5 2) None None = Ok (Some (fz 2)) /\
  d_offset_x (boundaries day_g day_loc) 1 (fz 0) false = fz 20 /\
  d_offset_x (boundaries day_g day_loc) 1 (fz 20) false = fz 24 /\
  d_offset_x (boundaries day_g day_loc) 3 (fz 21) true = fz 48.
Proof.
  split; [exact sec_ticks|]. split; [exact day_ticks|]. split; [val|]. split; [val|]. split; [val|]. split; [val|]. split; [val|].
  split; [|split]; apply xq_eqb_eq; vm_compute; reflexivity.
Qed.
