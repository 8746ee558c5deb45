(** C83: straight lines in double arithmetic.  [val64] is the real number a
    finite double stands for, [eps] is 2^-53 and [tiny] is 2^-1075.
    [two_points x1 y1 x2 y2]: four finite doubles up to 2^300 in size, x1 and x2
    at least 2^-300 apart.  [sound_line l]: a finite point up to 2^300 and a
    finite slope up to 2^605. *)
From Coq Require Import List ZArith Reals Lia Lra Bool SpecFloat.
From Flocq Require Import Core.
From Verif Require Import Base Num Interval Curve Combine B64Facts GridFacts StepB64 IrregB64 ErrB64 B64Ex RoundEx SumEx LineB64 LineInt64 LineVert64 LineEx.
Import ListNotations.
Open Scope Z_scope.

(** near the exact line, before, between and after the points, wherever they are *)
Theorem C83_near : forall x1 y1 x2 y2 : b64, two_points x1 y1 x2 y2 ->
  exists l, line_args None None (Some (x1, y1)) (Some (x2, y2)) None = Ok l /\ sound_line l /\ l_x l = x1 /\ l_y l = y1 /\
    (forall x, finite64 x -> (Rabs (val64 x) <= bpow radix2 300)%R -> exists r, line_y l x = r /\ finite64 r /\
      let t := ((val64 x - val64 x1) / (val64 x2 - val64 x1))%R in let D := (val64 y2 - val64 y1)%R in
      (Rabs (val64 r - (val64 y1 + t * D)) <= 7 * eps * Rabs (t * D) + eps * Rabs (val64 y1 + t * D) + 2 * tiny * (Rabs (val64 x - val64 x1) + 1))%R) /\
    ((val64 y1 <= val64 y2)%R -> (val64 x1 < val64 x2)%R -> (0 <= val64 (l_slope l))%R) /\ ((val64 y2 <= val64 y1)%R -> (val64 x1 < val64 x2)%R -> (val64 (l_slope l) <= 0)%R).
Proof. exact two_line. Qed.
Print Assumptions C83_near.
Example C83_near_ex : two_points (b64_ofZ 1600000000) (b64_ofZ 3) (b64_ofZ 1600000008) (b64_ofZ 32) /\ c_y (line_curve (through 1600000000 3 1600000008 32)) (b64_ofZ 1600000016) = Ok (bn 61).
Proof. split; [apply whole_points; lia|vm_compute; reflexivity]. Qed.

(** at its reference point a line has the reference value exactly *)
Theorem C83_first : forall l : line b64, sound_line l -> exists r, line_y l (l_x l) = r /\ finite64 r /\ val64 r = val64 (l_y l).
Proof. exact line_ref. Qed.
Print Assumptions C83_first.
Example C83_first_ex : sound_line (through 1600000000 3 1600000007 32) /\ line_y (through 1600000000 3 1600000007 32) (b64_ofZ 1600000000) = b64_ofZ 3.
Proof. split; [apply through_sound; lia|vm_compute; reflexivity]. Qed.

(** a line never moves against its slope *)
Theorem C83_monotone : forall (l : line b64) (x x' : b64), sound_line l -> finite64 x -> finite64 x' -> (Rabs (val64 x) <= bpow radix2 300)%R -> (Rabs (val64 x') <= bpow radix2 300)%R -> (val64 x <= val64 x')%R ->
  ((0 <= val64 (l_slope l))%R -> (val64 (line_y l x) <= val64 (line_y l x'))%R) /\ ((val64 (l_slope l) <= 0)%R -> (val64 (line_y l x') <= val64 (line_y l x))%R).
Proof. exact line_mono. Qed.
Print Assumptions C83_monotone.
Example C83_monotone_ex : sound_line (through 0 0 7 29) /\ SFltb (line_y (through 0 0 7 29) (b64_ofZ 7)) (line_y (through 0 0 7 29) (b64_ofZ 8)) = true.
Proof. split; [apply through_sound; lia|vm_compute; reflexivity]. Qed.

(** a level line is level exactly *)
Theorem C83_level : forall x1 y1 x2 y2 : b64, two_points x1 y1 x2 y2 -> val64 y1 = val64 y2 ->
  exists l, line_args None None (Some (x1, y1)) (Some (x2, y2)) None = Ok l /\ val64 (l_slope l) = 0%R /\
    forall x, finite64 x -> (Rabs (val64 x) <= bpow radix2 300)%R -> exists r, line_y l x = r /\ finite64 r /\ val64 r = val64 y1.
Proof. exact level_line. Qed.
Print Assumptions C83_level.
Example C83_level_ex : two_points (b64_ofZ 0) (b64_ofZ 3) (b64_ofZ 1) (b64_ofZ 3) /\ line_y (through 0 3 1 3) hundredth = b64_ofZ 3.
Proof. split; [apply whole_points; lia|vm_compute; reflexivity]. Qed.

(** the position of a value, for the slope that is kept *)
Theorem C83_position : forall (l : line b64) (y : b64), sound_line l -> finite64 y -> (Rabs (val64 y) <= bpow radix2 300)%R -> (bpow radix2 (-300) <= Rabs (val64 (l_slope l)))%R ->
  exists r, line_x l y = Ok r /\ finite64 r /\ let q := ((val64 y - val64 (l_y l)) / val64 (l_slope l))%R in
    (Rabs (val64 r - (val64 (l_x l) + q)) <= 3 * eps * Rabs q + eps * Rabs (val64 (l_x l) + q) + 2 * tiny)%R.
Proof. exact line_inverse. Qed.
Print Assumptions C83_position.
Example C83_position_ex : sound_line rising /\ line_x rising (b64_ofZ 86400) = Ok (b64_ofZ 1600086400).
Proof. split; [apply through_sound; lia|vm_compute; reflexivity]. Qed.

(** two points at one position: the line is infinite on both sides of it, and
    has the sign of the rise on the right *)
Theorem C83_vertical : forall x1 y1 x2 y2 : b64, finite64 x1 -> finite64 y1 -> finite64 x2 -> finite64 y2 -> val64 x1 = val64 x2 -> (Rabs (val64 x1) <= bpow radix2 1000)%R ->
  exists l, line_args None None (Some (x1, y1)) (Some (x2, y2)) None = Ok l /\
    forall x, finite64 x -> (Rabs (val64 x) <= bpow radix2 1000)%R ->
      ((val64 y1 <= val64 y2)%R -> ((val64 x1 < val64 x)%R -> line_y l x = n_inf) /\ ((val64 x < val64 x1)%R -> line_y l x = n_ninf)) /\
      ((val64 y2 < val64 y1)%R -> ((val64 x1 < val64 x)%R -> line_y l x = n_ninf) /\ ((val64 x < val64 x1)%R -> line_y l x = n_inf)).
Proof. exact vertical_line. Qed.
Print Assumptions C83_vertical.
Example C83_vertical_ex : line_y (through 5 1 5 2) (b64_ofZ 6) = n_inf /\ line_y (through 5 1 5 2) (b64_ofZ 4) = n_ninf /\ line_y (through 5 2 5 1) (b64_ofZ 6) = n_ninf.
Proof. repeat split; vm_compute; reflexivity. Qed.

(** but at the position itself such a line never has the reference value: it is
    not a number *)
Theorem C83_vertical_refuted : forall x1 y1 x2 y2 : b64, finite64 x1 -> finite64 y1 -> finite64 x2 -> finite64 y2 -> val64 x1 = val64 x2 ->
  exists l, line_args None None (Some (x1, y1)) (Some (x2, y2)) None = Ok l /\ l_x l = x1 /\ l_y l = y1 /\ line_y l (l_x l) = S754_nan.
Proof. exact vertical_ref. Qed.
Print Assumptions C83_vertical_refuted.
Example C83_vertical_refuted_ex : l_y (through 5 1 5 2) = b64_ofZ 1 /\ line_y (through 5 1 5 2) (b64_ofZ 5) = S754_nan.
Proof. split; vm_compute; reflexivity. Qed.

(** the second point is missed: the line from (0, 0) to (7, 29) is above 29 at 7 *)
Theorem C83_second_refuted : exists x1 y1 x2 y2 l, two_points x1 y1 x2 y2 /\ line_args None None (Some (x1, y1)) (Some (x2, y2)) None = Ok l /\ SFltb y2 (line_y l x2) = true.
Proof.
  exact (ex_intro _ (b64_ofZ 0) (ex_intro _ (b64_ofZ 0) (ex_intro _ (b64_ofZ 7) (ex_intro _ (b64_ofZ 29) (ex_intro _ (through 0 0 7 29)
    (conj (whole_points 0 0 7 29 ltac:(lia) ltac:(lia) ltac:(lia) ltac:(lia) ltac:(lia)) (conj eq_refl overshoots))))))).
Qed.
Print Assumptions C83_second_refuted.

(** x does not invert y: from 0.6 it comes back to 1 *)
Theorem C83_position_refuted : exists l, l = mkL (b64_ofZ 0) (b64_ofZ 1) (fnum 1 (-52)) /\ line_x l (line_y l (tenth 6)) = Ok (b64_ofZ 1).
Proof. exact (ex_intro _ shallow (conj eq_refl shallow_back)). Qed.
Print Assumptions C83_position_refuted.

(** the integral of a line; the error grows with the square of the positions *)
Theorem C83_area : forall (l : line b64) (a b : b64) (X M S : R), finite64 (l_x l) -> finite64 (l_y l) -> finite64 (l_slope l) -> finite64 a -> finite64 b ->
  (Rabs (val64 (l_x l)) <= X)%R -> (Rabs (val64 (l_y l)) <= M)%R -> (Rabs (val64 (l_slope l)) <= S)%R -> (Rabs (val64 a) <= X)%R -> (Rabs (val64 b) <= X)%R ->
  (1 <= X <= bpow radix2 300)%R -> (bpow radix2 (-900) <= M <= bpow radix2 300)%R -> (bpow radix2 (-900) <= S <= bpow radix2 300)%R ->
  exists r, line_partial_integration (fnum 1 (-1)) l a b = r /\ finite64 r /\
    (Rabs (val64 r - (val64 (l_y l) * (val64 b - val64 a) + val64 (l_slope l) * ((val64 b - val64 (l_x l)) * (val64 b - val64 (l_x l)) - (val64 a - val64 (l_x l)) * (val64 a - val64 (l_x l))) / 2)) <= 20 * eps * (M * X + S * (X * X)))%R.
Proof. exact area_near. Qed.
Print Assumptions C83_area.
Example C83_area_ex : sound_line (through 0 3 8 32) /\ (1 <= 8 <= bpow radix2 300)%R /\ line_partial_integration (fnum 1 (-1)) (through 0 3 8 32) (b64_ofZ 0) (b64_ofZ 8) = b64_ofZ 140.
Proof. split; [apply through_sound; lia|]. split; [split; [lra|]; apply Rle_trans with (bpow radix2 3); [change (bpow radix2 3) with 8%R; lra|apply bpow_le; lia]|vm_compute; reflexivity]. Qed.

(** the integral of y = x - 1600000000 over its first ten seconds, 50, comes out as 0 *)
Theorem C83_area_refuted : exists l, line_args None None (Some (b64_ofZ 1600000000, b64_ofZ 0)) (Some (b64_ofZ 1600000001, b64_ofZ 1)) None = Ok l /\ line_y l (b64_ofZ 1600000010) = b64_ofZ 10 /\
  line_partial_integration (fnum 1 (-1)) l (b64_ofZ 1600000000) (b64_ofZ 1600000010) = b64_ofZ 0.
Proof. exact (ex_intro _ rising rising_area). Qed.
Print Assumptions C83_area_refuted.
