(** C85: offset curves in double arithmetic.  [val64] is the real number a finite
    double stands for.  [grid_small]: positions up to 2^35.  [step_ok h m]: a minimum
    step between 2^-17 and the spacing.  [near_offset]: positions and offset up to
    2^32 (seconds until the year 2106), the offset any finite double.  [roomy h m]:
    a minimum step from 2^-17 + 2^-19 (9.54e-6; the default is 1e-5) up to the
    spacing less 2^-19. *)
From Coq Require Import List ZArith Reals Lia Lra Bool SpecFloat.
From Flocq Require Import Core.
From Verif Require Import Base Num Interval Curve Points Combine B64Facts GridFacts StepB64 IrregB64 ErrB64 IntSumB64 B64Ex RoundEx SumEx OffsetB64 SlopeEx OffsetEx.
Import ListNotations.
Open Scope Z_scope.

(** offset by a whole number: domain, values, neighbours and slopes at the stored
    points are those of the source, shifted exactly *)
Theorem C85_whole : forall (a h k : Z) (vs : list (option b64)) (s : pts b64 (option b64)),
  grid_small a h (length vs) -> (2 <= length vs)%nat -> grid_run a h 0 vs s -> Z.abs k <= 2 ^ 52 ->
  c_dom (offset_curve (b64_ofZ k) (p_crv s)) = mkI (b64_ofZ (a + k)) (b64_ofZ (a + Z.of_nat (length vs - 1) * h + k)) false false /\
  forall i v, nth_error vs i = Some v ->
  c_y (offset_curve (b64_ofZ k) (p_crv s)) (b64_ofZ (a + Z.of_nat i * h + k)) = Ok v /\
  forall m limit, step_ok h m ->
  c_next (offset_curve (b64_ofZ k) (p_crv s)) (b64_ofZ (a + Z.of_nat i * h + k)) (Some m) limit = Ok (if Nat.ltb (S i) (length vs) then Some (b64_ofZ (a + Z.of_nat (S i) * h + k)) else None) /\
  c_prev (offset_curve (b64_ofZ k) (p_crv s)) (b64_ofZ (a + Z.of_nat i * h + k)) (Some m) limit = Ok (match i with O => None | S j => Some (b64_ofZ (a + Z.of_nat j * h + k)) end) /\
  forall forward, offset_d_y (b64_ofZ k) (p_crv s) (b64_ofZ (a + Z.of_nat i * h + k)) forward (Some m) limit = d_y (p_crv s) (b64_ofZ (a + Z.of_nat i * h)) forward (Some m) limit.
Proof. exact whole_all. Qed.
Print Assumptions C85_whole.
Example C85_whole_ex : grid_small 1600000000 3600 (length hours) /\ grid_run 1600000000 3600 0 hours hourly /\ step_ok 3600 n_minstep /\
  c_dom (offset_curve (b64_ofZ (-7200)) (p_crv hourly)) = mkI (b64_ofZ 1599992800) (b64_ofZ 1600007200) false false /\
  c_y (offset_curve (b64_ofZ (-7200)) (p_crv hourly)) (b64_ofZ 1599996400) = Ok (bn 7) /\
  c_next (offset_curve (b64_ofZ (-7200)) (p_crv hourly)) (b64_ofZ 1599996400) (Some n_minstep) None = Ok (Some (b64_ofZ 1600000000)).
Proof. split; [exact hours_small|]. split; [apply gr_init|]. split; [apply minstep_ok; lia|]. split; [|split]; vm_compute; reflexivity. Qed.

(** offset by any double: stepping from the shifted first point visits every
    shifted point once, forwards and backwards, though the positions are rounded *)
Theorem C85_visit : forall (a h : Z) (vs : list (option b64)) (s : pts b64 (option b64)) (d m : b64),
  grid_small a h (length vs) -> (2 <= length vs)%nat -> grid_run a h 0 vs s -> near_offset a h (length vs) d -> step_ok h m -> roomy h m ->
  forall i limit, (i < length vs)%nat ->
  c_next (offset_curve d (p_crv s)) (n_add (b64_ofZ (a + Z.of_nat i * h)) d) (Some m) limit = Ok (if Nat.ltb (S i) (length vs) then Some (n_add (b64_ofZ (a + Z.of_nat (S i) * h)) d) else None) /\
  c_prev (offset_curve d (p_crv s)) (n_add (b64_ofZ (a + Z.of_nat i * h)) d) (Some m) limit = Ok (match i with O => None | S j => Some (n_add (b64_ofZ (a + Z.of_nat j * h)) d) end).
Proof. exact visit_all. Qed.
Print Assumptions C85_visit.
Example C85_visit_ex : grid_small 4 1 (length four) /\ grid_run 4 1 0 four from4 /\ near_offset 4 1 (length four) tenth64 /\ step_ok 1 n_minstep /\ roomy 1 n_minstep /\
  c_next (offset_curve tenth64 (p_crv from4)) (n_add (b64_ofZ 4) tenth64) (Some n_minstep) None = Ok (Some (n_add (b64_ofZ 5) tenth64)) /\
  n_ltb (n_sub (n_add (b64_ofZ 4) tenth64) tenth64) (b64_ofZ 4) = true.
Proof. split; [exact small4|]. split; [apply gr_init|]. split; [exact near4|]. split; [apply minstep_ok; lia|]. split; [apply minstep_roomy; lia|]. split; vm_compute; reflexivity. Qed.

(** at a shifted inner point the value is the source's within 2^-19 of the point *)
Theorem C85_inner : forall (a h : Z) (vs : list (option b64)) (s : pts b64 (option b64)) (d : b64),
  grid_small a h (length vs) -> grid_run a h 0 vs s -> near_offset a h (length vs) d -> forall i, (0 < i)%nat -> (S i < length vs)%nat ->
  exists r, finite64 r /\ (Rabs (val64 r - IZR (a + Z.of_nat i * h)) <= bpow radix2 (-19))%R /\
    c_y (offset_curve d (p_crv s)) (n_add (b64_ofZ (a + Z.of_nat i * h)) d) = c_y (p_crv s) r.
Proof. exact inner_all. Qed.
Print Assumptions C85_inner.
Example C85_inner_ex : grid_small 1600000000 3600 (length hours) /\ grid_run 1600000000 3600 0 hours hourly /\ near_offset 1600000000 3600 (length hours) tenth64 /\
  c_y (offset_curve tenth64 (p_crv hourly)) (n_add (b64_ofZ 1600003600) tenth64) <> Ok None.
Proof. split; [exact hours_small|]. split; [apply gr_init|]. split; [exact near_hours|]. vm_compute. discriminate. Qed.

(** refuted: a curve from 4 offset by 0.1 has no value at the start of its own
    closed domain *)
Theorem C85_start_refuted : let c := offset_curve tenth64 (p_crv from4) in
  i_contains (c_dom c) (i_start (c_dom c)) = true /\ i_so (c_dom c) = false /\ c_y c (i_start (c_dom c)) = Ok None /\ p_y from4 (b64_ofZ 4) = Ok (bn 5).
Proof. exact start_lost. Qed.
Print Assumptions C85_start_refuted.
(** refuted: a stored value next to a missing one is lost *)
Theorem C85_gap_refuted : p_y gap (b64_ofZ 4) = Ok (bn 7) /\ c_y (offset_curve tenth64 (p_crv gap)) (n_add (b64_ofZ 4) tenth64) = Ok None.
Proof. exact gap_lost. Qed.
Print Assumptions C85_gap_refuted.
