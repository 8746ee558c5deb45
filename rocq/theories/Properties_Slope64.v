(** C84: slopes in double arithmetic, and C58 between the points.  [val64] is the real number a finite
    double stands for, [eps] is 2^-53 and [tiny] is 2^-1075.  [plain v]: a finite
    double up to 2^1000 in size.  [slope_ok h v w r]: r is a finite double within
    3 eps (relative) and [tiny] of (w - v) / h, and not of the opposite sign.
    [grid_small]: positions up to 2^35 (seconds until the year 3058).
    [step_ok h m]: a minimum step between 2^-17 and the spacing. *)
From Coq Require Import List ZArith Reals Lia Lra Bool SpecFloat.
From Flocq Require Import Core.
From Verif Require Import Base Num Interval Curve Points Combine B64Facts GridFacts StepB64 IrregB64 ErrB64 IntSumB64 B64Ex RoundEx SumEx StepBetween64 SlopeB64 SlopeMid64 SlopeEx.
Import ListNotations.
Open Scope Z_scope.

(** from any position between two points that is at least the minimum step away,
    the next and the previous point are found exactly *)
Theorem C58_next_between : forall (V : Type) (W : Val b64 V) (a h : Z) (vs : list V) (s : pts b64 V) (i : nat) (m x : b64) (limit : option b64),
  grid_small a h (length vs) -> grid_run a h 0 vs s -> (S i < length vs)%nat -> step_ok h m -> finite64 x ->
  (IZR (a + Z.of_nat i * h) <= val64 x)%R -> (val64 x + val64 m <= IZR (a + Z.of_nat (S i) * h))%R ->
  p_x_next s x (Some m) limit = Ok (Some (b64_ofZ (a + Z.of_nat (S i) * h))).
Proof. exact (fun V W a h vs s i m x limit S R I M => next_between a h vs s S (two_of i vs I) (run_on_grid a h 0 vs s (small_fits a h _ S) R) i m x limit I M). Qed.
Print Assumptions C58_next_between.
Theorem C58_previous_between : forall (V : Type) (W : Val b64 V) (a h : Z) (vs : list V) (s : pts b64 V) (i : nat) (m x : b64) (limit : option b64),
  grid_small a h (length vs) -> grid_run a h 0 vs s -> (S i < length vs)%nat -> step_ok h m -> finite64 x ->
  (val64 x <= IZR (a + Z.of_nat (S i) * h))%R -> (IZR (a + Z.of_nat i * h) <= val64 x - val64 m)%R ->
  p_x_previous s x (Some m) limit = Ok (Some (b64_ofZ (a + Z.of_nat i * h))).
Proof. exact (fun V W a h vs s i m x limit S R I M => prev_between a h vs s S (two_of i vs I) (run_on_grid a h 0 vs s (small_fits a h _ S) R) i m x limit I M). Qed.
Print Assumptions C58_previous_between.
Example C58_between_ex : grid_small 1600000000 3600 (length hours) /\ grid_run 1600000000 3600 0 hours hourly /\ step_ok 3600 (b64_ofZ 1) /\ finite64 (b64_ofZ 1600004321) /\
  (IZR (1600000000 + Z.of_nat 1 * 3600) <= val64 (b64_ofZ 1600004321) - val64 (b64_ofZ 1))%R /\ (val64 (b64_ofZ 1600004321) + val64 (b64_ofZ 1) <= IZR (1600000000 + Z.of_nat 2 * 3600))%R /\
  p_x_next hourly (b64_ofZ 1600004321) (Some (b64_ofZ 1)) None = Ok (Some (b64_ofZ 1600007200)) /\ p_x_previous hourly (b64_ofZ 1600004321) (Some (b64_ofZ 1)) None = Ok (Some (b64_ofZ 1600003600)).
Proof.
  split; [exact hours_small|]. split; [apply gr_init|]. split; [exact one_ok|]. split; [apply val_ofZ; lia|]. rewrite !whole_val by lia.
  split; [rewrite <- minus_IZR; apply IZR_le; lia|]. split; [rewrite <- plus_IZR; apply IZR_le; lia|]. split; vm_compute; reflexivity.
Qed.

(** between neighbouring stored numbers the forward slope of the first and the
    backward slope of the second are the same number, the exact slope but for
    two roundings *)
Theorem C84_slope : forall (a h : Z) (vs : list (option b64)) (s : pts b64 (option b64)) (m : b64),
  grid_small a h (length vs) -> (2 <= length vs)%nat -> grid_run a h 0 vs s -> step_ok h m -> (forall v, In (Some v) vs -> plain v) ->
  forall (i : nat) (v w : b64) (limit : option b64), nth_error vs i = Some (Some v) -> nth_error vs (S i) = Some (Some w) ->
  exists r r', d_y (p_crv s) (b64_ofZ (a + Z.of_nat i * h)) true (Some m) limit = Ok (Some r) /\
    d_y (p_crv s) (b64_ofZ (a + Z.of_nat (S i) * h)) false (Some m) limit = Ok (Some r') /\
    slope_ok h v w r /\ slope_ok h v w r' /\ val64 r = val64 r'.
Proof. exact slope_number. Qed.
Print Assumptions C84_slope.
Example C84_slope_ex : grid_small 1600000000 3600 (length hours) /\ grid_run 1600000000 3600 0 hours hourly /\ step_ok 3600 n_minstep /\ (forall v, In (Some v) hours -> plain v) /\
  d_y (p_crv hourly) (b64_ofZ 1600003600) true (Some n_minstep) None = Ok (Some (SFdiv 53 1024 (b64_ofZ (-6)) (b64_ofZ 3600))).
Proof. split; [exact hours_small|]. split; [apply gr_init|]. split; [apply minstep_ok; lia|]. split; [exact hours_plain|]. vm_compute. reflexivity. Qed.

(** no slope where a value is missing, after the last point or before the first *)
Theorem C84_none : forall (a h : Z) (vs : list (option b64)) (s : pts b64 (option b64)) (m : b64),
  grid_small a h (length vs) -> (2 <= length vs)%nat -> grid_run a h 0 vs s -> step_ok h m ->
  forall (i : nat) (limit : option b64), (i < length vs)%nat ->
  ((nth_error vs i = Some None \/ nth_error vs (S i) = Some None \/ nth_error vs (S i) = None) -> d_y (p_crv s) (b64_ofZ (a + Z.of_nat i * h)) true (Some m) limit = Ok None) /\
  ((nth_error vs i = Some None \/ i = O \/ nth_error vs (i - 1) = Some None) -> d_y (p_crv s) (b64_ofZ (a + Z.of_nat i * h)) false (Some m) limit = Ok None).
Proof. exact slope_none. Qed.
Print Assumptions C84_none.
Example C84_none_ex : d_y (p_crv hourly) (b64_ofZ 1600007200) true (Some n_minstep) None = Ok None /\ d_y (p_crv hourly) (b64_ofZ 1600014400) true (Some n_minstep) None = Ok None.
Proof. split; vm_compute; reflexivity. Qed.

(** between the points the slope is the exact one but for the error of the
    interpolated value over the distance from the neighbour *)
Theorem C84_between : forall (a h : Z) (vs : list (option b64)) (s : pts b64 (option b64)) (m : b64) (M : R),
  grid_small a h (length vs) -> grid_run a h 0 vs s -> p_interp s = ILinear -> step_ok h m -> (M <= bpow radix2 1000)%R ->
  forall (i : nat) (x v w : b64) (limit : option b64), nth_error vs i = Some (Some v) -> nth_error vs (S i) = Some (Some w) -> finite64 x -> finite64 v -> finite64 w ->
  (Rabs (val64 v) <= M)%R -> (Rabs (val64 w) <= M)%R ->
  (IZR (a + Z.of_nat i * h) <= val64 x)%R -> (val64 x + val64 m <= IZR (a + Z.of_nat (S i) * h))%R ->
  exists r, d_y (p_crv s) x true (Some m) limit = Ok (Some r) /\ finite64 r /\
    let q := ((val64 w - val64 v) / IZR h)%R in
    (Rabs (val64 r - q) <= 4 * eps * Rabs q + 2 * (((2 * INR i + 3) * eps * Rabs (val64 w - val64 v) + (5 * eps * M + 4 * tiny)) / (IZR (a + Z.of_nat (S i) * h) - val64 x)) + tiny)%R.
Proof. exact forward_mid. Qed.
Print Assumptions C84_between.
Theorem C84_between_backward : forall (a h : Z) (vs : list (option b64)) (s : pts b64 (option b64)) (m : b64) (M : R),
  grid_small a h (length vs) -> grid_run a h 0 vs s -> p_interp s = ILinear -> step_ok h m -> (M <= bpow radix2 1000)%R ->
  forall (i : nat) (x v w : b64) (limit : option b64), nth_error vs i = Some (Some v) -> nth_error vs (S i) = Some (Some w) -> finite64 x -> finite64 v -> finite64 w ->
  (Rabs (val64 v) <= M)%R -> (Rabs (val64 w) <= M)%R ->
  (val64 x <= IZR (a + Z.of_nat (S i) * h))%R -> (IZR (a + Z.of_nat i * h) <= val64 x - val64 m)%R ->
  exists r, d_y (p_crv s) x false (Some m) limit = Ok (Some r) /\ finite64 r /\
    let q := ((val64 w - val64 v) / IZR h)%R in
    (Rabs (val64 r - q) <= 4 * eps * Rabs q + 2 * (((2 * INR i + 3) * eps * Rabs (val64 w - val64 v) + (5 * eps * M + 4 * tiny)) / (val64 x - IZR (a + Z.of_nat i * h))) + tiny)%R.
Proof. exact backward_mid. Qed.
Print Assumptions C84_between_backward.
Example C84_between_ex : p_interp hourly = ILinear /\ nth_error hours 0 = Some (bn 5) /\ nth_error hours 1 = Some (bn 7) /\
  d_y (p_crv hourly) (b64_ofZ 1600001800) true (Some (b64_ofZ 1)) None = Ok (Some (SFdiv 53 1024 (b64_ofZ 1) (b64_ofZ 1800))) /\
  d_y (p_crv hourly) (b64_ofZ 1600001800) false (Some (b64_ofZ 1)) None = Ok (Some (SFdiv 53 1024 (b64_ofZ 1) (b64_ofZ 1800))).
Proof. repeat split; vm_compute; reflexivity. Qed.

(** the differential at a stored point is the slope there *)
Theorem C84_differential : forall (a h : Z) (vs : list (option b64)) (s : pts b64 (option b64)) (i : nat) (forward : bool),
  grid_small a h (length vs) -> grid_run a h 0 vs s -> (i < length vs)%nat ->
  c_y (differential forward (p_crv s)) (b64_ofZ (a + Z.of_nat i * h)) = d_y (p_crv s) (b64_ofZ (a + Z.of_nat i * h)) forward (Some n_minstep) None.
Proof. exact differential_is. Qed.
Print Assumptions C84_differential.
Example C84_differential_ex : c_y (differential true (p_crv hourly)) (b64_ofZ 1600003600) = Ok (Some (SFdiv 53 1024 (b64_ofZ (-6)) (b64_ofZ 3600))).
Proof. vm_compute. reflexivity. Qed.

(** far from zero, as at millisecond timestamps, the minimum step is absorbed
    and the forward slope is infinite whatever the values *)
Theorem C84_far_refuted : forall (a h : Z) (vs : list (option b64)) (s : pts b64 (option b64)) (i : nat) (v : b64) (limit : option b64),
  grid_fits a h 0 (length vs) -> grid_run a h 0 vs s -> nth_error vs i = Some (Some v) -> finite64 v -> 2 ^ 37 <= a + Z.of_nat i * h ->
  d_y (p_crv s) (b64_ofZ (a + Z.of_nat i * h)) true (Some n_minstep) limit = Ok (Some n_inf).
Proof. exact infinite_slope. Qed.
Print Assumptions C84_far_refuted.
Example C84_far_refuted_ex : grid_fits 1600000000000 3600000 0 (length secs) /\ grid_run 1600000000000 3600000 0 secs mst /\ nth_error secs 1 = Some (bn 7) /\ nth_error secs 2 = Some (bn 1) /\
  d_y (p_crv mst) (b64_ofZ 1600003600000) true (Some n_minstep) None = Ok (Some n_inf).
Proof. split; [exact mst_fits|]. split; [apply gr_init|]. split; [reflexivity|]. split; [reflexivity|]. vm_compute. reflexivity. Qed.

(** between the points the sign is not kept: a rising curve has a negative slope *)
Theorem C84_between_refuted : exists (s : pts b64 (option b64)) (v x r : b64), grid_run 0 1 0 [bn 3; Some v] s /\ n_ltb (b64_ofZ 3) v = true /\
  d_y (p_crv s) x false (Some n_minstep) None = Ok (Some r) /\ n_ltb r (b64_ofZ 0) = true.
Proof. exact (ex_intro _ uphill (ex_intro _ above3 (ex_intro _ hundredth (ex_intro _ uphill_r (conj (gr_init 0 1 0 [bn 3; Some above3] ILinear true) uphill_falls))))). Qed.
Print Assumptions C84_between_refuted.

(** and a level curve is not level *)
Theorem C84_level_refuted : exists (s : pts b64 (option b64)) (x r : b64), grid_run 0 1 0 [bn 3; bn 3] s /\
  d_y (p_crv s) x true (Some n_minstep) None = Ok (Some r) /\ n_ltb (b64_ofZ 0) r = true.
Proof. exact (ex_intro _ flat3 (ex_intro _ hundredth (ex_intro _ level_r (conj (gr_init 0 1 0 [bn 3; bn 3] ILinear true) level_climbs)))). Qed.
Print Assumptions C84_level_refuted.
