(** Slopes of sampled curves in binary64 (curve.py:91-112 d_y, 671-675
    differential). *)
From Coq Require Import List ZArith Reals Lia Lra Psatz Bool SpecFloat.
From Flocq Require Import Core BinarySingleNaN.
From Verif Require Import Base Num Interval Curve Points Combine B64Facts GridFacts StepB64 IrregB64 ErrB64 InterpB64 EmaB64 IntB64 IntSumB64 LineB64 LineInt64.
Import ListNotations.
Open Scope Z_scope.
#[local] Existing Instances Hprec Hmax Hval Hexp.

(** a stored value that is a number not near the overflow threshold *)
Definition plain (v : b64) : Prop := finite64 v /\ (Rabs (val64 v) <= bpow radix2 1000)%R.
(** the slope between the stored values [v] and [w], [h] apart *)
Definition slope_ok (h : Z) (v w r : b64) : Prop :=
  finite64 r /\
  (let q := ((val64 w - val64 v) / IZR h)%R in Rabs (val64 r - q) <= 3 * eps * Rabs q + tiny)%R /\
  ((val64 v <= val64 w)%R -> (0 <= val64 r)%R) /\ ((val64 w <= val64 v)%R -> (val64 r <= 0)%R).

Lemma rnd_neg x : rnd (- x) = (- rnd x)%R. Proof. apply round_NE_opp. Qed.
Lemma quot (v w : bf) (D : Z) : is_finite v = true -> is_finite w = true -> (Rabs (B2R v) <= bpow radix2 1000)%R -> (Rabs (B2R w) <= bpow radix2 1000)%R -> 1 <= Z.abs D <= 2 ^ 35 ->
  exists r : bf, @n_div b64 B64 (SFsub 53 1024 (B2SF w) (B2SF v)) (fnum D 0) = Ok (B2SF r) /\ is_finite r = true /\ B2R r = rnd (rnd (B2R w - B2R v) / IZR D).
Proof.
  intros Fv Fw Bv Bw HD. pose proof (b_sub _ _ _ Bw Bv) as BD. cbn [Z.add Pos.add Pos.succ] in BD.
  destruct (sub_big w v Fw Fv) as (d & -> & Fd & Rd); [apply (b_le _ 1001 1023 BD); lia|].
  assert (F : fits D 0) by (split; lia). destruct (bnum_spec D 0 F) as (R1 & _). rewrite dy0 in R1. rewrite fnum_bnum, <- Rd. rewrite <- R1.
  assert (A1 : (1 <= Rabs (IZR D))%R) by (rewrite <- abs_IZR; apply IZR_le; lia).
  apply div_big; [exact Fd| |].
  - rewrite R1. intros Z0. rewrite Z0, Rabs_R0 in A1. lra.
  - rewrite R1, Rd. apply (b_le _ 1001 1023); [|lia]. unfold Rdiv. rewrite Rabs_mult. pose proof (rnd_bpow _ 1001 ltac:(lia) BD) as B2.
    apply Rle_trans with (bpow radix2 1001 * 1)%R; [|lra]. apply Rmult_le_compat; try apply Rabs_pos; [exact B2|].
    rewrite Rabs_inv. rewrite <- Rinv_1. apply Rinv_le; lra.
Qed.
Lemma quot_ok h (v w r : bf) : 1 <= h <= 2 ^ 35 -> is_finite r = true -> B2R r = rnd (rnd (B2R w - B2R v) / IZR h) -> slope_ok h (B2SF v) (B2SF w) (B2SF r).
Proof.
  intros HH F E. assert (P : (0 < / IZR h)%R) by (apply Rinv_0_lt_compat, IZR_lt; lia). unfold slope_ok. rewrite !val_B2R. split; [split; [apply valid_binary_B2SF|rewrite is_finite_SF_B2SF; exact F]|].
  split; [|split; intros L; rewrite E; rewrite <- rnd0; apply rnd_mono; unfold Rdiv].
  - cbv zeta. destruct (minus_err (B2R w) (B2R v) (generic_format_B2R _ _ w) (generic_format_B2R _ _ v)) as (d & Dd & Ed). rewrite E, Ed.
    destruct (any_err ((B2R w - B2R v) * (1 + d) / IZR h)) as (d' & t & Dd' & Tt & ->).
    destruct (close_mul 1 1 d d' ltac:(lra) ltac:(lra) (close1 _ Dd) (close1 _ Dd')) as (z & Cz & Ez). unfold close in Cz. pose proof eps_pos.
    set (q := ((B2R w - B2R v) / IZR h)%R). replace ((B2R w - B2R v) * (1 + d) / IZR h * (1 + d') + t - q)%R with (q * z + t)%R by (replace ((B2R w - B2R v) * (1 + d) / IZR h * (1 + d'))%R with (q * ((1 + d) * (1 + d')))%R by (unfold q, Rdiv; ring); rewrite Ez; ring).
    apply Rle_trans with (1 := Rabs_triang _ _). rewrite Rabs_mult. pose proof (Rabs_pos q).
    assert (Rabs q * Rabs z <= Rabs q * (3 * eps))%R by (apply Rmult_le_compat_l; lra). lra.
  - assert (0 <= rnd (B2R w - B2R v))%R by (rewrite <- rnd0; apply rnd_mono; lra). nra.
  - assert (rnd (B2R w - B2R v) <= 0)%R by (rewrite <- rnd0; apply rnd_mono; lra). nra.
Qed.

Section Slope.
Variables (a h : Z) (vs : list (option b64)) (s : pts b64 (option b64)) (m : b64).
Hypothesis SM : grid_small a h (length vs).
Hypothesis TWO : (2 <= length vs)%nat.
Hypothesis ON : grid_run a h 0 vs s.
Hypothesis MS : step_ok h m.
Hypothesis PL : forall v, In (Some v) vs -> plain v.
Notation X i := (fnum (a + Z.of_nat i * h) 0).

Lemma hh : 1 <= h <= 2 ^ 35. Proof. destruct SM as (P & A & B & C). nia. Qed.
Lemma gap i j : (i < length vs)%nat -> (j < length vs)%nat -> SFsub 53 1024 (X i) (X j) = fnum ((Z.of_nat i - Z.of_nat j) * h) 0.
Proof.
  intros I J. pose proof (small_fits a h _ SM) as G. rewrite fnum_sub; [f_equal; lia|apply (fits_at a h 0 _ i G I)|apply (fits_at a h 0 _ j G J)|].
  destruct SM as (P & A & B & C). split; [|lia]. replace (a + Z.of_nat i * h - (a + Z.of_nat j * h)) with ((Z.of_nat i - Z.of_nat j) * h) by ring. nia.
Qed.
Lemma apart_x i j : (i < length vs)%nat -> (j < length vs)%nat -> i <> j -> SFeqb (X i) (X j) = false.
Proof.
  intros I J N. pose proof (small_fits a h _ SM) as G. rewrite fnum_eqb; [|apply (fits_at a h 0 _ i G I)|apply (fits_at a h 0 _ j G J)].
  apply Z.eqb_neq. pose proof hh. nia.
Qed.
Lemma at_end i v : nth_error vs i = Some v -> p_y s (X i) = Ok v.
Proof. intros E. apply (run_y a h 0 vs s i v (small_fits _ _ _ SM) ON E). Qed.

(** what is computed between two neighbours *)
Definition between (i j : nat) : res (option b64) :=
  match nth_error vs i, nth_error vs j with
  | Some (Some v), Some (Some w) => let! q := @n_div b64 B64 (SFsub 53 1024 w v) (SFsub 53 1024 (X j) (X i)) in Ok (Some q)
  | _, _ => Ok None
  end.
Lemma forward_is i lim : (i < length vs)%nat -> d_y (p_crv s) (X i) true (Some m) lim = if Nat.ltb (S i) (length vs) then between i (S i) else Ok None.
Proof.
  intros L. unfold d_y. cbn [p_crv c_ms resolve_min_step c_next c_y].
  rewrite (StepB64.next_knot a h vs s SM TWO (run_on_grid _ _ _ _ _ (small_fits _ _ _ SM) ON) i m lim L MS : p_x_next s (X i) (Some m) lim = _).
  destruct (Nat.ltb_spec (S i) (length vs)) as [K|K]; cbn [rbind]; [|reflexivity].
  destruct (nth_error vs i) as [v|] eqn:E; [|apply nth_error_None in E; lia]. destruct (nth_error vs (S i)) as [w|] eqn:E'; [|apply nth_error_None in E'; lia].
  unfold at_i. rewrite (at_end _ _ E'). cbn [rbind]. unfold between. rewrite E, E'. destruct w as [w|]; [|destruct v; reflexivity].
  rewrite (at_end _ _ E). cbn [rbind]. destruct v as [v|]; [|reflexivity].
  change (@n_eqb b64 B64) with SFeqb. rewrite (apart_x (S i) i K L) by lia. reflexivity.
Qed.
Lemma backward_is i lim : (i < length vs)%nat -> d_y (p_crv s) (X i) false (Some m) lim = match i with O => Ok None | S j => between i j end.
Proof.
  intros L. unfold d_y. cbn [p_crv c_ms resolve_min_step c_prev c_y].
  rewrite (StepB64.prev_knot a h vs s SM TWO (run_on_grid _ _ _ _ _ (small_fits _ _ _ SM) ON) i m lim L MS : p_x_previous s (X i) (Some m) lim = _).
  destruct i as [|j]; cbn [rbind]; [reflexivity|].
  destruct (nth_error vs (S j)) as [v|] eqn:E; [|apply nth_error_None in E; lia]. destruct (nth_error vs j) as [w|] eqn:E'; [|apply nth_error_None in E'; lia].
  unfold at_i. rewrite (at_end _ _ E'). cbn [rbind]. unfold between. rewrite E, E'. destruct w as [w|]; [|destruct v; reflexivity].
  rewrite (at_end _ _ E). cbn [rbind]. destruct v as [v|]; [|reflexivity].
  change (@n_eqb b64 B64) with SFeqb. rewrite (apart_x j (S j) ltac:(lia) L) by lia. reflexivity.
Qed.

(** the slope between neighbours, seen from either end *)
Lemma neighbours i v w : nth_error vs i = Some (Some v) -> nth_error vs (S i) = Some (Some w) ->
  exists r r', between i (S i) = Ok (Some r) /\ between (S i) i = Ok (Some r') /\ slope_ok h v w r /\ slope_ok h v w r' /\ val64 r = val64 r'.
Proof.
  intros E E'. destruct (PL v (nth_error_In _ _ E)) as [Fv Bv]. destruct (PL w (nth_error_In _ _ E')) as [Fw Bw].
  destruct (real_of _ Fv) as (bv & -> & Gv). destruct (real_of _ Fw) as (bw & -> & Gw). rewrite val_B2R in Bv, Bw.
  assert (L : (S i < length vs)%nat) by (apply nth_error_Some; congruence). pose proof hh as HH.
  unfold between. rewrite E, E'. rewrite !gap by lia.
  replace ((Z.of_nat (S i) - Z.of_nat i) * h) with h by lia. replace ((Z.of_nat i - Z.of_nat (S i)) * h) with (- h) by lia.
  destruct (quot bv bw h Gv Gw Bv Bw ltac:(lia)) as (r & Er & Fr & Rr). destruct (quot bw bv (- h) Gw Gv Bw Bv ltac:(lia)) as (r' & Er' & Fr' & Rr').
  exists (B2SF r), (B2SF r'). rewrite Er, Er'.
  assert (SAME : B2R r' = rnd (rnd (B2R bw - B2R bv) / IZR h)).
  { rewrite Rr'. replace (B2R bv - B2R bw)%R with (- (B2R bw - B2R bv))%R by ring. rewrite rnd_neg. f_equal. rewrite opp_IZR. assert (0 < IZR h)%R by (apply IZR_lt; lia). field. lra. }
  split; [reflexivity|]. split; [reflexivity|]. split; [apply quot_ok; assumption|]. split; [apply quot_ok; assumption|]. rewrite !val_B2R. congruence.
Qed.

Lemma slope_number i v w lim : nth_error vs i = Some (Some v) -> nth_error vs (S i) = Some (Some w) ->
  exists r r', d_y (p_crv s) (X i) true (Some m) lim = Ok (Some r) /\ d_y (p_crv s) (X (S i)) false (Some m) lim = Ok (Some r') /\
    slope_ok h v w r /\ slope_ok h v w r' /\ val64 r = val64 r'.
Proof.
  intros E E'. assert (L : (S i < length vs)%nat) by (apply nth_error_Some; congruence). rewrite forward_is, backward_is by lia. apply Nat.ltb_lt in L. rewrite L.
  apply neighbours; assumption.
Qed.
Lemma slope_none i lim : (i < length vs)%nat ->
  ((nth_error vs i = Some None \/ nth_error vs (S i) = Some None \/ nth_error vs (S i) = None) -> d_y (p_crv s) (X i) true (Some m) lim = Ok None) /\
  ((nth_error vs i = Some None \/ i = O \/ nth_error vs (i - 1) = Some None) -> d_y (p_crv s) (X i) false (Some m) lim = Ok None).
Proof.
  intros L. split.
  - intros C. rewrite forward_is by exact L. destruct (Nat.ltb_spec (S i) (length vs)) as [K|K]; [|reflexivity]. unfold between.
    destruct C as [-> |[-> | ->]]; try reflexivity; destruct (nth_error vs i) as [[v|]|]; reflexivity.
  - intros C. rewrite backward_is by exact L. destruct i as [|j]; [reflexivity|]. unfold between. replace (S j - 1)%nat with j in C by lia.
    destruct C as [-> |[C| ->]]; try reflexivity; [discriminate|]. destruct (nth_error vs (S j)) as [[v|]|]; reflexivity.
Qed.
End Slope.

(** the differential at a stored point is the slope there *)
Lemma differential_is a h (vs : list (option b64)) s i forward : grid_small a h (length vs) -> grid_run a h 0 vs s -> (i < length vs)%nat ->
  c_y (differential forward (p_crv s)) (fnum (a + Z.of_nat i * h) 0) = d_y (p_crv s) (fnum (a + Z.of_nat i * h) 0) forward (Some n_minstep) None.
Proof.
  intros SM ON L. destruct (nth_error vs i) as [v|] eqn:E; [|apply nth_error_None in E; lia].
  unfold differential, map_curve. cbn [c_y p_crv]. rewrite (run_y a h 0 vs s i v (small_fits _ _ _ SM) ON E). cbn [rbind]. destruct v; reflexivity.
Qed.

(** far from zero the step is absorbed and the forward slope is infinite whatever the values *)
Lemma infinite_slope a h (vs : list (option b64)) s i v lim : grid_fits a h 0 (length vs) -> grid_run a h 0 vs s -> nth_error vs i = Some (Some v) -> finite64 v -> 2 ^ 37 <= a + Z.of_nat i * h ->
  d_y (p_crv s) (fnum (a + Z.of_nat i * h) 0) true (Some n_minstep) lim = Ok (Some n_inf).
Proof.
  intros G ON E Fv K. assert (L : (i < length vs)%nat) by (apply nth_error_Some; congruence). unfold d_y. cbn [p_crv c_ms resolve_min_step c_next c_y].
  rewrite (stuck a h vs s i lim G (run_on_grid _ _ _ _ _ G ON) L K : p_x_next s (fnum (a + Z.of_nat i * h) 0) (Some n_minstep) lim = _). cbn [rbind]. unfold at_i.
  rewrite (run_y a h 0 vs s i _ G ON E). cbn [rbind]. change (@n_eqb b64 B64) with SFeqb. rewrite fnum_eqb by apply (fits_at a h 0 _ i G L). rewrite Z.eqb_refl.
  destruct (real_of _ Fv) as (b & -> & Fb). assert (LE : @n_geb b64 B64 (B2SF b) (B2SF b) = true) by (change (SFleb (B2SF b) (B2SF b) = true); rewrite leb_val by assumption; apply Rle_bool_true, Rle_refl).
  cbv zeta. cbn [negb]. rewrite LE. reflexivity.
Qed.
