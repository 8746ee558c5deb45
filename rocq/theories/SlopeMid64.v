(** Slopes of sampled curves between the points, in binary64. *)
From Coq Require Import List ZArith Reals Lia Lra Psatz Bool SpecFloat.
From Flocq Require Import Core BinarySingleNaN.
From Verif Require Import Base Num Interval Curve Points Combine B64Facts GridFacts StepB64 IrregB64 ErrB64 InterpB64 EmaB64 IntB64 IntSumB64 LineB64 LineInt64 StepBetween64 SlopeB64.
Import ListNotations.
Open Scope Z_scope.
#[local] Existing Instances Hprec Hmax Hval Hexp.

(** a difference of values with an error [e] over a difference of positions *)
Lemma ratio (w y u x : bf) (q e : R) : is_finite w = true -> is_finite y = true -> is_finite u = true -> is_finite x = true ->
  (Rabs (B2R w) <= bpow radix2 1001)%R -> (Rabs (B2R y) <= bpow radix2 1001)%R -> (Rabs (B2R u) <= bpow radix2 100)%R -> (Rabs (B2R x) <= bpow radix2 100)%R ->
  (bpow radix2 (-17) <= Rabs (B2R u - B2R x))%R -> (B2R w - B2R y = q * (B2R u - B2R x) - e)%R ->
  exists r : bf, @n_div b64 B64 (SFsub 53 1024 (B2SF w) (B2SF y)) (SFsub 53 1024 (B2SF u) (B2SF x)) = Ok (B2SF r) /\ is_finite r = true /\
    (Rabs (B2R r - q) <= 4 * eps * Rabs q + 2 * (Rabs e / Rabs (B2R u - B2R x)) + tiny)%R.
Proof.
  intros Fw Fy Fu Fx Bw By Bu Bx LG EQ. pose proof (b_sub _ _ _ Bw By) as BN. pose proof (b_sub _ _ _ Bu Bx) as BG. cbn [Z.add Pos.add Pos.succ] in BN, BG.
  destruct (sub_big w y Fw Fy) as (n & -> & Fn & Rn); [apply (b_le _ 1002 1023 BN); lia|].
  destruct (sub_big u x Fu Fx) as (g & -> & Fg & Rg); [apply (b_le _ 101 1023 BG); lia|].
  destruct (minus_err _ _ (generic_format_B2R _ _ w) (generic_format_B2R _ _ y)) as (d1 & D1 & E1). destruct (minus_err _ _ (generic_format_B2R _ _ u) (generic_format_B2R _ _ x)) as (d2 & D2 & E2).
  pose proof eps_pos as EP. pose proof eps_small as ES. set (G := (B2R u - B2R x)%R) in *.
  assert (PG : (0 < Rabs G)%R) by (apply Rlt_le_trans with (2 := LG); apply bpow_gt_0).
  assert (NG : G <> 0%R) by (intros Z0; rewrite Z0, Rabs_R0 in PG; lra).
  assert (D2' := D2). apply Rabs_le_inv in D2'. assert (ND : (1 + d2 <> 0)%R) by lra.
  assert (NZ : B2R g <> 0%R) by (rewrite Rg, E2; apply Rmult_integral_contrapositive; split; assumption).
  assert (LGR : (bpow radix2 (-17) <= Rabs (B2R g))%R).
  { rewrite Rg. apply abs_round_ge_generic; [apply Hexp|apply valid_rnd_N|apply generic_format_bpow; unfold FLT_exp; lia|exact LG]. }
  destruct (div_big n g Fn NZ) as (r & -> & Fr & Rr).
  { apply (b_le _ (1002 + 17) 1023); [|lia]. unfold Rdiv. apply b_mul; [rewrite Rn; apply rnd_bpow; [lia|exact BN]|].
    rewrite Rabs_inv. change 17 with (- -17) at 1. rewrite bpow_opp. apply Rinv_le; [apply bpow_gt_0|exact LGR]. }
  exists r. split; [reflexivity|]. split; [exact Fr|]. rewrite Rr, Rn, Rg, E1, E2.
  destruct (any_err ((B2R w - B2R y) * (1 + d1) / (G * (1 + d2)))) as (d3 & t & D3 & T & ->).
  destruct (close_inv d2 (close1 _ D2)) as (i2 & C2 & I2). destruct (close_mul 1 1 d1 d3 ltac:(lra) ltac:(lra) (close1 _ D1) (close1 _ D3)) as (z & Cz & Ez).
  destruct (close_mul (1 + 1 + / 16) (17 / 16) z i2 ltac:(lra) ltac:(lra) Cz C2) as (v & Cv & Ev). unfold close in Cv.
  replace ((B2R w - B2R y) * (1 + d1) / (G * (1 + d2)) * (1 + d3) + t)%R with ((q - e / G) * (1 + v) + t)%R.
  2:{ rewrite <- Ev, <- Ez, <- I2, EQ. field. split; assumption. }
  replace ((q - e / G) * (1 + v) + t - q)%R with (q * v + (- (e / G * (1 + v)) + t))%R by ring.
  apply Rle_trans with (1 := Rabs_triang _ _). pose proof (Rabs_triang (- (e / G * (1 + v))) t) as TR. rewrite Rabs_Ropp, Rabs_mult in TR. rewrite Rabs_mult.
  assert (A1 : (Rabs q * Rabs v <= Rabs q * (4 * eps))%R) by (apply Rmult_le_compat_l; [apply Rabs_pos|lra]).
  assert (A2 : (Rabs (e / G) * Rabs (1 + v) <= Rabs (e / G) * 2)%R) by (apply Rmult_le_compat_l; [apply Rabs_pos|]; apply Rabs_le_inv in Cv; apply Rabs_le; lra).
  assert (A3 : Rabs (e / G) = (Rabs e / Rabs G)%R) by (unfold Rdiv; rewrite Rabs_mult, Rabs_inv; reflexivity). rewrite A3 in A2, TR. lra.
Qed.

Section Mid.
Variables (a h : Z) (vs : list (option b64)) (s : pts b64 (option b64)) (m : b64) (M : R).
Hypothesis SM : grid_small a h (length vs).
Hypothesis ON : grid_run a h 0 vs s.
Hypothesis IP : p_interp s = ILinear.
Hypothesis MS : step_ok h m.
Hypothesis BM : (M <= bpow radix2 1000)%R.
Notation X i := (IZR (a + Z.of_nat i * h)).
(** the error of the value over the distance from the other point *)
Definition mid_err (i : nat) (D g : R) : R := (2 * (((2 * INR i + 3) * eps * Rabs D + (5 * eps * M + 4 * tiny)) / g))%R.

Section One.
Variables (i : nat) (x v w : b64) (lim : option b64).
Hypothesis EV : nth_error vs i = Some (Some v).
Hypothesis EW : nth_error vs (S i) = Some (Some w).
Hypothesis FX : finite64 x.
Hypothesis FV : finite64 v.
Hypothesis FW : finite64 w.
Hypothesis BV : (Rabs (val64 v) <= M)%R.
Hypothesis BW : (Rabs (val64 w) <= M)%R.

Lemma Ls : (S i < length vs)%nat. Proof. apply nth_error_Some. congruence. Qed.
Lemma value_mid : (X i <= val64 x <= X (S i))%R -> exists y : bf, p_y s x = Ok (Some (B2SF y)) /\ is_finite y = true /\ (Rabs (B2R y) <= bpow radix2 1001)%R /\
  (Rabs (B2R y - (val64 v + (val64 x - X i) / IZR h * (val64 w - val64 v))) <= (2 * INR i + 3) * eps * Rabs (val64 w - val64 v) + (5 * eps * M + 4 * tiny))%R.
Proof.
  intros B. pose proof (small_fits _ _ _ SM) as G.
  destruct (grid_near a h 0 vs s i x v w M G (run_on_grid _ _ _ _ _ G ON) IP EV EW FX FV FW) as (r & ER & FR & E1 & E2); try assumption.
  - rewrite !dy0. exact B.
  - apply Rle_trans with (1 := BM). apply bpow_le. lia.
  - destruct (real_of _ FR) as (y & -> & Fy). exists y. rewrite val_B2R in *. rewrite !dy0 in E1. unfold at_i, ErrB64.slack in *. split; [exact ER|]. split; [exact Fy|]. split; [|exact E1].
    change 1001 with (1000 + 1). rewrite <- (b2 1000). pose proof eps_pos. pose proof eps_small. apply Rabs_le_inv in BV. apply Rabs_le_inv in BW.
    assert (PM : (0 <= M)%R) by lra. assert (T1 : (4 * tiny <= 1)%R) by (unfold tiny; apply Rle_trans with (bpow radix2 2 * bpow radix2 (-1075))%R; [right; reflexivity|rewrite <- bpow_plus; change 1%R with (bpow radix2 0); apply bpow_le; lia]).
    assert (B1 : (4 <= bpow radix2 1000)%R) by (change 4%R with (bpow radix2 2); apply bpow_le; lia).
    assert (5 * eps * M <= 5 * eps * bpow radix2 1000)%R by (apply Rmult_le_compat_l; lra).
    assert (eps * bpow radix2 1000 <= / 16 * bpow radix2 1000)%R by (apply Rmult_le_compat_r; lra).
    assert (Rmax (val64 v) (val64 w) <= M)%R by (apply Rmax_lub; lra). assert (- M <= Rmin (val64 v) (val64 w))%R by (apply Rmin_glb; lra).
    apply Rabs_le. lra.
Qed.
Lemma knot_bf k u : nth_error vs k = Some (Some u) -> p_y s (fnum (a + Z.of_nat k * h) 0) = Ok (Some u).
Proof. intros E. apply (run_y a h 0 vs s k _ (small_fits _ _ _ SM) ON E). Qed.
Lemma pos_bf k : (k < length vs)%nat -> exists b : bf, fnum (a + Z.of_nat k * h) 0 = B2SF b /\ is_finite b = true /\ B2R b = X k /\ (Rabs (B2R b) <= bpow radix2 100)%R.
Proof.
  intros L. pose proof Ls. destruct (x_real a h vs SM ltac:(lia) k L) as (b & E & F & R & A). exists b. split; [exact E|]. split; [exact F|]. split; [exact R|].
  rewrite R. apply abs_le_100 with (2 ^ 35); [|lia]. rewrite <- abs_IZR. apply IZR_le. exact A.
Qed.
Lemma Xs : X (S i) = (X i + IZR h)%R. Proof. rewrite <- plus_IZR. f_equal. lia. Qed.
Lemma m_pos : (bpow radix2 (-17) <= val64 m)%R.
Proof. destruct (step_real h m) as (b & -> & F & R); [pose proof Ls; destruct SM as (? & ? & ? & ?); nia|exact MS|]. rewrite val_B2R. lra. Qed.
Lemma x_bounds (b : bf) : (X i <= B2R b <= X (S i))%R -> (Rabs (B2R b) <= bpow radix2 100)%R.
Proof.
  intros B. pose proof Ls. destruct (pos_bf i ltac:(lia)) as (p & _ & _ & R1 & A1). destruct (pos_bf (S i) ltac:(lia)) as (p' & _ & _ & R2 & A2). rewrite R1 in A1. rewrite R2 in A2.
  apply Rabs_le_inv in A1. apply Rabs_le_inv in A2. apply Rabs_le. lra.
Qed.
Lemma differ (b c : bf) : is_finite b = true -> is_finite c = true -> (bpow radix2 (-17) <= Rabs (B2R b - B2R c))%R -> @n_eqb b64 B64 (B2SF b) (B2SF c) = false.
Proof.
  intros Fb Fc L. change (SFeqb (B2SF b) (B2SF c) = false). rewrite eqb_val by assumption. apply Req_bool_false. intros E. rewrite E, Rminus_diag_eq, Rabs_R0 in L by reflexivity.
  pose proof (bpow_gt_0 radix2 (-17)). lra.
Qed.
Lemma hpos : (0 < IZR h)%R. Proof. apply IZR_lt. apply SM. Qed.

Lemma forward_mid : (X i <= val64 x)%R -> (val64 x + val64 m <= X (S i))%R -> exists r, d_y (p_crv s) x true (Some m) lim = Ok (Some r) /\ finite64 r /\
  let q := ((val64 w - val64 v) / IZR h)%R in (Rabs (val64 r - q) <= 4 * eps * Rabs q + mid_err i (val64 w - val64 v) (X (S i) - val64 x) + tiny)%R.
Proof.
  intros B1 B2. pose proof Ls as LS. pose proof m_pos as MP. pose proof (bpow_gt_0 radix2 (-17)) as BP. pose proof hpos as HP. pose proof x_bounds as XBD. destruct (value_mid ltac:(lra)) as (y & EY & FY & BY & NY).
  pose proof (small_fits _ _ _ SM) as G. unfold d_y. cbn [p_crv c_ms resolve_min_step c_next c_y].
  rewrite (next_between a h vs s SM ltac:(lia) (run_on_grid _ _ _ _ _ G ON) i m x lim LS MS FX B1 B2 : p_x_next s x (Some m) lim = Ok (Some (fnum (a + Z.of_nat (S i) * h) 0))). cbn [rbind].
  rewrite (knot_bf _ _ EW). cbn [rbind]. rewrite EY. cbn [rbind].
  destruct (pos_bf (S i) LS) as (u & -> & FU & RU & AU). destruct (real_of _ FX) as (xb & -> & Fxb). destruct (real_of _ FW) as (wb & -> & Fwb). rewrite !val_B2R in *.
  assert (AG : Rabs (B2R u - B2R xb) = (X (S i) - B2R xb)%R) by (rewrite RU; apply Rabs_pos_eq; lra).
  rewrite differ by (try assumption; lra).
  set (e := (B2R y - (val64 v + (B2R xb - X i) / IZR h * (B2R wb - val64 v)))%R) in *.
  destruct (ratio wb y u xb ((B2R wb - val64 v) / IZR h) e) as (r & ER & FR & NR); try assumption; try lra.
  - apply Rle_trans with (1 := BW). apply Rle_trans with (1 := BM). apply bpow_le. lia.
  - apply XBD. lra.
  - unfold e. rewrite RU, Xs. field. lra.
  - exists (B2SF r). change (@n_div b64 B64 (n_sub (B2SF wb) (B2SF y)) (n_sub (B2SF u) (B2SF xb))) with (@n_div b64 B64 (SFsub 53 1024 (B2SF wb) (B2SF y)) (SFsub 53 1024 (B2SF u) (B2SF xb))).
    rewrite ER. split; [reflexivity|]. split; [split; [apply valid_binary_B2SF|rewrite is_finite_SF_B2SF; exact FR]|]. cbv zeta. rewrite val_B2R.
    apply Rle_trans with (1 := NR). rewrite AG. unfold mid_err. apply Rplus_le_compat_r, Rplus_le_compat_l, Rmult_le_compat_l; [lra|]. unfold Rdiv. apply Rmult_le_compat_r; [left; apply Rinv_0_lt_compat; lra|exact NY].
Qed.
Lemma backward_mid : (val64 x <= X (S i))%R -> (X i <= val64 x - val64 m)%R -> exists r, d_y (p_crv s) x false (Some m) lim = Ok (Some r) /\ finite64 r /\
  let q := ((val64 w - val64 v) / IZR h)%R in (Rabs (val64 r - q) <= 4 * eps * Rabs q + mid_err i (val64 w - val64 v) (val64 x - X i) + tiny)%R.
Proof.
  intros B1 B2. pose proof Ls as LS. pose proof m_pos as MP. pose proof (bpow_gt_0 radix2 (-17)) as BP. pose proof hpos as HP. pose proof x_bounds as XBD. destruct (value_mid ltac:(lra)) as (y & EY & FY & BY & NY).
  pose proof (small_fits _ _ _ SM) as G. unfold d_y. cbn [p_crv c_ms resolve_min_step c_prev c_y].
  rewrite (prev_between a h vs s SM ltac:(lia) (run_on_grid _ _ _ _ _ G ON) i m x lim LS MS FX B1 B2 : p_x_previous s x (Some m) lim = Ok (Some (fnum (a + Z.of_nat i * h) 0))). cbn [rbind].
  rewrite (knot_bf _ _ EV). cbn [rbind]. rewrite EY. cbn [rbind].
  destruct (pos_bf i ltac:(lia)) as (u & -> & FU & RU & AU). destruct (real_of _ FX) as (xb & -> & Fxb). destruct (real_of _ FV) as (vb & -> & Fvb). rewrite !val_B2R in *.
  assert (AG : Rabs (B2R u - B2R xb) = (B2R xb - X i)%R) by (rewrite RU, Rabs_left1; lra).
  rewrite differ by (try assumption; lra).
  set (e := (B2R y - (B2R vb + (B2R xb - X i) / IZR h * (val64 w - B2R vb)))%R) in *.
  destruct (ratio vb y u xb ((val64 w - B2R vb) / IZR h) e) as (r & ER & FR & NR); try assumption; try lra.
  - apply Rle_trans with (1 := BV). apply Rle_trans with (1 := BM). apply bpow_le. lia.
  - apply XBD. lra.
  - unfold e. rewrite RU. field. lra.
  - exists (B2SF r). change (@n_div b64 B64 (n_sub (B2SF vb) (B2SF y)) (n_sub (B2SF u) (B2SF xb))) with (@n_div b64 B64 (SFsub 53 1024 (B2SF vb) (B2SF y)) (SFsub 53 1024 (B2SF u) (B2SF xb))).
    rewrite ER. split; [reflexivity|]. split; [split; [apply valid_binary_B2SF|rewrite is_finite_SF_B2SF; exact FR]|]. cbv zeta. rewrite val_B2R.
    apply Rle_trans with (1 := NR). rewrite AG. unfold mid_err. apply Rplus_le_compat_r, Rplus_le_compat_l, Rmult_le_compat_l; [lra|]. unfold Rdiv. apply Rmult_le_compat_r; [left; apply Rinv_0_lt_compat; lra|exact NY].
Qed.
End One.
End Mid.
