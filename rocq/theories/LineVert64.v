(** Vertical lines in binary64 (line.py:47-54, 66-67). *)
From Coq Require Import List ZArith Reals Lia Lra Psatz Bool SpecFloat.
From Flocq Require Import Core BinarySingleNaN.
From Verif Require Import Base Num Interval Curve Combine B64Facts GridFacts StepB64 IrregB64 ErrB64 InterpB64 EmaB64 IntB64 LineB64.
Import ListNotations.
Open Scope Z_scope.
#[local] Existing Instances Hprec Hmax Hval Hexp.

Lemma vertical_slope (x1 y1 x2 y2 : b64) : finite64 x1 -> finite64 y1 -> finite64 x2 -> finite64 y2 -> val64 x1 = val64 x2 ->
  exists l, line_args None None (Some (x1, y1)) (Some (x2, y2)) None = Ok l /\ l_x l = x1 /\ l_y l = y1 /\
    ((val64 y1 <= val64 y2)%R -> l_slope l = S754_infinity false) /\ ((val64 y2 < val64 y1)%R -> l_slope l = S754_infinity true).
Proof.
  intros F1 G1 F2 G2. destruct (real_of _ F1) as (a & -> & Fa). destruct (real_of _ G1) as (b & -> & Fb). destruct (real_of _ F2) as (c & -> & Fc). destruct (real_of _ G2) as (d & -> & Fd).
  rewrite !val_B2R. intros E. unfold line_args.
  assert (Q : @n_eqb b64 B64 (B2SF c) (B2SF a) = true) by (change (SFeqb (B2SF c) (B2SF a) = true); rewrite eqb_val by assumption; apply Req_bool_true; congruence).
  rewrite Q. cbn [negb].
  assert (L : @n_geb b64 B64 (B2SF d) (B2SF b) = Rle_bool (B2R b) (B2R d)) by (change (SFleb (B2SF b) (B2SF d) = Rle_bool (B2R b) (B2R d)); apply leb_val; assumption).
  rewrite L. destruct (Rle_bool_spec (B2R b) (B2R d)) as [H|H]; cbn [rbind]; eexists; (split; [reflexivity|]); cbn [l_x l_y l_slope]; repeat split; intros H'; try reflexivity; lra.
Qed.

Lemma nonzero_sub (x y : bf) : is_finite x = true -> is_finite y = true -> (Rabs (B2R x) <= bpow radix2 1000)%R -> (Rabs (B2R y) <= bpow radix2 1000)%R -> B2R x <> B2R y ->
  exists sg m e, SFsub 53 1024 (B2SF x) (B2SF y) = S754_finite sg m e /\ (sg = true <-> (B2R x < B2R y)%R).
Proof.
  intros Fx Fy Bx By N. pose proof (b_sub _ _ _ Bx By) as BD. destruct (sub_big x y Fx Fy) as (z & -> & Fz & Rz); [apply (b_le _ 1001 1023 BD); lia|].
  destruct (minus_err (B2R x) (B2R y) (generic_format_B2R _ _ x) (generic_format_B2R _ _ y)) as (d & D & E). rewrite E in Rz.
  pose proof eps_pos. pose proof eps_small. apply Rabs_le_inv in D. destruct z as [sg|sg| |sg m e B]; try discriminate Fz.
  - exfalso. cbn [B2R] in Rz. symmetry in Rz. apply Rmult_integral in Rz. destruct Rz; lra.
  - exists sg, m, e. split; [reflexivity|]. assert (P : (0 < 1 + d)%R) by lra. cbn [B2R] in Rz. destruct sg; cbn [cond_Zopp] in Rz.
    + assert (F2R (Float radix2 (Z.neg m) e) < 0)%R by (apply F2R_lt_0; reflexivity). split; [intros _|reflexivity]. change (Z.opp (Z.pos m)) with (Z.neg m) in Rz. nra.
    + assert (0 < F2R (Float radix2 (Z.pos m) e))%R by (apply F2R_gt_0; reflexivity). split; [discriminate|]. intros L. exfalso. nra.
Qed.

(** an infinite slope: infinite on both sides of the point *)
Lemma vertical_value (lx ly x : b64) (sg : bool) : finite64 lx -> finite64 ly -> finite64 x -> (Rabs (val64 lx) <= bpow radix2 1000)%R -> (Rabs (val64 x) <= bpow radix2 1000)%R ->
  let l := mkL lx ly (S754_infinity sg) in
  ((val64 lx < val64 x)%R -> line_y l x = S754_infinity sg) /\ ((val64 x < val64 lx)%R -> line_y l x = S754_infinity (negb sg)).
Proof.
  intros F G K. destruct (real_of _ F) as (a & -> & Fa). destruct (real_of _ G) as (b & -> & Fb). destruct (real_of _ K) as (c & -> & Fc). rewrite !val_B2R. intros Ba Bc l.
  assert (S : B2R c <> B2R a -> exists s', line_y l (B2SF c) = S754_infinity (xorb sg s') /\ (s' = true <-> (B2R c < B2R a)%R)).
  { intros N. destruct (nonzero_sub c a Fc Fa Bc Ba N) as (s' & m & e & E & SP). exists s'. split; [|exact SP].
    unfold line_y, l. cbn [l_y l_slope l_x]. change (SFadd 53 1024 (B2SF b) (SFmul 53 1024 (S754_infinity sg) (SFsub 53 1024 (B2SF c) (B2SF a))) = S754_infinity (xorb sg s')).
    rewrite E. destruct b; try discriminate Fb; reflexivity. }
  split; intros L; destruct S as (s' & -> & SP); try lra; destruct s', sg; try reflexivity; exfalso;
    try (pose proof (proj1 SP eq_refl); lra); pose proof (proj2 SP L) as W; discriminate W.
Qed.
(** ... and not a number at the point *)
Lemma vertical_nan (lx ly : b64) (sg : bool) : finite64 lx -> finite64 ly -> line_y (mkL lx ly (S754_infinity sg)) lx = S754_nan.
Proof.
  intros F G. destruct (real_of _ F) as (a & -> & Fa). destruct (real_of _ G) as (b & -> & Fb). unfold line_y. cbn [l_y l_slope l_x].
  change (SFadd 53 1024 (B2SF b) (SFmul 53 1024 (S754_infinity sg) (SFsub 53 1024 (B2SF a) (B2SF a))) = S754_nan).
  destruct (sub_big a a Fa Fa) as (z & -> & Fz & Rz); [rewrite Rminus_diag_eq, Rabs_R0 by reflexivity; apply bpow_ge_0|].
  rewrite Rminus_diag_eq, rnd0 in Rz by reflexivity. destruct z as [s0|s0| |s0 m e B]; try discriminate Fz; [destruct b; try discriminate Fb; reflexivity|].
  exfalso. cbn [B2R] in Rz. apply eq_0_F2R in Rz. destruct s0; discriminate Rz.
Qed.
Lemma vertical_line (x1 y1 x2 y2 : b64) : finite64 x1 -> finite64 y1 -> finite64 x2 -> finite64 y2 -> val64 x1 = val64 x2 -> (Rabs (val64 x1) <= bpow radix2 1000)%R ->
  exists l, line_args None None (Some (x1, y1)) (Some (x2, y2)) None = Ok l /\
    forall x, finite64 x -> (Rabs (val64 x) <= bpow radix2 1000)%R ->
      ((val64 y1 <= val64 y2)%R -> ((val64 x1 < val64 x)%R -> line_y l x = n_inf) /\ ((val64 x < val64 x1)%R -> line_y l x = n_ninf)) /\
      ((val64 y2 < val64 y1)%R -> ((val64 x1 < val64 x)%R -> line_y l x = n_ninf) /\ ((val64 x < val64 x1)%R -> line_y l x = n_inf)).
Proof.
  intros F1 G1 F2 G2 E B. destruct (vertical_slope x1 y1 x2 y2 F1 G1 F2 G2 E) as ([lx ly sl] & A & P & Q & U & D). cbn [l_x l_y l_slope] in *. subst lx ly.
  exists (mkL x1 y1 sl). split; [exact A|]. intros x K Bx. split; intros L.
  - rewrite (U L). exact (vertical_value x1 y1 x false F1 G1 K B Bx).
  - rewrite (D L). exact (vertical_value x1 y1 x true F1 G1 K B Bx).
Qed.
Lemma vertical_ref (x1 y1 x2 y2 : b64) : finite64 x1 -> finite64 y1 -> finite64 x2 -> finite64 y2 -> val64 x1 = val64 x2 ->
  exists l, line_args None None (Some (x1, y1)) (Some (x2, y2)) None = Ok l /\ l_x l = x1 /\ l_y l = y1 /\ line_y l (l_x l) = S754_nan.
Proof.
  intros F1 G1 F2 G2 E. destruct (vertical_slope x1 y1 x2 y2 F1 G1 F2 G2 E) as ([lx ly sl] & A & P & Q & U & D). cbn [l_x l_y l_slope] in *. subst lx ly.
  exists (mkL x1 y1 sl). repeat split; [exact A|]. cbn [l_x]. destruct (Rle_or_lt (val64 y1) (val64 y2)) as [L|L]; [rewrite (U L)|rewrite (D L)]; apply vertical_nan; assumption.
Qed.
