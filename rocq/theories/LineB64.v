(** Straight lines in binary64 (line.py). *)
From Coq Require Import List ZArith Reals Lia Lra Bool SpecFloat.
From Flocq Require Import Core BinarySingleNaN.
From Verif Require Import Base Num Interval Curve Combine B64Facts GridFacts StepB64 IrregB64 ErrB64 InterpB64 EmaB64.
Import ListNotations.
Open Scope Z_scope.
#[local] Existing Instances Hprec Hmax Hval Hexp.

Notation B300 := (bpow radix2 300).
Lemma rnd0 : rnd 0 = 0%R. Proof. apply round_0. apply valid_rnd_N. Qed.
Lemma rnd_B2R (x : bf) : rnd (B2R x) = B2R x. Proof. apply round_generic; [apply valid_rnd_N|apply generic_format_B2R]. Qed.
Lemma rnd_mono r s : (r <= s)%R -> (rnd r <= rnd s)%R. Proof. apply round_le; [apply Hexp|apply valid_rnd_N]. Qed.
Lemma rnd_bpow r e : -1074 <= e -> (Rabs r <= bpow radix2 e)%R -> (Rabs (rnd r) <= bpow radix2 e)%R.
Proof. intros E L. apply abs_round_le_generic; [apply Hexp|apply valid_rnd_N|apply generic_format_bpow; unfold FLT_exp; lia|exact L]. Qed.
Lemma b2 e : (2 * bpow radix2 e = bpow radix2 (e + 1))%R. Proof. rewrite bpow_plus. change (bpow radix2 1) with 2%R. ring. Qed.
Lemma b_mul x y a b : (Rabs x <= bpow radix2 a)%R -> (Rabs y <= bpow radix2 b)%R -> (Rabs (x * y) <= bpow radix2 (a + b))%R.
Proof. intros P Q. rewrite Rabs_mult, bpow_plus. apply Rmult_le_compat; auto using Rabs_pos. Qed.
Lemma b_sub x y a : (Rabs x <= bpow radix2 a)%R -> (Rabs y <= bpow radix2 a)%R -> (Rabs (x - y) <= bpow radix2 (a + 1))%R.
Proof. intros P Q. rewrite <- b2. apply Rabs_le_inv in P. apply Rabs_le_inv in Q. apply Rabs_le. lra. Qed.
Lemma b_add x y a : (Rabs x <= bpow radix2 a)%R -> (Rabs y <= bpow radix2 a)%R -> (Rabs (x + y) <= bpow radix2 (a + 1))%R.
Proof. intros P Q. rewrite <- b2. apply Rabs_le_inv in P. apply Rabs_le_inv in Q. apply Rabs_le. lra. Qed.
Lemma b_le x a b : (Rabs x <= bpow radix2 a)%R -> a <= b -> (Rabs x <= bpow radix2 b)%R.
Proof. intros P Q. apply Rle_trans with (1 := P). apply bpow_le. exact Q. Qed.

(** ** The value at a position *)
Lemma line_value (lx ly s x : bf) : is_finite lx = true -> is_finite ly = true -> is_finite s = true -> is_finite x = true ->
  (Rabs (B2R lx) <= B300)%R -> (Rabs (B2R x) <= B300)%R -> (Rabs (B2R ly) <= B300)%R -> (Rabs (B2R s) <= bpow radix2 605)%R ->
  exists r : bf, line_y (mkL (B2SF lx) (B2SF ly) (B2SF s)) (B2SF x) = B2SF r /\ is_finite r = true /\
    B2R r = rnd (B2R ly + rnd (B2R s * rnd (B2R x - B2R lx))).
Proof.
  intros Fl Fy Fs Fx Bl Bx By Bs. change (line_y (mkL (B2SF lx) (B2SF ly) (B2SF s)) (B2SF x)) with (SFadd 53 1024 (B2SF ly) (SFmul 53 1024 (B2SF s) (SFsub 53 1024 (B2SF x) (B2SF lx)))).
  pose proof (b_sub _ _ _ Bx Bl) as B1. destruct (sub_big x lx Fx Fl (b_le _ _ 1023 B1 ltac:(lia))) as (d & -> & Fd & Rd).
  assert (Bd : (Rabs (B2R d) <= bpow radix2 301)%R) by (rewrite Rd; apply rnd_bpow; [lia|exact B1]).
  pose proof (b_mul _ _ _ _ Bs Bd) as B2. destruct (mul_big s d Fs Fd (b_le _ _ 1023 B2 ltac:(lia))) as (p & -> & Fp & Rp).
  assert (Bp : (Rabs (B2R p) <= bpow radix2 906)%R) by (rewrite Rp; apply rnd_bpow; [lia|exact B2]).
  destruct (add_big ly p Fy Fp) as (r & -> & Fr & Rr); [apply b_le with 907; [|lia]; apply (b_add _ _ 906); [apply b_le with 300; [exact By|lia]|exact Bp]|].
  exists r. split; [reflexivity|]. split; [exact Fr|]. rewrite Rr, Rp, Rd. reflexivity.
Qed.
(** a line as the code stores it *)
Definition sound_line (l : line b64) : Prop := finite64 (l_x l) /\ finite64 (l_y l) /\ finite64 (l_slope l) /\
  (Rabs (val64 (l_x l)) <= B300)%R /\ (Rabs (val64 (l_y l)) <= B300)%R /\ (Rabs (val64 (l_slope l)) <= bpow radix2 605)%R.
Lemma sound_value l x : sound_line l -> finite64 x -> (Rabs (val64 x) <= B300)%R ->
  exists r, line_y l x = r /\ finite64 r /\ val64 r = rnd (val64 (l_y l) + rnd (val64 (l_slope l) * rnd (val64 x - val64 (l_x l)))).
Proof.
  destruct l as [lx ly s]. cbn [l_x l_y l_slope]. intros (F1 & F2 & F3 & B1 & B2 & B3) FX BX. cbn [l_x l_y l_slope] in *.
  destruct (real_of _ F1) as (a & -> & Fa). destruct (real_of _ F2) as (b & -> & Fb). destruct (real_of _ F3) as (c & -> & Fc). destruct (real_of _ FX) as (d & -> & Fd).
  rewrite !val_B2R in *. destruct (line_value a b c d Fa Fb Fc Fd B1 BX B2 B3) as (r & E & Fr & Rr). exists (B2SF r). split; [exact E|].
  split; [split; [apply valid_binary_B2SF|rewrite is_finite_SF_B2SF; exact Fr]|]. rewrite val_B2R. exact Rr.
Qed.
Lemma val_fixed x : finite64 x -> rnd (val64 x) = val64 x.
Proof. intros F. destruct (real_of _ F) as (b & -> & _). rewrite val_B2R. apply rnd_B2R. Qed.
(** through its reference point, exactly *)
Lemma line_ref l : sound_line l -> exists r, line_y l (l_x l) = r /\ finite64 r /\ val64 r = val64 (l_y l).
Proof.
  intros S. destruct (sound_value l (l_x l) S) as (r & E & F & V); [apply S|apply S|]. exists r. split; [exact E|]. split; [exact F|]. rewrite V.
  rewrite Rminus_diag_eq by reflexivity. rewrite rnd0, Rmult_0_r, rnd0, Rplus_0_r. apply val_fixed. apply S.
Qed.
(** never against its slope *)
Lemma line_mono l x x' : sound_line l -> finite64 x -> finite64 x' -> (Rabs (val64 x) <= B300)%R -> (Rabs (val64 x') <= B300)%R -> (val64 x <= val64 x')%R ->
  ((0 <= val64 (l_slope l))%R -> (val64 (line_y l x) <= val64 (line_y l x'))%R) /\ ((val64 (l_slope l) <= 0)%R -> (val64 (line_y l x') <= val64 (line_y l x))%R).
Proof.
  intros S FX FX' BX BX' L. destruct (sound_value l x S FX BX) as (r & -> & _ & V). destruct (sound_value l x' S FX' BX') as (r' & -> & _ & V'). rewrite V, V'.
  assert (D : (rnd (val64 x - val64 (l_x l)) <= rnd (val64 x' - val64 (l_x l)))%R) by (apply rnd_mono; lra).
  split; intros P; apply rnd_mono; apply Rplus_le_compat_l; apply rnd_mono; nra.
Qed.

(** ** Through two points *)
Definition close (k : R) (d : R) : Prop := (Rabs d <= k * eps)%R.
Lemma close_mul a b x y : (0 <= a <= 8)%R -> (0 <= b <= 8)%R -> close a x -> close b y -> exists z, close (a + b + / 16) z /\ ((1 + x) * (1 + y) = 1 + z)%R.
Proof.
  intros A B X Y. exists (x + y + x * y)%R. split; [|ring]. unfold close in *. pose proof eps_pos. pose proof eps_small.
  assert (P : (Rabs (x * y) <= 64 * eps * eps)%R).
  { rewrite Rabs_mult. replace (64 * eps * eps)%R with ((8 * eps) * (8 * eps))%R by ring. apply Rmult_le_compat; try apply Rabs_pos; [apply Rle_trans with (1 := X)|apply Rle_trans with (1 := Y)]; apply Rmult_le_compat_r; lra. }
  apply Rle_trans with (1 := Rabs_triang _ _). apply Rle_trans with (Rabs x + Rabs y + Rabs (x * y))%R; [apply Rplus_le_compat_r, Rabs_triang|].
  assert (64 * eps * eps <= / 16 * eps)%R by nra. lra.
Qed.
Lemma close_inv x : close 1 x -> exists z, close (17 / 16) z /\ (/ (1 + x) = 1 + z)%R.
Proof.
  unfold close. intros X. pose proof eps_pos. pose proof eps_small. apply Rabs_le_inv in X. exists (- x * / (1 + x))%R. split; [|field; lra].
  rewrite Rabs_mult. assert (I : (0 < / (1 + x) <= 17 / 16)%R).
  { split; [apply Rinv_0_lt_compat; lra|]. apply Rmult_le_reg_r with (1 + x)%R; [lra|]. rewrite Rinv_l by lra. lra. }
  rewrite (Rabs_pos_eq (/ (1 + x))) by lra. rewrite Rabs_Ropp. assert (Rabs x <= eps)%R by (apply Rabs_le; lra). pose proof (Rabs_pos x). nra.
Qed.
Lemma close1 d : (Rabs d <= eps)%R -> close 1 d. Proof. unfold close. lra. Qed.

Lemma slope_two (x1 y1 x2 y2 : bf) : is_finite x1 = true -> is_finite y1 = true -> is_finite x2 = true -> is_finite y2 = true ->
  (Rabs (B2R x1) <= B300)%R -> (Rabs (B2R x2) <= B300)%R -> (Rabs (B2R y1) <= B300)%R -> (Rabs (B2R y2) <= B300)%R -> (bpow radix2 (-300) <= Rabs (B2R x2 - B2R x1))%R ->
  exists s : bf, line_args None None (Some (B2SF x1, B2SF y1)) (Some (B2SF x2, B2SF y2)) None = Ok (mkL (B2SF x1) (B2SF y1) (B2SF s)) /\ is_finite s = true /\ (Rabs (B2R s) <= bpow radix2 605)%R /\
    B2R s = rnd (rnd (B2R y2 - B2R y1) / rnd (B2R x2 - B2R x1)) /\ rnd (B2R x2 - B2R x1) <> 0%R.
Proof.
  intros F1 G1 F2 G2 B1 B2 C1 C2 H. unfold line_args. change (@n_sub b64 B64) with (SFsub 53 1024). change (@n_eqb b64 B64) with SFeqb.
  assert (P3 : (0 < bpow radix2 (-300))%R) by apply bpow_gt_0.
  assert (NE : B2R x2 <> B2R x1) by (intros E; rewrite E, Rminus_diag_eq, Rabs_R0 in H by reflexivity; lra).
  rewrite eqb_val, Req_bool_false by assumption. cbn [negb].
  match goal with |- context [n_div ?u0 ?v0] => change (n_div u0 v0) with (@n_div b64 B64 (SFsub 53 1024 (B2SF y2) (B2SF y1)) (SFsub 53 1024 (B2SF x2) (B2SF x1))) end.
  pose proof (b_sub _ _ _ C2 C1) as B3. destruct (sub_big y2 y1 G2 G1 (b_le _ _ 1023 B3 ltac:(lia))) as (dy & -> & Fy & Ry).
  pose proof (b_sub _ _ _ B2 B1) as B4. destruct (sub_big x2 x1 F2 F1 (b_le _ _ 1023 B4 ltac:(lia))) as (dx & -> & Fx & Rx).
  assert (Bdy : (Rabs (B2R dy) <= bpow radix2 301)%R) by (rewrite Ry; apply rnd_bpow; [lia|exact B3]).
  assert (Bdx : (bpow radix2 (-300) <= Rabs (B2R dx))%R).
  { rewrite Rx. apply abs_round_ge_generic; [apply Hexp|apply valid_rnd_N|apply generic_format_bpow; unfold FLT_exp; lia|exact H]. }
  assert (NZ : B2R dx <> 0%R) by (intros E; rewrite E, Rabs_R0 in Bdx; lra).
  assert (Q : (Rabs (B2R dy / B2R dx) <= bpow radix2 601)%R).
  { unfold Rdiv. rewrite Rabs_mult, Rabs_inv. replace (bpow radix2 601) with (bpow radix2 301 * / bpow radix2 (-300))%R by (rewrite <- bpow_opp, <- bpow_plus; reflexivity).
    apply Rmult_le_compat; [apply Rabs_pos|left; apply Rinv_0_lt_compat; lra|exact Bdy|]. apply Rinv_le; [exact P3|exact Bdx]. }
  destruct (div_big dy dx Fy NZ (b_le _ _ 1023 Q ltac:(lia))) as (s & -> & Fs & Rs). cbn [rbind]. exists s. split; [reflexivity|]. split; [exact Fs|].
  split; [rewrite Rs; apply b_le with 601; [apply rnd_bpow; [lia|exact Q]|lia]|]. rewrite Rs, Ry, <- Rx. split; [reflexivity|exact NZ].
Qed.
Lemma two_error (x1 y1 x2 y2 x s : bf) : B2R s = rnd (rnd (B2R y2 - B2R y1) / rnd (B2R x2 - B2R x1)) -> B2R x2 <> B2R x1 ->
  let D := (B2R y2 - B2R y1)%R in let u := (B2R x - B2R x1)%R in let t := (u / (B2R x2 - B2R x1))%R in
  (Rabs (rnd (B2R y1 + rnd (B2R s * rnd u)) - (B2R y1 + t * D)) <= 7 * eps * Rabs (t * D) + eps * Rabs (B2R y1 + t * D) + 2 * tiny * (Rabs u + 1))%R.
Proof.
  intros RS NE D u t. pose proof eps_pos as EP. pose proof eps_small as ES. pose proof tiny_pos as TP.
  destruct (minus_err (B2R y2) (B2R y1) (generic_format_B2R _ _ y2) (generic_format_B2R _ _ y1)) as (d1 & K1 & E1).
  destruct (minus_err (B2R x2) (B2R x1) (generic_format_B2R _ _ x2) (generic_format_B2R _ _ x1)) as (d2 & K2 & E2).
  destruct (minus_err (B2R x) (B2R x1) (generic_format_B2R _ _ x) (generic_format_B2R _ _ x1)) as (d4 & K4 & E4). fold u in E4. fold D in E1.
  assert (N2 : (B2R x2 - B2R x1 <> 0)%R) by lra. assert (P2 : (1 + d2 <> 0)%R) by (apply Rabs_le_inv in K2; lra).
  fold D in RS. rewrite E1, E2 in RS. destruct (any_err (D * (1 + d1) / ((B2R x2 - B2R x1) * (1 + d2)))) as (d3 & e3 & K3 & T3 & E3). rewrite E3 in RS.
  destruct (any_err (B2R s * rnd u)) as (d5 & e5 & K5 & T5 & E5).
  assert (G : generic_format radix2 fexp (rnd (B2R s * rnd u))) by (apply generic_format_round; [apply Hexp|apply valid_rnd_N]).
  destruct (plus_err (B2R y1) (rnd (B2R s * rnd u)) (generic_format_B2R _ _ y1) G) as (d6 & K6 & E6). rewrite E6, E5, E4. clear E6 G E5.
  destruct (close_inv d2 (close1 _ K2)) as (z2 & Z2 & I2).
  destruct (close_mul 1 (17 / 16) d1 z2 ltac:(lra) ltac:(lra) (close1 _ K1) Z2) as (a & A & EA).
  destruct (close_mul (1 + 17 / 16 + / 16) 1 a d3 ltac:(lra) ltac:(lra) A (close1 _ K3)) as (b & B & EB).
  destruct (close_mul (1 + 17 / 16 + / 16 + 1 + / 16) 1 b d4 ltac:(lra) ltac:(lra) B (close1 _ K4)) as (c & C & EC).
  destruct (close_mul (1 + 17 / 16 + / 16 + 1 + / 16 + 1 + / 16) 1 c d5 ltac:(lra) ltac:(lra) C (close1 _ K5)) as (z & Z & EZ).
  assert (V : (B2R s * (u * (1 + d4)) * (1 + d5) + e5 = t * D * (1 + z) + (e3 * u * ((1 + d4) * (1 + d5)) + e5))%R).
  { rewrite RS, <- EZ, <- EC, <- EB, <- EA, <- I2. unfold t. field. split; assumption. }
  rewrite V. clear V. set (w := (e3 * u * ((1 + d4) * (1 + d5)) + e5)%R).
  assert (W : (Rabs w <= tiny * (5 / 4 * Rabs u + 1))%R).
  { unfold w. apply Rle_trans with (1 := Rabs_triang _ _). rewrite !Rabs_mult.
    assert (Q : (Rabs (1 + d4) * Rabs (1 + d5) <= 5 / 4)%R).
    { apply Rabs_le_inv in K4. apply Rabs_le_inv in K5. rewrite !Rabs_pos_eq by lra. nra. }
    pose proof (Rabs_pos u). pose proof (Rabs_pos e3). assert (Rabs e3 * Rabs u <= tiny * Rabs u)%R by (apply Rmult_le_compat_r; assumption).
    assert (0 <= Rabs e3 * Rabs u)%R by (apply Rmult_le_pos; assumption). assert (0 <= Rabs (1 + d4) * Rabs (1 + d5))%R by (apply Rmult_le_pos; apply Rabs_pos).
    assert (Rabs e3 * Rabs u * (Rabs (1 + d4) * Rabs (1 + d5)) <= tiny * Rabs u * (5 / 4))%R by (apply Rmult_le_compat; lra). lra. }
  replace ((B2R y1 + (t * D * (1 + z) + w)) * (1 + d6) - (B2R y1 + t * D))%R with (((t * D) * z + w) * (1 + d6) + (B2R y1 + t * D) * d6)%R by ring.
  apply Rle_trans with (1 := Rabs_triang _ _).
  assert (Q1 : (Rabs ((B2R y1 + t * D) * d6) <= eps * Rabs (B2R y1 + t * D))%R) by (rewrite Rabs_mult, Rmult_comm; apply Rmult_le_compat_r; [apply Rabs_pos|exact K6]).
  assert (Q2 : (Rabs ((t * D * z + w) * (1 + d6)) <= 7 * eps * Rabs (t * D) + 2 * tiny * (Rabs u + 1))%R); [|lra].
  unfold close in Z. assert (TZ : (Rabs (t * D * z) <= 6 * eps * Rabs (t * D))%R).
  { rewrite Rabs_mult, (Rmult_comm (Rabs (t * D))). apply Rmult_le_compat_r; [apply Rabs_pos|]. lra. }
  rewrite Rabs_mult. assert (O : (Rabs (1 + d6) <= 1025 / 1024)%R) by (apply Rabs_le_inv in K6; apply Rabs_le; lra).
  assert (Y : (Rabs (t * D * z + w) <= 6 * eps * Rabs (t * D) + tiny * (5 / 4 * Rabs u + 1))%R) by (apply Rle_trans with (1 := Rabs_triang _ _); lra).
  pose proof (Rabs_pos u) as PU. pose proof (Rabs_pos (t * D)) as PT. assert (0 <= eps * Rabs (t * D))%R by (apply Rmult_le_pos; lra). assert (0 <= tiny * Rabs u)%R by (apply Rmult_le_pos; lra).
  apply Rle_trans with ((6 * eps * Rabs (t * D) + tiny * (5 / 4 * Rabs u + 1)) * (1025 / 1024))%R; [apply Rmult_le_compat; auto using Rabs_pos|]. lra.
Qed.

(** the two points of a line and their size *)
Definition two_points (x1 y1 x2 y2 : b64) : Prop := finite64 x1 /\ finite64 y1 /\ finite64 x2 /\ finite64 y2 /\
  (Rabs (val64 x1) <= B300)%R /\ (Rabs (val64 y1) <= B300)%R /\ (Rabs (val64 x2) <= B300)%R /\ (Rabs (val64 y2) <= B300)%R /\ (bpow radix2 (-300) <= Rabs (val64 x2 - val64 x1))%R.
Lemma two_line x1 y1 x2 y2 : two_points x1 y1 x2 y2 ->
  exists l, line_args None None (Some (x1, y1)) (Some (x2, y2)) None = Ok l /\ sound_line l /\ l_x l = x1 /\ l_y l = y1 /\
    (forall x, finite64 x -> (Rabs (val64 x) <= B300)%R -> exists r, line_y l x = r /\ finite64 r /\
      let t := ((val64 x - val64 x1) / (val64 x2 - val64 x1))%R in let D := (val64 y2 - val64 y1)%R in
      (Rabs (val64 r - (val64 y1 + t * D)) <= 7 * eps * Rabs (t * D) + eps * Rabs (val64 y1 + t * D) + 2 * tiny * (Rabs (val64 x - val64 x1) + 1))%R) /\
    ((val64 y1 <= val64 y2)%R -> (val64 x1 < val64 x2)%R -> (0 <= val64 (l_slope l))%R) /\ ((val64 y2 <= val64 y1)%R -> (val64 x1 < val64 x2)%R -> (val64 (l_slope l) <= 0)%R).
Proof.
  intros (F1 & G1 & F2 & G2 & B1 & C1 & B2 & C2 & H). destruct (real_of _ F1) as (a & -> & Fa). destruct (real_of _ G1) as (b & -> & Fb). destruct (real_of _ F2) as (c & -> & Fc). destruct (real_of _ G2) as (d & -> & Fd).
  rewrite !val_B2R in *. destruct (slope_two a b c d Fa Fb Fc Fd B1 B2 C1 C2 H) as (s & E & Fs & Bs & Rs & NZ). exists (mkL (B2SF a) (B2SF b) (B2SF s)). split; [exact E|].
  assert (FB : forall z : bf, is_finite z = true -> finite64 (B2SF z)) by (intros z Fz; split; [apply valid_binary_B2SF|rewrite is_finite_SF_B2SF; exact Fz]).
  assert (S : sound_line (mkL (B2SF a) (B2SF b) (B2SF s))) by (unfold sound_line; cbn [l_x l_y l_slope]; rewrite !val_B2R; repeat split; auto using valid_binary_B2SF; rewrite is_finite_SF_B2SF; assumption).
  assert (NE : B2R c <> B2R a) by (intros Q; apply NZ; rewrite Q, Rminus_diag_eq by reflexivity; apply rnd0).
  split; [exact S|]. split; [reflexivity|]. split; [reflexivity|]. split; [|cbn [l_slope]; rewrite val_B2R, Rs; split; intros P Q].
  - intros x FX BX. destruct (real_of _ FX) as (xb & -> & Fx). rewrite val_B2R in *. destruct (line_value a b s xb Fa Fb Fs Fx B1 BX C1 Bs) as (r & ER & Fr & Rr).
    exists (B2SF r). split; [exact ER|]. split; [auto|]. cbv zeta. rewrite val_B2R, Rr. exact (two_error a b c d xb s Rs NE).
  - rewrite <- rnd0. apply rnd_mono. apply Rmult_le_pos; [rewrite <- rnd0; apply rnd_mono; lra|]. left. apply Rinv_0_lt_compat.
    assert (0 <= rnd (B2R c - B2R a))%R by (rewrite <- rnd0; apply rnd_mono; lra). lra.
  - rewrite <- rnd0. apply rnd_mono. assert (0 <= rnd (B2R c - B2R a))%R by (rewrite <- rnd0; apply rnd_mono; lra). assert (rnd (B2R d - B2R b) <= 0)%R by (rewrite <- rnd0; apply rnd_mono; lra).
    assert (0 < / rnd (B2R c - B2R a))%R by (apply Rinv_0_lt_compat; lra). unfold Rdiv. nra.
Qed.
(** a level line is level *)
Lemma level_line x1 y1 x2 y2 : two_points x1 y1 x2 y2 -> val64 y1 = val64 y2 ->
  exists l, line_args None None (Some (x1, y1)) (Some (x2, y2)) None = Ok l /\ val64 (l_slope l) = 0%R /\
    forall x, finite64 x -> (Rabs (val64 x) <= B300)%R -> exists r, line_y l x = r /\ finite64 r /\ val64 r = val64 y1.
Proof.
  intros (F1 & G1 & F2 & G2 & B1 & C1 & B2 & C2 & H) EY. destruct (real_of _ F1) as (a & -> & Fa). destruct (real_of _ G1) as (b & -> & Fb). destruct (real_of _ F2) as (c & -> & Fc). destruct (real_of _ G2) as (d & -> & Fd).
  rewrite !val_B2R in *. destruct (slope_two a b c d Fa Fb Fc Fd B1 B2 C1 C2 H) as (s & E & Fs & Bs & Rs & NZ). exists (mkL (B2SF a) (B2SF b) (B2SF s)). split; [exact E|].
  rewrite EY, Rminus_diag_eq, rnd0 in Rs by reflexivity. unfold Rdiv in Rs. rewrite Rmult_0_l, rnd0 in Rs. cbn [l_slope]. rewrite val_B2R. split; [exact Rs|].
  intros x FX BX. destruct (real_of _ FX) as (xb & -> & Fx). rewrite val_B2R in *. destruct (line_value a b s xb Fa Fb Fs Fx B1 BX C1 Bs) as (r & ER & Fr & Rr).
  exists (B2SF r). split; [exact ER|]. split; [split; [apply valid_binary_B2SF|rewrite is_finite_SF_B2SF; exact Fr]|]. rewrite val_B2R, Rr, Rs, Rmult_0_l, rnd0, Rplus_0_r. apply rnd_B2R.
Qed.
(** the position of a value *)
Lemma line_inverse l y : sound_line l -> finite64 y -> (Rabs (val64 y) <= B300)%R -> (bpow radix2 (-300) <= Rabs (val64 (l_slope l)))%R ->
  exists r, line_x l y = Ok r /\ finite64 r /\ let q := ((val64 y - val64 (l_y l)) / val64 (l_slope l))%R in
    (Rabs (val64 r - (val64 (l_x l) + q)) <= 3 * eps * Rabs q + eps * Rabs (val64 (l_x l) + q) + 2 * tiny)%R.
Proof.
  destruct l as [lx ly s]. unfold sound_line, line_x. cbn [l_x l_y l_slope]. intros (F1 & F2 & F3 & B1 & B2 & B3) FY BY HS.
  destruct (real_of _ F1) as (a & -> & Fa). destruct (real_of _ F2) as (b & -> & Fb). destruct (real_of _ F3) as (c & -> & Fc). destruct (real_of _ FY) as (d & -> & Fd). rewrite !val_B2R in *.
  match goal with |- context [n_div ?u0 ?v0] => change (n_div u0 v0) with (@n_div b64 B64 (SFsub 53 1024 (B2SF d) (B2SF b)) (B2SF c)) end.
  pose proof (b_sub _ _ _ BY B2) as B4. destruct (sub_big d b Fd Fb (b_le _ _ 1023 B4 ltac:(lia))) as (dy & -> & Fy & Ry).
  assert (P3 : (0 < bpow radix2 (-300))%R) by apply bpow_gt_0.
  assert (Bdy : (Rabs (B2R dy) <= bpow radix2 301)%R) by (rewrite Ry; apply rnd_bpow; [lia|exact B4]).
  assert (NZ : B2R c <> 0%R) by (intros E; rewrite E, Rabs_R0 in HS; lra).
  assert (Q : (Rabs (B2R dy / B2R c) <= bpow radix2 601)%R).
  { unfold Rdiv. rewrite Rabs_mult, Rabs_inv. replace (bpow radix2 601) with (bpow radix2 301 * / bpow radix2 (-300))%R by (rewrite <- bpow_opp, <- bpow_plus; reflexivity).
    apply Rmult_le_compat; [apply Rabs_pos|left; apply Rinv_0_lt_compat; lra|exact Bdy|]. apply Rinv_le; [exact P3|exact HS]. }
  destruct (div_big dy c Fy NZ (b_le _ _ 1023 Q ltac:(lia))) as (q & -> & Fq & Rq). cbn [rbind]. change (@n_add b64 B64) with (SFadd 53 1024).
  assert (Bq : (Rabs (B2R q) <= bpow radix2 601)%R) by (rewrite Rq; apply rnd_bpow; [lia|exact Q]).
  destruct (add_big a q Fa Fq) as (r & -> & Fr & Rr); [apply b_le with 602; [|lia]; apply (b_add _ _ 601); [apply b_le with 300; [exact B1|lia]|exact Bq]|].
  exists (B2SF r). split; [reflexivity|]. split; [split; [apply valid_binary_B2SF|rewrite is_finite_SF_B2SF; exact Fr]|]. cbv zeta. rewrite val_B2R.
  pose proof eps_pos as EP. pose proof eps_small as ES. pose proof tiny_pos as TP.
  destruct (plus_err (B2R a) (B2R q) (generic_format_B2R _ _ a) (generic_format_B2R _ _ q)) as (d6 & K6 & E6). rewrite Rr, E6. clear Rr E6.
  destruct (minus_err (B2R d) (B2R b) (generic_format_B2R _ _ d) (generic_format_B2R _ _ b)) as (d1 & K1 & E1). rewrite E1 in Ry.
  destruct (any_err (B2R dy / B2R c)) as (d3 & e3 & K3 & T3 & E3). rewrite E3 in Rq. clear E3 E1.
  destruct (close_mul 1 1 d1 d3 ltac:(lra) ltac:(lra) (close1 _ K1) (close1 _ K3)) as (z & Z & EZ).
  set (p := ((B2R d - B2R b) / B2R c)%R). assert (V : B2R q = (p * (1 + z) + e3)%R) by (rewrite Rq, Ry, <- EZ; unfold p; field; exact NZ). rewrite V.
  replace ((B2R a + (p * (1 + z) + e3)) * (1 + d6) - (B2R a + p))%R with ((p * z + e3) * (1 + d6) + (B2R a + p) * d6)%R by ring.
  apply Rle_trans with (1 := Rabs_triang _ _).
  assert (Q1 : (Rabs ((B2R a + p) * d6) <= eps * Rabs (B2R a + p))%R) by (rewrite Rabs_mult, Rmult_comm; apply Rmult_le_compat_r; [apply Rabs_pos|exact K6]).
  unfold close in Z. assert (TZ : (Rabs (p * z) <= 5 / 2 * eps * Rabs p)%R) by (rewrite Rabs_mult, (Rmult_comm (Rabs p)); apply Rmult_le_compat_r; [apply Rabs_pos|lra]).
  assert (O : (Rabs (1 + d6) <= 1025 / 1024)%R) by (apply Rabs_le_inv in K6; apply Rabs_le; lra).
  assert (Y : (Rabs (p * z + e3) <= 5 / 2 * eps * Rabs p + tiny)%R) by (apply Rle_trans with (1 := Rabs_triang _ _); lra).
  assert (Q2 : (Rabs ((p * z + e3) * (1 + d6)) <= (5 / 2 * eps * Rabs p + tiny) * (1025 / 1024))%R) by (rewrite Rabs_mult; apply Rmult_le_compat; auto using Rabs_pos).
  pose proof (Rabs_pos p). assert (0 <= eps * Rabs p)%R by (apply Rmult_le_pos; lra). lra.
Qed.
