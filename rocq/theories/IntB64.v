(** The integral in binary64 (integral.py:22-51, line.py:66-84) on a
    whole-number grid, against the exact sum of trapeziums. *)
From Coq Require Import List ZArith Reals Lia Lra Psatz Bool SpecFloat.
From Flocq Require Import Core BinarySingleNaN.
From Verif Require Import Base Num Interval Curve Points Combine Scan B64Facts GridFacts StepB64 IrregB64 ErrB64 InterpB64 AccB64 EmaB64 BetweenB64.
Import ListNotations.
Open Scope Z_scope.
#[local] Existing Instances Hprec Hmax Hval Hexp.

(** ** The point before one just beyond the end *)
Section After.
Context {V : Type} {W : Val b64 V}.
Variables (a h : Z) (ws : list V) (s : pts b64 V).
Hypothesis SM : grid_small a h (S (length ws)).
Hypothesis ON : on_grid a h 0 ws s.
Notation X i := (fnum (at_i a h i) 0).
Lemma SM0 : grid_small a h (length ws).
Proof. destruct SM as (P & A & B & C). unfold grid_small. repeat split; try assumption; nia. Qed.
Lemma x_fin i : (i <= length ws)%nat -> exists b : bf, X i = B2SF b /\ is_finite b = true /\ B2R b = IZR (at_i a h i) /\ Z.abs (at_i a h i) <= 2 ^ 35.
Proof.
  intros L. exists (bnum (at_i a h i) 0). rewrite fnum_bnum. destruct (bnum_spec (at_i a h i) 0 (fits_at a h 0 _ i (small_fits _ _ _ SM) ltac:(lia))) as (R1 & F1 & _).
  split; [reflexivity|]. split; [exact F1|]. rewrite R1, dy0. split; [reflexivity|]. unfold at_i. destruct SM as (P & A & B & C). nia.
Qed.
Lemma prev_after m lim : (0 < length ws)%nat -> step_ok h m -> p_x_previous s (X (length ws)) (Some m) lim = Ok (Some (X (length ws - 1))).
Proof.
  intros L M. assert (PH : 0 < h) by apply SM. assert (SH : h <= 2 ^ 35) by (destruct SM as (P & A & B & C); nia).
  assert (LJ : exists j, length ws = S j) by (exists (length ws - 1)%nat; lia). destruct LJ as (j & LW). rewrite LW. replace (S j - 1)%nat with j by lia. pose proof SM as SM'. rewrite LW in SM'.
  destruct (step_real h m ltac:(lia) M) as (mb & -> & FM & RM). destruct (x_fin (S j) ltac:(lia)) as (xb & EX & FX & RX & AX).
  assert (HP : (1 <= IZR h)%R) by (apply IZR_le; lia).
  assert (HH : (IZR h <= IZR (2 ^ 35))%R) by (apply IZR_le; lia).
  assert (AXR : (Rabs (IZR (at_i a h (S j))) <= IZR (2 ^ 35))%R) by (rewrite <- abs_IZR; apply IZR_le; exact AX).
  assert (MU : (0 < bpow radix2 (-17))%R) by apply bpow_gt_0.
  assert (P36 : (IZR (2 ^ 35) + IZR (2 ^ 35) <= IZR (2 ^ 36))%R) by (rewrite <- plus_IZR; apply IZR_le; lia).
  apply Rabs_le_inv in AXR.
  destruct (sub_val xb mb FX FM) as (y & EY & FY & RY).
  { apply abs_le_100 with (2 ^ 36); [|lia]. rewrite RX. apply Rabs_le. lra. }
  assert (YB : (IZR (at_i a h (S j)) - IZR h <= B2R y <= IZR (at_i a h (S j)) - bpow radix2 (-17))%R).
  { rewrite RY, RX. apply rnd_between; [| |lra].
    - rewrite <- minus_IZR. apply format_int. unfold at_i in *. destruct SM' as (? & ? & ? & ?). nia.
    - replace (IZR (at_i a h (S j)) - bpow radix2 (-17))%R with (IZR (at_i a h (S j)) + IZR (-1) * bpow radix2 (-17))%R by ring. apply format_near; auto. }
  assert (DE : p_dom s = mkI (X 0) (X j) false false /\ i_is_empty (p_dom s) = false).
  { destruct ON as (_ & _ & _ & dom & _ & ->). rewrite LW. cbn [grid_dom]. rewrite (fnum_at0 a h 0). split; [reflexivity|].
    pose proof (small_fits _ _ _ SM) as G. apply (sound_point (at_i a h 0) 0 false false (at_i a h j)); [eapply fits_at; [exact G|lia]|eapply fits_at; [exact G|lia]|].
    destruct j; [right; auto|left; unfold at_i; nia]. }
  destruct DE as [DE NE]. destruct (x_fin 0 ltac:(lia)) as (lb & EL & FL & RL & _).
  unfold p_x_previous. rewrite NE. cbn [resolve_min_step]. rewrite EX. change (@n_sub b64 B64) with (SFsub 53 1024). rewrite EY.
  assert (LE : i_contains_gen true false (p_dom s) (B2SF y) = Rle_bool (B2R lb) (B2R y)).
  { unfold i_contains_gen. rewrite NE. rewrite DE. unfold above_start. cbn [i_start i_so negb andb orb]. rewrite EL. cbn [n_ltb n_eqb B64].
    rewrite ltb_val, eqb_val by assumption. rewrite andb_true_r.
    destruct (Rlt_bool_spec (B2R lb) (B2R y)), (Req_bool_spec (B2R lb) (B2R y)), (Rle_bool_spec (B2R lb) (B2R y)); try reflexivity; lra. }
  rewrite LE, RL.
  set (d := Z.of_nat (S j) * h). assert (ED : IZR (at_i a h (S j)) = (IZR a + IZR d)%R) by (unfold at_i; rewrite plus_IZR; reflexivity).
  assert (DB : h <= d <= 2 ^ 35) by (unfold d; destruct SM' as (? & ? & ? & ?); nia).
  assert (DR : (IZR h <= IZR d)%R) by (apply IZR_le; lia).
  assert (E0 : IZR (at_i a h 0) = IZR a) by (f_equal; unfold at_i; lia).
  rewrite Rle_bool_true by lra. cbn [negb]. rewrite finite_not_inf by assumption. cbn [andb].
  destruct j as [|j].
  - destruct ON as (P1 & P2 & P3 & _). unfold x_index, p_uniform. rewrite P3. replace (if p_force s then true else true) with true by (destruct (p_force s); reflexivity).
    rewrite P2. unfold grid_step. rewrite LW. cbn [Nat.ltb Nat.leb rbind]. change (n_floor n_zero) with (@Ok Z 0). cbn [rbind]. rewrite P1, grid_length, LW. cbn [Z.of_nat Z.min].
    destruct (nth_error ws 0) as [v|] eqn:E; [|apply nth_error_None in E; lia]. change (Z.min (1 - 1) 0) with (Z.of_nat 0). rewrite (py_at _ 0 (X 0, v)); [reflexivity|]. rewrite grid_nth, E. reflexivity.
  - destruct (index_real a h ws s SM0 ltac:(lia) ON y FY) as (q & -> & FQ & RQ); [apply Rabs_le; lra|]. cbn [rbind]. rewrite floor_val by assumption. cbn [rbind].
    assert (ZB : (IZR d - IZR h <= rnd (B2R y - IZR a) <= IZR d - bpow radix2 (-17))%R).
    { apply rnd_between; [| |lra].
      - rewrite <- minus_IZR. apply format_int. lia.
      - replace (IZR d - bpow radix2 (-17))%R with (IZR d + IZR (-1) * bpow radix2 (-17))%R by ring. apply format_near; [lia|auto]. }
    assert (CD : (IZR d / IZR h = IZR (Z.of_nat (S (S j))))%R) by (unfold d; rewrite mult_IZR; field; lra).
    assert (CI : 0 <= Z.of_nat (S (S j)) <= 2 ^ 35) by (unfold d in DB; nia).
    assert (HI : (B2R q < IZR (Z.of_nat (S (S j))))%R).
    { rewrite RQ. apply rnd_below with h; try assumption; [apply DB|]. rewrite <- CD. unfold Rdiv. rewrite <- Rmult_minus_distr_r.
      apply Rmult_le_compat_r; [left; apply Rinv_0_lt_compat; lra|lra]. }
    assert (LO : (IZR (Z.of_nat (S j)) <= B2R q)%R).
    { rewrite RQ. apply round_ge_generic; auto with typeclass_instances; [apply format_int; lia|].
      replace (IZR (Z.of_nat (S j))) with ((IZR d - IZR h) / IZR h)%R.
      - unfold Rdiv. apply Rmult_le_compat_r; [left; apply Rinv_0_lt_compat; lra|lra].
      - rewrite (Nat2Z.inj_succ (S j)), succ_IZR in CD. replace (IZR (Z.of_nat (S j))) with (IZR d / IZR h - 1)%R by lra. field. lra. }
    assert (Zfloor (B2R q) = Z.of_nat (S j)) as ->.
    { apply Zfloor_imp. rewrite (Nat2Z.inj_succ (S j)) in HI. unfold Z.succ in HI. split; assumption. }
    destruct ON as (-> & _). rewrite grid_length, Z.min_r by lia. destruct (nth_error ws (S j)) as [v|] eqn:E; [|apply nth_error_None in E; lia].
    rewrite (py_at _ (S j) (X (S j), v)); [reflexivity|]. rewrite grid_nth, E. reflexivity.
Qed.
End After.

(** ** One trapezium *)
Lemma mul_abs (x y : bf) B : is_finite x = true -> is_finite y = true -> (Rabs (B2R x * B2R y) <= B)%R -> (B <= bpow radix2 1020)%R ->
  exists z : bf, SFmul 53 1024 (B2SF x) (B2SF y) = B2SF z /\ is_finite z = true /\ (Rabs (B2R z - B2R x * B2R y) <= B * eps + tiny)%R.
Proof.
  intros FX FY AB HB. pose proof (huge_ge _ HB). assert (0 <= B)%R by (apply Rle_trans with (2 := AB); apply Rabs_pos). destruct (mul_big x y FX FY ltac:(lra)) as (z & E & F & R). exists z. split; [exact E|]. split; [exact F|].
  destruct (any_err (B2R x * B2R y)) as (d & t & D & T & EQ). rewrite R, EQ. set (p := (B2R x * B2R y)%R) in *. replace (p * (1 + d) + t - p)%R with (p * d + t)%R by ring.
  apply Rle_trans with (1 := Rabs_triang _ _). apply Rplus_le_compat; [|exact T]. apply Rle_trans with (1 := err_mul _ _ D). apply Rmult_le_compat_r; [left; apply eps_pos|exact AB].
Qed.
Lemma div_abs (x y : bf) B : is_finite x = true -> B2R y <> 0%R -> (Rabs (B2R x / B2R y) <= B)%R -> (B <= bpow radix2 1020)%R ->
  exists z : bf, @n_div b64 B64 (B2SF x) (B2SF y) = Ok (B2SF z) /\ is_finite z = true /\ (Rabs (B2R z - B2R x / B2R y) <= B * eps + tiny)%R.
Proof.
  intros FX FY AB HB. pose proof (huge_ge _ HB). assert (0 <= B)%R by (apply Rle_trans with (2 := AB); apply Rabs_pos). destruct (div_big x y FX FY ltac:(lra)) as (z & E & F & R). exists z. split; [exact E|]. split; [exact F|].
  destruct (any_err (B2R x / B2R y)) as (d & t & D & T & EQ). rewrite R, EQ. set (p := (B2R x / B2R y)%R) in *. replace (p * (1 + d) + t - p)%R with (p * d + t)%R by ring.
  apply Rle_trans with (1 := Rabs_triang _ _). apply Rplus_le_compat; [|exact T]. apply Rle_trans with (1 := err_mul _ _ D). apply Rmult_le_compat_r; [left; apply eps_pos|exact AB].
Qed.
Lemma add_abs (x y : bf) B : is_finite x = true -> is_finite y = true -> (Rabs (B2R x + B2R y) <= B)%R -> (B <= bpow radix2 1020)%R ->
  exists z : bf, SFadd 53 1024 (B2SF x) (B2SF y) = B2SF z /\ is_finite z = true /\ (Rabs (B2R z - (B2R x + B2R y)) <= B * eps)%R.
Proof.
  intros FX FY AB HB. pose proof (huge_ge _ HB). assert (0 <= B)%R by (apply Rle_trans with (2 := AB); apply Rabs_pos). destruct (add_big x y FX FY ltac:(lra)) as (z & E & F & R). exists z. split; [exact E|]. split; [exact F|].
  destruct (plus_err (B2R x) (B2R y) (generic_format_B2R _ _ x) (generic_format_B2R _ _ y)) as (d & D & EQ). rewrite R, EQ. set (p := (B2R x + B2R y)%R) in *.
  replace (p * (1 + d) - p)%R with (p * d)%R by ring. apply Rle_trans with (1 := err_mul _ _ D). apply Rmult_le_compat_r; [left; apply eps_pos|exact AB].
Qed.
Lemma sub_abs (x y : bf) B : is_finite x = true -> is_finite y = true -> (Rabs (B2R x - B2R y) <= B)%R -> (B <= bpow radix2 1020)%R ->
  exists z : bf, SFsub 53 1024 (B2SF x) (B2SF y) = B2SF z /\ is_finite z = true /\ (Rabs (B2R z - (B2R x - B2R y)) <= B * eps)%R.
Proof.
  intros FX FY AB HB. pose proof (huge_ge _ HB). assert (0 <= B)%R by (apply Rle_trans with (2 := AB); apply Rabs_pos). destruct (sub_big x y FX FY ltac:(lra)) as (z & E & F & R). exists z. split; [exact E|]. split; [exact F|].
  destruct (minus_err (B2R x) (B2R y) (generic_format_B2R _ _ x) (generic_format_B2R _ _ y)) as (d & D & EQ). rewrite R, EQ. set (p := (B2R x - B2R y)%R) in *.
  replace (p * (1 + d) - p)%R with (p * d)%R by ring. apply Rle_trans with (1 := err_mul _ _ D). apply Rmult_le_compat_r; [left; apply eps_pos|exact AB].
Qed.
Lemma sub_exact (x y : bf) : is_finite x = true -> is_finite y = true -> (Rabs (B2R x - B2R y) <= bpow radix2 1020)%R -> generic_format radix2 fexp (B2R x - B2R y) ->
  exists z : bf, SFsub 53 1024 (B2SF x) (B2SF y) = B2SF z /\ is_finite z = true /\ B2R z = (B2R x - B2R y)%R.
Proof.
  intros FX FY AB G. pose proof (huge_ge _ (Rle_refl (bpow radix2 1020))). pose proof (bpow_gt_0 radix2 1020). destruct (sub_big x y FX FY ltac:(lra)) as (z & E & F & R). exists z. split; [exact E|]. split; [exact F|].
  rewrite R. apply round_generic; auto with typeclass_instances.
Qed.
Lemma abs_mul x y a b : (Rabs x <= a)%R -> (Rabs y <= b)%R -> (Rabs (x * y) <= a * b)%R.
Proof. intros A B. rewrite Rabs_mult. apply Rmult_le_compat; try apply Rabs_pos; assumption. Qed.
(** from a bound on the distance to a bound on the number *)
Lemma abs_from x y a b : (Rabs (x - y) <= a)%R -> (Rabs y <= b)%R -> (Rabs x <= b + a)%R.
Proof. intros A B. replace x with (y + (x - y))%R by ring. apply Rle_trans with (1 := Rabs_triang _ _). lra. Qed.
Lemma abs_trans x y z a b : (Rabs (x - y) <= a)%R -> (Rabs (y - z) <= b)%R -> (Rabs (x - z) <= a + b)%R.
Proof. intros A B. replace (x - z)%R with ((x - y) + (y - z))%R by ring. apply Rle_trans with (1 := Rabs_triang _ _). lra. Qed.

Definition half64 : b64 := fnum 1 (-1).
Lemma half_bf : exists o : bf, half64 = B2SF o /\ is_finite o = true /\ B2R o = (/ 2)%R.
Proof.
  assert (F : fits 1 (-1)) by (split; [cbn; lia|lia]). destruct (bnum_spec 1 (-1) F) as (A & B & _). exists (bnum 1 (-1)).
  split; [exact (fnum_bnum 1 (-1))|]. split; [exact B|]. rewrite A. unfold dy, F2R. cbn. lra.
Qed.
(** K1 is M A^2 / H, K2 is tiny A^2 *)
Section Trapezium.
Variables (A M H : R).
Hypothesis (H1 : (1 <= H)%R) (HA : (H <= A)%R) (M0 : (0 <= M)%R) (A40 : (A <= bpow radix2 40)%R) (M800 : (M <= bpow radix2 800)%R).
Notation N := (M / H)%R.
Notation t := tiny.
Notation e := eps.
Definition bU : R := (3 * N + t)%R.
Definition bC : R := (M + 2 * (bU * A) + t)%R.
Definition bW : R := (4 * ((bU + t) * (A * A)) + 4 * (bC * A) + 2 * t)%R.
Definition eU : R := ((bU + t) * (2 * (A * A)) * e + t + ((bU * / 2 * e + t) * (2 * (A * A)) + bU * / 2 * (A * A * e + t)))%R.
Definition eV : R := (2 * bC * A * e + t + (bC * e + (bU * A * e + t)) * A)%R.
Definition eW : R := (bW * e + (eU + eV))%R.
Definition trap : R := (320 * e * (M * (A * A) / H) + 20 * (t * (A * A)))%R.

Lemma small_facts : (0 < e)%R /\ (e <= / 1024)%R /\ (0 < t)%R /\ (t <= e)%R /\ (0 <= N)%R /\ (N * H = M)%R.
Proof.
  pose proof eps_pos as EP. pose proof eps_small as ES. pose proof tiny_pos as TP. pose proof tiny_eps as TE. repeat split; try assumption; [nra| |field; lra].
  apply Rmult_le_pos; [exact M0|]. left. apply Rinv_0_lt_compat. lra.
Qed.
Lemma monos : (0 <= t * A * A)%R /\ (t <= t * A * A)%R /\ (t * A <= t * A * A)%R /\ (t * H * H <= t * A * A)%R /\ (0 <= N * A * A)%R /\ (N * H * A <= N * A * A)%R /\ (N * H * H <= N * A * A)%R /\ (N * A <= N * A * A)%R /\ (N <= N * A)%R.
Proof.
  destruct small_facts as (EP & ES & TP & TE & NP & _). assert (A1 : (1 <= A)%R) by lra. assert (AA : (A <= A * A)%R) by nra. assert (HH : (H * H <= A * A)%R) by nra. assert (HA' : (H * A <= A * A)%R) by nra.
  repeat split.
  - rewrite Rmult_assoc. apply Rmult_le_pos; nra.
  - rewrite Rmult_assoc. rewrite <- (Rmult_1_r t) at 1. apply Rmult_le_compat_l; lra.
  - rewrite Rmult_assoc. apply Rmult_le_compat_l; lra.
  - rewrite !Rmult_assoc. apply Rmult_le_compat_l; lra.
  - rewrite Rmult_assoc. apply Rmult_le_pos; nra.
  - rewrite !Rmult_assoc. apply Rmult_le_compat_l; lra.
  - rewrite !Rmult_assoc. apply Rmult_le_compat_l; lra.
  - rewrite !Rmult_assoc. apply Rmult_le_compat_l; lra.
  - rewrite <- (Rmult_1_r N) at 1. apply Rmult_le_compat_l; lra.
Qed.
Lemma bW_le : (bW <= 40 * (N * A * A) + 22 * (t * A * A))%R.
Proof.
  destruct monos as (T0 & T1 & T2 & T3 & N0 & N1 & N2 & N3 & N4). destruct small_facts as (EP & ES & TP & TE & NP & NH). assert (MA : (M * A <= N * A * A)%R) by (rewrite <- NH at 1; exact N1). unfold bW, bC, bU. lra.
Qed.
Lemma trap_sum : (2 * eW + 4 * bW * e + (5 * N * e + t) * (H * H * / 2) <= trap)%R.
Proof.
  destruct monos as (T0 & T1 & T2 & T3 & N0 & N1 & N2 & N3 & N4). destruct small_facts as (EP & ES & TP & TE & NP & NH).
  assert (E1 : forall x y, (x <= y -> x * e <= y * e)%R) by (intros x y L; apply Rmult_le_compat_r; lra).
  assert (E2 : forall x, (0 <= x -> x * e <= x)%R) by (intros x L; rewrite <- (Rmult_1_r x) at 2; apply Rmult_le_compat_l; lra).
  assert (K : (N * t <= N * A * A * e)%R).
  { apply Rle_trans with (N * e)%R; [apply Rmult_le_compat_l; assumption|]. apply E1. lra. }
  assert (K2 : (t * t <= t * A * A * e)%R) by (apply Rle_trans with (t * e)%R; [apply Rmult_le_compat_l; lra|]; apply E1; lra).
  pose proof (E1 _ _ bW_le) as BW. pose proof (E1 _ _ N1) as P1. pose proof (E1 _ _ N2) as P2. pose proof (E1 _ _ T1) as P3. pose proof (E1 _ _ T2) as P4. pose proof (E2 _ T0) as P5.
  assert (P6 : (t * A * A * e <= t * A * A * / 1024)%R) by (apply Rmult_le_compat_l; assumption).
  assert (C1 : (bC * A <= 7 * (N * A * A) + 3 * (t * A * A))%R) by (unfold bC, bU; assert (MA : (M * A <= N * A * A)%R) by (rewrite <- NH at 1; exact N1); lra). pose proof (E1 _ _ C1) as CE.
  assert (EUb : (eU <= 12 * (N * A * A * e) + 4 * (t * A * A))%R) by (unfold eU, bU; lra).
  assert (EVb : (eV <= 24 * (N * A * A * e) + 3 * (t * A * A))%R) by (unfold eV; assert (bU * A * A * e <= 3 * (N * A * A * e) + t * A * A * e)%R by (unfold bU; lra); lra).
  unfold eW, trap. replace (M * (A * A) / H)%R with (N * A * A)%R by (field; lra).
  assert (0 <= N * A * A * e)%R by (apply Rmult_le_pos; lra). lra.
Qed.
End Trapezium.

Lemma caps A M H : (1 <= H)%R -> (H <= A)%R -> (0 <= M)%R -> (A <= bpow radix2 40)%R -> (M <= bpow radix2 800)%R ->
  (4 * bW A M H <= bpow radix2 1020 /\ bC A M H * A <= bpow radix2 1000 /\ bC A M H <= bpow radix2 1000 /\ bU M H * (A * A) <= bpow radix2 1000 /\ A * A <= bpow radix2 1000 /\ bU M H * A <= bpow radix2 1000 /\ M <= bpow radix2 1000)%R.
Proof.
  intros H1 HA M0 A40 M800. destruct (small_facts M H H1 M0) as (EP & ES & TP & TE & NP & NH). destruct (monos A M H H1 HA M0) as (T0 & T1 & T2 & T3 & N0 & N1 & N2 & N3 & N4). pose proof (bW_le A M H H1 HA M0) as BW.
  assert (A1 : (1 <= A)%R) by lra. assert (AA : (A * A <= bpow radix2 80)%R) by (change (bpow radix2 80) with (bpow radix2 (40 + 40)); rewrite bpow_plus; apply Rmult_le_compat; lra).
  assert (NM : (M / H <= M)%R) by (rewrite <- NH at 2; rewrite <- (Rmult_1_r (M / H)) at 1; apply Rmult_le_compat_l; lra).
  assert (K : (M / H * A * A <= bpow radix2 880)%R).
  { change (bpow radix2 880) with (bpow radix2 (800 + 80)). rewrite bpow_plus, Rmult_assoc. apply Rmult_le_compat; nra. }
  assert (T : (tiny * A * A <= bpow radix2 80)%R).
  { rewrite Rmult_assoc. rewrite <- (Rmult_1_l (bpow radix2 80)). apply Rmult_le_compat; nra. }
  assert (P1 : (bpow radix2 80 <= bpow radix2 880)%R) by (apply bpow_le; lia).
  assert (P2 : (1024 * bpow radix2 880 <= bpow radix2 1000)%R) by (change 1024%R with (bpow radix2 10); rewrite <- bpow_plus; apply bpow_le; lia).
  assert (P3 : (bpow radix2 1000 <= bpow radix2 1020)%R) by (apply bpow_le; lia).
  assert (MA : (M * A <= M / H * A * A)%R) by (rewrite <- NH at 1; exact N1). assert (MM : (M <= M * A)%R) by nra.
  pose proof (bpow_gt_0 radix2 880).
  assert (UA : (0 <= bU M H * A)%R) by (unfold bU; apply Rmult_le_pos; lra). 
  assert (CA : (bC A M H <= bC A M H * A)%R) by (rewrite <- (Rmult_1_r (bC A M H)) at 1; apply Rmult_le_compat_l; [unfold bC; lra|lra]).
  assert (C1 : (bC A M H * A <= 7 * (M / H * A * A) + 3 * (tiny * A * A))%R) by (unfold bC, bU; lra).
  assert (U1 : (bU M H * (A * A) <= 3 * (M / H * A * A) + tiny * A * A)%R) by (unfold bU; lra).
  assert (U2 : (bU M H * A <= bU M H * (A * A))%R) by (apply Rmult_le_compat_l; [unfold bU; lra|nra]).
  repeat split; lra.
Qed.
(** line.py:75-84 at one end *)
Lemma primitive_err A M H (s c x hb : bf) : (1 <= H)%R -> (H <= A)%R -> (0 <= M)%R -> (A <= bpow radix2 40)%R -> (M <= bpow radix2 800)%R ->
  is_finite s = true -> is_finite c = true -> is_finite x = true -> is_finite hb = true -> B2R hb = (/ 2)%R ->
  (Rabs (B2R s) <= bU M H)%R -> (Rabs (B2R c) <= 2 * bC A M H)%R -> (Rabs (B2R x) <= A)%R ->
  forall C : R, (Rabs (B2R c - C) <= bC A M H * eps + (bU M H * A * eps + tiny))%R ->
  exists w : bf, SFadd 53 1024 (SFmul 53 1024 (SFmul 53 1024 (B2SF s) (B2SF hb)) (SFmul 53 1024 (B2SF x) (B2SF x))) (SFmul 53 1024 (B2SF c) (B2SF x)) = B2SF w /\
    is_finite w = true /\ (Rabs (B2R w) <= 2 * bW A M H)%R /\ (Rabs (B2R w - (B2R s * / 2 * (B2R x * B2R x) + C * B2R x)) <= eW A M H)%R.
Proof.
  intros H1 HA M0 A40 M800 FS FC FX FH RH BS BC BX C EC. destruct (small_facts M H H1 M0) as (EP & ES & TP & TE & NP & NH).
  destruct (caps A M H H1 HA M0 A40 M800) as (K1 & K2 & K3 & K4 & K5 & K6 & K7). assert (A1 : (1 <= A)%R) by lra.
  assert (P3 : (16 * bpow radix2 1000 <= bpow radix2 1020)%R) by (change 16%R with (bpow radix2 4); rewrite <- bpow_plus; apply bpow_le; lia). pose proof (bpow_gt_0 radix2 1000) as PP.
  assert (U0 : (0 <= bU M H)%R) by (unfold bU; lra). assert (UA0 : (0 <= bU M H * A)%R) by nra. assert (C0 : (0 <= bC A M H)%R) by (unfold bC; lra). assert (AA : (1 <= A * A)%R) by nra.
  assert (UAA : (bU M H <= bU M H * (A * A))%R) by nra. assert (TA : (tiny * (A * A) <= A * A)%R) by nra.
  (* slope / 2 *)
  destruct (mul_abs s hb (bU M H * / 2)%R FS FH) as (sh & E1 & F1 & R1); [rewrite RH; apply abs_mul; [exact BS|rewrite Rabs_pos_eq; lra]|lra|]. rewrite RH in R1.
  assert (B1 : (Rabs (B2R sh) <= bU M H + tiny)%R).
  { eapply Rle_trans; [apply (abs_from _ _ _ (bU M H * / 2) R1)|]; [apply abs_mul; [exact BS|rewrite Rabs_pos_eq; lra]|]. nra. }
  (* x ^ 2 *)
  pose proof (abs_mul _ _ _ _ BX BX) as BXX. destruct (mul_abs x x (A * A)%R FX FX BXX) as (t2 & E2 & F2 & R2); [lra|].
  assert (B2 : (Rabs (B2R t2) <= 2 * (A * A))%R) by (eapply Rle_trans; [apply (abs_from _ _ _ _ R2 BXX)|]; nra).
  pose proof (abs_mul _ _ _ _ B1 B2) as BU. destruct (mul_abs sh t2 _ F1 F2 BU) as (u & E3 & F3 & R3); [lra|].
  pose proof (abs_mul _ _ _ _ BC BX) as BV. destruct (mul_abs c x _ FC FX BV) as (v & E4 & F4 & R4); [lra|].
  assert (EU : (Rabs (B2R u - B2R s * / 2 * (B2R x * B2R x)) <= eU A M H)%R).
  { unfold eU. apply abs_trans with (1 := R3).
    replace (B2R sh * B2R t2 - B2R s * / 2 * (B2R x * B2R x))%R with ((B2R sh - B2R s * / 2) * B2R t2 + (B2R s * / 2) * (B2R t2 - B2R x * B2R x))%R by ring.
    apply Rle_trans with (1 := Rabs_triang _ _). apply Rplus_le_compat; apply abs_mul; try assumption. apply abs_mul; [exact BS|rewrite Rabs_pos_eq; lra]. }
  assert (EV : (Rabs (B2R v - C * B2R x) <= eV A M H)%R).
  { unfold eV. apply abs_trans with (1 := R4). replace (B2R c * B2R x - C * B2R x)%R with ((B2R c - C) * B2R x)%R by ring. apply abs_mul; assumption. }
  assert (BW : (Rabs (B2R u + B2R v) <= bW A M H)%R).
  { apply Rle_trans with (1 := Rabs_triang _ _). pose proof (abs_from _ _ _ _ R3 BU) as Q1. pose proof (abs_from _ _ _ _ R4 BV) as Q2.
    assert (0 <= bC A M H * A)%R by nra. assert (0 <= (bU M H + tiny) * (2 * (A * A)))%R by nra.
    assert ((bU M H + tiny) * (2 * (A * A)) * eps <= (bU M H + tiny) * (2 * (A * A)))%R by nra. assert (2 * bC A M H * A * eps <= 2 * bC A M H * A)%R by nra.
    unfold bW. lra. }
  assert (BW0 : (0 <= bW A M H)%R) by (apply Rle_trans with (2 := BW); apply Rabs_pos).
  destruct (add_abs u v _ F3 F4 BW) as (w & E5 & F5 & R5); [lra|]. exists w. rewrite E1, E2, E3, E4, E5. split; [reflexivity|]. split; [exact F5|]. split.
  - eapply Rle_trans; [apply (abs_from _ _ _ _ R5 BW)|]. nra.
  - unfold eW. apply abs_trans with (1 := R5). replace (B2R u + B2R v - (B2R s * / 2 * (B2R x * B2R x) + C * B2R x))%R with ((B2R u - B2R s * / 2 * (B2R x * B2R x)) + (B2R v - C * B2R x))%R by ring.
    apply Rle_trans with (1 := Rabs_triang _ _). lra.
Qed.
Lemma trapezium A M H (xa xb y0 y1 : bf) : (1 <= H)%R -> (H <= A)%R -> (0 <= M)%R -> (A <= bpow radix2 40)%R -> (M <= bpow radix2 800)%R ->
  is_finite xa = true -> is_finite xb = true -> is_finite y0 = true -> is_finite y1 = true -> (B2R xb - B2R xa = H)%R -> generic_format radix2 fexp H ->
  (Rabs (B2R xa) <= A)%R -> (Rabs (B2R xb) <= A)%R -> (Rabs (B2R y0) <= M)%R -> (Rabs (B2R y1) <= M)%R ->
  exists (l : line b64) (r : bf), line_args None None (Some (B2SF xa, B2SF y0)) (Some (B2SF xb, B2SF y1)) None = Ok l /\
    line_partial_integration half64 l (B2SF xa) (B2SF xb) = B2SF r /\ is_finite r = true /\ (Rabs (B2R r - H * (B2R y0 + B2R y1) / 2) <= trap A M H)%R.
Proof.
  intros H1 HA M0 A40 M800 FXA FXB FY0 FY1 HD GH BXA BXB BY0 BY1. destruct (small_facts M H H1 M0) as (EP & ES & TP & TE & NP & NH).
  destruct (caps A M H H1 HA M0 A40 M800) as (K1 & K2 & K3 & K4 & K5 & K6 & K7). assert (A1 : (1 <= A)%R) by lra.
  assert (P3 : (16 * bpow radix2 1000 <= bpow radix2 1020)%R) by (change 16%R with (bpow radix2 4); rewrite <- bpow_plus; apply bpow_le; lia). pose proof (bpow_gt_0 radix2 1000) as PP.
  assert (U0 : (0 <= bU M H)%R) by (unfold bU; lra). assert (UA0 : (0 <= bU M H * A)%R) by nra. assert (C0 : (0 <= bC A M H)%R) by (unfold bC; lra).
  destruct half_bf as (hb & EH & FH & RH).
  destruct (sub_abs y1 y0 (2 * M)%R FY1 FY0) as (d & E1 & F1 & R1); [apply Rle_trans with (1 := Rabs_triang _ _); rewrite Rabs_Ropp; lra|lra|].
  destruct (sub_exact xb xa FXB FXA) as (hh & E2 & F2 & R2); [rewrite HD, Rabs_pos_eq by lra; nra|rewrite HD; exact GH|]. rewrite HD in R2.
  assert (BD : (Rabs (B2R d / B2R hh) <= 3 * (M / H))%R).
  { rewrite R2. unfold Rdiv. rewrite Rabs_mult, (Rabs_pos_eq (/ H)) by (left; apply Rinv_0_lt_compat; lra). rewrite <- Rmult_assoc. apply Rmult_le_compat_r; [left; apply Rinv_0_lt_compat; lra|].
    eapply Rle_trans; [apply (abs_from _ _ _ (2 * M) R1); apply Rle_trans with (1 := Rabs_triang _ _); rewrite Rabs_Ropp; lra|]. nra. }
  destruct (div_abs d hh _ F1 ltac:(rewrite R2; lra) BD) as (s & E3 & F3 & R3); [nra|].
  assert (ES1 : (Rabs (B2R s - (B2R y1 - B2R y0) / H) <= 5 * (M / H) * eps + tiny)%R).
  { replace (5 * (M / H) * eps + tiny)%R with ((3 * (M / H) * eps + tiny) + 2 * (M / H) * eps)%R by ring. apply abs_trans with (1 := R3). rewrite R2.
    replace (B2R d / H - (B2R y1 - B2R y0) / H)%R with ((B2R d - (B2R y1 - B2R y0)) * / H)%R by (field; lra). rewrite Rabs_mult, (Rabs_pos_eq (/ H)) by (left; apply Rinv_0_lt_compat; lra).
    replace (2 * (M / H) * eps)%R with (2 * M * eps * / H)%R by (field; lra). apply Rmult_le_compat_r; [left; apply Rinv_0_lt_compat; lra|exact R1]. }
  assert (BS : (Rabs (B2R s) <= bU M H)%R).
  { unfold bU. eapply Rle_trans; [apply (abs_from _ _ _ (2 * (M / H)) ES1)|].
    - unfold Rdiv at 1. rewrite Rabs_mult, (Rabs_pos_eq (/ H)) by (left; apply Rinv_0_lt_compat; lra). replace (2 * (M / H))%R with (2 * M * / H)%R by (field; lra).
      apply Rmult_le_compat_r; [left; apply Rinv_0_lt_compat; lra|]. apply Rle_trans with (1 := Rabs_triang _ _). rewrite Rabs_Ropp. lra.
    - nra. }
  (* the constant *)
  destruct (sub_exact (B754_zero false : bf) xa eq_refl FXA) as (z & E4 & F4 & R4); [cbn [B2R]; rewrite Rminus_0_l, Rabs_Ropp; nra|cbn [B2R]; rewrite Rminus_0_l; apply generic_format_opp, generic_format_B2R|].
  cbn [B2R] in R4. rewrite Rminus_0_l in R4.
  assert (BZ : (Rabs (B2R z) <= A)%R) by (rewrite R4, Rabs_Ropp; exact BXA). pose proof (abs_mul _ _ _ _ BS BZ) as BP.
  destruct (mul_abs s z _ F3 F4 BP) as (p & E5 & F5 & R5); [lra|].
  assert (BC : (Rabs (B2R y0 + B2R p) <= bC A M H)%R).
  { apply Rle_trans with (1 := Rabs_triang _ _). pose proof (abs_from _ _ _ _ R5 BP) as Q. assert (bU M H * A * eps <= bU M H * A)%R by nra. unfold bC. lra. }
  destruct (add_abs y0 p _ FY0 F5 BC) as (c & E6 & F6 & R6); [lra|].
  set (C := (B2R y0 - B2R s * B2R xa)%R).
  assert (EC : (Rabs (B2R c - C) <= bC A M H * eps + (bU M H * A * eps + tiny))%R).
  { apply abs_trans with (1 := R6). unfold C. replace (B2R y0 + B2R p - (B2R y0 - B2R s * B2R xa))%R with (B2R p - B2R s * B2R z)%R by (rewrite R4; ring). exact R5. }
  assert (BCC : (Rabs (B2R c) <= 2 * bC A M H)%R) by (eapply Rle_trans; [apply (abs_from _ _ _ _ R6 BC)|]; nra).
  destruct (primitive_err A M H s c xa hb H1 HA M0 A40 M800 F3 F6 FXA FH RH BS BCC BXA C EC) as (wa & E7 & F7 & B7 & R7).
  destruct (primitive_err A M H s c xb hb H1 HA M0 A40 M800 F3 F6 FXB FH RH BS BCC BXB C EC) as (wb & E8 & F8 & B8 & R8).
  assert (BW0 : (0 <= bW A M H)%R) by (assert (0 <= 2 * bW A M H)%R by (apply Rle_trans with (2 := B7); apply Rabs_pos); lra).
  destruct (sub_abs wb wa (4 * bW A M H)%R F8 F7) as (r & E9 & F9 & R9); [apply Rle_trans with (1 := Rabs_triang _ _); rewrite Rabs_Ropp; lra|exact K1|].
  exists (mkL (B2SF xa) (B2SF y0) (B2SF s)), r. split; [|split; [|split; [exact F9|]]].
  - unfold line_args. cbv beta iota zeta. change (@n_eqb b64 B64) with SFeqb. rewrite eqb_val by assumption. rewrite Req_bool_false by lra. cbn [negb]. change (@n_sub spec_float B64) with (SFsub 53 1024). rewrite E1, E2. change (@n_div spec_float B64) with (@n_div b64 B64). rewrite E3. reflexivity.
  - unfold line_partial_integration, line_primitive, line_const, line_y. cbn [l_x l_y l_slope]. change (@n_eqb b64 B64) with SFeqb. rewrite eqb_val by assumption. rewrite Req_bool_false by lra.
    change (@n_sub b64 B64) with (SFsub 53 1024). change (@n_mul b64 B64) with (SFmul 53 1024). change (@n_add b64 B64) with (SFadd 53 1024). change (@n_zero b64 B64) with (B2SF (B754_zero false : bf)).
    rewrite EH, E4, E5, E6, E7, E8. exact E9.
  - eapply Rle_trans; [|apply (trap_sum A M H H1 HA M0)].
    replace (2 * eW A M H + 4 * bW A M H * eps + (5 * (M / H) * eps + tiny) * (H * H * / 2))%R with (4 * bW A M H * eps + ((eW A M H + eW A M H) + (5 * (M / H) * eps + tiny) * (H * H * / 2)))%R by ring.
    apply abs_trans with (1 := R9).
    set (Fb := (B2R s * / 2 * (B2R xb * B2R xb) + C * B2R xb)%R) in *. set (Fa := (B2R s * / 2 * (B2R xa * B2R xa) + C * B2R xa)%R) in *.
    apply abs_trans with (Fb - Fa)%R.
    + replace (B2R wb - B2R wa - (Fb - Fa))%R with ((B2R wb - Fb) - (B2R wa - Fa))%R by ring. apply Rle_trans with (1 := Rabs_triang _ _). rewrite Rabs_Ropp. lra.
    + replace (Fb - Fa - H * (B2R y0 + B2R y1) / 2)%R with ((B2R s - (B2R y1 - B2R y0) / H) * (H * H * / 2))%R.
      * rewrite Rabs_mult. rewrite (Rabs_pos_eq (H * H * / 2)) by nra. apply Rmult_le_compat_r; [nra|exact ES1].
      * unfold Fb, Fa, C. replace (B2R xb) with (B2R xa + H)%R by lra. field. lra.
Qed.
