(** Stepping from knot to knot on a binary64 grid of whole numbers. *)
From Coq Require Import List ZArith Reals Lia Lra Bool SpecFloat.
From Flocq Require Import Core BinarySingleNaN.
From Verif Require Import Base Num Interval Curve Points B64Facts GridFacts.
Import ListNotations.
Open Scope Z_scope.

Notation rnd := (round radix2 fexp (round_mode mode_NE)).
#[local] Instance Hval : Valid_rnd (round_mode mode_NE) := valid_rnd_round_mode mode_NE.
#[local] Existing Instances Hprec Hmax.
#[local] Instance Hexp : Valid_exp fexp := FLT_exp_valid (-1074) 53.

Lemma rnd_between lo hi r : generic_format radix2 fexp lo -> generic_format radix2 fexp hi -> (lo <= r <= hi)%R -> (lo <= rnd r <= hi)%R.
Proof. intros A B [C D]. split; [apply round_ge_generic; auto with typeclass_instances|apply round_le_generic; auto with typeclass_instances]. Qed.
Lemma rnd_small r : (Rabs r <= bpow radix2 100)%R -> (Rabs (rnd r) < bpow radix2 1024)%R.
Proof.
  intros A. apply Rle_lt_trans with (bpow radix2 100); [|apply bpow_lt; lia].
  apply abs_round_le_generic; auto with typeclass_instances. apply generic_format_bpow. vm_compute. discriminate.
Qed.
Ltac binop H := change (SpecFloat.fexp 53 1024) with (FLT_exp (-1074) 53) in H; rewrite Rlt_bool_true in H by (apply rnd_small; assumption).
Lemma add_val (x y : bf) : is_finite x = true -> is_finite y = true -> (Rabs (B2R x + B2R y) <= bpow radix2 100)%R ->
  exists z : bf, SFadd 53 1024 (B2SF x) (B2SF y) = B2SF z /\ is_finite z = true /\ B2R z = rnd (B2R x + B2R y).
Proof.
  intros A B C. pose proof (Bplus_correct 53 1024 Hprec Hmax mode_NE x y A B) as H. binop H.
  exists (Bplus mode_NE x y). rewrite add_eq. destruct H as (H1 & H2 & _). auto.
Qed.
Lemma sub_val (x y : bf) : is_finite x = true -> is_finite y = true -> (Rabs (B2R x - B2R y) <= bpow radix2 100)%R ->
  exists z : bf, SFsub 53 1024 (B2SF x) (B2SF y) = B2SF z /\ is_finite z = true /\ B2R z = rnd (B2R x - B2R y).
Proof.
  intros A B C. pose proof (Bminus_correct 53 1024 Hprec Hmax mode_NE x y A B) as H. binop H.
  exists (Bminus mode_NE x y). rewrite sub_eq. destruct H as (H1 & H2 & _). auto.
Qed.
Lemma div_val (x y : bf) : is_finite x = true -> B2R y <> 0%R -> (Rabs (B2R x / B2R y) <= bpow radix2 100)%R ->
  exists z : bf, @n_div b64 B64 (B2SF x) (B2SF y) = Ok (B2SF z) /\ is_finite z = true /\ B2R z = rnd (B2R x / B2R y).
Proof.
  intros A B C. pose proof (Bdiv_correct 53 1024 Hprec Hmax mode_NE x y B) as H. binop H.
  exists (Bdiv mode_NE x y). destruct H as (H1 & H2 & _). rewrite H2. split; [|auto]. rewrite <- div_eq.
  destruct y; try reflexivity. exfalso. apply B. reflexivity.
Qed.
(** floor and ceiling *)
Lemma pfloor_val m e : pfloor m e = Zfloor (F2R (Float radix2 (Zpos m) e)).
Proof.
  unfold pfloor, F2R. cbn [Fnum Fexp]. destruct (Z.le_gt_cases 0 e) as [L|L].
  - rewrite Z.shiftl_mul_pow2 by lia. rewrite <- (IZR_Zpower radix2) by lia. rewrite <- mult_IZR, Zfloor_IZR. reflexivity.
  - rewrite Z.shiftl_div_pow2 by lia. rewrite <- (Zfloor_div (Zpos m) (2 ^ (- e))) by (apply Z.pow_nonzero; lia).
    f_equal. unfold Rdiv. rewrite (IZR_Zpower radix2) by lia. rewrite <- bpow_opp. rewrite Z.opp_involutive. reflexivity.
Qed.
Lemma nfloor_val m e : Z.shiftl (Zneg m) e = Zfloor (F2R (Float radix2 (Zneg m) e)).
Proof.
  unfold F2R. cbn [Fnum Fexp]. destruct (Z.le_gt_cases 0 e) as [L|L].
  - rewrite Z.shiftl_mul_pow2 by lia. rewrite <- (IZR_Zpower radix2) by lia. rewrite <- mult_IZR, Zfloor_IZR. reflexivity.
  - rewrite Z.shiftl_div_pow2 by lia. rewrite <- (Zfloor_div (Zneg m) (2 ^ (- e))) by (apply Z.pow_nonzero; lia).
    f_equal. unfold Rdiv. rewrite (IZR_Zpower radix2) by lia. rewrite <- bpow_opp. rewrite Z.opp_involutive. reflexivity.
Qed.
Lemma ceil_val (x : bf) : is_finite x = true -> @n_ceil b64 B64 (B2SF x) = Ok (Zceil (B2R x)).
Proof.
  destruct x as [s|s| |s m e B]; intros F; try discriminate F.
  - cbn. unfold Zceil. rewrite Ropp_0. rewrite Zfloor_IZR. reflexivity.
  - destruct s; cbn -[Z.shiftl]; f_equal; unfold Zceil; rewrite <- F2R_Zopp; cbn [Z.opp].
    + rewrite pfloor_val. reflexivity.
    + unfold pceil. rewrite nfloor_val. reflexivity.
Qed.
Lemma floor_val (x : bf) : is_finite x = true -> @n_floor b64 B64 (B2SF x) = Ok (Zfloor (B2R x)).
Proof.
  destruct x as [s|s| |s m e B]; intros F; try discriminate F.
  - cbn. rewrite Zfloor_IZR. reflexivity.
  - destruct s; cbn -[Z.shiftl]; f_equal.
    + apply nfloor_val.
    + apply pfloor_val.
Qed.
Lemma ltb_val (x y : bf) : is_finite x = true -> is_finite y = true -> SFltb (B2SF x) (B2SF y) = Rlt_bool (B2R x) (B2R y).
Proof. apply Bltb_correct. Qed.
Lemma leb_val (x y : bf) : is_finite x = true -> is_finite y = true -> SFleb (B2SF x) (B2SF y) = Rle_bool (B2R x) (B2R y).
Proof. apply Bleb_correct. Qed.
Lemma eqb_val (x y : bf) : is_finite x = true -> is_finite y = true -> SFeqb (B2SF x) (B2SF y) = Req_bool (B2R x) (B2R y).
Proof. apply Beqb_correct. Qed.

Lemma dy0 k : dy k 0 = IZR k.
Proof. unfold dy, F2R. cbn. ring. Qed.
Lemma format_int k : Z.abs k <= 2 ^ 53 -> generic_format radix2 fexp (IZR k).
Proof. intros A. rewrite <- dy0. apply format_dy. split; [exact A|lia]. Qed.
(** a whole number plus or minus 2^-17 *)
Lemma format_near k d : Z.abs k <= 2 ^ 35 -> d = 1 \/ d = -1 -> generic_format radix2 fexp (IZR k + IZR d * bpow radix2 (-17))%R.
Proof.
  intros A D. replace (IZR k + IZR d * bpow radix2 (-17))%R with (dy (k * 2 ^ 17 + d) (-17)).
  - apply format_dy. split; lia.
  - unfold dy, F2R. cbn [Fnum Fexp]. rewrite plus_IZR, mult_IZR. rewrite Rmult_plus_distr_r. f_equal.
    rewrite Rmult_assoc. change (IZR (2 ^ 17)) with (bpow radix2 17). rewrite <- bpow_plus. cbn. lra.
Qed.
(** just above (below) a whole number i, with a margin relative to 2^35 / i *)
Lemma rnd_above i t : 0 <= i <= 2 ^ 35 -> forall h, 0 < h -> i * h <= 2 ^ 35 -> h <= 2 ^ 35 ->
  (IZR i + bpow radix2 (-17) / IZR h <= t)%R -> (IZR i < rnd t)%R.
Proof.
  intros I h P L L2 T. assert (HP : (0 < IZR h)%R) by (apply IZR_lt; exact P).
  assert (F : generic_format radix2 fexp (IZR i)) by (apply format_int; lia).
  destruct (Z.eq_dec i 0) as [->|N].
  - apply Rlt_le_trans with (bpow radix2 (-52)); [apply bpow_gt_0|].
    apply round_ge_generic; auto with typeclass_instances; [apply generic_format_bpow; vm_compute; discriminate|].
    apply Rle_trans with (2 := T). rewrite Rplus_0_l. apply Rmult_le_reg_r with (IZR h); [exact HP|].
    unfold Rdiv. rewrite Rmult_assoc, Rinv_l, Rmult_1_r by lra.
    replace (-17) with (-52 + 35) by reflexivity. rewrite bpow_plus. apply Rmult_le_compat_l; [apply bpow_ge_0|].
    change (bpow radix2 35) with (IZR (2 ^ 35)). apply IZR_le. exact L2.
  - assert (IP : (0 < IZR i)%R) by (apply IZR_lt; lia).
    apply Rlt_le_trans with (succ radix2 fexp (IZR i)); [apply succ_gt_id; lra|].
    apply round_ge_generic; auto with typeclass_instances; [apply generic_format_succ; auto with typeclass_instances|].
    apply Rle_trans with (2 := T). rewrite succ_eq_pos by lra. apply Rplus_le_compat_l.
    apply Rle_trans with (Rabs (IZR i) * bpow radix2 (1 - 53))%R.
    + apply ulp_FLT_le. rewrite Rabs_pos_eq by lra. apply Rle_trans with 1%R; [|apply IZR_le; lia].
      change 1%R with (bpow radix2 0). apply bpow_le. lia.
    + rewrite Rabs_pos_eq by lra. apply Rmult_le_reg_r with (IZR h); [exact HP|].
      unfold Rdiv. rewrite (Rmult_assoc (bpow _ _)), Rinv_l, Rmult_1_r by lra.
      replace (bpow radix2 (-17)) with (IZR (2 ^ 35) * bpow radix2 (1 - 53))%R by (change (IZR (2 ^ 35)) with (bpow radix2 35); rewrite <- bpow_plus; reflexivity).
      replace (IZR i * bpow radix2 (1 - 53) * IZR h)%R with (IZR (i * h) * bpow radix2 (1 - 53))%R by (rewrite mult_IZR; ring).
      apply Rmult_le_compat_r; [apply bpow_ge_0|]. apply IZR_le. exact L.
Qed.
Lemma pred_margin i : 1 <= i <= 2 ^ 53 -> (IZR i - IZR i * bpow radix2 (1 - 53) <= pred radix2 fexp (IZR i))%R.
Proof.
  intros I. assert (IP : (0 < IZR i)%R) by (apply IZR_lt; lia). rewrite pred_eq_pos by lra.
  assert (U : (ulp radix2 fexp (IZR i) <= IZR i * bpow radix2 (1 - 53))%R).
  { rewrite <- (Rabs_pos_eq (IZR i)) at 2 by lra. apply ulp_FLT_le. rewrite Rabs_pos_eq by lra. apply Rle_trans with 1%R; [|apply IZR_le; lia].
    change 1%R with (bpow radix2 0). apply bpow_le. lia. }
  unfold pred_pos. destruct (Req_bool_spec (IZR i) (bpow radix2 (mag radix2 (IZR i) - 1))) as [E|E]; [|lra].
  assert (bpow radix2 (fexp (mag radix2 (IZR i) - 1)) <= ulp radix2 fexp (IZR i))%R; [|lra].
  rewrite ulp_neq_0 by lra. unfold cexp. apply bpow_le. unfold FLT_exp. lia.
Qed.
Lemma rnd_below i t : 0 <= i <= 2 ^ 35 -> forall h, 0 < h -> i * h <= 2 ^ 35 -> h <= 2 ^ 35 ->
  (t <= IZR i - bpow radix2 (-17) / IZR h)%R -> (rnd t < IZR i)%R.
Proof.
  intros I h P L L2 T. assert (HP : (0 < IZR h)%R) by (apply IZR_lt; exact P).
  assert (F : generic_format radix2 fexp (IZR i)) by (apply format_int; lia).
  destruct (Z.eq_dec i 0) as [->|N].
  - apply Rle_lt_trans with (- bpow radix2 (-52))%R; [|pose proof (bpow_gt_0 radix2 (-52)); lra].
    apply round_le_generic; auto with typeclass_instances; [apply generic_format_opp, generic_format_bpow; vm_compute; discriminate|].
    apply Rle_trans with (1 := T). assert (bpow radix2 (-52) <= bpow radix2 (-17) / IZR h)%R; [|lra].
    apply Rmult_le_reg_r with (IZR h); [exact HP|].
    unfold Rdiv. rewrite Rmult_assoc, Rinv_l, Rmult_1_r by lra.
    replace (-17) with (-52 + 35) by reflexivity. rewrite bpow_plus. apply Rmult_le_compat_l; [apply bpow_ge_0|].
    change (bpow radix2 35) with (IZR (2 ^ 35)). apply IZR_le. exact L2.
  - assert (IP : (0 < IZR i)%R) by (apply IZR_lt; lia).
    apply Rle_lt_trans with (pred radix2 fexp (IZR i)); [|apply pred_lt_id; lra].
    apply round_le_generic; auto with typeclass_instances; [apply generic_format_pred; auto with typeclass_instances|].
    apply Rle_trans with (1 := T). apply Rle_trans with (2 := pred_margin i ltac:(lia)).
    assert (IZR i * bpow radix2 (1 - 53) <= bpow radix2 (-17) / IZR h)%R; [|lra].
    apply Rmult_le_reg_r with (IZR h); [exact HP|].
    unfold Rdiv. rewrite (Rmult_assoc (bpow _ _)), Rinv_l, Rmult_1_r by lra.
    replace (bpow radix2 (-17)) with (IZR (2 ^ 35) * bpow radix2 (1 - 53))%R by (change (IZR (2 ^ 35)) with (bpow radix2 35); rewrite <- bpow_plus; reflexivity).
    replace (IZR i * bpow radix2 (1 - 53) * IZR h)%R with (IZR (i * h) * bpow radix2 (1 - 53))%R by (rewrite mult_IZR; ring).
    apply Rmult_le_compat_r; [apply bpow_ge_0|]. apply IZR_le. exact L.
Qed.

(** Whole-number grids within 2^35, and steps between 2^-17 and the spacing. *)
Definition grid_small (a h : Z) (n : nat) : Prop :=
  0 < h /\ Z.abs a <= 2 ^ 35 /\ Z.abs (a + Z.of_nat (n - 1) * h) <= 2 ^ 35 /\ Z.of_nat (n - 1) * h <= 2 ^ 35.
Definition step_ok (h : Z) (m : b64) : Prop :=
  valid_binary 53 1024 m = true /\ n_leb (fnum 1 (-17)) m = true /\ n_leb m (fnum h 0) = true.

Lemma small_fits a h n : grid_small a h n -> grid_fits a h 0 n.
Proof. intros (P & A & B & C). unfold grid_fits. repeat split; lia. Qed.
Lemma abs_le_100 (r : R) k : (Rabs r <= IZR k)%R -> k <= 2 ^ 100 -> (Rabs r <= bpow radix2 100)%R.
Proof. intros A B. apply Rle_trans with (1 := A). change (bpow radix2 100) with (IZR (2 ^ 100)). apply IZR_le. exact B. Qed.
Lemma step_real h m : 0 < h <= 2 ^ 35 -> step_ok h m ->
  exists b : bf, m = B2SF b /\ is_finite b = true /\ (bpow radix2 (-17) <= B2R b <= IZR h)%R.
Proof.
  intros HH (V & A & B). exists (SF2B m V). assert (E : m = B2SF (SF2B m V)) by (rewrite B2SF_SF2B; reflexivity).
  split; [exact E|]. rewrite E in A, B. cbn [n_leb B64] in A, B. set (b := SF2B m V) in *.
  assert (F1 : fits 1 (-17)) by (split; [cbn; lia|lia]). assert (F2 : fits h 0) by (split; lia).
  destruct (bnum_spec 1 (-17) F1) as (R1 & N1 & _). destruct (bnum_spec h 0 F2) as (R2 & N2 & _).
  rewrite fnum_bnum in A, B.
  assert (FB : is_finite b = true).
  { destruct b as [s|s| |s q x Q]; try reflexivity; exfalso; [|cbn in B; discriminate B].
    destruct s; [vm_compute in A; discriminate A|]. destruct (bnum h 0) as [?|?| |? ? ? ?]; try discriminate N2; cbn in B; try discriminate B. }
  split; [exact FB|]. rewrite leb_val in A, B by assumption. rewrite R1 in A. rewrite R2, dy0 in B.
  assert (dy 1 (-17) = bpow radix2 (-17)) as D by (unfold dy, F2R; cbn [Fnum Fexp]; lra). rewrite D in A.
  destruct (Rle_bool_spec (bpow radix2 (-17)) (B2R b)) as [A'|]; [|discriminate A].
  destruct (Rle_bool_spec (B2R b) (IZR h)) as [B'|]; [|discriminate B]. lra.
Qed.

Section Step.
Context {V : Type} {W : Val b64 V}.
Variables (a h : Z) (vs : list V) (s : pts b64 V).
Hypothesis SM : grid_small a h (length vs).
Hypothesis L2 : (2 <= length vs)%nat.
Hypothesis ON : on_grid a h 0 vs s.
Notation X i := (fnum (at_i a h i) 0).
Lemma G : grid_fits a h 0 (length vs). Proof. exact (small_fits a h _ SM). Qed.

Lemma x_real i : (i < length vs)%nat -> exists b : bf, X i = B2SF b /\ is_finite b = true /\ B2R b = IZR (at_i a h i) /\ Z.abs (at_i a h i) <= 2 ^ 35.
Proof.
  intros L. exists (bnum (at_i a h i) 0). rewrite fnum_bnum. destruct (bnum_spec (at_i a h i) 0 (fits_at a h 0 _ i G L)) as (R1 & F1 & _).
  split; [reflexivity|]. split; [exact F1|]. rewrite R1, dy0. split; [reflexivity|]. unfold at_i. destruct SM as (P & A & B & C). nia.
Qed.
Lemma small_h : h <= 2 ^ 35. Proof. destruct SM as (P & A & B & C). nia. Qed.
(** the fractional index of a finite number not far from the grid *)
Lemma index_real (y : bf) : is_finite y = true -> (Rabs (B2R y) <= IZR (2 ^ 36))%R ->
  exists q : bf, x_index s (B2SF y) = Ok (B2SF q) /\ is_finite q = true /\ B2R q = rnd (rnd (B2R y - IZR a) / IZR h).
Proof.
  intros F A. destruct ON as (P1 & P2 & P3 & _). unfold x_index, p_uniform. rewrite P3.
  replace (if p_force s then true else true) with true by (destruct (p_force s); reflexivity).
  rewrite P2. unfold grid_step. destruct (Nat.ltb_spec (length vs) 2) as [Q|_]; [lia|].
  rewrite P1. destruct (nth_error vs 0) as [v0|] eqn:EV; [|apply nth_error_None in EV; lia].
  rewrite (py_at0 _ (fnum (at_i a h 0) 0, v0)) by (rewrite grid_nth, EV; reflexivity). rewrite <- fnum_at0. cbn [rbind fst].
  assert (PH : 0 < h) by apply SM. pose proof small_h as SH.
  assert (FA : fits a 0) by (destruct SM as (_ & ? & _); split; lia). assert (FH : fits h 0) by (split; lia).
  destruct (bnum_spec a 0 FA) as (R1 & N1 & _). destruct (bnum_spec h 0 FH) as (R2 & N2 & _). rewrite dy0 in R1, R2.
  assert (AA : (Rabs (IZR a) <= IZR (2 ^ 35))%R) by (rewrite <- abs_IZR; apply IZR_le, SM).
  assert (HP : (1 <= IZR h)%R) by (apply IZR_le; lia).
  rewrite !fnum_bnum. change (@n_sub b64 B64) with (SFsub 53 1024).
  assert (DB : (Rabs (B2R y - IZR a) <= IZR (2 ^ 37))%R).
  { apply Rle_trans with (1 := Rabs_triang _ _). rewrite Rabs_Ropp. apply Rle_trans with (IZR (2 ^ 36) + IZR (2 ^ 35))%R; [lra|]. rewrite <- plus_IZR. apply IZR_le. lia. }
  destruct (sub_val y (bnum a 0) F N1) as (z & -> & Fz & Rz); [rewrite R1; eapply abs_le_100; [exact DB|lia]|]. rewrite R1 in Rz.
  assert (ZB : (Rabs (B2R z) <= IZR (2 ^ 37))%R).
  { rewrite Rz. apply abs_round_le_generic; auto with typeclass_instances. apply format_int. lia. }
  destruct (div_val z (bnum h 0) Fz) as (q & E & Fq & Rq).
  - rewrite R2. lra.
  - rewrite R2. apply abs_le_100 with (2 ^ 37); [|lia]. unfold Rdiv. rewrite Rabs_mult.
    rewrite (Rabs_pos_eq (/ IZR h)) by (left; apply Rinv_0_lt_compat; lra).
    apply Rle_trans with (Rabs (B2R z) * 1)%R; [|lra]. apply Rmult_le_compat_l; [apply Rabs_pos|].
    rewrite <- Rinv_1. apply Rinv_le_contravar; lra.
  - exists q. rewrite E. rewrite R2, Rz in Rq. auto.
Qed.
Lemma finite_not_inf (b : bf) : is_finite b = true -> @n_isinf b64 B64 (B2SF b) = false.
Proof. destruct b; intros F; try discriminate F; reflexivity. Qed.
Lemma dom_eq : p_dom s = mkI (X 0) (X (length vs - 1)) false false /\ i_is_empty (p_dom s) = false.
Proof.
  pose proof G as G'. destruct ON as (_ & _ & _ & dom & _ & ->). destruct (length vs) as [|k] eqn:E; [lia|]. cbn [grid_dom]. rewrite (fnum_at0 a h 0).
  replace (S k - 1)%nat with k by lia. split; [reflexivity|].
  apply (sound_point (at_i a h 0) 0 false false (at_i a h k)); [eapply fits_at; [exact G'|lia]|eapply fits_at; [exact G'|lia]|].
  left. unfold at_i. destruct SM as (P & _). nia.
Qed.
Lemma at_S i : IZR (at_i a h (S i)) = (IZR (at_i a h i) + IZR h)%R.
Proof. rewrite <- plus_IZR. f_equal. unfold at_i. lia. Qed.

Lemma next_knot i m lim : (i < length vs)%nat -> step_ok h m ->
  p_x_next s (X i) (Some m) lim = Ok (if Nat.ltb (S i) (length vs) then Some (X (S i)) else None).
Proof.
  intros L M. assert (PH : 0 < h) by apply SM. pose proof small_h as SH.
  destruct (step_real h m ltac:(lia) M) as (mb & -> & FM & RM). destruct (x_real i L) as (xb & EX & FX & RX & AX).
  assert (HP : (1 <= IZR h)%R) by (apply IZR_le; lia).
  assert (HH : (IZR h <= IZR (2 ^ 35))%R) by (apply IZR_le; lia).
  assert (AXR : (Rabs (IZR (at_i a h i)) <= IZR (2 ^ 35))%R) by (rewrite <- abs_IZR; apply IZR_le; exact AX).
  assert (MU : (0 < bpow radix2 (-17))%R) by apply bpow_gt_0.
  assert (P36 : (IZR (2 ^ 35) + IZR (2 ^ 35) <= IZR (2 ^ 36))%R) by (rewrite <- plus_IZR; apply IZR_le; lia).
  apply Rabs_le_inv in AXR.
  destruct (add_val xb mb FX FM) as (y & EY & FY & RY).
  { apply abs_le_100 with (2 ^ 36); [|lia]. rewrite RX. apply Rabs_le. lra. }
  assert (YB : (IZR (at_i a h i) + bpow radix2 (-17) <= B2R y <= IZR (at_i a h i) + IZR h)%R).
  { rewrite RY, RX. apply rnd_between; [| |lra].
    - replace (bpow radix2 (-17)) with (IZR 1 * bpow radix2 (-17))%R by ring. apply format_near; auto.
    - rewrite <- at_S. apply format_int. unfold at_i in *; destruct SM as (? & ? & ? & ?); nia. }
  destruct dom_eq as [DE NE]. destruct (x_real (length vs - 1) ltac:(lia)) as (lb & EL & FL & RL & _).
  unfold p_x_next. rewrite NE. cbn [resolve_min_step]. rewrite EX. change (@n_add b64 B64) with (SFadd 53 1024). rewrite EY.
  assert (LE : i_contains_gen false true (p_dom s) (B2SF y) = Rle_bool (B2R y) (B2R lb)).
  { unfold i_contains_gen. rewrite NE. rewrite DE. unfold below_end. cbn [i_end i_eo negb andb orb]. rewrite EL. cbn [n_ltb n_eqb B64].
    rewrite ltb_val, eqb_val by assumption.
    destruct (Rlt_bool_spec (B2R y) (B2R lb)), (Req_bool_spec (B2R y) (B2R lb)), (Rle_bool_spec (B2R y) (B2R lb)); try reflexivity; lra. }
  rewrite LE, RL. destruct (Nat.ltb_spec (S i) (length vs)) as [Q|Q].
  - assert (LS : (IZR (at_i a h (S i)) <= IZR (at_i a h (length vs - 1)))%R) by (apply IZR_le; unfold at_i; nia). rewrite at_S in LS.
    rewrite Rle_bool_true by lra. cbn [negb]. rewrite finite_not_inf by assumption. cbn [andb].
    destruct (index_real y FY) as (q & -> & FQ & RQ); [apply Rabs_le; lra|]. cbn [rbind]. rewrite ceil_val by assumption. cbn [rbind].
    set (d := Z.of_nat i * h). assert (ED : IZR (at_i a h i) = (IZR a + IZR d)%R) by (unfold at_i; rewrite plus_IZR; reflexivity).
    assert (DB : 0 <= d <= 2 ^ 35) by (unfold d; destruct SM as (? & ? & ? & ?); nia).
    assert (ZB : (IZR d + bpow radix2 (-17) <= rnd (B2R y - IZR a) <= IZR d + IZR h)%R).
    { apply rnd_between; [| |lra].
      - replace (bpow radix2 (-17)) with (IZR 1 * bpow radix2 (-17))%R by ring. apply format_near; [lia|auto].
      - rewrite <- plus_IZR. apply format_int. lia. }
    assert (CD : (IZR d / IZR h = IZR (Z.of_nat i))%R) by (unfold d; rewrite mult_IZR; field; lra).
    assert (CI : 0 <= Z.of_nat i <= 2 ^ 35) by (unfold d in DB; nia).
    assert (LO : (IZR (Z.of_nat i) < B2R q)%R).
    { rewrite RQ. apply rnd_above with h; try assumption; [apply DB|]. rewrite <- CD. unfold Rdiv. rewrite <- Rmult_plus_distr_r.
      apply Rmult_le_compat_r; [left; apply Rinv_0_lt_compat; lra|lra]. }
    assert (HI : (B2R q <= IZR (Z.of_nat (S i)))%R).
    { rewrite RQ. apply round_le_generic; auto with typeclass_instances; [apply format_int; lia|].
      rewrite Nat2Z.inj_succ, succ_IZR, <- CD. replace (IZR d / IZR h + 1)%R with ((IZR d + IZR h) / IZR h)%R by (field; lra).
      unfold Rdiv. apply Rmult_le_compat_r; [left; apply Rinv_0_lt_compat; lra|lra]. }
    assert (Zceil (B2R q) = Z.of_nat (S i)) as ->.
    { apply Zceil_imp. replace (Z.of_nat (S i) - 1) with (Z.of_nat i) by lia. split; assumption. }
    rewrite Z.max_r by lia. destruct (nth_error vs (S i)) as [v|] eqn:E; [|apply nth_error_None in E; lia].
    destruct ON as (-> & _). rewrite (py_at _ (S i) (X (S i), v)); [reflexivity|]. rewrite grid_nth, E. reflexivity.
  - assert (i = length vs - 1)%nat as <- by lia. rewrite Rle_bool_false by lra. reflexivity.
Qed.
Lemma prev_knot i m lim : (i < length vs)%nat -> step_ok h m ->
  p_x_previous s (X i) (Some m) lim = Ok (match i with O => None | S j => Some (X j) end).
Proof.
  intros L M. assert (PH : 0 < h) by apply SM. pose proof small_h as SH.
  destruct (step_real h m ltac:(lia) M) as (mb & -> & FM & RM). destruct (x_real i L) as (xb & EX & FX & RX & AX).
  assert (HP : (1 <= IZR h)%R) by (apply IZR_le; lia).
  assert (HH : (IZR h <= IZR (2 ^ 35))%R) by (apply IZR_le; lia).
  assert (AXR : (Rabs (IZR (at_i a h i)) <= IZR (2 ^ 35))%R) by (rewrite <- abs_IZR; apply IZR_le; exact AX).
  assert (MU : (0 < bpow radix2 (-17))%R) by apply bpow_gt_0.
  assert (P36 : (IZR (2 ^ 35) + IZR (2 ^ 35) <= IZR (2 ^ 36))%R) by (rewrite <- plus_IZR; apply IZR_le; lia).
  apply Rabs_le_inv in AXR.
  destruct (sub_val xb mb FX FM) as (y & EY & FY & RY).
  { apply abs_le_100 with (2 ^ 36); [|lia]. rewrite RX. apply Rabs_le. lra. }
  assert (YB : (IZR (at_i a h i) - IZR h <= B2R y <= IZR (at_i a h i) - bpow radix2 (-17))%R).
  { rewrite RY, RX. apply rnd_between; [| |lra].
    - rewrite <- minus_IZR. apply format_int. unfold at_i in *. destruct SM as (? & ? & ? & ?). nia.
    - replace (IZR (at_i a h i) - bpow radix2 (-17))%R with (IZR (at_i a h i) + IZR (-1) * bpow radix2 (-17))%R by ring. apply format_near; auto. }
  destruct dom_eq as [DE NE]. destruct (x_real 0 ltac:(lia)) as (lb & EL & FL & RL & _).
  unfold p_x_previous. rewrite NE. cbn [resolve_min_step]. rewrite EX. change (@n_sub b64 B64) with (SFsub 53 1024). rewrite EY.
  assert (LE : i_contains_gen true false (p_dom s) (B2SF y) = Rle_bool (B2R lb) (B2R y)).
  { unfold i_contains_gen. rewrite NE. rewrite DE. unfold above_start. cbn [i_start i_so negb andb orb]. rewrite EL. cbn [n_ltb n_eqb B64].
    rewrite ltb_val, eqb_val by assumption. rewrite andb_true_r.
    destruct (Rlt_bool_spec (B2R lb) (B2R y)), (Req_bool_spec (B2R lb) (B2R y)), (Rle_bool_spec (B2R lb) (B2R y)); try reflexivity; lra. }
  rewrite LE, RL. destruct i as [|j].
  - rewrite Rle_bool_false by lra. reflexivity.
  - set (d := Z.of_nat (S j) * h). assert (ED : IZR (at_i a h (S j)) = (IZR a + IZR d)%R) by (unfold at_i; rewrite plus_IZR; reflexivity).
    assert (DB : h <= d <= 2 ^ 35) by (unfold d; destruct SM as (? & ? & ? & ?); nia).
    assert (DR : (IZR h <= IZR d)%R) by (apply IZR_le; lia).
    assert (E0 : IZR (at_i a h 0) = IZR a) by (f_equal; unfold at_i; lia).
    rewrite Rle_bool_true by lra. cbn [negb]. rewrite finite_not_inf by assumption. cbn [andb].
    destruct (index_real y FY) as (q & -> & FQ & RQ); [apply Rabs_le; lra|]. cbn [rbind]. rewrite floor_val by assumption. cbn [rbind].
    assert (ZB : (IZR d - IZR h <= rnd (B2R y - IZR a) <= IZR d - bpow radix2 (-17))%R).
    { apply rnd_between; [| |lra].
      - rewrite <- minus_IZR. apply format_int. lia.
      - replace (IZR d - bpow radix2 (-17))%R with (IZR d + IZR (-1) * bpow radix2 (-17))%R by ring. apply format_near; [lia|auto]. }
    assert (CD : (IZR d / IZR h = IZR (Z.of_nat (S j)))%R) by (unfold d; rewrite mult_IZR; field; lra).
    assert (CI : 0 <= Z.of_nat (S j) <= 2 ^ 35) by (unfold d in DB; nia).
    assert (HI : (B2R q < IZR (Z.of_nat (S j)))%R).
    { rewrite RQ. apply rnd_below with h; try assumption; [apply DB|]. rewrite <- CD. unfold Rdiv. rewrite <- Rmult_minus_distr_r.
      apply Rmult_le_compat_r; [left; apply Rinv_0_lt_compat; lra|lra]. }
    assert (LO : (IZR (Z.of_nat j) <= B2R q)%R).
    { rewrite RQ. apply round_ge_generic; auto with typeclass_instances; [apply format_int; lia|].
      replace (IZR (Z.of_nat j)) with ((IZR d - IZR h) / IZR h)%R.
      - unfold Rdiv. apply Rmult_le_compat_r; [left; apply Rinv_0_lt_compat; lra|lra].
      - rewrite Nat2Z.inj_succ, succ_IZR in CD. replace (IZR (Z.of_nat j)) with (IZR d / IZR h - 1)%R by lra. field. lra. }
    assert (Zfloor (B2R q) = Z.of_nat j) as ->.
    { apply Zfloor_imp. rewrite Nat2Z.inj_succ in HI. unfold Z.succ in HI. split; assumption. }
    destruct ON as (-> & _). rewrite grid_length, Z.min_r by lia. destruct (nth_error vs j) as [v|] eqn:E; [|apply nth_error_None in E; lia].
    rewrite (py_at _ j (X j, v)); [reflexivity|]. rewrite grid_nth, E. reflexivity.
Qed.
End Step.

(** ** large positions: the default step is lost *)
Lemma minstep_real : exists b : bf, @n_minstep b64 B64 = B2SF b /\ is_finite b = true /\ (0 <= B2R b < bpow radix2 (-16))%R.
Proof.
  assert (V : valid_binary 53 1024 (@n_minstep b64 B64) = true) by (vm_compute; reflexivity).
  exists (SF2B _ V). rewrite B2SF_SF2B. split; [reflexivity|].
  assert (E : @n_minstep b64 B64 = S754_finite false 5902958103587057 (-69)) by (vm_compute; reflexivity).
  revert V. rewrite E. intros V. cbn [SF2B is_finite B2R cond_Zopp]. split; [reflexivity|]. split; [apply F2R_ge_0; cbn; lia|].
  unfold F2R. cbn [Fnum Fexp]. apply Rlt_le_trans with (bpow radix2 53 * bpow radix2 (-69))%R.
  - apply Rmult_lt_compat_r; [apply bpow_gt_0|]. change (bpow radix2 53) with (IZR (2 ^ 53)). apply IZR_lt. reflexivity.
  - rewrite <- bpow_plus. apply bpow_le. lia.
Qed.
Lemma absorbed k : 2 ^ 37 <= k <= 2 ^ 53 -> n_add (fnum k 0) (@n_minstep b64 B64) = fnum k 0.
Proof.
  intros K. destruct minstep_real as (mb & -> & FM & RM). assert (F : fits k 0) by (split; lia).
  destruct (bnum_spec k 0 F) as (R1 & F1 & S1). rewrite dy0 in R1. change (@n_add b64 B64) with (SFadd 53 1024). rewrite fnum_bnum, add_eq, <- fnum_bnum.
  assert (KR : (bpow radix2 37 <= IZR k <= bpow radix2 53)%R).
  { change (bpow radix2 37) with (IZR (2 ^ 37)). change (bpow radix2 53) with (IZR (2 ^ 53)). split; apply IZR_le; lia. }
  assert (P : (0 < bpow radix2 37)%R) by apply bpow_gt_0.
  assert (FK : generic_format radix2 fexp (IZR k)) by (apply format_int; lia).
  assert (E : rnd (IZR k + B2R mb) = IZR k).
  { apply Rle_antisym.
    - apply round_N_le_midp; auto with typeclass_instances. rewrite succ_eq_pos by lra.
      assert (bpow radix2 (-15) <= ulp radix2 fexp (IZR k))%R.
      { replace (bpow radix2 (-15)) with (ulp radix2 fexp (bpow radix2 37)) by (rewrite ulp_bpow; reflexivity). apply ulp_le_pos; auto with typeclass_instances; lra. }
      assert (bpow radix2 (-15) = 2 * bpow radix2 (-16))%R by (change 2%R with (bpow radix2 1); rewrite <- bpow_plus; reflexivity). lra.
    - apply round_ge_generic; auto with typeclass_instances; lra. }
  pose proof (Bplus_correct 53 1024 Hprec Hmax mode_NE (bnum k 0) mb F1 FM) as H. rewrite R1 in H.
  change (SpecFloat.fexp 53 1024) with (FLT_exp (-1074) 53) in H. rewrite E in H. rewrite Rlt_bool_true in H.
  2:{ rewrite <- dy0. apply small_dy. exact F. }
  destruct H as (H1 & H2 & H3). apply bnum_unique; try assumption; [rewrite dy0; exact H1|].
  rewrite H3, Rcompare_Gt by lra. symmetry. apply Z.ltb_ge. lia.
Qed.
Lemma stuck {V} {W : Val b64 V} a h (vs : list V) s i lim : grid_fits a h 0 (length vs) -> on_grid a h 0 vs s -> (i < length vs)%nat -> 2 ^ 37 <= at_i a h i ->
  p_x_next s (fnum (at_i a h i) 0) (Some n_minstep) lim = Ok (Some (fnum (at_i a h i) 0)).
Proof.
  intros G O L K. pose proof (fits_at a h 0 _ i G L) as F.
  pose proof (in_dom a h 0 _ i vs s G eq_refl L O) as D. unfold i_contains, i_contains_gen in D.
  unfold p_x_next. cbn [resolve_min_step]. rewrite absorbed by (destruct F; lia). unfold i_contains_gen.
  destruct (i_is_empty (p_dom s)); [discriminate D|]. cbn [negb orb andb] in *. apply andb_true_iff in D. destruct D as [_ ->]. cbn [negb].
  destruct (bnum_spec _ 0 F) as (_ & F1 & _). rewrite fnum_bnum at 1. rewrite finite_not_inf by assumption. cbn [andb].
  rewrite (index_at a h 0 _ i vs s G eq_refl L O). cbn [rbind]. rewrite whole_ceil by (try (eapply fits_count; eassumption); lia). cbn [rbind].
  rewrite Z.max_r by lia. destruct (nth_error vs i) as [v|] eqn:E; [|apply nth_error_None in E; lia].
  destruct O as (-> & _). rewrite (py_at _ i (fnum (at_i a h i) 0, v)); [reflexivity|]. rewrite grid_nth, E. reflexivity.
Qed.
