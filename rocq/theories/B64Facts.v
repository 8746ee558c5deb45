(** Binary64 arithmetic on dyadic numbers that fit: sums, differences, products
    and quotients that are representable are exact.  Proved with Flocq. *)
From Coq Require Import ZArith Reals Lia Lra Bool SpecFloat.
From Flocq Require Import Core BinarySingleNaN.
From Verif Require Import Base Num.
Open Scope Z_scope.

#[local] Instance Hprec : Prec_gt_0 53 := eq_refl.
#[local] Instance Hmax : Prec_lt_emax 53 1024 := eq_refl.
Notation bf := (binary_float 53 1024).
Notation fexp := (FLT_exp (-1074) 53).

Lemma round_aux_eq s m e l : SpecFloat.binary_round_aux 53 1024 s m e l = BinarySingleNaN.binary_round_aux 53 1024 mode_NE s m e l.
Proof.
  unfold SpecFloat.binary_round_aux, BinarySingleNaN.binary_round_aux. destruct (shr_fexp 53 1024 m e l) as [r e']. cbn.
  assert (E : forall m l, round_nearest_even m l = choice_mode mode_NE s m l).
  { intros m0 [|[]]; try reflexivity. cbn. unfold Round.cond_incr. destruct (Z.even m0); reflexivity. }
  rewrite E. reflexivity.
Qed.
Lemma round_eq s m e : SpecFloat.binary_round 53 1024 s m e = BinarySingleNaN.binary_round 53 1024 mode_NE s m e.
Proof.
  unfold SpecFloat.binary_round, BinarySingleNaN.binary_round, shl_align_fexp. destruct (shl_align _ _ _). apply round_aux_eq.
Qed.
Lemma normalize_eq m e sz : SpecFloat.binary_normalize 53 1024 m e sz = B2SF (BinarySingleNaN.binary_normalize 53 1024 Hprec Hmax mode_NE m e sz).
Proof. destruct m; cbn; rewrite ?B2SF_SF2B; try apply round_eq. reflexivity. Qed.
Lemma add_eq (x y : bf) : SFadd 53 1024 (B2SF x) (B2SF y) = B2SF (Bplus mode_NE x y).
Proof.
  destruct x as [sx|sx| |sx mx ex Bx], y as [sy|sy| |sy my ey By]; try (cbn; try destruct (Bool.eqb _ _); reflexivity).
  apply normalize_eq.
Qed.
Lemma sub_eq (x y : bf) : SFsub 53 1024 (B2SF x) (B2SF y) = B2SF (Bminus mode_NE x y).
Proof.
  destruct x as [sx|sx| |sx mx ex Bx], y as [sy|sy| |sy my ey By]; try (cbn; try destruct (Bool.eqb _ _); reflexivity).
  cbn. unfold Zminus. rewrite <- cond_Zopp_negb. apply normalize_eq.
Qed.
Lemma mul_eq (x y : bf) : SFmul 53 1024 (B2SF x) (B2SF y) = B2SF (Bmult mode_NE x y).
Proof.
  destruct x as [sx|sx| |sx mx ex Bx], y as [sy|sy| |sy my ey By]; try (cbn; reflexivity).
  cbn. rewrite B2SF_SF2B. apply round_aux_eq.
Qed.
Lemma div_eq (x y : bf) : SFdiv 53 1024 (B2SF x) (B2SF y) = B2SF (Bdiv mode_NE x y).
Proof.
  destruct x as [sx|sx| |sx mx ex Bx], y as [sy|sy| |sy my ey By]; try (cbn; reflexivity).
  cbn. rewrite B2SF_SF2B. destruct (SFdiv_core_binary _ _ _ _ _ _) as [[mz ez] lz]. apply round_aux_eq.
Qed.

(** m * 2^e *)
Definition dy (m e : Z) : R := F2R (Float radix2 m e).
Definition fits (m e : Z) : Prop := Z.abs m <= 2 ^ 53 /\ -1074 <= e <= 970.
Lemma format_dy m e : fits m e -> generic_format radix2 fexp (dy m e).
Proof.
  intros [M E]. destruct (Z.eq_dec (Z.abs m) (2 ^ 53)) as [Q|Q].
  - assert (exists k, dy m e = F2R (Float radix2 k (e + 53)) /\ Z.abs k = 1) as (k & Ek & Ak).
    { exists (Z.sgn m). unfold dy, F2R. cbn [Fnum Fexp]. rewrite bpow_plus. split.
      - replace m with (Z.sgn m * 2 ^ 53) at 1 by lia. rewrite mult_IZR. change (IZR (2 ^ 53)) with (bpow radix2 53). ring.
      - lia. }
    rewrite Ek. apply generic_format_FLT. exists (Float radix2 k (e + 53)); [reflexivity|cbn [Fnum]; rewrite Ak; reflexivity|cbn; lia].
  - apply generic_format_FLT. exists (Float radix2 m e); [reflexivity|cbn [Fnum]; change (radix2 ^ 53) with (2 ^ 53); lia|cbn; lia].
Qed.
Lemma small_dy m e : fits m e -> (Rabs (dy m e) < bpow radix2 1024)%R.
Proof.
  intros [M E]. unfold dy. rewrite <- F2R_Zabs. apply Rle_lt_trans with (F2R (Float radix2 (2 ^ 53) e)).
  - apply F2R_le. exact M.
  - unfold F2R. cbn [Fnum Fexp]. change (IZR (2 ^ 53)) with (bpow radix2 53). rewrite <- bpow_plus. apply bpow_lt. lia.
Qed.
Lemma round_dy m e : fits m e -> round radix2 fexp (round_mode mode_NE) (dy m e) = dy m e.
Proof. intros F. apply round_generic; [apply valid_rnd_round_mode|apply format_dy; exact F]. Qed.

Definition bnum (m e : Z) : bf := BinarySingleNaN.binary_normalize 53 1024 Hprec Hmax mode_NE m e false.
Definition fnum (m e : Z) : b64 := SpecFloat.binary_normalize 53 1024 m e false.
Lemma fnum_bnum m e : fnum m e = B2SF (bnum m e). Proof. apply normalize_eq. Qed.
Lemma sign_dy m e : match Rcompare (dy m e) 0 with Eq => false | Lt => true | Gt => false end = (m <? 0).
Proof.
  unfold dy. destruct (Z.ltb_spec m 0) as [L|L].
  - rewrite Rcompare_Lt; [reflexivity|]. apply F2R_lt_0. exact L.
  - destruct (Z.eq_dec m 0) as [->|N]; [rewrite F2R_0, Rcompare_Eq; reflexivity|].
    rewrite Rcompare_Gt; [reflexivity|]. apply F2R_gt_0. cbn. lia.
Qed.
Lemma bnum_spec m e : fits m e -> B2R (bnum m e) = dy m e /\ is_finite (bnum m e) = true /\ Bsign (bnum m e) = (m <? 0).
Proof.
  intros F. pose proof (binary_normalize_correct 53 1024 Hprec Hmax mode_NE m e false) as H. cbv zeta in H.
  change (SpecFloat.fexp 53 1024) with (FLT_exp (-1074) 53) in H. fold (dy m e) in H. rewrite (round_dy m e F) in H.
  rewrite Rlt_bool_true in H by (apply small_dy; exact F). rewrite sign_dy in H. exact H.
Qed.
Lemma bnum_unique (x : bf) m e : fits m e -> B2R x = dy m e -> is_finite x = true -> Bsign x = (m <? 0) -> B2SF x = fnum m e.
Proof.
  intros F R1 F1 S1. destruct (bnum_spec m e F) as (R2 & F2 & S2). rewrite fnum_bnum. f_equal.
  apply B2R_Bsign_inj; congruence.
Qed.
Ltac exact_op H r := change (SpecFloat.fexp 53 1024) with (FLT_exp (-1074) 53) in H; rewrite r in H; rewrite round_dy in H by assumption; rewrite Rlt_bool_true in H by (apply small_dy; assumption).

Lemma dy_sub a b e : (dy a e - dy b e)%R = dy (a - b) e.
Proof. unfold dy, F2R. cbn [Fnum Fexp]. rewrite minus_IZR. ring. Qed.
Lemma dy_add a b e : (dy a e + dy b e)%R = dy (a + b) e.
Proof. unfold dy, F2R. cbn [Fnum Fexp]. rewrite plus_IZR. ring. Qed.
Lemma dy_mul a b e f : (dy a e * dy b f)%R = dy (a * b) (e + f).
Proof. unfold dy, F2R. cbn [Fnum Fexp]. rewrite mult_IZR, bpow_plus. ring. Qed.
Lemma dy_0 m e : dy m e = 0%R <-> m = 0.
Proof. unfold dy. split; [apply eq_0_F2R|intros ->; apply F2R_0]. Qed.

Lemma fnum_sub a b e : fits a e -> fits b e -> fits (a - b) e -> SFsub 53 1024 (fnum a e) (fnum b e) = fnum (a - b) e.
Proof.
  intros A B C. destruct (bnum_spec a e A) as (RA & FA & SA). destruct (bnum_spec b e B) as (RB & FB & SB).
  rewrite !fnum_bnum, sub_eq. rewrite <- fnum_bnum.
  pose proof (Bminus_correct 53 1024 Hprec Hmax mode_NE (bnum a e) (bnum b e) FA FB) as H. rewrite RA, RB in H.
  exact_op H (dy_sub a b e). destruct H as (H1 & H2 & H3). apply bnum_unique; try assumption.
  rewrite H3. rewrite <- (sign_dy (a - b) e). destruct (Rcompare_spec (dy (a - b) e) 0) as [L|E|L]; try reflexivity.
  apply dy_0 in E. rewrite SA, SB. replace a with b by lia. destruct (b <? 0); reflexivity.
Qed.
Lemma fnum_add a b e : fits a e -> fits b e -> fits (a + b) e -> 0 <= a \/ 0 <= b -> SFadd 53 1024 (fnum a e) (fnum b e) = fnum (a + b) e.
Proof.
  intros A B C Q. destruct (bnum_spec a e A) as (RA & FA & SA). destruct (bnum_spec b e B) as (RB & FB & SB).
  rewrite !fnum_bnum, add_eq. rewrite <- fnum_bnum.
  pose proof (Bplus_correct 53 1024 Hprec Hmax mode_NE (bnum a e) (bnum b e) FA FB) as H. rewrite RA, RB in H.
  exact_op H (dy_add a b e). destruct H as (H1 & H2 & H3). apply bnum_unique; try assumption.
  rewrite H3. rewrite <- (sign_dy (a + b) e). destruct (Rcompare_spec (dy (a + b) e) 0) as [L|E|L]; try reflexivity.
  rewrite SA, SB. destruct (Z.ltb_spec a 0), (Z.ltb_spec b 0); try reflexivity. lia.
Qed.
Lemma fnum_mul a b e f : fits a e -> fits b f -> fits (a * b) (e + f) -> 0 <= a -> 0 <= b -> SFmul 53 1024 (fnum a e) (fnum b f) = fnum (a * b) (e + f).
Proof.
  intros A B C Qa Qb. destruct (bnum_spec a e A) as (RA & FA & SA). destruct (bnum_spec b f B) as (RB & FB & SB).
  rewrite !fnum_bnum, mul_eq. rewrite <- fnum_bnum.
  pose proof (Bmult_correct 53 1024 Hprec Hmax mode_NE (bnum a e) (bnum b f)) as H. rewrite RA, RB in H.
  exact_op H (dy_mul a b e f). destruct H as (H1 & H2 & H3). rewrite FA, FB in H2. apply bnum_unique; try assumption.
  rewrite H3, SA, SB.
  - destruct (Z.ltb_spec a 0), (Z.ltb_spec b 0), (Z.ltb_spec (a * b) 0); try reflexivity; nia.
  - destruct (Bmult mode_NE (bnum a e) (bnum b f)); try discriminate H2; reflexivity.
Qed.
Lemma fnum_div a b c e f g : fits a e -> fits b f -> fits c g -> 0 < b -> 0 <= a -> (dy a e / dy b f = dy c g)%R ->
  SFdiv 53 1024 (fnum a e) (fnum b f) = fnum c g.
Proof.
  intros A B C Pb Qa D. destruct (bnum_spec a e A) as (RA & FA & SA). destruct (bnum_spec b f B) as (RB & FB & SB).
  rewrite !fnum_bnum, div_eq. rewrite <- fnum_bnum.
  assert (NB : B2R (bnum b f) <> 0%R). { rewrite RB. intros E. apply dy_0 in E. lia. }
  pose proof (Bdiv_correct 53 1024 Hprec Hmax mode_NE (bnum a e) (bnum b f) NB) as H. rewrite RA, RB in H.
  exact_op H D. destruct H as (H1 & H2 & H3). rewrite FA in H2. apply bnum_unique; try assumption.
  rewrite H3, SA, SB.
  - assert (0 <= c).
    { destruct (Z.le_gt_cases 0 c) as [L|L]; [exact L|]. exfalso. assert (0 <= dy a e / dy b f)%R.
      { apply Rle_mult_inv_pos; [apply F2R_ge_0; exact Qa|apply F2R_gt_0; exact Pb]. }
      rewrite D in H. assert (dy c g < 0)%R by (apply F2R_lt_0; exact L). lra. }
    destruct (Z.ltb_spec a 0), (Z.ltb_spec b 0), (Z.ltb_spec c 0); try reflexivity; lia.
  - destruct (Bdiv mode_NE (bnum a e) (bnum b f)); try discriminate H2; reflexivity.
Qed.
Lemma dy_lt a b e : (dy a e < dy b e)%R <-> a < b.
Proof. unfold dy. split; [apply lt_F2R|apply F2R_lt]. Qed.
Lemma dy_le a b e : (dy a e <= dy b e)%R <-> a <= b.
Proof. unfold dy. split; [apply le_F2R|apply F2R_le]. Qed.
Lemma fnum_ltb a b e : fits a e -> fits b e -> SFltb (fnum a e) (fnum b e) = (a <? b).
Proof.
  intros A B. destruct (bnum_spec a e A) as (RA & FA & _). destruct (bnum_spec b e B) as (RB & FB & _).
  rewrite !fnum_bnum. change (Bltb (bnum a e) (bnum b e) = (a <? b)). rewrite Bltb_correct by assumption. rewrite RA, RB.
  destruct (Rlt_bool_spec (dy a e) (dy b e)) as [L|L]; [apply dy_lt in L|apply dy_le in L]; destruct (Z.ltb_spec a b); try reflexivity; lia.
Qed.
Lemma fnum_leb a b e : fits a e -> fits b e -> SFleb (fnum a e) (fnum b e) = (a <=? b).
Proof.
  intros A B. destruct (bnum_spec a e A) as (RA & FA & _). destruct (bnum_spec b e B) as (RB & FB & _).
  rewrite !fnum_bnum. change (Bleb (bnum a e) (bnum b e) = (a <=? b)). rewrite Bleb_correct by assumption. rewrite RA, RB.
  destruct (Rle_bool_spec (dy a e) (dy b e)) as [L|L]; [apply dy_le in L|apply dy_lt in L]; destruct (Z.leb_spec a b); try reflexivity; lia.
Qed.
Lemma fnum_eqb a b e : fits a e -> fits b e -> SFeqb (fnum a e) (fnum b e) = (a =? b).
Proof.
  intros A B. destruct (bnum_spec a e A) as (RA & FA & _). destruct (bnum_spec b e B) as (RB & FB & _).
  rewrite !fnum_bnum. change (Beqb (bnum a e) (bnum b e) = (a =? b)). rewrite Beqb_correct by assumption. rewrite RA, RB.
  destruct (Req_bool_spec (dy a e) (dy b e)) as [L|L].
  - assert (a <= b <= a). { split; apply (dy_le _ _ e); lra. } destruct (Z.eqb_spec a b); [reflexivity|lia].
  - destruct (Z.eqb_spec a b) as [->|]; [contradiction|reflexivity].
Qed.

(** a number with a whole value: how it is stored *)
Lemma whole_form k : 0 <= k -> fits k 0 ->
  (k = 0 /\ fnum k 0 = S754_zero false) \/
  exists m e, fnum k 0 = S754_finite false m e /\ pfloor m e = k /\ (e < 0 -> Zpos m = k * 2 ^ (- e)).
Proof.
  intros Q F. destruct (bnum_spec k 0 F) as (R1 & F1 & S1). rewrite fnum_bnum.
  destruct (Z.eq_dec k 0) as [->|NZ]; [left; split; reflexivity|right].
  destruct (bnum k 0) as [s|s| |s m e B] eqn:E; try discriminate F1.
  - exfalso. cbn in R1. symmetry in R1. apply dy_0 in R1. contradiction.
  - cbn in S1. assert (s = false) as -> by (rewrite S1; apply Z.ltb_ge; exact Q). exists m, e. split; [reflexivity|].
    cbn in R1. unfold dy in R1.
    assert (K : e < 0 -> Zpos m = k * 2 ^ (- e)).
    { intros L. apply eq_IZR. rewrite mult_IZR. rewrite (IZR_Zpower radix2) by lia.
      unfold F2R in R1. cbn [Fnum Fexp] in R1. rewrite Rmult_1_r in R1. rewrite <- R1. rewrite Rmult_assoc, <- bpow_plus.
      replace (e + - e) with 0 by lia. cbn. lra. }
    split; [|exact K]. unfold pfloor. destruct (Z.ltb_spec e 0) as [L|L].
    + rewrite (K L), <- Z.shiftl_mul_pow2 by lia. rewrite Z.shiftl_shiftl by lia. replace (- e + e) with 0 by lia. apply Z.shiftl_0_r.
    + rewrite Z.shiftl_mul_pow2 by lia. apply eq_IZR. rewrite mult_IZR, (IZR_Zpower radix2) by lia.
      unfold F2R in R1. cbn [Fnum Fexp] in R1. rewrite Rmult_1_r in R1. exact R1.
Qed.
Lemma whole_trunc k : 0 <= k -> fits k 0 -> n_trunc (fnum k 0) = Ok k.
Proof.
  intros Q F. destruct (whole_form k Q F) as [[-> ->]|(m & e & -> & E & _)]; [reflexivity|]. cbn. rewrite E. reflexivity.
Qed.
Lemma whole_floor k : 0 <= k -> fits k 0 -> n_floor (fnum k 0) = Ok k.
Proof.
  intros Q F. destruct (whole_form k Q F) as [[-> ->]|(m & e & -> & E & _)]; [reflexivity|]. cbn. rewrite E. reflexivity.
Qed.
Lemma whole_mod1 k : 0 <= k -> fits k 0 -> n_mod1 (fnum k 0) = S754_zero false.
Proof.
  intros Q F. destruct (whole_form k Q F) as [[-> ->]|(m & e & -> & E & K)]; [reflexivity|]. cbn -[Z.sub Z.shiftl]. unfold b64_mod1.
  destruct (Z.leb_spec 0 e) as [L|L]; [reflexivity|]. rewrite E, Z.shiftl_mul_pow2 by lia. rewrite <- (K L), Z.sub_diag. reflexivity.
Qed.
Lemma whole_ceil k : 0 <= k -> fits k 0 -> n_ceil (fnum k 0) = Ok k.
Proof.
  intros Q F. destruct (whole_form k Q F) as [[-> ->]|(m & e & -> & E & K)]; [reflexivity|]. cbn. f_equal.
  unfold pceil. unfold pfloor in E. destruct (Z.leb_spec 0 e) as [L|L].
  - rewrite Z.shiftl_mul_pow2 in * by lia. lia.
  - replace (Zneg m) with (- k * 2 ^ (- e)) by (rewrite <- Pos2Z.opp_pos, (K L); ring).
    rewrite <- Z.shiftl_mul_pow2 by lia. rewrite Z.shiftl_shiftl by lia. replace (- e + e) with 0 by lia. rewrite Z.shiftl_0_r. lia.
Qed.
