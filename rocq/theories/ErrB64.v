(** Rounding errors of binary64 operations, and of the linear blend of
    points.py:236-240. *)
From Coq Require Import List ZArith Reals Lia Lra Psatz Bool SpecFloat.
From Flocq Require Import Core BinarySingleNaN Relative Plus_error.
From Verif Require Import Base Num Interval Curve Points B64Facts GridFacts StepB64 IrregB64.
Import ListNotations.
Open Scope Z_scope.
#[local] Existing Instances Hprec Hmax Hval Hexp.

(** half the distance from 1 to the next double, and half the least positive double *)
Definition eps : R := bpow radix2 (-53).
Definition tiny : R := bpow radix2 (-1075).
Lemma eps_pos : (0 < eps)%R. Proof. apply bpow_gt_0. Qed.
Lemma eps_small : (eps <= / 1024)%R.
Proof. unfold eps. replace (/ 1024)%R with (bpow radix2 (-10)) by (cbn; lra). apply bpow_le. lia. Qed.
Lemma tiny_pos : (0 < tiny)%R. Proof. apply bpow_gt_0. Qed.
Lemma tiny_eps : (tiny <= eps * eps)%R.
Proof. unfold eps, tiny. rewrite <- bpow_plus. apply bpow_le. lia. Qed.

Lemma plus_err x y : generic_format radix2 fexp x -> generic_format radix2 fexp y -> exists d, (Rabs d <= eps)%R /\ rnd (x + y) = ((x + y) * (1 + d))%R.
Proof.
  intros A B. destruct (FLT_plus_error_N_ex radix2 (-1074) 53 (fun x => negb (Z.even x)) x y A B) as (d & D & E).
  exists d. split; [|exact E]. apply Rle_trans with (1 := D). apply Rle_trans with (1 := u_rod1pu_ro_le_u_ro radix2 53).
  unfold u_ro, eps. apply Req_le. change (/ 2)%R with (bpow radix2 (-1)). rewrite <- bpow_plus. reflexivity.
Qed.
Lemma minus_err x y : generic_format radix2 fexp x -> generic_format radix2 fexp y -> exists d, (Rabs d <= eps)%R /\ rnd (x - y) = ((x - y) * (1 + d))%R.
Proof. intros A B. apply plus_err; [exact A|now apply generic_format_opp]. Qed.
Lemma any_err x : exists d t, (Rabs d <= eps)%R /\ (Rabs t <= tiny)%R /\ rnd x = (x * (1 + d) + t)%R.
Proof.
  destruct (error_N_FLT radix2 (-1074) 53 ltac:(lia) (fun x => negb (Z.even x)) x) as (d & t & D & T & _ & E).
  exists d, t. split; [|split; [|exact E]].
  - apply Rle_trans with (1 := D). apply Req_le. change (/ 2)%R with (bpow radix2 (-1)). unfold eps. rewrite <- bpow_plus. reflexivity.
  - apply Rle_trans with (1 := T). apply Req_le. change (/ 2)%R with (bpow radix2 (-1)). unfold tiny. rewrite <- bpow_plus. reflexivity.
Qed.

(** the operations, where the result is not beyond 2^1023 *)
Notation huge := (bpow radix2 1023).
Lemma rnd_huge r : (Rabs r <= huge)%R -> (Rabs (rnd r) < bpow radix2 1024)%R.
Proof.
  intros A. apply Rle_lt_trans with huge; [|apply bpow_lt; lia].
  apply abs_round_le_generic; auto with typeclass_instances. apply generic_format_bpow. vm_compute. discriminate.
Qed.
Ltac bigop H := change (SpecFloat.fexp 53 1024) with (FLT_exp (-1074) 53) in H; rewrite Rlt_bool_true in H by (apply rnd_huge; assumption).
Lemma add_big (x y : bf) : is_finite x = true -> is_finite y = true -> (Rabs (B2R x + B2R y) <= huge)%R ->
  exists z : bf, SFadd 53 1024 (B2SF x) (B2SF y) = B2SF z /\ is_finite z = true /\ B2R z = rnd (B2R x + B2R y).
Proof.
  intros A B C. pose proof (Bplus_correct 53 1024 Hprec Hmax mode_NE x y A B) as H. bigop H.
  exists (Bplus mode_NE x y). rewrite add_eq. destruct H as (H1 & H2 & _). auto.
Qed.
Lemma sub_big (x y : bf) : is_finite x = true -> is_finite y = true -> (Rabs (B2R x - B2R y) <= huge)%R ->
  exists z : bf, SFsub 53 1024 (B2SF x) (B2SF y) = B2SF z /\ is_finite z = true /\ B2R z = rnd (B2R x - B2R y).
Proof.
  intros A B C. pose proof (Bminus_correct 53 1024 Hprec Hmax mode_NE x y A B) as H. bigop H.
  exists (Bminus mode_NE x y). rewrite sub_eq. destruct H as (H1 & H2 & _). auto.
Qed.
Lemma mul_big (x y : bf) : is_finite x = true -> is_finite y = true -> (Rabs (B2R x * B2R y) <= huge)%R ->
  exists z : bf, SFmul 53 1024 (B2SF x) (B2SF y) = B2SF z /\ is_finite z = true /\ B2R z = rnd (B2R x * B2R y).
Proof.
  intros A B C. pose proof (Bmult_correct 53 1024 Hprec Hmax mode_NE x y) as H. bigop H.
  exists (Bmult mode_NE x y). rewrite mul_eq. destruct H as (H1 & H2 & _). rewrite H2, A, B. auto.
Qed.
Lemma div_big (x y : bf) : is_finite x = true -> B2R y <> 0%R -> (Rabs (B2R x / B2R y) <= huge)%R ->
  exists z : bf, @n_div b64 B64 (B2SF x) (B2SF y) = Ok (B2SF z) /\ is_finite z = true /\ B2R z = rnd (B2R x / B2R y).
Proof.
  intros A B C. pose proof (Bdiv_correct 53 1024 Hprec Hmax mode_NE x y B) as H. bigop H.
  exists (Bdiv mode_NE x y). destruct H as (H1 & H2 & _). rewrite H2. split; [|auto]. rewrite <- div_eq.
  destruct y; try reflexivity. exfalso. apply B. reflexivity.
Qed.
Lemma one_bf : exists o : bf, b64_ofZ 1 = B2SF o /\ is_finite o = true /\ B2R o = 1%R.
Proof.
  assert (F : fits 1 0) by (split; [cbn; lia|lia]). destruct (bnum_spec 1 0 F) as (A & B & _). exists (bnum 1 0).
  split; [exact (fnum_bnum 1 0)|]. split; [exact B|]. rewrite A. apply dy0.
Qed.
Lemma huge_ge r : (r <= bpow radix2 1020)%R -> (8 * r <= huge)%R.
Proof. intros A. replace huge with (8 * bpow radix2 1020)%R; [lra|]. change 8%R with (bpow radix2 3). rewrite <- bpow_plus. reflexivity. Qed.

(** ** The blend *)
Lemma mul_bound u y M : (0 <= u <= 1)%R -> (Rabs y <= M)%R -> (Rabs (u * y) <= u * M)%R.
Proof. intros [A _] B. rewrite Rabs_mult, (Rabs_pos_eq u) by exact A. now apply Rmult_le_compat_l. Qed.
Lemma err_mul x d : (Rabs d <= eps)%R -> (Rabs (x * d) <= Rabs x * eps)%R.
Proof. intros A. rewrite Rabs_mult. apply Rmult_le_compat_l; [apply Rabs_pos|exact A]. Qed.
Lemma lerp_err (u y0 y1 : bf) M : is_finite u = true -> is_finite y0 = true -> is_finite y1 = true -> (0 <= B2R u <= 1)%R ->
  (Rabs (B2R y0) <= M)%R -> (Rabs (B2R y1) <= M)%R -> (M <= bpow radix2 1020)%R ->
  exists r : bf, SFadd 53 1024 (SFmul 53 1024 (SFsub 53 1024 (b64_ofZ 1) (B2SF u)) (B2SF y0)) (SFmul 53 1024 (B2SF u) (B2SF y1)) = B2SF r /\ is_finite r = true /\
  (Rabs (B2R r - ((1 - B2R u) * B2R y0 + B2R u * B2R y1)) <= 5 * eps * M + 4 * tiny)%R.
Proof.
  intros FU F0 F1 U0 A0 A1 HM. destruct one_bf as (o & EO & FO & RO). rewrite EO.
  assert (MP : (0 <= M)%R) by (apply Rle_trans with (2 := A0); apply Rabs_pos).
  pose proof (huge_ge M HM) as HG. assert (H1 : (8 * 1 <= huge)%R) by (apply huge_ge; change 1%R with (bpow radix2 0); apply bpow_le; lia).
  pose proof eps_pos as EP. pose proof eps_small as ES. pose proof tiny_pos as TP. pose proof tiny_eps as TE.
  set (U := B2R u) in *. set (Y0 := B2R y0) in *. set (Y1 := B2R y1) in *.
  destruct (sub_big o u FO FU) as (v & -> & FV & RV); [rewrite RO; fold U; apply Rabs_le; lra|]. rewrite RO in RV. fold U in RV.
  assert (FM : generic_format radix2 fexp 1) by (change 1%R with (bpow radix2 0); apply generic_format_bpow; vm_compute; discriminate).
  assert (V1 : (0 <= B2R v <= 1)%R) by (rewrite RV; apply rnd_between; [apply generic_format_0|exact FM|lra]).
  destruct (minus_err 1 U FM ltac:(apply generic_format_B2R)) as (d1 & D1 & E1). rewrite E1 in RV.
  destruct (mul_big v y0 FV F0) as (p & -> & FP & RP).
  { fold Y0. apply Rle_trans with (1 := mul_bound _ _ M V1 A0). nra. }
  destruct (mul_big u y1 FU F1) as (q & -> & FQ & RQ).
  { fold U Y1. apply Rle_trans with (1 := mul_bound _ _ M U0 A1). nra. }
  fold Y0 in RP. fold U Y1 in RQ.
  destruct (any_err (B2R v * Y0)) as (d2 & t2 & D2 & T2 & E2). destruct (any_err (U * Y1)) as (d3 & t3 & D3 & T3 & E3).
  rewrite E2 in RP. rewrite E3 in RQ.
  set (A := ((1 - U) * Y0)%R) in *. set (B := (U * Y1)%R) in *.
  assert (BA : (Rabs A <= (1 - U) * M)%R) by (apply mul_bound; [lra|exact A0]).
  assert (BB : (Rabs B <= U * M)%R) by (now apply mul_bound).
  assert (P1 : (Rabs (B2R p - A) <= Rabs A * (3 * eps) + tiny)%R).
  { rewrite RP, RV. replace ((1 - U) * (1 + d1) * Y0 * (1 + d2) + t2 - A)%R with (A * (d1 + d2 + d1 * d2) + t2)%R by (unfold A; ring).
    apply Rle_trans with (1 := Rabs_triang _ _). apply Rplus_le_compat; [|exact T2]. rewrite Rabs_mult. apply Rmult_le_compat_l; [apply Rabs_pos|].
    apply Rle_trans with (1 := Rabs_triang _ _). apply Rle_trans with (eps + eps + eps * eps)%R; [|nra].
    apply Rplus_le_compat; [apply Rle_trans with (1 := Rabs_triang _ _); lra|]. rewrite Rabs_mult. apply Rmult_le_compat; try apply Rabs_pos; assumption. }
  assert (P2 : (Rabs (B2R q - B) <= Rabs B * eps + tiny)%R).
  { rewrite RQ. replace (B * (1 + d3) + t3 - B)%R with (B * d3 + t3)%R by ring. apply Rle_trans with (1 := Rabs_triang _ _). apply Rplus_le_compat; [now apply err_mul|exact T3]. }
  assert (SA : (Rabs A + Rabs B <= M)%R) by lra.
  assert (SE : (Rabs A * (3 * eps) + Rabs B * eps <= M * (3 * eps))%R).
  { pose proof (Rabs_pos B) as PB. assert (Rabs B * eps <= Rabs B * (3 * eps))%R by (apply Rmult_le_compat_l; lra).
    assert ((Rabs A + Rabs B) * (3 * eps) <= M * (3 * eps))%R by (apply Rmult_le_compat_r; lra). lra. }
  assert (PQ : (Rabs (B2R p + B2R q - (A + B)) <= M * (3 * eps) + 2 * tiny)%R).
  { replace (B2R p + B2R q - (A + B))%R with ((B2R p - A) + (B2R q - B))%R by ring. apply Rle_trans with (1 := Rabs_triang _ _). lra. }
  assert (AB : (Rabs (A + B) <= M)%R) by (apply Rle_trans with (1 := Rabs_triang _ _); lra).
  assert (SM : (Rabs (B2R p + B2R q) <= M + M * (3 * eps) + 2 * tiny)%R).
  { replace (B2R p + B2R q)%R with ((B2R p + B2R q - (A + B)) + (A + B))%R by ring. apply Rle_trans with (1 := Rabs_triang _ _). lra. }
  destruct (add_big p q FP FQ) as (r & -> & FR & RR).
  { apply Rle_trans with (1 := SM). assert (tiny <= 1)%R by nra. nra. }
  exists r. split; [reflexivity|]. split; [exact FR|].
  destruct (plus_err (B2R p) (B2R q) ltac:(apply generic_format_B2R) ltac:(apply generic_format_B2R)) as (d4 & D4 & E4). rewrite RR, E4.
  replace ((B2R p + B2R q) * (1 + d4) - (A + B))%R with ((B2R p + B2R q - (A + B)) + (B2R p + B2R q) * d4)%R by ring.
  apply Rle_trans with (1 := Rabs_triang _ _).
  assert (X : (Rabs ((B2R p + B2R q) * d4) <= (M + M * (3 * eps) + 2 * tiny) * eps)%R).
  { apply Rle_trans with (1 := err_mul _ _ D4). apply Rmult_le_compat_r; [lra|exact SM]. }
  assert (M * (3 * eps) * eps <= M * eps)%R by (replace (M * (3 * eps) * eps)%R with (M * eps * (3 * eps))%R by ring; assert (0 <= M * eps)%R by nra; nra).
  assert (tiny * eps <= tiny)%R by nra. lra.
Qed.

(** ** The fractional part *)
Lemma bounded_fits m e : bounded 53 1024 m e = true -> Zpos m < 2 ^ 53 /\ -1074 <= e.
Proof.
  intros B. unfold bounded in B. apply andb_prop in B as [C _]. unfold canonical_mantissa in C. apply Zeq_bool_eq in C.
  unfold SpecFloat.fexp, SpecFloat.emin in C. split; [|lia].
  rewrite Digits.Zpos_digits2_pos in C. pose proof (Digits.Zdigits_correct radix2 (Zpos m)) as [_ H]. cbn [Z.abs] in H.
  apply Z.lt_le_trans with (1 := H). apply (Zpower_le radix2). lia.
Qed.
Lemma nonneg_sign (w : bf) : is_finite w = true -> (0 <= B2R w)%R -> B2R w = 0%R \/ exists m e B, w = B754_finite false m e B.
Proof.
  destruct w as [s|s| |s m e B]; intros F P; try discriminate F; [now left|]. destruct s; [|right; eauto].
  exfalso. cbn in P. assert (F2R (Float radix2 (Zneg m) e) < 0)%R by (apply F2R_lt_0; reflexivity). cbn in *. lra.
Qed.
Lemma trunc_val (w : bf) : is_finite w = true -> (0 <= B2R w)%R -> @n_trunc b64 B64 (B2SF w) = Ok (Zfloor (B2R w)).
Proof.
  intros F P. destruct w as [s|s| |s m e B]; try discriminate F.
  - cbn. rewrite Zfloor_IZR. reflexivity.
  - destruct s.
    + exfalso. cbn in P. assert (F2R (Float radix2 (Zneg m) e) < 0)%R by (apply F2R_lt_0; reflexivity). cbn in *. lra.
    + cbn -[Z.shiftl]. f_equal. apply pfloor_val.
Qed.
Lemma mod1_val (w : bf) : is_finite w = true -> (0 <= B2R w)%R ->
  exists z : bf, @n_mod1 b64 B64 (B2SF w) = B2SF z /\ is_finite z = true /\ B2R z = (B2R w - IZR (Zfloor (B2R w)))%R.
Proof.
  intros F P. destruct w as [s|s| |s m e B]; try discriminate F.
  - exists (B754_zero false). split; [reflexivity|]. split; [reflexivity|]. cbn. rewrite Zfloor_IZR. lra.
  - destruct s; [exfalso; cbn in P; assert (F2R (Float radix2 (Zneg m) e) < 0)%R by (apply F2R_lt_0; reflexivity); cbn in *; lra|].
    destruct (bounded_fits m e B) as [HM HE]. cbn [B2SF B2R cond_Zopp]. change (@n_mod1 b64 B64) with b64_mod1. unfold b64_mod1.
    pose proof (pfloor_val m e) as PF. set (fr := if 0 <=? e then 0 else Zpos m - Z.shiftl (pfloor m e) (- e)).
    assert (V : dy fr (Z.min e 0) = (F2R (Float radix2 (Zpos m) e) - IZR (Zfloor (F2R (Float radix2 (Zpos m) e))))%R /\ 0 <= fr <= Zpos m).
    { rewrite <- PF. unfold fr. destruct (Z.leb_spec 0 e) as [L|L].
      - rewrite Z.min_r by lia. split; [|lia]. rewrite dy0. rewrite PF. unfold F2R. cbn [Fnum Fexp]. rewrite <- (IZR_Zpower radix2) by lia.
        rewrite <- mult_IZR, Zfloor_IZR. cbn. ring.
      - rewrite Z.min_l by lia. unfold dy, F2R. cbn [Fnum Fexp]. rewrite Z.shiftl_mul_pow2 by lia. split.
        + rewrite minus_IZR, mult_IZR, (IZR_Zpower radix2) by lia. rewrite Rmult_minus_distr_r, Rmult_assoc, <- bpow_plus.
          replace (- e + e) with 0 by lia. cbn [bpow]. ring.
        + unfold pfloor. rewrite Z.shiftl_div_pow2 by lia. pose proof (Z.pow_pos_nonneg 2 (- e) ltac:(lia) ltac:(lia)) as PP.
          pose proof (Z.mul_div_le (Zpos m) (2 ^ (- e)) PP) as L1. pose proof (Z.div_pos (Zpos m) (2 ^ (- e)) ltac:(lia) PP). nia. }
    destruct V as [V VB]. destruct (Z.eqb_spec fr 0) as [Z0|NZ].
    + exists (B754_zero false). split; [reflexivity|]. split; [reflexivity|]. rewrite <- V, Z0. symmetry. apply dy_0. reflexivity.
    + assert (L : e < 0) by (unfold fr in NZ; destruct (Z.leb_spec 0 e); [now destruct NZ|assumption]). rewrite Z.min_l in V by lia.
      assert (FF : fits fr e) by (split; lia). destruct (bnum_spec fr e FF) as (R1 & F1 & _). exists (bnum fr e).
      split; [exact (fnum_bnum fr e)|]. split; [exact F1|]. now rewrite R1.
Qed.

(** ** A value between two points, from the index that the code computes *)
Definition slack (M : R) : R := (5 * eps * M + 4 * tiny)%R.
Lemma blend (s : pts b64 (option b64)) x (w y0 y1 : bf) x0 x1 (i : nat) (t E M : R) :
  i_contains (p_dom s) x = true -> x_index s x = Ok (B2SF w) -> is_finite w = true -> p_interp s = ILinear ->
  nth_error (p_pts s) i = Some (x0, Some (B2SF y0)) -> nth_error (p_pts s) (S i) = Some (x1, Some (B2SF y1)) -> is_finite y0 = true -> is_finite y1 = true ->
  (INR i <= B2R w <= INR i + 1)%R -> (Rabs (B2R w - (INR i + t)) <= E)%R ->
  (Rabs (B2R y0) <= M)%R -> (Rabs (B2R y1) <= M)%R -> (M <= bpow radix2 1020)%R ->
  exists r : bf, p_y s x = Ok (Some (B2SF r)) /\ is_finite r = true /\
  (Rabs (B2R r - (B2R y0 + t * (B2R y1 - B2R y0))) <= E * Rabs (B2R y1 - B2R y0) + slack M)%R /\
  (Rmin (B2R y0) (B2R y1) - slack M <= B2R r <= Rmax (B2R y0) (B2R y1) + slack M)%R.
Proof.
  intros C XI FW IP N0 N1 F0 F1 WB WE A0 A1 HM.
  assert (MP : (0 <= M)%R) by (apply Rle_trans with (2 := A0); apply Rabs_pos).
  pose proof eps_pos as EP. pose proof tiny_pos as TP. assert (SP : (0 <= slack M)%R) by (unfold slack; nra).
  assert (K : exists (r : bf) lam, p_y s x = Ok (Some (B2SF r)) /\ is_finite r = true /\ (0 <= lam <= 1)%R /\ (Rabs (lam - t) <= E)%R /\
    (Rabs (B2R r - ((1 - lam) * B2R y0 + lam * B2R y1)) <= slack M)%R).
  { pose proof (pos_INR i) as PI. assert (WP : (0 <= B2R w)%R) by lra. unfold p_y. rewrite C, XI. cbn [negb rbind].
    rewrite (trunc_val w FW WP). destruct (mod1_val w FW WP) as (u & EU & FU & RU). rewrite EU. cbn [rbind].
    change (@n_eqb b64 B64) with SFeqb. change (@n_zero b64 B64) with (B2SF (B754_zero false : bf)). rewrite (eqb_val u (B754_zero false : bf) FU eq_refl).
    destruct (Req_dec (B2R w) (INR i + 1)) as [W1|W1].
    - assert (ZF : Zfloor (B2R w) = Z.of_nat (S i)) by (rewrite W1, <- S_INR, INR_IZR_INZ; apply Zfloor_IZR).
      rewrite ZF in RU |- *. rewrite <- INR_IZR_INZ, S_INR in RU. cbn [B2R]. rewrite Req_bool_true by lra. rewrite (py_at _ _ _ N1). cbn [rbind snd].
      exists y1, 1%R. split; [reflexivity|]. split; [exact F1|]. split; [lra|]. split.
      + replace (1 - t)%R with (B2R w - (INR i + t))%R by lra. exact WE.
      + replace (B2R y1 - ((1 - 1) * B2R y0 + 1 * B2R y1))%R with 0%R by ring. rewrite Rabs_R0. exact SP.
    - assert (ZF : Zfloor (B2R w) = Z.of_nat i).
      { apply Zfloor_imp. rewrite plus_IZR, <- INR_IZR_INZ. cbn. lra. }
      rewrite ZF in RU |- *. rewrite <- INR_IZR_INZ in RU. assert (UE : (Rabs (B2R u - t) <= E)%R) by (rewrite RU; replace (B2R w - INR i - t)%R with (B2R w - (INR i + t))%R by ring; exact WE).
      destruct (Req_bool_spec (B2R u) (B2R (B754_zero false : bf))) as [Z0|NZ].
      + cbn in Z0. rewrite (py_at _ _ _ N0). cbn [rbind snd]. exists y0, (B2R u). split; [reflexivity|]. split; [exact F0|]. split; [lra|]. split; [exact UE|].
        rewrite Z0. replace (B2R y0 - ((1 - 0) * B2R y0 + 0 * B2R y1))%R with 0%R by ring. rewrite Rabs_R0. exact SP.
      + rewrite IP. rewrite (py_at _ _ _ N0). cbn [rbind]. replace (Z.of_nat i + 1) with (Z.of_nat (S i)) by lia. rewrite (py_at _ _ _ N1). cbn [rbind snd].
        destruct (lerp_err u y0 y1 M FU F0 F1 ltac:(lra) A0 A1 HM) as (r & ER & FR & RE).
        exists r, (B2R u). split; [|split; [exact FR|split; [lra|split; [exact UE|exact RE]]]].
        cbn [v_lerp NumVal]. do 2 f_equal. exact ER. }
  destruct K as (r & lam & PY & FR & LB & LE & RE). exists r. split; [exact PY|]. split; [exact FR|]. split.
  - replace (B2R r - (B2R y0 + t * (B2R y1 - B2R y0)))%R with ((B2R r - ((1 - lam) * B2R y0 + lam * B2R y1)) + (lam - t) * (B2R y1 - B2R y0))%R by ring.
    apply Rle_trans with (1 := Rabs_triang _ _). rewrite Rabs_mult. pose proof (Rabs_pos (B2R y1 - B2R y0)).
    assert (Rabs (lam - t) * Rabs (B2R y1 - B2R y0) <= E * Rabs (B2R y1 - B2R y0))%R by (apply Rmult_le_compat_r; assumption). lra.
  - apply Rabs_le_inv in RE. assert (B : (Rmin (B2R y0) (B2R y1) <= (1 - lam) * B2R y0 + lam * B2R y1 <= Rmax (B2R y0) (B2R y1))%R).
    { unfold Rmin, Rmax. destruct (Rle_dec (B2R y0) (B2R y1)); nra. }
    lra.
Qed.
