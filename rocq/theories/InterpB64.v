(** Values between the points of a Points object in binary64, irregular or on a
    grid that fits, and how far they are from exact interpolation. *)
From Coq Require Import List ZArith Reals Lia Lra Psatz Bool SpecFloat.
From Flocq Require Import Core BinarySingleNaN Relative Plus_error.
From Verif Require Import Base Num Interval Curve Points B64Facts GridFacts StepB64 IrregB64 ErrB64.
Import ListNotations.
Open Scope Z_scope.
#[local] Existing Instances Hprec Hmax Hval Hexp.

Lemma contains_real (a b x : bf) : is_finite a = true -> is_finite b = true -> is_finite x = true -> (B2R a <= B2R x <= B2R b)%R ->
  i_contains (mkI (B2SF a) (B2SF b) false false) (B2SF x) = true.
Proof.
  intros FA FB FX [L1 L2]. unfold i_contains, i_contains_gen, i_is_empty, above_start, below_end. cbn [i_start i_end i_so i_eo]. unfold n_gtb.
  change (@n_ltb b64 B64) with SFltb. change (@n_eqb b64 B64) with SFeqb. rewrite !ltb_val, !eqb_val by assumption. rewrite andb_false_r.
  rewrite (Rlt_bool_false (B2R b)) by lra. cbn [negb orb andb].
  destruct (Rlt_bool_spec (B2R a) (B2R x)), (Req_bool_spec (B2R a) (B2R x)), (Rlt_bool_spec (B2R x) (B2R b)), (Req_bool_spec (B2R x) (B2R b)); cbn; try reflexivity; lra.
Qed.
Lemma format_nat (k : nat) : Z.of_nat k <= 2 ^ 53 -> generic_format radix2 fexp (INR k).
Proof. intros L. rewrite INR_IZR_INZ. apply format_int. lia. Qed.

(** ** Irregular points *)
Section Irregular.
Context (l : list (b64 * option b64)) (INC : increasing64 l).
Lemma irr_index (s : pts b64 (option b64)) i (x x0 x1 : bf) v0 v1 : p_pts s = l -> p_uniform s = false ->
  nth_error l i = Some (B2SF x0, v0) -> nth_error l (S i) = Some (B2SF x1, v1) -> is_finite x = true -> is_finite x0 = true -> is_finite x1 = true ->
  (B2R x0 < B2R x <= B2R x1)%R ->
  exists w : bf, x_index s (B2SF x) = Ok (B2SF w) /\ is_finite w = true /\ (INR i <= B2R w <= INR i + 1)%R /\
  (Rabs (B2R w - (INR i + (B2R x - B2R x0) / (B2R x1 - B2R x0))) <= (INR i + 6) * eps)%R.
Proof.
  intros PS U N0 N1 FX F0 F1 [LX UX].
  assert (LS : (S i < length l)%nat) by (apply nth_error_Some; congruence).
  pose proof INC as (FI & ST & LN). destruct (ST i _ _ N0 N1) as [_ NI]. cbn [fst] in NI.
  pose proof eps_pos as EP. pose proof eps_small as ES. pose proof tiny_pos as TP. pose proof tiny_eps as TE.
  assert (BI : bisect_points l (B2SF x) = Ok (Z.of_nat (S i))).
  { unfold bisect_points. apply bisect_loop_at; try lia.
    - intros j p P J. destruct (real_of _ (FI p (nth_error_In _ _ P))) as (pb & E & F). rewrite E. change (@n_ltb b64 B64) with SFltb. rewrite ltb_val by assumption.
      apply Rlt_bool_true. apply Rle_lt_trans with (2 := LX). rewrite <- (val_B2R pb), <- E, <- (val_B2R x0).
      destruct (Nat.eq_dec j i) as [->|NJ]; [rewrite N0 in P; injection P as <-; apply Rle_refl|]. left. apply (ordered l INC i j p _ P N0). lia.
    - intros j p P J. destruct (real_of _ (FI p (nth_error_In _ _ P))) as (pb & E & F). rewrite E. change (@n_ltb b64 B64) with SFltb. rewrite ltb_val by assumption.
      apply Rlt_bool_false. apply Rle_trans with (1 := UX). rewrite <- (val_B2R pb), <- E, <- (val_B2R x1).
      destruct (Nat.eq_dec (S i) j) as [<-|NJ]; [rewrite N1 in P; injection P as <-; apply Rle_refl|]. left. apply (ordered l INC j (S i) _ p N1 P). lia. }
  unfold x_index. rewrite U, PS, BI. cbn [rbind]. replace (Z.of_nat (S i) - 1) with (Z.of_nat i) by lia. destruct (Z.ltb_spec (Z.of_nat i) 0) as [?|_]; [lia|].
  destruct (Z.leb_spec (Z.of_nat (length l)) (Z.of_nat (S i))) as [?|_]; [lia|]. rewrite (py_at _ _ _ N0), (py_at _ _ _ N1). cbn [rbind fst].
  (* the whole distance *)
  assert (BD : exists b : bf, SFsub 53 1024 (B2SF x1) (B2SF x0) = B2SF b /\ is_finite b = true /\ B2R b = rnd (B2R x1 - B2R x0)).
  { change (@n_sub b64 B64) with (SFsub 53 1024) in NI. rewrite sub_eq in NI |- *. pose proof (Bminus_correct 53 1024 Hprec Hmax mode_NE x1 x0 F1 F0) as H.
    change (SpecFloat.fexp 53 1024) with (FLT_exp (-1074) 53) in H. destruct (Rlt_bool _ _) in H.
    - destruct H as (H1 & H2 & _). eexists. split; [reflexivity|]. auto.
    - destruct H as [H _]. rewrite H in NI. cbn in NI. discriminate NI. }
  destruct BD as (b & EB & FB & RB).
  assert (GD : forall c : bf, generic_format radix2 fexp (B2R c)) by (intros c; apply generic_format_B2R).
  assert (AB : (Rabs (rnd (B2R x - B2R x0)) < bpow radix2 1024)%R /\ (0 <= rnd (B2R x - B2R x0) <= B2R b)%R).
  { assert (O : (0 <= rnd (B2R x - B2R x0) <= B2R b)%R).
    { split; [apply round_ge_generic; auto with typeclass_instances; [apply generic_format_0|lra]|]. rewrite RB. apply round_le; auto with typeclass_instances. lra. }
    split; [|exact O]. rewrite Rabs_pos_eq by apply O. apply Rle_lt_trans with (1 := proj2 O). apply Rle_lt_trans with (1 := Rle_abs _). apply abs_B2R_lt_emax. }
  destruct AB as [AB AO].
  assert (AD : exists a : bf, SFsub 53 1024 (B2SF x) (B2SF x0) = B2SF a /\ is_finite a = true /\ B2R a = rnd (B2R x - B2R x0)).
  { pose proof (Bminus_correct 53 1024 Hprec Hmax mode_NE x x0 FX F0) as H. change (SpecFloat.fexp 53 1024) with (FLT_exp (-1074) 53) in H.
    rewrite Rlt_bool_true in H by exact AB. destruct H as (H1 & H2 & _). rewrite sub_eq. eexists. split; [reflexivity|]. auto. }
  destruct AD as (a & EA & FA & RA).
  destruct (minus_err (B2R x) (B2R x0) (GD x) (GD x0)) as (d1 & D1 & E1). destruct (minus_err (B2R x1) (B2R x0) (GD x1) (GD x0)) as (d2 & D2 & E2).
  rewrite <- RA in AO. rewrite E1 in RA. rewrite E2 in RB.
  set (X := (B2R x - B2R x0)%R) in *. set (H := (B2R x1 - B2R x0)%R) in *. assert (XP : (0 < X)%R) by (unfold X; lra). assert (XH : (X <= H)%R) by (unfold X, H; lra).
  apply Rabs_le_inv in D1. apply Rabs_le_inv in D2.
  assert (BP : (0 < B2R b)%R) by (rewrite RB; apply Rmult_lt_0_compat; lra).
  assert (QB : (0 <= B2R a / B2R b <= 1)%R).
  { split; [apply Rmult_le_pos; [apply AO|left; now apply Rinv_0_lt_compat]|]. apply Rmult_le_reg_r with (B2R b); [exact BP|]. unfold Rdiv. rewrite Rmult_assoc, Rinv_l by lra. lra. }
  assert (H8 : (8 * 1 <= huge)%R) by (apply huge_ge; change 1%R with (bpow radix2 0); apply bpow_le; lia).
  destruct (div_big a b FA ltac:(lra)) as (q & EQ & FQ & RQ); [apply Rabs_le; lra|].
  assert (F1' : generic_format radix2 fexp 1) by (change 1%R with (bpow radix2 0); apply generic_format_bpow; vm_compute; discriminate).
  assert (QI : (0 <= B2R q <= 1)%R) by (rewrite RQ; apply rnd_between; [apply generic_format_0|exact F1'|exact QB]).
  change (@n_sub b64 B64) with (SFsub 53 1024). rewrite EA, EB, EQ. cbn [rbind].
  (* the index *)
  assert (FIi : fits (Z.of_nat i) 0) by (split; lia). destruct (bnum_spec (Z.of_nat i) 0 FIi) as (RI & FNI & _). rewrite dy0, <- INR_IZR_INZ in RI.
  change (n_ofZ (Z.of_nat i)) with (fnum (Z.of_nat i) 0). rewrite fnum_bnum. change (@n_add b64 B64) with (SFadd 53 1024).
  pose proof (pos_INR i) as PI.
  assert (I53 : (INR i + 1 <= bpow radix2 53)%R).
  { rewrite <- S_INR, INR_IZR_INZ. change (bpow radix2 53) with (IZR (2 ^ 53)). apply IZR_le. lia. }
  destruct (add_big (bnum (Z.of_nat i) 0) q FNI FQ) as (w & EW & FW & RW).
  { rewrite RI, Rabs_pos_eq by lra. apply Rle_trans with (bpow radix2 53); [lra|apply bpow_le; lia]. }
  rewrite EW. exists w. split; [reflexivity|]. split; [exact FW|]. rewrite RI in RW.
  assert (WI : (INR i <= B2R w <= INR i + 1)%R).
  { rewrite RW. apply rnd_between; [apply format_nat; lia|rewrite <- S_INR; apply format_nat; lia|lra]. }
  split; [exact WI|].
  destruct (plus_err (INR i) (B2R q) (format_nat i ltac:(lia)) (GD q)) as (d4 & D4 & E4). rewrite E4 in RW.
  destruct (any_err (B2R a / B2R b)) as (d3 & t3 & D3 & T3 & E3). rewrite E3 in RQ.
  assert (AT : (Rabs (B2R a / B2R b - X / H) <= 3 * eps)%R).
  { assert (E : (B2R a / B2R b - X / H)%R = (X / H * ((d1 - d2) / (1 + d2)))%R) by (rewrite RA, RB; field; split; lra). rewrite E.
    rewrite Rabs_mult. rewrite <- (Rmult_1_l (3 * eps)). apply Rmult_le_compat; try apply Rabs_pos.
    - rewrite Rabs_pos_eq by (apply Rmult_le_pos; [lra|left; apply Rinv_0_lt_compat; lra]). apply Rmult_le_reg_r with H; [lra|]. unfold Rdiv. rewrite Rmult_assoc, Rinv_l by lra. lra.
    - unfold Rdiv. rewrite Rabs_mult. apply Rle_trans with (2 * eps * (1 + / 2))%R; [|lra]. apply Rmult_le_compat; try apply Rabs_pos; [apply Rabs_le; lra|].
      rewrite Rabs_pos_eq by (left; apply Rinv_0_lt_compat; lra). apply Rmult_le_reg_r with (1 + d2)%R; [lra|]. rewrite Rinv_l by lra. nra. }
  assert (QT : (Rabs (B2R q - B2R a / B2R b) <= eps + tiny)%R).
  { rewrite RQ. replace (B2R a / B2R b * (1 + d3) + t3 - B2R a / B2R b)%R with (B2R a / B2R b * d3 + t3)%R by ring. apply Rle_trans with (1 := Rabs_triang _ _).
    apply Rplus_le_compat; [|exact T3]. apply Rle_trans with (1 := err_mul _ _ D3). rewrite Rabs_pos_eq by lra. nra. }
  replace (B2R w - (INR i + X / H))%R with ((INR i + B2R q) * d4 + ((B2R q - B2R a / B2R b) + (B2R a / B2R b - X / H)))%R by (rewrite RW; ring).
  apply Rle_trans with (1 := Rabs_triang _ _). apply Rle_trans with ((INR i + 1) * eps + ((eps + tiny) + 3 * eps))%R; [|].
  - apply Rplus_le_compat; [|apply Rle_trans with (1 := Rabs_triang _ _); lra]. apply Rle_trans with (1 := err_mul _ _ D4). rewrite Rabs_pos_eq by lra. apply Rmult_le_compat_r; lra.
  - assert (tiny <= eps)%R by nra. nra.
Qed.
End Irregular.

(** ** A uniform grid that fits *)
Section OnGrid.
Context (a h e : Z) (vs : list (option b64)) (G : grid_fits a h e (length vs)).
Lemma grid_index (s : pts b64 (option b64)) i (x : bf) : on_grid a h e vs s -> (S i < length vs)%nat -> is_finite x = true ->
  (dy (at_i a h i) e <= B2R x <= dy (at_i a h (S i)) e)%R ->
  exists w : bf, x_index s (B2SF x) = Ok (B2SF w) /\ is_finite w = true /\ (INR i <= B2R w <= INR i + 1)%R /\
  (Rabs (B2R w - (INR i + (B2R x - dy (at_i a h i) e) / dy h e)) <= (2 * INR i + 3) * eps)%R.
Proof.
  intros (P1 & P2 & P3 & _) LI FX [LX UX].
  pose proof eps_pos as EP. pose proof eps_small as ES. pose proof tiny_pos as TP. pose proof tiny_eps as TE.
  pose proof (fits_h _ _ _ _ G ltac:(lia)) as FH. pose proof (fits_at a h e _ 0 G ltac:(lia)) as FA.
  pose proof (fits_span a h e _ (S i) 0 G LI ltac:(lia)) as FU. pose proof (fits_span a h e _ i 0 G ltac:(lia) ltac:(lia)) as FL.
  pose proof (fits_count a h e _ (S i) G LI) as FC. pose proof (fits_count a h e _ i G ltac:(lia)) as FC0.
  assert (HP : 0 < h) by apply G.
  unfold x_index, p_uniform. rewrite P3. replace (if p_force s then true else true) with true by (destruct (p_force s); reflexivity).
  rewrite P2. unfold grid_step. destruct (Nat.ltb_spec (length vs) 2) as [Q|_]; [lia|]. rewrite P1.
  assert (py_nth (grid a h e vs) 0 = Ok (fnum (at_i a h 0) e, nth 0 vs v_none)) as ->.
  { apply py_at0. rewrite grid_nth. destruct vs; [cbn in LI; lia|]. reflexivity. }
  cbn [rbind fst]. rewrite !fnum_bnum. change (@n_sub b64 B64) with (SFsub 53 1024).
  destruct (bnum_spec _ _ FA) as (RA & FNA & _). destruct (bnum_spec _ _ FH) as (RH & FNH & _).
  assert (DD : forall m, dy m e = (IZR m * bpow radix2 e)%R) by (intros; reflexivity). assert (BE : (0 < bpow radix2 e)%R) by apply bpow_gt_0.
  assert (HR : (0 < IZR h)%R) by (apply IZR_lt; exact HP). pose proof (pos_INR i) as PI.
  assert (AI : forall k, IZR (at_i a h k) = (IZR a + INR k * IZR h)%R) by (intros k; unfold at_i; rewrite plus_IZR, mult_IZR, INR_IZR_INZ; reflexivity).
  assert (DH : (0 < dy h e)%R) by (rewrite DD; apply Rmult_lt_0_compat; assumption).
  assert (AK : forall k, dy (at_i a h k) e = (dy (at_i a h 0) e + INR k * dy h e)%R) by (intros k; rewrite !DD, !AI; cbn [INR]; ring).
  rewrite (AK i) in *. rewrite (AK (S i)) in UX. rewrite S_INR in UX.
  assert (SP : forall k : nat, dy ((Z.of_nat k - Z.of_nat 0) * h) e = (INR k * dy h e)%R) by (intros k; rewrite !DD, mult_IZR, Z.sub_0_r, <- INR_IZR_INZ; ring).
  set (D := dy h e) in *. set (X := (B2R x - dy (at_i a h 0) e)%R).
  assert (GX : forall c : bf, generic_format radix2 fexp (B2R c)) by (intros c; apply generic_format_B2R).
  assert (GL : forall k : nat, fits ((Z.of_nat k - Z.of_nat 0) * h) e -> generic_format radix2 fexp (INR k * D)).
  { intros k F. rewrite <- SP. rewrite <- (proj1 (bnum_spec _ _ F)). apply generic_format_B2R. }
  assert (XB : (INR i * D <= X <= (INR i + 1) * D)%R) by (unfold X; lra).
  assert (HG : ((INR i + 1) * D <= huge)%R).
  { rewrite <- S_INR, <- SP, DD. destruct FU as [FU1 [FU2 FU3]]. apply Rle_trans with (bpow radix2 53 * bpow radix2 970)%R; [|rewrite <- bpow_plus; apply bpow_le; lia].
    apply Rmult_le_compat; [apply IZR_le; nia|apply bpow_ge_0| |apply bpow_le; lia]. change (bpow radix2 53) with (IZR (2 ^ 53)). apply IZR_le. lia. }
  assert (X0 : (0 <= X)%R) by (apply Rle_trans with (2 := proj1 XB); apply Rmult_le_pos; lra).
  destruct (sub_big x (bnum (at_i a h 0) e) FX FNA) as (c & EC & FCC & RC); [rewrite RA; fold X; apply Rabs_le; lra|].
  rewrite RA in RC. fold X in RC. rewrite EC.
  assert (CB : (INR i * D <= B2R c <= (INR i + 1) * D)%R).
  { rewrite RC. apply rnd_between; [now apply GL|rewrite <- S_INR; now apply GL|exact XB]. }
  assert (DV : forall r, (INR i * D <= r <= (INR i + 1) * D)%R -> (INR i <= r / D <= INR i + 1)%R).
  { intros r [R1 R2]. split; apply Rmult_le_reg_r with D; try exact DH; unfold Rdiv; rewrite Rmult_assoc, Rinv_l by lra; lra. }
  pose proof (DV _ CB) as CQ. pose proof (DV _ XB) as XQ.
  assert (I53 : (INR i + 1 <= bpow radix2 53)%R).
  { rewrite <- S_INR, INR_IZR_INZ. change (bpow radix2 53) with (IZR (2 ^ 53)). apply IZR_le. destruct FC. lia. }
  destruct (div_big c (bnum h e) FCC) as (q & EQ & FQ & RQ); [rewrite RH; lra| |].
  { rewrite RH. rewrite Rabs_pos_eq by lra. apply Rle_trans with (bpow radix2 53); [lra|apply bpow_le; lia]. }
  rewrite RH in RQ. exists q. split; [exact EQ|]. split; [exact FQ|]. destruct FC as [FC1 _], FC0 as [FC0 _].
  split; [rewrite RQ; apply rnd_between; [apply format_nat; lia|rewrite <- S_INR; apply format_nat; lia|exact CQ]|].
  replace (INR i + (B2R x - (dy (at_i a h 0) e + INR i * D)) / D)%R with (X / D)%R by (unfold X; field; lra).
  destruct (minus_err (B2R x) (dy (at_i a h 0) e) (GX x)) as (d1 & D1 & E1); [rewrite <- RA; apply GX|]. fold X in E1. rewrite E1 in RC.
  destruct (any_err (B2R c / D)) as (d3 & t3 & D3 & T3 & E3). rewrite E3 in RQ.
  replace (B2R q - X / D)%R with (X / D * d1 + (B2R c / D * d3 + t3))%R by (rewrite RQ, RC; field; lra).
  assert (tiny <= eps)%R by nra.
  apply Rle_trans with (1 := Rabs_triang _ _). apply Rle_trans with ((INR i + 1) * eps + ((INR i + 1) * eps + tiny))%R; [|lra].
  apply Rplus_le_compat.
  - apply Rle_trans with (1 := err_mul _ _ D1). rewrite Rabs_pos_eq by lra. apply Rmult_le_compat_r; lra.
  - apply Rle_trans with (1 := Rabs_triang _ _). apply Rplus_le_compat; [|exact T3]. apply Rle_trans with (1 := err_mul _ _ D3). rewrite Rabs_pos_eq by lra. apply Rmult_le_compat_r; lra.
Qed.
End OnGrid.

(** ** The value *)
(** how far a value may be from exact interpolation between [y0] and [y1], the
    index being off by at most [c] half-ulps of 1 *)
Definition near (c : R) (y0 y1 t M : R) (r : R) : Prop :=
  (Rabs (r - (y0 + t * (y1 - y0))) <= c * eps * Rabs (y1 - y0) + slack M)%R /\ (Rmin y0 y1 - slack M <= r <= Rmax y0 y1 + slack M)%R.
Lemma dom_ends {V} (l : list (b64 * V)) p q : nth_error l 0 = Some p -> nth_error l (length l - 1) = Some q -> pts_domain l = mkI (fst p) (fst q) false false.
Proof.
  intros A B. unfold pts_domain. rewrite (last_at l (length l - 1)), B by (destruct l; [discriminate|cbn; lia]). destruct l; [discriminate|]. injection A as <-. reflexivity.
Qed.
Lemma irregular_near (l : list (b64 * option b64)) (s : pts b64 (option b64)) i x x0 x1 y0 y1 M : increasing64 l -> p_pts s = l -> p_uniform s = false -> p_dom s = pts_domain l -> p_interp s = ILinear ->
  nth_error l i = Some (x0, Some y0) -> nth_error l (S i) = Some (x1, Some y1) -> finite64 x -> finite64 y0 -> finite64 y1 ->
  (val64 x0 < val64 x <= val64 x1)%R -> (Rabs (val64 y0) <= M)%R -> (Rabs (val64 y1) <= M)%R -> (M <= bpow radix2 1020)%R ->
  exists r, p_y s x = Ok (Some r) /\ finite64 r /\ near (INR i + 6) (val64 y0) (val64 y1) ((val64 x - val64 x0) / (val64 x1 - val64 x0)) M (val64 r).
Proof.
  intros INC PS U PD IP N0 N1 FX F0 F1 XB A0 A1 HM. pose proof INC as (FI & _ & _).
  pose proof (FI _ (nth_error_In _ _ N0)) as G0. pose proof (FI _ (nth_error_In _ _ N1)) as G1. cbn [fst] in G0, G1.
  destruct (real_of _ FX) as (xb & -> & Fx). destruct (real_of _ F0) as (y0b & -> & Fy0). destruct (real_of _ F1) as (y1b & -> & Fy1).
  destruct (real_of _ G0) as (x0b & -> & Fx0). destruct (real_of _ G1) as (x1b & -> & Fx1). rewrite !val_B2R in *.
  destruct (irr_index l INC s i xb x0b x1b _ _ PS U N0 N1 Fx Fx0 Fx1 XB) as (w & XI & FW & WB & WE).
  assert (LS : (S i < length l)%nat) by (apply nth_error_Some; congruence).
  assert (C : i_contains (p_dom s) (B2SF xb) = true).
  { destruct (nth_error l 0) as [p|] eqn:Hd; [|apply nth_error_None in Hd; lia]. destruct (nth_error l (length l - 1)) as [q|] eqn:Tl; [|apply nth_error_None in Tl; lia].
    rewrite PD, (dom_ends l p q Hd Tl). destruct (real_of _ (FI p (nth_error_In _ _ Hd))) as (pb & EP & FP). destruct (real_of _ (FI q (nth_error_In _ _ Tl))) as (qb & EQ & FQ).
    rewrite EP, EQ. apply contains_real; [assumption..|]. rewrite <- (val_B2R pb), <- (val_B2R qb), <- EP, <- EQ.
    assert (O : forall j k u v, nth_error l j = Some u -> nth_error l k = Some v -> (j <= k)%nat -> (val64 (fst u) <= val64 (fst v))%R).
    { intros j k u v P Q L. destruct (Nat.eq_dec j k) as [->|NE]; [rewrite P in Q; injection Q as ->; apply Rle_refl|]. left. apply (ordered l INC k j u v P Q). lia. }
    pose proof (O _ _ _ _ Hd N0 ltac:(lia)) as O1. pose proof (O _ _ _ _ N1 Tl ltac:(lia)) as O2. cbn [fst] in O1, O2. rewrite val_B2R in O1, O2. lra. }
  rewrite <- PS in N0, N1.
  destruct (blend s (B2SF xb) w y0b y1b _ _ i _ _ M C XI FW IP N0 N1 Fy0 Fy1 WB WE A0 A1 HM) as (r & EY & FR & ER & RR).
  exists (B2SF r). split; [exact EY|]. rewrite val_B2R. split; [split; [apply valid_binary_B2SF|rewrite is_finite_SF_B2SF; exact FR]|]. split; [exact ER|exact RR].
Qed.
Lemma grid_near a h e vs (s : pts b64 (option b64)) i x y0 y1 M : grid_fits a h e (length vs) -> on_grid a h e vs s -> p_interp s = ILinear ->
  nth_error vs i = Some (Some y0) -> nth_error vs (S i) = Some (Some y1) -> finite64 x -> finite64 y0 -> finite64 y1 ->
  (dy (at_i a h i) e <= val64 x <= dy (at_i a h (S i)) e)%R -> (Rabs (val64 y0) <= M)%R -> (Rabs (val64 y1) <= M)%R -> (M <= bpow radix2 1020)%R ->
  exists r, p_y s x = Ok (Some r) /\ finite64 r /\ near (2 * INR i + 3) (val64 y0) (val64 y1) ((val64 x - dy (at_i a h i) e) / dy h e) M (val64 r).
Proof.
  intros G OG IP N0 N1 FX F0 F1 XB A0 A1 HM.
  destruct (real_of _ FX) as (xb & -> & Fx). destruct (real_of _ F0) as (y0b & -> & Fy0). destruct (real_of _ F1) as (y1b & -> & Fy1). rewrite !val_B2R in *.
  assert (LS : (S i < length vs)%nat) by (apply nth_error_Some; congruence).
  destruct (grid_index a h e vs G s i xb OG LS Fx XB) as (w & XI & FW & WB & WE). pose proof OG as (P1 & _ & _ & (dom & _ & PD)).
  assert (C : i_contains (p_dom s) (B2SF xb) = true).
  { rewrite PD. destruct (length vs) as [|m] eqn:LV; [lia|]. cbn [grid_dom]. rewrite (fnum_at0 a h e), !fnum_bnum.
    pose proof (fits_at a h e _ 0 G ltac:(lia)) as FA. pose proof (fits_at a h e _ m G ltac:(lia)) as FM.
    destruct (bnum_spec _ _ FA) as (RA & FNA & _). destruct (bnum_spec _ _ FM) as (RM & FNM & _). apply contains_real; [assumption..|]. rewrite RA, RM.
    assert (O : forall j k, (j <= k)%nat -> (dy (at_i a h j) e <= dy (at_i a h k) e)%R).
    { intros j k L. change (IZR (at_i a h j) * bpow radix2 e <= IZR (at_i a h k) * bpow radix2 e)%R. apply Rmult_le_compat_r; [apply bpow_ge_0|]. apply IZR_le. destruct G as (G & _). unfold at_i. nia. }
    pose proof (O 0%nat i ltac:(lia)). pose proof (O (S i) m ltac:(lia)). lra. }
  assert (M0 : nth_error (p_pts s) i = Some (fnum (a + Z.of_nat i * h) e, Some (B2SF y0b))) by (rewrite P1, grid_nth, N0; reflexivity).
  assert (M1 : nth_error (p_pts s) (S i) = Some (fnum (a + Z.of_nat (S i) * h) e, Some (B2SF y1b))) by (rewrite P1, grid_nth, N1; reflexivity).
  destruct (blend s (B2SF xb) w y0b y1b _ _ i _ _ M C XI FW IP M0 M1 Fy0 Fy1 WB WE A0 A1 HM) as (r & EY & FR & ER & RR).
  exists (B2SF r). split; [exact EY|]. rewrite val_B2R. split; [split; [apply valid_binary_B2SF|rewrite is_finite_SF_B2SF; exact FR]|]. split; [exact ER|exact RR].
Qed.
