(** Stepping from positions between the knots of a binary64 grid of whole
    numbers (points.py:259-282). *)
From Coq Require Import List ZArith Reals Lia Lra Bool SpecFloat.
From Flocq Require Import Core BinarySingleNaN.
From Verif Require Import Base Num Interval Curve Points B64Facts GridFacts StepB64 IrregB64.
Import ListNotations.
Open Scope Z_scope.
#[local] Existing Instances Hprec Hmax Hval Hexp.

Section Step.
Context {V : Type} {W : Val b64 V}.
Variables (a h : Z) (vs : list V) (s : pts b64 V).
Hypothesis SM : grid_small a h (length vs).
Hypothesis L2 : (2 <= length vs)%nat.
Hypothesis ON : on_grid a h 0 vs s.
Notation X i := (fnum (at_i a h i) 0).

Lemma at_succ i : IZR (at_i a h (S i)) = (IZR (at_i a h i) + IZR h)%R.
Proof. rewrite <- plus_IZR. f_equal. unfold at_i. lia. Qed.
Lemma next_after i m x lim : (S i < length vs)%nat -> step_ok h m -> finite64 x -> (IZR (at_i a h i) + bpow radix2 (-17) <= val64 x + val64 m)%R -> (val64 x + val64 m <= IZR (at_i a h (S i)))%R ->
  p_x_next s x (Some m) lim = Ok (Some (X (S i))).
Proof.
  intros Q M KX XL XU. assert (PH : 0 < h) by apply SM. pose proof (small_h a h vs SM L2) as SH. assert (L : (i < length vs)%nat) by lia.
  destruct (step_real h m ltac:(lia) M) as (mb & -> & FM & RM). destruct (x_real a h vs SM L2 i L) as (_ & _ & _ & _ & AX). destruct (real_of _ KX) as (xb & -> & FX).
  rewrite !val_B2R in XL, XU. rewrite at_succ in XU.
  assert (HP : (1 <= IZR h)%R) by (apply IZR_le; lia).
  assert (HH : (IZR h <= IZR (2 ^ 35))%R) by (apply IZR_le; lia).
  assert (AXR : (Rabs (IZR (at_i a h i)) <= IZR (2 ^ 35))%R) by (rewrite <- abs_IZR; apply IZR_le; exact AX).
  assert (MU : (0 < bpow radix2 (-17))%R) by apply bpow_gt_0.
  assert (P36 : (IZR (2 ^ 35) + IZR (2 ^ 35) <= IZR (2 ^ 36))%R) by (rewrite <- plus_IZR; apply IZR_le; lia).
  apply Rabs_le_inv in AXR.
  destruct (add_val xb mb FX FM) as (y & EY & FY & RY).
  { apply abs_le_100 with (2 ^ 36); [|lia]. apply Rabs_le. lra. }
  assert (YB : (IZR (at_i a h i) + bpow radix2 (-17) <= B2R y <= IZR (at_i a h i) + IZR h)%R).
  { rewrite RY. apply rnd_between; [| |lra].
    - replace (bpow radix2 (-17)) with (IZR 1 * bpow radix2 (-17))%R by ring. apply format_near; auto.
    - rewrite <- at_succ. apply format_int. unfold at_i in *; destruct SM as (? & ? & ? & ?); nia. }
  destruct (dom_eq a h vs s SM L2 ON) as [DE NE]. destruct (x_real a h vs SM L2 (length vs - 1) ltac:(lia)) as (lb & EL & FL & RL & _).
  unfold p_x_next. rewrite NE. cbn [resolve_min_step]. change (@n_add b64 B64) with (SFadd 53 1024). rewrite EY.
  assert (LE : i_contains_gen false true (p_dom s) (B2SF y) = Rle_bool (B2R y) (B2R lb)).
  { unfold i_contains_gen. rewrite NE. rewrite DE. unfold below_end. cbn [i_end i_eo negb andb orb]. rewrite EL. cbn [n_ltb n_eqb B64].
    rewrite ltb_val, eqb_val by assumption.
    destruct (Rlt_bool_spec (B2R y) (B2R lb)), (Req_bool_spec (B2R y) (B2R lb)), (Rle_bool_spec (B2R y) (B2R lb)); try reflexivity; lra. }
  rewrite LE, RL.
  assert (LS : (IZR (at_i a h (S i)) <= IZR (at_i a h (length vs - 1)))%R) by (apply IZR_le; unfold at_i; nia). rewrite at_succ in LS.
  rewrite Rle_bool_true by lra. cbn [negb]. rewrite finite_not_inf by assumption. cbn [andb].
  destruct (index_real a h vs s SM L2 ON y FY) as (q & -> & FQ & RQ); [apply Rabs_le; lra|]. cbn [rbind]. rewrite ceil_val by assumption. cbn [rbind].
  set (d := Z.of_nat i * h). assert (ED : IZR (at_i a h i) = (IZR a + IZR d)%R) by (unfold at_i; rewrite plus_IZR; reflexivity).
  assert (DB : 0 <= d <= 2 ^ 35) by (unfold d; destruct SM as (? & ? & ? & ?); nia).
  assert (ZB : (IZR d + bpow radix2 (-17) <= rnd (B2R y - IZR a) <= IZR d + IZR h)%R).
  { apply rnd_between; [| |lra].
    - replace (bpow radix2 (-17)) with (IZR 1 * bpow radix2 (-17))%R by ring. apply format_near; [lia|auto].
    - rewrite <- plus_IZR. apply format_int. lia. }
  assert (CD : (IZR d / IZR h = IZR (Z.of_nat i))%R) by (unfold d; rewrite mult_IZR; field; lra).
  assert (CI : 0 <= Z.of_nat i <= 2 ^ 35) by (unfold d in DB; nia).
  assert (LO : (IZR (Z.of_nat i) < B2R q)%R).
  { rewrite RQ. apply rnd_above with h; try assumption; [apply DB|]. rewrite <- CD. unfold Rdiv. rewrite <- Rmult_plus_distr_r.
    apply Rmult_le_compat_r; [left; apply Rinv_0_lt_compat; lra|lra]. }
  assert (HI : (B2R q <= IZR (Z.of_nat (S i)))%R).
  { rewrite RQ. apply round_le_generic; auto with typeclass_instances; [apply format_int; lia|].
    rewrite Nat2Z.inj_succ, succ_IZR, <- CD. replace (IZR d / IZR h + 1)%R with ((IZR d + IZR h) / IZR h)%R by (field; lra).
    unfold Rdiv. apply Rmult_le_compat_r; [left; apply Rinv_0_lt_compat; lra|lra]. }
  assert (Zceil (B2R q) = Z.of_nat (S i)) as ->.
  { apply Zceil_imp. replace (Z.of_nat (S i) - 1) with (Z.of_nat i) by lia. split; assumption. }
  rewrite Z.max_r by lia. destruct (nth_error vs (S i)) as [v|] eqn:E; [|apply nth_error_None in E; lia].
  destruct ON as (-> & _). rewrite (py_at _ (S i) (X (S i), v)); [reflexivity|]. rewrite grid_nth, E. reflexivity.
Qed.

Lemma prev_before j m x lim : (S j < length vs)%nat -> step_ok h m -> finite64 x -> (val64 x - val64 m <= IZR (at_i a h (S j)) - bpow radix2 (-17))%R -> (IZR (at_i a h j) <= val64 x - val64 m)%R ->
  p_x_previous s x (Some m) lim = Ok (Some (X j)).
Proof.
  intros L M KX XU XL. assert (PH : 0 < h) by apply SM. pose proof (small_h a h vs SM L2) as SH.
  destruct (step_real h m ltac:(lia) M) as (mb & -> & FM & RM). destruct (x_real a h vs SM L2 (S j) L) as (_ & _ & _ & _ & AX). destruct (real_of _ KX) as (xb & -> & FX).
  rewrite !val_B2R in XU, XL. pose proof (at_succ j) as AS.
  assert (HP : (1 <= IZR h)%R) by (apply IZR_le; lia).
  assert (HH : (IZR h <= IZR (2 ^ 35))%R) by (apply IZR_le; lia).
  assert (AXR : (Rabs (IZR (at_i a h (S j))) <= IZR (2 ^ 35))%R) by (rewrite <- abs_IZR; apply IZR_le; exact AX).
  assert (MU : (0 < bpow radix2 (-17))%R) by apply bpow_gt_0.
  assert (P36 : (IZR (2 ^ 35) + IZR (2 ^ 35) <= IZR (2 ^ 36))%R) by (rewrite <- plus_IZR; apply IZR_le; lia).
  apply Rabs_le_inv in AXR.
  destruct (sub_val xb mb FX FM) as (y & EY & FY & RY).
  { apply abs_le_100 with (2 ^ 36); [|lia]. apply Rabs_le. lra. }
  assert (YB : (IZR (at_i a h (S j)) - IZR h <= B2R y <= IZR (at_i a h (S j)) - bpow radix2 (-17))%R).
  { rewrite RY. apply rnd_between; [| |lra].
    - rewrite <- minus_IZR. apply format_int. unfold at_i in *. destruct SM as (? & ? & ? & ?). nia.
    - replace (IZR (at_i a h (S j)) - bpow radix2 (-17))%R with (IZR (at_i a h (S j)) + IZR (-1) * bpow radix2 (-17))%R by ring. apply format_near; auto. }
  destruct (dom_eq a h vs s SM L2 ON) as [DE NE]. destruct (x_real a h vs SM L2 0 ltac:(lia)) as (lb & EL & FL & RL & _).
  unfold p_x_previous. rewrite NE. cbn [resolve_min_step]. change (@n_sub b64 B64) with (SFsub 53 1024). rewrite EY.
  assert (LE : i_contains_gen true false (p_dom s) (B2SF y) = Rle_bool (B2R lb) (B2R y)).
  { unfold i_contains_gen. rewrite NE. rewrite DE. unfold above_start. cbn [i_start i_so negb andb orb]. rewrite EL. cbn [n_ltb n_eqb B64].
    rewrite ltb_val, eqb_val by assumption. rewrite andb_true_r.
    destruct (Rlt_bool_spec (B2R lb) (B2R y)), (Req_bool_spec (B2R lb) (B2R y)), (Rle_bool_spec (B2R lb) (B2R y)); try reflexivity; lra. }
  rewrite LE, RL.
  set (d := Z.of_nat (S j) * h). assert (ED : IZR (at_i a h (S j)) = (IZR a + IZR d)%R) by (unfold at_i; rewrite plus_IZR; reflexivity).
  assert (DB : h <= d <= 2 ^ 35) by (unfold d; destruct SM as (? & ? & ? & ?); nia).
  assert (DR : (IZR h <= IZR d)%R) by (apply IZR_le; lia).
  assert (E0 : IZR (at_i a h 0) = IZR a) by (f_equal; unfold at_i; lia).
  rewrite Rle_bool_true by lra. cbn [negb]. rewrite finite_not_inf by assumption. cbn [andb].
  destruct (index_real a h vs s SM L2 ON y FY) as (q & -> & FQ & RQ); [apply Rabs_le; lra|]. cbn [rbind]. rewrite floor_val by assumption. cbn [rbind].
  assert (ZB : (IZR d - IZR h <= rnd (B2R y - IZR a) <= IZR d - bpow radix2 (-17))%R).
  { apply rnd_between; [| |lra].
    - rewrite <- minus_IZR. apply format_int. lia.
    - replace (IZR d - bpow radix2 (-17))%R with (IZR d + IZR (-1) * bpow radix2 (-17))%R by ring. apply format_near; [lia|auto]. }
  assert (CD : (IZR d / IZR h = IZR (Z.of_nat (S j)))%R) by (unfold d; rewrite mult_IZR; field; lra).
  assert (CI : 0 <= Z.of_nat (S j) <= 2 ^ 35) by (unfold d in DB; nia).
  assert (HI : (B2R q < IZR (Z.of_nat (S j)))%R).
  { rewrite RQ. apply rnd_below with h; try assumption; [apply DB|]. rewrite <- CD. unfold Rdiv. rewrite <- Rmult_minus_distr_r.
    apply Rmult_le_compat_r; [left; apply Rinv_0_lt_compat; lra|lra]. }
  assert (LO : (IZR (Z.of_nat j) <= B2R q)%R).
  { rewrite RQ. apply round_ge_generic; auto with typeclass_instances; [apply format_int; lia|].
    replace (IZR (Z.of_nat j)) with ((IZR d - IZR h) / IZR h)%R.
    - unfold Rdiv. apply Rmult_le_compat_r; [left; apply Rinv_0_lt_compat; lra|lra].
    - rewrite Nat2Z.inj_succ, succ_IZR in CD. replace (IZR (Z.of_nat j)) with (IZR d / IZR h - 1)%R by lra. field. lra. }
  assert (Zfloor (B2R q) = Z.of_nat j) as ->.
  { apply Zfloor_imp. rewrite Nat2Z.inj_succ in HI. unfold Z.succ in HI. split; assumption. }
  destruct ON as (-> & _). rewrite grid_length, Z.min_r by lia. destruct (nth_error vs j) as [v|] eqn:E; [|apply nth_error_None in E; lia].
  rewrite (py_at _ j (X j, v)); [reflexivity|]. rewrite grid_nth, E. reflexivity.
Qed.
Lemma m_low m : step_ok h m -> (bpow radix2 (-17) <= val64 m)%R.
Proof. intros M. destruct (step_real h m) as (b & -> & F & R); [pose proof (small_h a h vs SM L2); destruct SM as (? & _); lia|exact M|]. rewrite val_B2R. lra. Qed.
Lemma next_between i m x lim : (S i < length vs)%nat -> step_ok h m -> finite64 x -> (IZR (at_i a h i) <= val64 x)%R -> (val64 x + val64 m <= IZR (at_i a h (S i)))%R ->
  p_x_next s x (Some m) lim = Ok (Some (X (S i))).
Proof. intros L M F A B. pose proof (m_low m M). apply next_after; try assumption. lra. Qed.
Lemma prev_between j m x lim : (S j < length vs)%nat -> step_ok h m -> finite64 x -> (val64 x <= IZR (at_i a h (S j)))%R -> (IZR (at_i a h j) <= val64 x - val64 m)%R ->
  p_x_previous s x (Some m) lim = Ok (Some (X j)).
Proof. intros L M F A B. pose proof (m_low m M). apply prev_before; try assumption. lra. Qed.

Lemma next_end m x lim : step_ok h m -> finite64 x -> (Rabs (val64 x) <= IZR (2 ^ 36))%R -> (IZR (at_i a h (length vs - 1)) + bpow radix2 (-17) <= val64 x + val64 m)%R -> p_x_next s x (Some m) lim = Ok None.
Proof.
  intros M KX BX XL. assert (PH : 0 < h) by apply SM. pose proof (small_h a h vs SM L2) as SH.
  destruct (step_real h m ltac:(lia) M) as (mb & -> & FM & RM). destruct (real_of _ KX) as (xb & -> & FX). rewrite !val_B2R in *.
  destruct (dom_eq a h vs s SM L2 ON) as [DE NE]. destruct (x_real a h vs SM L2 (length vs - 1) ltac:(lia)) as (lb & EL & FL & RL & AL).
  assert (HH : (IZR h <= IZR (2 ^ 35))%R) by (apply IZR_le; lia). apply Rabs_le_inv in BX. pose proof (bpow_gt_0 radix2 (-17)) as MU.
  destruct (add_val xb mb FX FM) as (y & EY & FY & RY).
  { apply abs_le_100 with (2 ^ 36 + 2 ^ 35); [|lia]. rewrite plus_IZR. apply Rabs_le. lra. }
  assert (YB : (IZR (at_i a h (length vs - 1)) + bpow radix2 (-17) <= B2R y)%R).
  { rewrite RY. apply round_ge_generic; auto with typeclass_instances. replace (bpow radix2 (-17)) with (IZR 1 * bpow radix2 (-17))%R by ring. apply format_near; auto. }
  unfold p_x_next. rewrite NE. cbn [resolve_min_step]. change (@n_add b64 B64) with (SFadd 53 1024). rewrite EY.
  assert (LE : i_contains_gen false true (p_dom s) (B2SF y) = false).
  { unfold i_contains_gen. rewrite NE. rewrite DE. unfold below_end. cbn [i_end i_eo negb andb orb]. rewrite EL. cbn [n_ltb n_eqb B64].
    rewrite ltb_val, eqb_val by assumption. rewrite RL. rewrite Rlt_bool_false, Req_bool_false by lra. reflexivity. }
  rewrite LE. reflexivity.
Qed.
Lemma prev_end m x lim : step_ok h m -> finite64 x -> (Rabs (val64 x) <= IZR (2 ^ 36))%R -> (val64 x - val64 m <= IZR (at_i a h 0) - bpow radix2 (-17))%R -> p_x_previous s x (Some m) lim = Ok None.
Proof.
  intros M KX BX XL. assert (PH : 0 < h) by apply SM. pose proof (small_h a h vs SM L2) as SH.
  destruct (step_real h m ltac:(lia) M) as (mb & -> & FM & RM). destruct (real_of _ KX) as (xb & -> & FX). rewrite !val_B2R in *.
  destruct (dom_eq a h vs s SM L2 ON) as [DE NE]. destruct (x_real a h vs SM L2 0 ltac:(lia)) as (lb & EL & FL & RL & AL).
  assert (HH : (IZR h <= IZR (2 ^ 35))%R) by (apply IZR_le; lia). apply Rabs_le_inv in BX. pose proof (bpow_gt_0 radix2 (-17)) as MU.
  destruct (sub_val xb mb FX FM) as (y & EY & FY & RY).
  { apply abs_le_100 with (2 ^ 36 + 2 ^ 35); [|lia]. rewrite plus_IZR. apply Rabs_le. lra. }
  assert (YB : (B2R y <= IZR (at_i a h 0) - bpow radix2 (-17))%R).
  { rewrite RY. apply round_le_generic; auto with typeclass_instances. replace (IZR (at_i a h 0) - bpow radix2 (-17))%R with (IZR (at_i a h 0) + IZR (-1) * bpow radix2 (-17))%R by ring. apply format_near; auto. }
  unfold p_x_previous. rewrite NE. cbn [resolve_min_step]. change (@n_sub b64 B64) with (SFsub 53 1024). rewrite EY.
  assert (LE : i_contains_gen true false (p_dom s) (B2SF y) = false).
  { unfold i_contains_gen. rewrite NE. rewrite DE. unfold above_start. cbn [i_start i_so negb andb orb]. rewrite EL. cbn [n_ltb n_eqb B64].
    rewrite ltb_val, eqb_val by assumption. rewrite RL. rewrite Rlt_bool_false, Req_bool_false by lra. reflexivity. }
  rewrite LE. reflexivity.
Qed.
End Step.
