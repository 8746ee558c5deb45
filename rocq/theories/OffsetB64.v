(** Offset curves over sampled points in binary64 (offset.py:37-127). *)
From Coq Require Import List ZArith Reals Lia Lra Bool SpecFloat.
From Flocq Require Import Core BinarySingleNaN.
From Verif Require Import Base Num Interval Curve Points Combine B64Facts GridFacts StepB64 IrregB64 ErrB64 StepBetween64.
Import ListNotations.
Open Scope Z_scope.
#[local] Existing Instances Hprec Hmax Hval Hexp.

Lemma add_any a b e : fits a e -> fits b e -> fits (a + b) e -> SFadd 53 1024 (fnum a e) (fnum b e) = fnum (a + b) e.
Proof.
  intros A B C. destruct (bnum_spec a e A) as (RA & FA & SA). destruct (bnum_spec b e B) as (RB & FB & SB).
  rewrite !fnum_bnum, add_eq. rewrite <- fnum_bnum.
  pose proof (Bplus_correct 53 1024 Hprec Hmax mode_NE (bnum a e) (bnum b e) FA FB) as H. rewrite RA, RB in H.
  exact_op H (dy_add a b e). destruct H as (H1 & H2 & H3). apply bnum_unique; try assumption.
  rewrite H3. rewrite <- (sign_dy (a + b) e). destruct (Rcompare_spec (dy (a + b) e) 0) as [L|E|L]; try reflexivity.
  apply dy_0 in E. rewrite SA, SB. destruct (Z.ltb_spec a 0), (Z.ltb_spec b 0); try reflexivity. lia.
Qed.
Lemma fnum_fin k : @n_isinf b64 B64 (fnum k 0) = n_isinf (B2SF (bnum k 0)). Proof. rewrite fnum_bnum. reflexivity. Qed.
Lemma fits0 k : Z.abs k <= 2 ^ 53 -> fits k 0. Proof. intros L. split; lia. Qed.
Lemma off_whole d k : Z.abs d <= 2 ^ 53 -> Z.abs k <= 2 ^ 53 -> Z.abs (k + d) <= 2 ^ 53 -> offset_x (fnum d 0) (fnum k 0) = fnum (k + d) 0.
Proof.
  intros D K S. unfold offset_x. rewrite fnum_fin, finite_not_inf by (apply bnum_spec, fits0, K).
  change (@n_add b64 B64) with (SFadd 53 1024). apply add_any; apply fits0; assumption.
Qed.
Lemma unoff_whole d k : Z.abs d <= 2 ^ 53 -> Z.abs k <= 2 ^ 53 -> Z.abs (k + d) <= 2 ^ 53 -> unoffset_x (fnum d 0) (fnum (k + d) 0) = fnum k 0.
Proof.
  intros D K S. unfold unoffset_x. rewrite fnum_fin, finite_not_inf by (apply bnum_spec, fits0, S).
  change (@n_sub b64 B64) with (SFsub 53 1024). rewrite fnum_sub; [f_equal; lia|apply fits0; lia..].
Qed.

(** there and back again: two roundings *)
Lemma back (x d : bf) : is_finite x = true -> is_finite d = true -> (Rabs (B2R x) <= IZR (2 ^ 32))%R -> (Rabs (B2R d) <= IZR (2 ^ 32))%R ->
  exists r : bf, @unoffset_x b64 B64 (B2SF d) (@offset_x b64 B64 (B2SF d) (B2SF x)) = B2SF r /\ is_finite r = true /\ (Rabs (B2R r - B2R x) <= bpow radix2 (-19))%R.
Proof.
  intros FX FD AX AD. apply Rabs_le_inv in AX, AD.
  destruct (add_val x d FX FD) as (p & EP & FP & RP).
  { apply abs_le_100 with (2 ^ 33); [|lia]. apply Rabs_le. lra. }
  destruct (plus_err _ _ (generic_format_B2R _ _ x) (generic_format_B2R _ _ d)) as (e1 & D1 & E1).
  assert (PE : (Rabs (B2R p - (B2R x + B2R d)) <= bpow radix2 (-20))%R).
  { rewrite RP, E1. replace ((B2R x + B2R d) * (1 + e1) - (B2R x + B2R d))%R with ((B2R x + B2R d) * e1)%R by ring. rewrite Rabs_mult.
    change (-20) with (33 + -53). rewrite bpow_plus. apply Rmult_le_compat; try apply Rabs_pos; [|exact D1]. change (bpow radix2 33) with (IZR (2 ^ 33)). apply Rabs_le. lra. }
  assert (T20 : (0 < bpow radix2 (-20) <= 1)%R) by (split; [apply bpow_gt_0|change 1%R with (bpow radix2 0); apply bpow_le; lia]).
  apply Rabs_le_inv in PE.
  destruct (sub_val p d FP FD) as (r & ER & FR & RR).
  { apply abs_le_100 with (2 ^ 33); [|lia]. apply Rabs_le. lra. }
  destruct (minus_err _ _ (generic_format_B2R _ _ p) (generic_format_B2R _ _ d)) as (e2 & D2 & E2).
  exists r. unfold unoffset_x, offset_x. rewrite (finite_not_inf x) by exact FX. change (@n_add b64 B64) with (SFadd 53 1024). rewrite EP, (finite_not_inf p) by exact FP.
  change (@n_sub b64 B64) with (SFsub 53 1024). split; [exact ER|]. split; [exact FR|].
  assert (QE : (Rabs (B2R r - (B2R p - B2R d)) <= bpow radix2 (-20))%R).
  { rewrite RR, E2. replace ((B2R p - B2R d) * (1 + e2) - (B2R p - B2R d))%R with ((B2R p - B2R d) * e2)%R by ring. rewrite Rabs_mult.
    change (-20) with (33 + -53). rewrite bpow_plus. apply Rmult_le_compat; try apply Rabs_pos; [|exact D2]. change (bpow radix2 33) with (IZR (2 ^ 33)). apply Rabs_le. lra. }
  apply Rabs_le_inv in QE. replace (bpow radix2 (-19)) with (2 * bpow radix2 (-20))%R by (change 2%R with (bpow radix2 1); rewrite <- bpow_plus; reflexivity). apply Rabs_le. lra.
Qed.

(** positions and offset within 2^32: seconds until the year 2106 *)
Definition near_offset (a h : Z) (n : nat) (d : b64) : Prop :=
  Z.abs a <= 2 ^ 32 /\ Z.abs (a + Z.of_nat (n - 1) * h) <= 2 ^ 32 /\ finite64 d /\ (Rabs (val64 d) <= IZR (2 ^ 32))%R.
(** a step that leaves room for the rounding of the offset *)
Definition roomy (h : Z) (m : b64) : Prop :=
  (bpow radix2 (-17) + bpow radix2 (-19) <= val64 m)%R /\ (val64 m <= IZR h - bpow radix2 (-19))%R.

Section Offset.
Context {W : Val b64 (option b64)}.
Variables (a h : Z) (vs : list (option b64)) (s : pts b64 (option b64)).
Hypothesis SM : grid_small a h (length vs).
Hypothesis L2 : (2 <= length vs)%nat.
Hypothesis ON : on_grid a h 0 vs s.
Notation X i := (fnum (at_i a h i) 0).

Lemma inside i : (i < length vs)%nat -> i_contains (p_dom s) (X i) = true.
Proof. intros L. exact (in_dom a h 0 _ i vs s (small_fits a h _ SM) eq_refl L ON). Qed.

Lemma at_up i : IZR (at_i a h (S i)) = (IZR (at_i a h i) + IZR h)%R.
Proof. rewrite <- plus_IZR. f_equal. unfold at_i. lia. Qed.

Section Near.
Variable d : b64.
Hypothesis ND : near_offset a h (length vs) d.

Lemma back_at i : (i < length vs)%nat -> exists r, unoffset_x d (offset_x d (X i)) = r /\ finite64 r /\ (Rabs (val64 r - IZR (at_i a h i)) <= bpow radix2 (-19))%R.
Proof.
  intros L. destruct ND as (A1 & A2 & FD & AD). destruct (real_of _ FD) as (db & -> & FB). rewrite val_B2R in AD.
  destruct (x_real a h vs SM L2 i L) as (xb & -> & FX & RX & _).
  assert (AX : (Rabs (B2R xb) <= IZR (2 ^ 32))%R).
  { rewrite RX, <- abs_IZR. apply IZR_le. destruct SM as (P & _). unfold at_i. nia. }
  destruct (back xb db FX FB AX AD) as (r & ER & FR & BR). exists (B2SF r). split; [exact ER|]. split; [split; [apply valid_binary_B2SF|rewrite is_finite_SF_B2SF; exact FR]|].
  rewrite val_B2R, <- RX. exact BR.
Qed.
Lemma small36 i r : (i < length vs)%nat -> (Rabs (val64 r - IZR (at_i a h i)) <= bpow radix2 (-19))%R -> (Rabs (val64 r) <= IZR (2 ^ 36))%R.
Proof.
  intros L B. destruct (x_real a h vs SM L2 i L) as (_ & _ & _ & _ & AX). apply IZR_le in AX. rewrite abs_IZR in AX. apply Rabs_le_inv in B, AX.
  assert (T : (bpow radix2 (-19) <= 1)%R) by (change 1%R with (bpow radix2 0); apply bpow_le; lia). apply Rabs_le.
  assert (IZR (2 ^ 35) + 1 <= IZR (2 ^ 36))%R by (rewrite <- plus_IZR; apply IZR_le; lia). lra.
Qed.
Lemma offset_next i m lim : (i < length vs)%nat -> step_ok h m -> roomy h m ->
  c_next (offset_curve d (p_crv s)) (offset_x d (X i)) (Some m) lim = Ok (if Nat.ltb (S i) (length vs) then Some (offset_x d (X (S i))) else None).
Proof.
  intros L M (R1 & R2). destruct (back_at i L) as (r & ER & FR & BR). pose proof (small36 i r L BR) as S36. apply Rabs_le_inv in BR.
  cbn [c_next offset_curve p_crv c_dom]. rewrite ER. destruct (Nat.ltb_spec (S i) (length vs)) as [Q|Q].
  - rewrite (next_after a h vs s SM L2 ON i m r lim Q M FR); [|lra|rewrite at_up; lra]. cbn [rbind]. rewrite inside by exact Q. reflexivity.
  - rewrite (next_end a h vs s SM L2 ON m r lim M FR S36); [reflexivity|]. replace (length vs - 1)%nat with i by lia. lra.
Qed.
Lemma offset_prev i m lim : (i < length vs)%nat -> step_ok h m -> roomy h m ->
  c_prev (offset_curve d (p_crv s)) (offset_x d (X i)) (Some m) lim = Ok (match i with O => None | S j => Some (offset_x d (X j)) end).
Proof.
  intros L M (R1 & R2). destruct (back_at i L) as (r & ER & FR & BR). pose proof (small36 i r L BR) as S36. apply Rabs_le_inv in BR.
  cbn [c_prev offset_curve p_crv c_dom]. rewrite ER. destruct i as [|j].
  - rewrite (prev_end a h vs s SM L2 ON m r lim M FR S36); [reflexivity|]. lra.
  - rewrite (prev_before a h vs s SM L2 ON j m r lim L M FR); [|lra|rewrite at_up in BR; lra]. cbn [rbind]. rewrite inside by lia. reflexivity.
Qed.
Lemma offset_inner i : (0 < i)%nat -> (S i < length vs)%nat ->
  exists r, finite64 r /\ (Rabs (val64 r - IZR (at_i a h i)) <= bpow radix2 (-19))%R /\ c_y (offset_curve d (p_crv s)) (offset_x d (X i)) = p_y s r.
Proof.
  intros I0 I1. destruct (back_at i ltac:(lia)) as (r & ER & FR & BR). exists r. split; [exact FR|]. split; [exact BR|].
  cbn [c_y offset_curve p_crv]. unfold offset_eval. rewrite ER. cbn [c_dom p_crv c_y].
  assert (IN : i_contains (p_dom s) r = true); [|rewrite IN; reflexivity].
  destruct (real_of _ FR) as (rb & -> & FB). rewrite val_B2R in BR. apply Rabs_le_inv in BR. destruct (dom_eq a h vs s SM L2 ON) as [DE NE].
  destruct (x_real a h vs SM L2 0 ltac:(lia)) as (b0 & E0 & F0 & R0 & _). destruct (x_real a h vs SM L2 (length vs - 1) ltac:(lia)) as (b1 & E1 & F1 & R1 & _).
  assert (PH : 0 < h) by apply SM. assert (T : (bpow radix2 (-19) < 1)%R) by (change 1%R with (bpow radix2 0); apply bpow_lt; lia).
  assert (C0 : (IZR (at_i a h 0) + 1 <= IZR (at_i a h i))%R) by (rewrite <- plus_IZR; apply IZR_le; unfold at_i; nia).
  assert (C1 : (IZR (at_i a h i) + 1 <= IZR (at_i a h (length vs - 1)))%R) by (rewrite <- plus_IZR; apply IZR_le; unfold at_i; nia).
  unfold i_contains, i_contains_gen. rewrite NE, DE. unfold above_start, below_end. cbn [i_start i_end i_so i_eo negb andb orb]. rewrite E0, E1. cbn [n_ltb n_eqb B64].
  rewrite !ltb_val by assumption. rewrite R0, R1. rewrite !Rlt_bool_true by lra. reflexivity.
Qed.
End Near.

Section Whole.
Variable k : Z.
Hypothesis K : Z.abs k <= 2 ^ 52.
Lemma at_52 i : (i < length vs)%nat -> Z.abs (at_i a h i) <= 2 ^ 35. Proof. intros L. destruct (x_real a h vs SM L2 i L) as (_ & _ & _ & _ & B). exact B. Qed.
Lemma off_at i : (i < length vs)%nat -> offset_x (fnum k 0) (X i) = fnum (at_i a h i + k) 0.
Proof. intros L. pose proof (at_52 i L). apply off_whole; lia. Qed.
Lemma unoff_at i : (i < length vs)%nat -> unoffset_x (fnum k 0) (fnum (at_i a h i + k) 0) = X i.
Proof. intros L. pose proof (at_52 i L). apply unoff_whole; lia. Qed.
Lemma whole_dom : c_dom (offset_curve (fnum k 0) (p_crv s)) = mkI (fnum (at_i a h 0 + k) 0) (fnum (at_i a h (length vs - 1) + k) 0) false false.
Proof. cbn [c_dom offset_curve p_crv]. destruct (dom_eq a h vs s SM L2 ON) as [-> _]. unfold offset_interval. cbn [i_start i_end i_so i_eo]. rewrite !off_at by lia. reflexivity. Qed.
Lemma whole_eval f i : (i < length vs)%nat -> offset_eval (fnum k 0) (p_crv s) f (fnum (at_i a h i + k) 0) = f (X i).
Proof. intros L. unfold offset_eval. rewrite unoff_at by exact L. cbn [c_dom p_crv]. rewrite inside by exact L. reflexivity. Qed.
Lemma whole_next i m lim : (i < length vs)%nat -> step_ok h m ->
  c_next (offset_curve (fnum k 0) (p_crv s)) (fnum (at_i a h i + k) 0) (Some m) lim = Ok (if Nat.ltb (S i) (length vs) then Some (fnum (at_i a h (S i) + k) 0) else None).
Proof.
  intros L M. cbn [c_next offset_curve p_crv c_dom]. rewrite unoff_at by exact L. rewrite (next_knot a h vs s SM L2 ON i m lim L M).
  destruct (Nat.ltb_spec (S i) (length vs)) as [Q|Q]; cbn [rbind]; [|reflexivity]. rewrite inside, off_at by exact Q. reflexivity.
Qed.
Lemma whole_prev i m lim : (i < length vs)%nat -> step_ok h m ->
  c_prev (offset_curve (fnum k 0) (p_crv s)) (fnum (at_i a h i + k) 0) (Some m) lim = Ok (match i with O => None | S j => Some (fnum (at_i a h j + k) 0) end).
Proof.
  intros L M. cbn [c_prev offset_curve p_crv c_dom]. rewrite unoff_at by exact L. rewrite (prev_knot a h vs s SM L2 ON i m lim L M).
  destruct i as [|j]; cbn [rbind]; [reflexivity|]. rewrite inside, off_at by lia. reflexivity.
Qed.
End Whole.
End Offset.
