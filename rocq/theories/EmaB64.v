(** The exponential moving average in binary64 (ema.py:39-53 over
    accumulator.py and scan.py), against the exact recurrence. *)
From Coq Require Import List ZArith Reals Lia Lra Psatz Bool SpecFloat.
From Flocq Require Import Core BinarySingleNaN.
From Verif Require Import Base Num Interval Curve Points Combine Scan B64Facts GridFacts StepB64 IrregB64 ErrB64 InterpB64 AccB64.
Import ListNotations.
Open Scope Z_scope.
#[local] Existing Instances Hprec Hmax Hval Hexp.

(** ** One step *)
Definition ema_next (al y e : b64) : b64 := SFadd 53 1024 e (SFmul 53 1024 al (SFsub 53 1024 y e)).
Definition drift (M : R) : R := (10 * eps * M + 2 * tiny)%R.
Lemma ema_step (al y e : bf) M : is_finite al = true -> is_finite y = true -> is_finite e = true -> (0 < B2R al <= 1)%R ->
  (Rabs (B2R y) <= M)%R -> (Rabs (B2R e) <= 2 * M)%R -> (M <= bpow radix2 1020)%R ->
  exists r : bf, ema_next (B2SF al) (B2SF y) (B2SF e) = B2SF r /\ is_finite r = true /\
  (Rabs (B2R r - (B2R e + B2R al * (B2R y - B2R e))) <= drift M)%R.
Proof.
  intros FA FY FE [A0 A1] AY AE HM. pose proof (huge_ge M HM) as HG. pose proof eps_pos as EP. pose proof eps_small as ES. pose proof tiny_pos as TP. pose proof tiny_eps as TE.
  assert (MP : (0 <= M)%R) by (apply Rle_trans with (2 := AY); apply Rabs_pos). assert (TT : (tiny <= eps)%R) by nra.
  assert (H20 : (7 * M + tiny <= huge)%R).
  { assert (8 * bpow radix2 1020 <= huge)%R by (apply huge_ge; apply Rle_refl). assert (tiny <= bpow radix2 1020)%R by (apply bpow_le; lia). lra. }
  apply Rabs_le_inv in AY. apply Rabs_le_inv in AE.
  assert (GX : forall c : bf, generic_format radix2 fexp (B2R c)) by (intros c; apply generic_format_B2R).
  destruct (sub_big y e FY FE) as (d & ED & FD & RD); [apply Rabs_le; lra|].
  destruct (minus_err (B2R y) (B2R e) (GX y) (GX e)) as (d1 & D1 & E1). rewrite E1 in RD.
  set (D := (B2R y - B2R e)%R) in *. assert (DB : (Rabs D <= 3 * M)%R) by (unfold D; apply Rabs_le; lra).
  assert (DD : (Rabs (D * d1) <= 3 * M * eps)%R) by (rewrite Rabs_mult; apply Rmult_le_compat; try apply Rabs_pos; assumption).
  assert (ME : (0 <= M * eps <= M / 1024)%R) by (split; [apply Rmult_le_pos; lra|]; apply Rmult_le_compat_l; lra).
  assert (DR : (Rabs (B2R d) <= 4 * M)%R).
  { rewrite RD. replace (D * (1 + d1))%R with (D + D * d1)%R by ring. apply Rle_trans with (1 := Rabs_triang _ _). lra. }
  assert (AD : (Rabs (B2R al * B2R d) <= 4 * M)%R) by (apply Rle_trans with (1 := mul_bound _ _ _ (conj (Rlt_le _ _ A0) A1) DR); nra).
  destruct (mul_big al d FA FD) as (p & EPr & FP & RP); [lra|].
  destruct (any_err (B2R al * B2R d)) as (d2 & t2 & D2 & T2 & E2). rewrite E2 in RP.
  assert (A2 : (Rabs (B2R al * B2R d * d2) <= 4 * M * eps)%R) by (rewrite Rabs_mult; apply Rmult_le_compat; try apply Rabs_pos; assumption).
  assert (PE : (Rabs (B2R p - B2R al * D) <= 7 * (M * eps) + tiny)%R).
  { rewrite RP. replace (B2R al * B2R d * (1 + d2) + t2 - B2R al * D)%R with (B2R al * (D * d1) + (B2R al * B2R d * d2 + t2))%R by (rewrite RD; ring).
    apply Rle_trans with (1 := Rabs_triang _ _). pose proof (mul_bound _ _ _ (conj (Rlt_le _ _ A0) A1) DD) as B1. pose proof (Rabs_triang (B2R al * B2R d * d2) t2) as B2.
    assert (B2R al * (3 * M * eps) <= 3 * (M * eps))%R by nra. lra. }
  assert (CV : (Rabs (B2R e + B2R al * D) <= 2 * M)%R).
  { replace (B2R e + B2R al * D)%R with ((1 - B2R al) * B2R e + B2R al * B2R y)%R by (unfold D; ring). apply Rabs_le. split; nra. }
  destruct (add_big e p FE FP) as (r & ER & FR & RR).
  { replace (B2R e + B2R p)%R with ((B2R e + B2R al * D) + (B2R p - B2R al * D))%R by ring. apply Rle_trans with (1 := Rabs_triang _ _). lra. }
  exists r. unfold ema_next. rewrite ED, EPr, ER. split; [reflexivity|]. split; [exact FR|].
  destruct (plus_err (B2R e) (B2R p) (GX e) (GX p)) as (d3 & D3 & E3). rewrite E3 in RR. rewrite RR.
  replace ((B2R e + B2R p) * (1 + d3) - (B2R e + B2R al * D))%R with ((B2R p - B2R al * D) + (B2R e + B2R p) * d3)%R by ring.
  apply Rle_trans with (1 := Rabs_triang _ _).
  assert (SB : (Rabs (B2R e + B2R p) <= 3 * M + tiny)%R).
  { replace (B2R e + B2R p)%R with ((B2R e + B2R al * D) + (B2R p - B2R al * D))%R by ring. apply Rle_trans with (1 := Rabs_triang _ _). lra. }
  assert (A3 : (Rabs ((B2R e + B2R p) * d3) <= (3 * M + tiny) * eps)%R) by (rewrite Rabs_mult; apply Rmult_le_compat; try apply Rabs_pos; assumption).
  assert (tiny * eps <= tiny)%R by nra. unfold drift. lra.
Qed.

(** ** The whole recurrence *)
Fixpoint ema_outs (al : b64) (e : option b64) (vs : list (option b64)) : list (option b64) :=
  match vs with
  | [] => []
  | v :: r =>
      let e' := match v, e with None, _ => e | Some y, None => Some y | Some y, Some e => Some (ema_next al y e) end in
      e' :: ema_outs al e' r
  end.
Lemma ema_outs_length al vs : forall e, length (ema_outs al e vs) = length vs.
Proof. induction vs as [|v r IH]; intros e; cbn [ema_outs length]; [reflexivity|]. f_equal. apply IH. Qed.
Lemma ema_outs_prefix al vs us : forall e k, (k <= length vs)%nat -> firstn k (ema_outs al e (vs ++ us)) = firstn k (ema_outs al e vs).
Proof. induction vs as [|v r IH]; intros e [|k] L; cbn [length] in L; try lia; try reflexivity. cbn [app ema_outs firstn]. f_equal. apply IH. lia. Qed.
Lemma ema_outs_next al vs : forall e k v, nth_error vs k = Some v ->
  nth_error (ema_outs al e vs) k = Some (match v, match k with O => e | S j => nth j (ema_outs al e vs) None end with None, e => e | Some y, None => Some y | Some y, Some e => Some (ema_next al y e) end).
Proof.
  induction vs as [|u r IH]; intros e [|k] v E; try discriminate.
  - injection E as ->. cbn. destruct v, e; reflexivity.
  - cbn [nth_error ema_outs] in *. rewrite (IH _ _ _ E). destruct k; reflexivity.
Qed.
(** the weight of one step of the grid *)
Definition weight64 (h : Z) (deg : ema_degree b64) (al : b64) : Prop :=
  match deg with EmaAlpha x => al = x | EmaPeriod p => exists q, n_div (b64_ofZ h) p = Ok q /\ al = n_abs q end.
Definition ema_tf (deg : ema_degree b64) (m : b64) (src : pts b64 (option b64)) (p : pts b64 (option b64)) (x : b64) (y e : option b64) : res (option b64) :=
  ema_scan deg None (fun x => p_x_previous src x (Some m) None) x y e.
Lemma ema_tf_next a h m deg al vs src : step_ok h m -> weight64 h deg al -> grid_small a h (length vs) -> on_grid a h 0 vs src ->
  forall k v w p, nth_error vs k = Some v -> nth_error (ema_outs al None vs) k = Some w -> on_grid a h 0 (firstn k (ema_outs al None vs)) p ->
  ema_tf deg m src p (fnum (at_i a h k) 0) v (before (ema_outs al None vs) k) = Ok w.
Proof.
  intros ST WT SM ON k v w p E EW _. rewrite (ema_outs_next al vs None k v E) in EW. injection EW as <-. unfold ema_tf, ema_scan, before. change (@v_none b64 (option b64) _) with (@None b64).
  destruct v as [y|]; [|destruct k; reflexivity]. destruct k as [|k]; [reflexivity|]. destruct (nth k (ema_outs al None vs) None) as [e0|]; [|reflexivity].
  assert (K : (S k < length vs)%nat) by (apply nth_error_Some; congruence).
  destruct deg as [pe|x]; [|cbn in WT; subst x; reflexivity]. destruct WT as (q & DV & ->).
  rewrite (prev_knot a h vs src SM ltac:(lia) ON (S k) m None K ST). cbn [rbind].
  rewrite (sub_at a h 0 (length vs) (S k) k (small_fits a h _ SM) K ltac:(lia)). replace ((Z.of_nat (S k) - Z.of_nat k) * h) with h by lia.
  change (b64_ofZ h) with (fnum h 0) in DV. rewrite DV. reflexivity.
Qed.

Lemma ema_bound (al : bf) M ys : is_finite al = true -> (0 < B2R al <= 1)%R -> (M <= bpow radix2 1020)%R -> (drift M <= B2R al * M)%R ->
  (forall y, In y ys -> finite64 y /\ (Rabs (val64 y) <= M)%R) ->
  forall (e : bf) (E : R), is_finite e = true -> (Rabs E <= M)%R -> (Rabs (B2R e - E) <= drift M / B2R al)%R ->
  exists Es : nat -> R, Es 0%nat = E /\
    (forall k y, nth_error ys k = Some y -> Es (S k) = (Es k + B2R al * (val64 y - Es k))%R) /\
    (forall k, (k < length ys)%nat -> exists r, nth_error (ema_outs (B2SF al) (Some (B2SF e)) (map Some ys)) k = Some (Some r) /\ finite64 r /\ (Rabs (val64 r - Es (S k)) <= drift M / B2R al)%R).
Proof.
  intros FA [A0 A1] HM DM. induction ys as [|y r IH]; intros FY e E Fe AE ERR.
  - exists (fun _ => E). split; [reflexivity|]. split; [intros [|k] y Hy; discriminate|intros k L; cbn in L; lia].
  - destruct (FY y (or_introl eq_refl)) as [F1 B1]. destruct (real_of _ F1) as (yb & -> & Fy). rewrite val_B2R in B1.
    assert (QM : (drift M / B2R al <= M)%R) by (apply Rmult_le_reg_r with (B2R al); [exact A0|]; unfold Rdiv; rewrite Rmult_assoc, Rinv_l by lra; lra).
    assert (BE : (Rabs (B2R e) <= 2 * M)%R).
    { replace (B2R e) with (E + (B2R e - E))%R by ring. apply Rle_trans with (1 := Rabs_triang _ _). lra. }
    destruct (ema_step al yb e M FA Fy Fe (conj A0 A1) B1 BE HM) as (n & EN & FN & RN).
    set (E1 := (E + B2R al * (B2R yb - E))%R).
    assert (AE1 : (Rabs E1 <= M)%R).
    { apply Rabs_le_inv in AE. apply Rabs_le_inv in B1. unfold E1. apply Rabs_le. split; nra. }
    assert (ERR1 : (Rabs (B2R n - E1) <= drift M / B2R al)%R).
    { replace (B2R n - E1)%R with ((B2R n - (B2R e + B2R al * (B2R yb - B2R e))) + (1 - B2R al) * (B2R e - E))%R by (unfold E1; ring).
      apply Rle_trans with (1 := Rabs_triang _ _). rewrite Rabs_mult, (Rabs_pos_eq (1 - B2R al)) by lra.
      assert ((1 - B2R al) * Rabs (B2R e - E) <= (1 - B2R al) * (drift M / B2R al))%R by (apply Rmult_le_compat_l; lra).
      assert ((1 - B2R al) * (drift M / B2R al) = drift M / B2R al - drift M)%R as Q by (field; lra). lra. }
    destruct (IH (fun z Hz => FY z (or_intror Hz)) n E1 FN AE1 ERR1) as (Es & Z0 & ZS & ZB).
    exists (fun k => match k with O => E | S j => Es j end). split; [reflexivity|]. split.
    + intros [|k] z Hz; [injection Hz as <-; rewrite Z0, val_B2R; reflexivity|]. apply (ZS k z Hz).
    + intros [|k] L; cbn [length] in L; cbn [map ema_outs nth_error]; rewrite EN.
      * exists (B2SF n). split; [reflexivity|]. split; [split; [apply valid_binary_B2SF|rewrite is_finite_SF_B2SF; exact FN]|]. rewrite Z0, val_B2R. exact ERR1.
      * apply ZB. lia.
Qed.
Lemma drift_nonneg M : (0 <= M)%R -> (0 <= drift M)%R.
Proof. intros H. pose proof eps_pos. pose proof tiny_pos. unfold drift. assert (0 <= eps * M)%R by (apply Rmult_le_pos; lra). lra. Qed.
(** the curve at the points of its source, after any history *)
Lemma ema_near a h m deg al ip ys src q fuel M : step_ok h m -> weight64 h deg al -> grid_small a h (length ys) ->
  watch64 a h m ip (ema_tf deg m) (fun v => v) (map Some ys) src q -> (length ys < fuel)%nat -> finite64 al -> (0 < val64 al <= 1)%R ->
  (forall y, In y ys -> finite64 y /\ (Rabs (val64 y) <= M)%R) -> (M <= bpow radix2 1020)%R -> (drift M <= val64 al * M)%R ->
  exists E : nat -> R,
    (forall y, nth_error ys 0 = Some y -> E 0%nat = val64 y) /\
    (forall k y, nth_error ys (S k) = Some y -> E (S k) = (E k + val64 al * (val64 y - E k))%R) /\
    (forall k, (k < length ys)%nat -> exists r, snd (y64 m (ema_tf deg m) (fun v => v) fuel src q (fnum (at_i a h k) 0)) = Ok (Some r) /\ finite64 r /\ (Rabs (val64 r - E k) <= drift M / val64 al)%R).
Proof.
  intros ST WT SM R L FA A FY HM DM. destruct ys as [|y0 r].
  { exists (fun _ => 0%R). repeat split; intros; try destruct k; cbn in *; try discriminate; lia. }
  destruct (real_of _ FA) as (ab & -> & Fab). rewrite val_B2R in *. destruct (FY y0 (or_introl eq_refl)) as [F0 B0]. destruct (real_of _ F0) as (yb & -> & Fy). rewrite val_B2R in B0.
  assert (MP : (0 <= M)%R) by (apply Rle_trans with (2 := B0); apply Rabs_pos).
  assert (QP : (0 <= drift M / B2R ab)%R) by (apply Rmult_le_pos; [apply drift_nonneg, MP|left; apply Rinv_0_lt_compat; lra]).
  destruct (ema_bound ab M r Fab A HM DM (fun z Hz => FY z (or_intror Hz)) yb (B2R yb) Fy B0) as (Es & Z0 & ZS & ZB); [rewrite Rminus_eq_0, Rabs_R0; exact QP|].
  exists Es. split; [intros y [= <-]; rewrite val_B2R; exact Z0|]. split; [intros k y Hy; apply ZS, Hy|].
  intros k Lk.
  assert (KN : forall w, nth_error (ema_outs (B2SF ab) None (map Some (B2SF yb :: r))) k = Some w ->
     snd (y64 m (ema_tf deg m) (fun v => v) fuel src q (fnum (at_i a h k) 0)) = Ok w).
  { intros w Ew. eapply (watched_knot a h m ip (ema_tf deg m) (fun v => v) (ema_outs (B2SF ab) None) (fun _ => True)); try eassumption.
    - intros vs. apply ema_outs_length.
    - intros vs us j. apply ema_outs_prefix.
    - intros vs s _ S O. apply (ema_tf_next a h m deg (B2SF ab) vs s ST WT S O).
    - auto.
    - exact I.
    - rewrite map_length. exact SM.
    - rewrite map_length. exact L. }
  destruct k as [|k].
  - exists (B2SF yb). split; [apply KN; reflexivity|]. split; [exact F0|]. rewrite Z0, val_B2R, Rminus_eq_0, Rabs_R0. exact QP.
  - cbn [length] in Lk. destruct (ZB k ltac:(lia)) as (w & Ew & Fw & Rw). exists w. split; [apply KN; exact Ew|]. split; [exact Fw|exact Rw].
Qed.

(** the same recurrence in doubles, whatever the history, with None values *)
Lemma ema_exact a h m deg al ip vs src q fuel : step_ok h m -> weight64 h deg al -> grid_small a h (length vs) ->
  watch64 a h m ip (ema_tf deg m) (fun v => v) vs src q -> (length vs < fuel)%nat ->
  exists es : nat -> option b64,
    (forall y, nth_error vs 0 = Some y -> es 0%nat = y) /\
    (forall k y, nth_error vs (S k) = Some y -> es (S k) = match y, es k with None, e => e | Some y, None => Some y | Some y, Some e => Some (n_add e (n_mul al (n_sub y e))) end) /\
    (forall k, (k < length vs)%nat -> snd (y64 m (ema_tf deg m) (fun v => v) fuel src q (fnum (at_i a h k) 0)) = Ok (es k)) /\
    (forall x, valid_binary 53 1024 x = true -> i_contains (p_dom src) x = false -> snd (y64 m (ema_tf deg m) (fun v => v) fuel src q x) = Ok None).
Proof.
  intros ST WT SM R L. set (os := ema_outs al None vs). exists (fun k => nth k os None).
  assert (LO : length os = length vs) by apply ema_outs_length.
  split; [|split; [|split]].
  - intros y E. pose proof (ema_outs_next al vs None 0 y E) as N. fold os in N. rewrite (nth_error_nth _ _ None N). destruct y; reflexivity.
  - intros k y E. pose proof (ema_outs_next al vs None (S k) y E) as N. fold os in N. rewrite (nth_error_nth _ _ None N). reflexivity.
  - intros k K. eapply (watched_knot a h m ip (ema_tf deg m) (fun v => v) (ema_outs al None) (fun _ => True)); try eassumption; auto.
    + intros us. apply ema_outs_length.
    + intros us ws j. apply ema_outs_prefix.
    + intros us s _ S O. apply (ema_tf_next a h m deg al us s ST WT S O).
    + apply nth_error_nth'. fold os. lia.
  - intros x VX C. change (@None b64) with (@v_none b64 (option b64) _). eapply (watched_outside a h m ip (ema_tf deg m) (fun v => v) (ema_outs al None) (fun _ => True)); try eassumption; auto.
    + intros us. apply ema_outs_length.
    + intros us ws j. apply ema_outs_prefix.
    + intros us s _ S O. apply (ema_tf_next a h m deg al us s ST WT S O).
Qed.
