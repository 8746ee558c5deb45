(** Accumulating curves in binary64 between the points of their source. *)
From Coq Require Import List ZArith Reals Lia Lra Psatz Bool SpecFloat.
From Flocq Require Import Core BinarySingleNaN.
From Verif Require Import Base Num Interval Curve Points Combine Scan B64Facts GridFacts StepB64 IrregB64 ErrB64 InterpB64 AccB64 EmaB64.
Import ListNotations.
Open Scope Z_scope.

Section Between.
Context {V : Type} {VV : Val b64 V}.
Variables (a h : Z) (m : b64).
Variables (tfs : pts b64 V -> pts b64 (option b64) -> b64 -> V -> option b64 -> res (option b64)) (post : option b64 -> option b64)
  (outs : list V -> list (option b64)) (ok : list V -> Prop).
Hypothesis OL : forall vs, length (outs vs) = length vs.
Hypothesis OP : forall vs us k, (k <= length vs)%nat -> firstn k (outs (vs ++ us)) = firstn k (outs vs).
Hypothesis OT : forall vs src, ok vs -> grid_small a h (length vs) -> on_grid a h 0 vs src ->
  forall k v w p, nth_error vs k = Some v -> nth_error (outs vs) k = Some w -> on_grid a h 0 (firstn k (outs vs)) p ->
  tfs src p (fnum (at_i a h k) 0) v (before (outs vs) k) = Ok w.
Hypothesis OKP : forall vs us, ok (vs ++ us) -> ok vs.
Hypothesis ST : step_ok h m.
Lemma watched_between vs src q fuel i x y0 y1 M : watch64 a h m ILinear tfs post vs src q -> ok vs -> grid_small a h (length vs) -> (length vs < fuel)%nat ->
  nth_error (outs vs) i = Some (Some y0) -> nth_error (outs vs) (S i) = Some (Some y1) -> finite64 x -> finite64 y0 -> finite64 y1 ->
  (IZR (a + Z.of_nat i * h) < val64 x <= IZR (a + Z.of_nat (S i) * h))%R -> (Rabs (val64 y0) <= M)%R -> (Rabs (val64 y1) <= M)%R -> (M <= bpow radix2 1020)%R ->
  exists r, snd (y64 m tfs post fuel src q x) = Ok (post (Some r)) /\ finite64 r /\
    near (2 * INR i + 3) (val64 y0) (val64 y1) ((val64 x - IZR (a + Z.of_nat i * h)) / IZR h) M (val64 r).
Proof.
  intros R OK SM L E0 E1 FX F0 F1 XB A0 A1 HM.
  destruct (watched a h m ILinear tfs post outs ok OL OP OT OKP ST vs src q R OK SM) as (ON & NV & k & Q).
  assert (NP : (0 < length vs)%nat) by (destruct vs; [contradiction|cbn; lia]).
  assert (LS : (S i < length vs)%nat) by (rewrite <- OL; apply nth_error_Some; congruence).
  destruct (real_of _ FX) as (xb & -> & Fx). rewrite val_B2R in XB.
  destruct (query a h m ILinear vs src (tfs src) (outs vs) SM NP ST ON (OL vs) (OT vs src OK SM ON) post fuel k q xb Q L) as (k' & q' & Q' & _ & E).
  change (a + Z.of_nat i * h) with (at_i a h i) in *. change (a + Z.of_nat (S i) * h) with (at_i a h (S i)) in *.
  assert (C : i_contains (p_dom src) (B2SF xb) = true).
  { destruct (dom_k a h vs (outs vs) SM NP (OL vs) (length vs - 1) vs src ltac:(lia) ltac:(lia) ON) as [D _]. rewrite D.
    destruct (xr a h vs (outs vs) SM NP (OL vs) 0 NP) as (lb & EL & FL & RL & _). destruct (xr a h vs (outs vs) SM NP (OL vs) (length vs - 1) ltac:(lia)) as (ub & EU & FU & RU & _). rewrite EL, EU.
    apply contains_real; [assumption..|]. rewrite RL, RU.
    assert (O : forall j n, (j <= n)%nat -> (IZR (at_i a h j) <= IZR (at_i a h n))%R) by (intros j n J; apply IZR_le; destruct SM as (P & _); unfold at_i; nia).
    pose proof (O 0%nat i ltac:(lia)). pose proof (O (S i) (length vs - 1)%nat ltac:(lia)). lra. }
  destruct E as [[C' _]|(_ & RE & EY)]; [congruence|]. unfold y64. rewrite EY. cbn [snd].
  pose proof (reached_between a h ILinear vs src (outs vs) SM NP (OL vs) k' q' i xb Q' RE Fx ltac:(lia) (proj1 XB)) as Lk.
  pose proof (ak_le _ _ _ _ _ _ _ _ Q') as LE.
  destruct (grid_near a h 0 (firstn k' (outs vs)) (a_pts q') i (B2SF xb) y0 y1 M) as (r & PY & FR & NR); try assumption.
  - rewrite firstn_length_le by (rewrite OL; exact LE). apply (fits_shorter a h 0 _ _ (small_fits a h _ SM)). exact LE.
  - apply Q'.
  - apply Q'.
  - rewrite nth_firstn_lt by lia. exact E0.
  - rewrite nth_firstn_lt by lia. exact E1.
  - rewrite val_B2R, !dy0. lra.
  - exists r. rewrite PY. split; [reflexivity|]. split; [exact FR|]. rewrite !dy0 in NR. exact NR.
Qed.
End Between.

(** ** The exponential moving average *)
Lemma near_blend c y0 y1 t M r e0 e1 d : near c y0 y1 t M r -> (0 <= t <= 1)%R -> (Rabs (y0 - e0) <= d)%R -> (Rabs (y1 - e1) <= d)%R ->
  (Rabs (r - (e0 + t * (e1 - e0))) <= d + (c * eps * Rabs (y1 - y0) + slack M))%R.
Proof.
  intros [N _] T A B. replace (r - (e0 + t * (e1 - e0)))%R with (((1 - t) * (y0 - e0) + t * (y1 - e1)) + (r - (y0 + t * (y1 - y0))))%R by ring.
  apply Rle_trans with (1 := Rabs_triang _ _). apply Rplus_le_compat; [|exact N]. apply Rabs_le_inv in A. apply Rabs_le_inv in B. apply Rabs_le. split; nra.
Qed.
Lemma ema_between a h m deg al ys src q fuel M : step_ok h m -> weight64 h deg al -> grid_small a h (length ys) ->
  watch64 a h m ILinear (ema_tf deg m) (fun v => v) (map Some ys) src q -> (length ys < fuel)%nat -> finite64 al -> (0 < val64 al <= 1)%R ->
  (forall y, In y ys -> finite64 y /\ (Rabs (val64 y) <= M)%R) -> (M <= bpow radix2 1019)%R -> (10 * eps * M + 2 * tiny <= val64 al * M)%R ->
  exists E : nat -> R,
    (forall y, nth_error ys 0 = Some y -> E 0%nat = val64 y) /\
    (forall k y, nth_error ys (S k) = Some y -> E (S k) = (E k + val64 al * (val64 y - E k))%R) /\
    (forall i x, (S i < length ys)%nat -> finite64 x -> (IZR (a + Z.of_nat i * h) < val64 x <= IZR (a + Z.of_nat (S i) * h))%R ->
       exists r, snd (y64 m (ema_tf deg m) (fun v => v) fuel src q x) = Ok (Some r) /\ finite64 r /\
         (Rabs (val64 r - (E i + (val64 x - IZR (a + Z.of_nat i * h)) / IZR h * (E (S i) - E i))) <= (10 * eps * M + 2 * tiny) / val64 al + ((8 * INR i + 22) * eps * M + 4 * tiny))%R).
Proof.
  intros ST WT SM R L FA A FY HM DM. assert (HM2 : (M <= bpow radix2 1020)%R) by (apply Rle_trans with (1 := HM); apply bpow_le; lia).
  destruct (ema_near a h m deg al ILinear ys src q fuel M ST WT SM R L FA A FY HM2 DM) as (E & E0 & ES & EB). exists E. split; [exact E0|]. split; [exact ES|].
  intros i x Li FX XB. set (os := ema_outs al None (map Some ys)). assert (LO : length os = length ys) by (unfold os; rewrite ema_outs_length, map_length; reflexivity).
  assert (MP : (0 <= M)%R) by (destruct ys as [|y0 r]; [cbn in Li; lia|]; destruct (FY y0 (or_introl eq_refl)) as [_ B0]; apply Rle_trans with (2 := B0); apply Rabs_pos).
  assert (QD : ((10 * eps * M + 2 * tiny) / val64 al <= M)%R) by (apply Rmult_le_reg_r with (val64 al); [lra|]; unfold Rdiv; rewrite Rmult_assoc, Rinv_l by lra; lra).
  assert (BE : forall k, (k < length ys)%nat -> (Rabs (E k) <= M)%R).
  { induction k as [|k IH]; intros K.
    - destruct (nth_error ys 0) as [y|] eqn:Y; [|apply nth_error_None in Y; lia]. rewrite (E0 y eq_refl). apply FY. apply (nth_error_In _ _ Y).
    - destruct (nth_error ys (S k)) as [y|] eqn:Y; [|apply nth_error_None in Y; lia]. rewrite (ES k y Y). specialize (IH ltac:(lia)). destruct (FY y (nth_error_In _ _ Y)) as [_ BY].
      apply Rabs_le_inv in IH. apply Rabs_le_inv in BY. apply Rabs_le. split; nra. }
  assert (KN : forall k, (k < length ys)%nat -> exists w, nth_error os k = Some (Some w) /\ finite64 w /\ (Rabs (val64 w - E k) <= drift M / val64 al)%R).
  { intros k K. destruct (EB k K) as (w & Y & FW & RW). destruct (nth_error os k) as [o|] eqn:O; [|apply nth_error_None in O; lia]. exists w. split; [|split; assumption].
    assert (Q : snd (y64 m (ema_tf deg m) (fun v => v) fuel src q (b64_ofZ (a + Z.of_nat k * h))) = Ok o).
    { eapply (watched_knot a h m ILinear (ema_tf deg m) (fun v => v) (ema_outs al None) (fun _ => True)); try eassumption; auto.
      - intros us. apply ema_outs_length.
      - intros us ws j. apply ema_outs_prefix.
      - intros us s _ S O'. apply (ema_tf_next a h m deg al us s ST WT S O').
      - rewrite map_length. exact SM.
      - rewrite map_length. exact L. }
    change (b64_ofZ (a + Z.of_nat k * h)) with (fnum (at_i a h k) 0) in Q. rewrite Y in Q. injection Q as <-. reflexivity. }
  destruct (KN i ltac:(lia)) as (w0 & O0 & F0 & R0). destruct (KN (S i) Li) as (w1 & O1 & F1 & R1).
  assert (W : forall w e, (Rabs (w - e) <= drift M / val64 al -> Rabs e <= M -> Rabs w <= 2 * M)%R).
  { intros w e P Q. unfold drift in P. apply Rabs_le_inv in P. apply Rabs_le_inv in Q. apply Rabs_le. lra. }
  pose proof (W _ _ R0 (BE i ltac:(lia))) as W0. pose proof (W _ _ R1 (BE (S i) Li)) as W1.
  destruct (watched_between a h m (ema_tf deg m) (fun v => v) (ema_outs al None) (fun _ => True)
    (fun us => ema_outs_length al us None) (fun us ws j => ema_outs_prefix al us ws None j) (fun us s _ S O' => ema_tf_next a h m deg al us s ST WT S O') (fun _ _ _ => I) ST
    (map Some ys) src q fuel i x w0 w1 (2 * M)) as (r & ER & FR & NR); try assumption; try (rewrite map_length; assumption); [exact I| |].
  { replace (bpow radix2 1020) with (2 * bpow radix2 1019)%R by (change 2%R with (bpow radix2 1); rewrite <- bpow_plus; reflexivity). lra. }
  exists r. split; [exact ER|]. split; [exact FR|].
  assert (HP : (0 < IZR h)%R) by (apply IZR_lt; apply SM).
  assert (T : (0 <= (val64 x - IZR (a + Z.of_nat i * h)) / IZR h <= 1)%R).
  { replace (IZR (a + Z.of_nat (S i) * h)) with (IZR (a + Z.of_nat i * h) + IZR h)%R in XB by (rewrite <- plus_IZR; f_equal; lia). split.
    - apply Rmult_le_pos; [lra|left; apply Rinv_0_lt_compat, HP].
    - apply Rmult_le_reg_r with (IZR h); [exact HP|]. unfold Rdiv. rewrite Rmult_assoc, Rinv_l by lra. lra. }
  apply Rle_trans with (1 := near_blend _ _ _ _ _ _ _ _ _ NR T R0 R1). unfold drift. apply Rplus_le_compat_l. unfold slack.
  assert (D : (Rabs (val64 w1 - val64 w0) <= 4 * M)%R) by (apply Rabs_le_inv in W0; apply Rabs_le_inv in W1; apply Rabs_le; lra).
  pose proof eps_pos as EP. pose proof (pos_INR i) as PI.
  assert ((2 * INR i + 3) * eps * Rabs (val64 w1 - val64 w0) <= (2 * INR i + 3) * eps * (4 * M))%R by (apply Rmult_le_compat_l; [nra|exact D]). lra.
Qed.
