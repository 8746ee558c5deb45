(** Concrete integrals in binary64 for C79. *)
From Coq Require Import List ZArith Reals Lia Lra Bool SpecFloat.
From Flocq Require Import Core BinarySingleNaN.
From Verif Require Import Base Num Interval Curve Points Combine Scan B64Facts GridFacts StepB64 IrregB64 ErrB64 InterpB64 AccB64 EmaB64 IntB64 IntSumB64 B64Ex RoundEx.
Import ListNotations.
Open Scope Z_scope.

(** minutes from 120 on; the integral is queried, the source is appended to *)
Definition min_zs : list Z := [5; 7; 1; 9].
Definition min_ys : list b64 := map b64_ofZ min_zs.
Definition min_src0 : pts b64 (option b64) := fst (fst (p_init (grid 120 60 0 [bn 5; bn 7; bn 1]) ILinear true)).
Definition min_app := p_append_list min_src0 (grid (120 + 3 * 60) 60 0 [bn 9]).
Definition min_src : pts b64 (option b64) := fst (fst min_app).
Definition min_q1 (ip : interp) : acc b64 (option b64) := fst (y64 n_minstep (int_tf ip) (integral_post (b64_ofZ 10)) 9 min_src0 (acc_init ILinear true) (b64_ofZ 200)).
Definition min_q (ip : interp) : acc b64 (option b64) := fst (fst (acc_events (min_q1 ip) (snd (fst min_app)))).
Lemma min_step : step_ok 60 n_minstep. Proof. apply minstep_ok. lia. Qed.
Lemma min_small : grid_small 120 60 4. Proof. unfold grid_small; cbn; repeat split; discriminate. Qed.
Lemma min_watch ip : watch64 120 60 n_minstep ILinear (int_tf ip) (integral_post (b64_ofZ 10)) [bn 5; bn 7; bn 1; bn 9] min_src (min_q ip).
Proof.
  unfold min_src, min_q, min_app. change [bn 5; bn 7; bn 1; bn 9] with ([bn 5; bn 7; bn 1] ++ [bn 9]). apply (w64_append 120 60 n_minstep ILinear (int_tf ip) (integral_post (b64_ofZ 10)) [bn 5; bn 7; bn 1] [bn 9] min_src0 (min_q1 ip)); [|discriminate].
  unfold min_q1. apply w64_query; [|vm_compute; reflexivity|cbn [length]; lia]. unfold min_src0. apply w64_new; [apply gr_init|discriminate].
Qed.
Lemma min_values : forall y, In y min_ys -> finite64 y /\ (Rabs (val64 y) <= 9)%R.
Proof. intros y H. repeat (destruct H as [<-|H]; [split; [apply val_ofZ; lia|apply abs_bound; lia]|]). destruct H. Qed.
Lemma small_bound k : Z.abs k <= 2 ^ 53 -> (IZR k <= bpow radix2 800)%R.
Proof. intros L. apply Rle_trans with (bpow radix2 53); [change (bpow radix2 53) with (IZR (2 ^ 53)); apply IZR_le; lia|apply bpow_le; lia]. Qed.
(** two seconds of unix time *)
Definition late_src : pts b64 (option b64) := fst (fst (p_init (grid 1600000003 1 0 [bn 0; bn 1000]) ILinear true)).
Definition late_v : b64 := Eval vm_compute in
  match snd (y64 n_minstep (int_tf ILinear) (integral_post (b64_ofZ 0)) 9 late_src (acc_init ILinear true) (b64_ofZ 1600000004)) with Ok (Some v) => v | _ => b64_ofZ 1 end.
Lemma late_neg : snd (y64 n_minstep (int_tf ILinear) (integral_post (b64_ofZ 0)) 9 late_src (acc_init ILinear true) (b64_ofZ 1600000004)) = Ok (Some late_v) /\
  n_ltb late_v (b64_ofZ (-200000)) = true.
Proof. split; vm_compute; reflexivity. Qed.
(** the simple moving average of two points *)
Definition late_sma : b64 := S754_finite true 4503599627370496 (-34).
Lemma late_sma_neg : snd (sma_y 5 9 half64 (p_crv late_src) (Some n_minstep) (SmaDegree 2) (acc_init ILinear true) (b64_ofZ 1600000004)) = Ok (Some late_sma) /\
  n_ltb late_sma (b64_ofZ (-200000)) = true.
Proof. split; vm_compute; reflexivity. Qed.
(** between the second and the third point *)
Lemma min_size : (INR 2 * (IZR 60 * 9 + (644 * eps * (9 * (IZR (Z.abs 120 + Z.of_nat (length min_ys - 1) * 60) * IZR (Z.abs 120 + Z.of_nat (length min_ys - 1) * 60)) / IZR 60)
    + 40 * (tiny * (IZR (Z.abs 120 + Z.of_nat (length min_ys - 1) * 60) * IZR (Z.abs 120 + Z.of_nat (length min_ys - 1) * 60))))) <= bpow radix2 1020)%R.
Proof.
  change (Z.abs 120 + Z.of_nat (length min_ys - 1) * 60) with 300. pose proof eps_small as ES. pose proof eps_pos as EP. pose proof tiny_eps as TE. assert (EE : (eps * eps <= / 1024)%R) by nra.
  apply Rle_trans with (IZR (2 ^ 50)); [change (INR 2) with 2%R; change (2 ^ 50) with 1125899906842624; lra|]. change (IZR (2 ^ 50)) with (bpow radix2 50). apply bpow_le. lia.
Qed.
Lemma min_inside : (IZR (120 + Z.of_nat 1 * 60) < val64 (b64_ofZ 210) <= IZR (120 + Z.of_nat 2 * 60))%R.
Proof. rewrite (proj2 (val_ofZ 210 ltac:(lia))). cbn. lra. Qed.
