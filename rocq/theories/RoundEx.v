(** Concrete binary64 curves for C77. *)
From Coq Require Import List ZArith Reals Lia Lra Bool SpecFloat.
From Flocq Require Import Core BinarySingleNaN.
From Verif Require Import Base Num Interval Curve Points Combine Scan B64Facts GridFacts StepB64 IrregB64 ErrB64 InterpB64 AccB64 EmaB64 B64Ex.
Import ListNotations.
Open Scope Z_scope.

Lemma val_ofZ k : Z.abs k <= 2 ^ 53 -> finite64 (b64_ofZ k) /\ val64 (b64_ofZ k) = IZR k.
Proof.
  intros L. assert (F : fits k 0) by (split; lia). destruct (bnum_spec k 0 F) as (R1 & F1 & _). change (b64_ofZ k) with (fnum k 0). rewrite fnum_bnum.
  split; [split; [apply valid_binary_B2SF|rewrite is_finite_SF_B2SF; exact F1]|]. rewrite val_B2R, R1. apply dy0.
Qed.
Lemma lt_val x y : finite64 x -> finite64 y -> SFltb x y = true -> (val64 x < val64 y)%R.
Proof.
  intros A B L. destruct (real_of _ A) as (xb & -> & FX). destruct (real_of _ B) as (yb & -> & FY). rewrite ltb_val in L by assumption. rewrite !val_B2R.
  destruct (Rlt_bool_spec (B2R xb) (B2R yb)); [assumption|discriminate].
Qed.
Lemma big_bound k : Z.abs k <= 2 ^ 53 -> (IZR k <= bpow radix2 1020)%R.
Proof. intros L. apply Rle_trans with (bpow radix2 53); [change (bpow radix2 53) with (IZR (2 ^ 53)); apply IZR_le; lia|apply bpow_le; lia]. Qed.
Lemma abs_bound k n : Z.abs k <= 2 ^ 53 -> Z.abs k <= n -> (Rabs (val64 (b64_ofZ k)) <= IZR n)%R.
Proof. intros L M. rewrite (proj2 (val_ofZ k L)), <- abs_IZR. apply IZR_le, M. Qed.
Ltac fin := split; vm_compute; reflexivity.

(** irregular decimal positions *)
Definition irr3 : list (b64 * option b64) := [(tenth 1, bn 5); (tenth 2, bn 7); (tenth 5, bn 1)].
Lemma irr3_inc : increasing64 irr3.
Proof.
  split; [|split].
  - intros p [<-|[<-|[<-|[]]]]; vm_compute; auto.
  - intros [|[|[|i]]] p q P Q; cbn [nth_error irr3] in P, Q; try discriminate; try (destruct i; discriminate); try (injection P as <-; injection Q as <-; vm_compute; auto).
  - vm_compute. discriminate.
Qed.
Lemma irr3_uneven : p_eq (fst (fst (p_init irr3 ILinear false))) = false. Proof. vm_compute. reflexivity. Qed.
Lemma irr3_at : (val64 (tenth 2) < val64 (tenth 3) <= val64 (tenth 5))%R.
Proof. split; [|left]; apply lt_val; try fin; vm_compute; reflexivity. Qed.

(** a flat curve *)
Definition flat3 : pts b64 (option b64) := fst (fst (p_init [(b64_ofZ 0, bn 3); (b64_ofZ 1, bn 3)] ILinear true)).
Definition hundredth : b64 := SFdiv 53 1024 (b64_ofZ 1) (b64_ofZ 100).

(** an EMA with weight 1/4 over hourly points, queried, then the source is
    appended to, then queried again *)
Definition quarter : b64 := fnum 1 (-2).
Definition ema_src : pts b64 (option b64) := fst (fst (p_append_list sst (grid (1600000000 + 4 * 3600) 3600 0 [bn 2]))).
Definition ema_q1 : acc b64 (option b64) := fst (y64 n_minstep (ema_tf (EmaAlpha quarter) n_minstep) (fun v => v) 9 sst (acc_init ILinear true) (b64_ofZ 1600003600)).
Definition ema_q : acc b64 (option b64) := fst (fst (acc_events ema_q1 (snd (fst (p_append_list sst (grid (1600000000 + 4 * 3600) 3600 0 [bn 2])))))).
Definition ema_ys : list b64 := [b64_ofZ 5; b64_ofZ 7; b64_ofZ 1; b64_ofZ 9; b64_ofZ 2].
Lemma ema_watch : watch64 1600000000 3600 n_minstep ILinear (ema_tf (EmaAlpha quarter) n_minstep) (fun v => v) (map Some ema_ys) ema_src ema_q.
Proof.
  change (map Some ema_ys) with (secs ++ [bn 2]).
  apply (w64_append 1600000000 3600 n_minstep ILinear (ema_tf (EmaAlpha quarter) n_minstep) (fun v => v) secs [bn 2] sst ema_q1); [|discriminate].
  apply w64_query; [|vm_compute; reflexivity|vm_compute; auto with arith]. apply w64_new; [apply gr_init|discriminate].
Qed.
Lemma ema_small : grid_small 1600000000 3600 (length ema_ys). Proof. unfold grid_small; cbn; repeat split; discriminate. Qed.
Lemma quarter_val : finite64 quarter /\ val64 quarter = (/ 4)%R.
Proof. split; [fin|]. unfold quarter, val64. cbn. unfold F2R. cbn. lra. Qed.
Lemma ema_values : forall y, In y ema_ys -> finite64 y /\ (Rabs (val64 y) <= 9)%R.
Proof. intros y H. repeat (destruct H as [<-|H]; [split; [apply val_ofZ; lia|apply abs_bound; lia]|]). destruct H. Qed.
Lemma ema_drift : (drift 9 <= val64 quarter * 9)%R.
Proof. rewrite (proj2 quarter_val). pose proof eps_small. pose proof eps_pos. pose proof tiny_eps. unfold drift. assert (eps * eps <= eps)%R by nra. lra. Qed.
(** weight 1 and a large first value *)
Definition far_src : pts b64 (option b64) := fst (fst (p_init (grid 0 1 0 [bn 10000000000000000; bn 1]) ILinear true)).
Lemma init_interp (l : list (b64 * option b64)) : p_interp (fst (fst (p_init l ILinear false))) = ILinear.
Proof.
  unfold p_init, p_set. destruct (head_opt l), (last_opt l); unfold p_begin, p_finish, p_end;
    repeat match goal with |- context [begin_update ?u ?d] => destruct (begin_update u d) as [? ?] | |- context [points_equally_spaced ?a ?b ?c] => destruct (points_equally_spaced a b c) as [[]|?]
      | |- context [span_interval ?a] => destruct (span_interval a) | |- context [end_update ?u ?d] => destruct (end_update u d) as [? ?] end; reflexivity.
Qed.
Definition flat_v : b64 := Eval vm_compute in match p_y flat3 hundredth with Ok (Some v) => v | _ => b64_ofZ 3 end.
Lemma flat3_below : p_y flat3 hundredth = Ok (Some flat_v) /\ n_ltb flat_v (b64_ofZ 3) = true. Proof. split; vm_compute; reflexivity. Qed.
Definition far_v : b64 := Eval vm_compute in
  match snd (y64 n_minstep (ema_tf (EmaAlpha (b64_ofZ 1)) n_minstep) (fun v => v) 9 far_src (acc_init ILinear true) (b64_ofZ 1)) with Ok (Some v) => v | _ => b64_ofZ 3 end.
Lemma far_below : snd (y64 n_minstep (ema_tf (EmaAlpha (b64_ofZ 1)) n_minstep) (fun v => v) 9 far_src (acc_init ILinear true) (b64_ofZ 1)) = Ok (Some far_v) /\ n_ltb far_v (b64_ofZ 1) = true.
Proof. split; vm_compute; reflexivity. Qed.
