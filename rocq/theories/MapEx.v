(** Examples for C82. *)
From Coq Require Import List ZArith Reals Lia Lra Bool SpecFloat.
From Flocq Require Import Core.
From Verif Require Import Base Num Interval Curve Points Combine Scan B64Facts GridFacts StepB64 IrregB64 ErrB64 InterpB64 AccB64 EmaB64 MapB64 B64Ex RoundEx.
Import ListNotations.
Open Scope Z_scope.

(** the extreme of the last two hourly points: queried, the source appended to,
    then queried again *)
Notation two_tf mx := (map_tf64 n_minstep 2 (sel64 mx) 9).
Definition two_q1 (mx : bool) : acc b64 (option b64) := fst (y64 n_minstep (two_tf mx) (fun v => v) 9 sst (acc_init ILinear true) (b64_ofZ 1600003600)).
Definition two_q (mx : bool) : acc b64 (option b64) := fst (fst (acc_events (two_q1 mx) (snd (fst (p_append_list sst (grid (1600000000 + 4 * 3600) 3600 0 [bn 2])))))).
Lemma two_watch mx : watch64 1600000000 3600 n_minstep ILinear (two_tf mx) (fun v => v) (map Some ema_ys) ema_src (two_q mx).
Proof.
  change (map Some ema_ys) with (secs ++ [bn 2]).
  apply (w64_append 1600000000 3600 n_minstep ILinear (two_tf mx) (fun v => v) secs [bn 2] sst (two_q1 mx)); [|discriminate].
  unfold two_q1. apply w64_query; [apply w64_new; [apply gr_init|discriminate]|reflexivity|cbn; lia].
Qed.
Lemma ys_finite : Forall finite64 ema_ys.
Proof. apply Forall_forall. intros y I. exact (proj1 (ema_values y I)). Qed.
Lemma ys_bounded : forall y, In y ema_ys -> (Rabs (val64 y) <= 9)%R.
Proof. intros y I. exact (proj2 (ema_values y I)). Qed.

(** a value that is not a number *)
Definition nan_vs : list (option b64) := [bn 5; Some S754_nan; bn 1].
Definition nan_src : pts b64 (option b64) := fst (fst (p_init (grid 0 1 0 nan_vs) ILinear true)).
Lemma nan_watch : watch64 0 1 n_minstep ILinear (two_tf true) (fun v => v) nan_vs nan_src (acc_init ILinear true).
Proof. apply w64_new; [apply gr_init|discriminate]. Qed.
Lemma nan_at_1 : snd (y64 n_minstep (two_tf true) (fun v => v) 9 nan_src (acc_init ILinear true) (b64_ofZ 1)) = Ok (Some S754_nan).
Proof. vm_compute. reflexivity. Qed.
Lemma nan_at_2 : snd (y64 n_minstep (two_tf true) (fun v => v) 9 nan_src (acc_init ILinear true) (b64_ofZ 2)) = Ok (bn 1).
Proof. vm_compute. reflexivity. Qed.
(** a point without a value *)
Definition gap_vs : list (option b64) := [bn 5; None; bn 1].
Definition gap_src : pts b64 (option b64) := fst (fst (p_init (grid 0 1 0 gap_vs) ILinear true)).
Lemma gap_watch mx : watch64 0 1 n_minstep ILinear (two_tf mx) (fun v => v) gap_vs gap_src (acc_init ILinear true).
Proof. apply w64_new; [apply gr_init|discriminate]. Qed.
