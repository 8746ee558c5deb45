(** Straight lines in binary64: examples. *)
From Coq Require Import List ZArith Reals Lia Lra Bool SpecFloat.
From Flocq Require Import Core.
From Verif Require Import Base Num Interval Curve Combine B64Facts GridFacts StepB64 IrregB64 ErrB64 B64Ex RoundEx SumEx LineB64.
Import ListNotations.
Open Scope Z_scope.

Lemma small300 k : Z.abs k <= 2 ^ 53 -> (Rabs (val64 (b64_ofZ k)) <= bpow radix2 300)%R.
Proof.
  intros L. apply Rle_trans with (1 := abs_bound k (2 ^ 53) L L). change (2 ^ 53) with (radix2 ^ 53). rewrite IZR_Zpower by lia. apply bpow_le. lia.
Qed.
Lemma whole_points a b c d : Z.abs a <= 2 ^ 52 -> Z.abs b <= 2 ^ 52 -> Z.abs c <= 2 ^ 52 -> Z.abs d <= 2 ^ 52 -> a <> c -> two_points (b64_ofZ a) (b64_ofZ b) (b64_ofZ c) (b64_ofZ d).
Proof.
  intros A B C D N. unfold two_points. repeat split; try (apply val_ofZ; lia); try (apply small300; lia).
  rewrite !whole_val by lia. rewrite <- minus_IZR, <- abs_IZR. apply Rle_trans with 1%R; [|apply IZR_le; lia]. change 1%R with (bpow radix2 0). apply bpow_le. lia.
Qed.
(* the line through two points with whole coordinates *)
Definition through (a b c d : Z) : line b64 :=
  match line_args None None (Some (b64_ofZ a, b64_ofZ b)) (Some (b64_ofZ c, b64_ofZ d)) None with Ok l => l | Err _ => mkL n_zero n_zero n_zero end.
Lemma through_sound a b c d : Z.abs a <= 2 ^ 52 -> Z.abs b <= 2 ^ 52 -> Z.abs c <= 2 ^ 52 -> Z.abs d <= 2 ^ 52 -> a <> c -> sound_line (through a b c d).
Proof. intros A B C D N. destruct (two_line _ _ _ _ (whole_points a b c d A B C D N)) as (l & E & S & _). unfold through. rewrite E. exact S. Qed.
Lemma misses : line_y (through 0 0 7 29) (b64_ofZ 7) = b64_ofZ 29 -> False. Proof. vm_compute. discriminate. Qed.
Lemma overshoots : SFltb (b64_ofZ 29) (line_y (through 0 0 7 29) (b64_ofZ 7)) = true. Proof. vm_compute. reflexivity. Qed.
(* the line through (0, 1) and (1, 1 + 2^-52) *)
Definition shallow : line b64 := mkL (b64_ofZ 0) (b64_ofZ 1) (fnum 1 (-52)).
Lemma shallow_back : line_x shallow (line_y shallow (tenth 6)) = Ok (b64_ofZ 1). Proof. vm_compute. reflexivity. Qed.
(* y = x - 1600000000 *)
Definition rising : line b64 := through 1600000000 0 1600000001 1.
Lemma rising_area : line_args None None (Some (b64_ofZ 1600000000, b64_ofZ 0)) (Some (b64_ofZ 1600000001, b64_ofZ 1)) None = Ok rising /\ line_y rising (b64_ofZ 1600000010) = b64_ofZ 10 /\
  line_partial_integration (fnum 1 (-1)) rising (b64_ofZ 1600000000) (b64_ofZ 1600000010) = b64_ofZ 0.
Proof. split; [|split]; vm_compute; reflexivity. Qed.
