(** Slopes in binary64: examples. *)
From Coq Require Import List ZArith Reals Lia Lra Bool SpecFloat.
From Flocq Require Import Core.
From Verif Require Import Base Num Interval Curve Points Combine B64Facts GridFacts StepB64 IrregB64 ErrB64 B64Ex RoundEx SumEx SlopeB64.
Import ListNotations.
Open Scope Z_scope.

(* hourly values in seconds since 1970, one missing *)
Definition hours : list (option b64) := [bn 5; bn 7; bn 1; None; bn 9].
Definition hourly : pts b64 (option b64) := fst (fst (p_init (grid 1600000000 3600 0 hours) ILinear true)).
Lemma hours_small : grid_small 1600000000 3600 (length hours). Proof. unfold grid_small. cbn [length hours]. lia. Qed.
Lemma plain_ofZ k : Z.abs k <= 2 ^ 53 -> plain (b64_ofZ k).
Proof.
  intros L. split; [apply val_ofZ; exact L|]. apply Rle_trans with (1 := abs_bound k (2 ^ 53) L L). change (2 ^ 53) with (radix2 ^ 53). rewrite IZR_Zpower by lia. apply bpow_le. lia.
Qed.
Lemma hours_plain v : In (Some v) hours -> plain v.
Proof. cbn [hours In]. unfold bn. intros [E|[E|[E|[E|[E|[]]]]]]; try discriminate; apply (f_equal (fun o => match o with Some z => z | None => v end)) in E; cbv beta iota in E; rewrite <- E; apply plain_ofZ; lia. Qed.
(* from 3 up to the next double above 3 *)
Definition above3 : b64 := fnum (3 * 2 ^ 51 + 1) (-51).
Definition uphill : pts b64 (option b64) := fst (fst (p_init [(b64_ofZ 0, bn 3); (b64_ofZ 1, Some above3)] ILinear true)).
Definition uphill_r : b64 := Eval vm_compute in match d_y (p_crv uphill) hundredth false (Some n_minstep) None with Ok (Some r) => r | _ => b64_ofZ 0 end.
Lemma uphill_falls : n_ltb (b64_ofZ 3) above3 = true /\ d_y (p_crv uphill) hundredth false (Some n_minstep) None = Ok (Some uphill_r) /\ n_ltb uphill_r (b64_ofZ 0) = true.
Proof. split; [|split]; vm_compute; reflexivity. Qed.
Definition level_r : b64 := Eval vm_compute in match d_y (p_crv flat3) hundredth true (Some n_minstep) None with Ok (Some r) => r | _ => b64_ofZ 0 end.
Lemma level_climbs : d_y (p_crv flat3) hundredth true (Some n_minstep) None = Ok (Some level_r) /\ n_ltb (b64_ofZ 0) level_r = true.
Proof. split; vm_compute; reflexivity. Qed.
Lemma two_of {V} i (l : list V) : (S i < length l)%nat -> (2 <= length l)%nat. Proof. lia. Qed.
Lemma one_ok : step_ok 3600 (b64_ofZ 1). Proof. split; [|split]; vm_compute; reflexivity. Qed.
