(** Concrete curves in binary64 for C80. *)
From Coq Require Import List ZArith Reals Lia Lra Bool SpecFloat.
From Flocq Require Import Core BinarySingleNaN.
From Verif Require Import Base Num Interval Curve Points Combine B64Facts GridFacts StepB64 IrregB64 ErrB64 B64Ex RoundEx SumB64 SumErrB64 ProdB64.
Import ListNotations.
Open Scope Z_scope.
Definition k64 (a : b64) : crv b64 (option b64) := constant_curve a None.
(** on a bounded domain *)
Definition on64 (a b : Z) (v : Z) : crv b64 (option b64) := constant_curve (b64_ofZ v) (Some (mkI (b64_ofZ a) (b64_ofZ b) false true)).
Definition three64 : list (crv b64 (option b64)) := [on64 0 10 7; on64 2 20 (-3); k64 (b64_ofZ 5)].
Definition gap64 : crv b64 (option b64) := map_curve false n_zero (fun _ _ => Ok None) (k64 (b64_ofZ 3)).
Definition ys64 : list b64 := [b64_ofZ 7; b64_ofZ (-3); b64_ofZ 5].
Lemma three_doms : Forall (fun f => ival64 (c_dom f)) three64.
Proof. repeat constructor; try reflexivity; discriminate. Qed.
Lemma num_at k : Z.abs k <= 2 ^ 53 -> number64 (b64_ofZ k). Proof. intros L. apply finite_number, val_ofZ, L. Qed.
Lemma three_values : Forall2 (fun f y => i_contains (c_dom f) (b64_ofZ 4) = true /\ c_y f (b64_ofZ 4) = Ok (Some y)) three64 ys64.
Proof. repeat constructor; vm_compute; reflexivity. Qed.
Lemma whole_val k : Z.abs k <= 2 ^ 53 -> val64 (b64_ofZ k) = IZR k. Proof. intros L. apply val_ofZ, L. Qed.
Lemma ys_vals : map val64 ys64 = [7; -3; 5]%R.
Proof. unfold ys64. cbn [map]. rewrite !whole_val by lia. reflexivity. Qed.
Lemma ys_finite : Forall finite64 ys64. Proof. repeat constructor; apply val_ofZ; lia. Qed.
Lemma ys_sizes : sizes ys64 = 15%R.
Proof. unfold sizes. rewrite <- (map_map val64 Rabs), ys_vals. cbn. rewrite (Rabs_pos_eq 7), (Rabs_pos_eq 5), (Rabs_left (-3)) by lra. lra. Qed.
Lemma mod_int k : 0 < Z.abs k <= 2 ^ 53 -> moderate (IZR k).
Proof.
  intros L. unfold moderate. rewrite <- abs_IZR. split.
  - apply Rle_trans with 1%R; [change 1%R with (bpow radix2 0); apply bpow_le; lia|apply IZR_le; lia].
  - apply Rle_trans with (bpow radix2 53); [change (bpow radix2 53) with (IZR (2 ^ 53)); apply IZR_le; lia|apply bpow_le; lia].
Qed.
Lemma ys_nonzero : Forall (fun y => finite64 y /\ val64 y <> 0%R) ys64.
Proof. repeat constructor; try (apply val_ofZ; lia); rewrite whole_val by lia; lra. Qed.
Lemma ys_moderate j : (1 <= j <= length ys64)%nat -> moderate (rprod (map val64 (firstn j ys64))).
Proof.
  intros L. rewrite <- firstn_map, ys_vals. destruct j as [|[|[|[|j]]]]; cbn in L; try lia; cbn.
  - replace (7 * 1)%R with 7%R by lra. apply mod_int. lia.
  - replace (7 * (-3 * 1))%R with (-21)%R by lra. apply mod_int. lia.
  - replace (7 * (-3 * (5 * 1)))%R with (-105)%R by lra. apply mod_int. lia.
Qed.
(** 0.1, 0.2 and 0.3 in two orders *)
Lemma order_matters64 : c_y (add_many [k64 (tenth 1); k64 (tenth 2); k64 (tenth 3)]) (b64_ofZ 0) <> c_y (add_many [k64 (tenth 3); k64 (tenth 2); k64 (tenth 1)]) (b64_ofZ 0).
Proof. vm_compute. discriminate. Qed.
(** 1 + 10^16 - 10^16 *)
Lemma back_again : c_y (subtract_many [add_many [k64 (b64_ofZ 1); k64 (b64_ofZ 10000000000000000)]; k64 (b64_ofZ 10000000000000000)]) (b64_ofZ 0) = Ok (Some (b64_ofZ 0)).
Proof. vm_compute. reflexivity. Qed.
