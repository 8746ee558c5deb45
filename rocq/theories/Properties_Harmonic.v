(** * C65: the golden family of moving averages *)
From Coq Require Import List ZArith Reals Lra Lia.
From Flocq Require Import Core.
From Verif Require Import Base Harmonic HarmonicFacts.
Import ListNotations.
Open Scope R_scope.

(** The degrees are the base times 1, 2, 3, 4, 7, 11, ...: the Lucas numbers, [stride] of them skipped each time. *)
Theorem C65_degrees : forall (b : Z) (count stride : nat), (1 <= b)%Z ->
  harmonic_smas (IZR b) count (Z.of_nat stride) false =
  Ok (map (fun i => Points (b * gold_degree (i * (stride + 1)))) (seq 0 count)).
Proof. exact harmonic_points. Qed.
Print Assumptions C65_degrees.
Theorem C65_periods : forall (b : R) (count stride : nat), 0 < b ->
  harmonic_smas b count (Z.of_nat stride) true =
  Ok (map (fun i => Period (IZR (gold_degree (i * (stride + 1))) * b)) (seq 0 count)).
Proof. exact harmonic_periods. Qed.
Print Assumptions C65_periods.
Example C65_degrees_ex : harmonic_smas 5 5 1 false = Ok [Points 5; Points 15; Points 35; Points 90; Points 235].
Proof. exact (harmonic_points 5 5 1 ltac:(lia)). Qed.
Example C65_periods_ex : exists p q, harmonic_smas (1 / 2) 2 0 true = Ok [Period p; Period q] /\ p = 1 / 2 /\ q = 1.
Proof. do 2 eexists. split; [ exact (harmonic_periods (1 / 2) 2 0 ltac:(lra)) | ]. cbn. lra. Qed.

(** They are in proportion to the powers of the golden ratio, to within half of the base. *)
Theorem C65_golden : forall n,
  gold_degree n = match n with O => 1%Z | 1%nat => 2%Z | _ => lucas n end /\
  Rabs (golden ^ n - IZR (gold_degree n)) < / 2.
Proof. exact (fun n => conj eq_refl (gold_near n)). Qed.
Print Assumptions C65_golden.
Example C65_golden_ex : lucas 10 = 123%Z /\ Rabs (golden ^ 10 - 123) < / 2.
Proof. split; [ reflexivity | exact (gold_near 10) ]. Qed.

(** "from small to large" *)
Theorem C65_increasing : forall (base : R) count (stride : nat) (is_period : bool) smas,
  (if is_period then 0 < base else exists b, base = IZR b /\ (1 <= b)%Z) ->
  harmonic_smas base count (Z.of_nat stride) is_period = Ok smas ->
  forall i j a b, (i < j)%nat -> nth_error smas i = Some a -> nth_error smas j = Some b ->
  degree_of a < degree_of b.
Proof. exact harmonic_increasing. Qed.
Print Assumptions C65_increasing.
Example C65_increasing_ex : exists smas, harmonic_smas 5 4 1 false = Ok smas /\ nth_error smas 3 = Some (Points 90) /\
  degree_of (Points 15) < degree_of (Points 90).
Proof. eexists. split; [ exact (harmonic_points 5 4 1 ltac:(lia)) | ]. split; [ reflexivity | cbn; lra ]. Qed.

(** centered_macs builds the same averages, from large to small. *)
Theorem C65_centered : forall base count stride is_period smas,
  harmonic_smas base count stride is_period = Ok smas <-> centered_macs base count stride is_period = Ok (rev smas).
Proof. exact centered_reversed. Qed.
Print Assumptions C65_centered.
Example C65_centered_ex : centered_macs 5 3 1 false = Ok [Points 35; Points 15; Points 5].
Proof. apply (C65_centered 5 3 1 false [Points 5; Points 15; Points 35]). exact (harmonic_points 5 3 1 ltac:(lia)). Qed.

(** What it refuses: a base of zero, a base of less than one point, and a stride that counts back to no points. *)
Theorem C65_refuses : forall count is_period, (3 <= count)%nat ->
  (forall stride, harmonic_smas 0 count stride is_period = Err EZeroDiv) /\
  (forall base (stride : nat), 0 < base < 1 -> harmonic_smas base count (Z.of_nat stride) false = Err EExc) /\
  (forall base, base <> 0 -> exists e, harmonic_smas base count (-2) is_period = Err e).
Proof.
  exact (fun count p H => conj (fun s => harmonic_zero count s p (Nat.le_trans _ _ _ (le_S _ _ (le_S _ _ (le_n 1))) H))
    (conj (fun b s Hb => harmonic_fraction b count s Hb (Nat.le_trans _ _ _ (le_S _ _ (le_S _ _ (le_n 1))) H)) (fun b Hb => backwards_raises b count p Hb H))).
Qed.
Print Assumptions C65_refuses.
Example C65_refuses_ex : harmonic_smas (1 / 2) 3 1 false = Err EExc /\ harmonic_smas 0 3 1 true = Err EZeroDiv.
Proof. split; [ apply (harmonic_fraction (1 / 2) 3 1); [ lra | lia ] | apply harmonic_zero; lia ]. Qed.
