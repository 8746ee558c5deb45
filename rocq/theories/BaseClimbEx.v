(** A hill and its mirror image, for the searches of the base class. *)
From Coq Require Import List ZArith QArith Qcanon Bool Lia.
From Verif Require Import Base Num NumFacts Interval Curve Points PointsSpec PointsDec PointsHist PointsRefute PointsTop PointsEx BaseTop BaseOpt BaseEx BaseClimb.
Import ListNotations.

(* 0 2 5 6 1 0 *)
Definition hill : npts := st (p_init [(fz 0, nv 0); (fz 1, nv 2); (fz 2, nv 5); (fz 3, nv 6); (fz 4, nv 1); (fz 5, nv 0)] ILinear true).
Definition up_hill (i : nat) : Qc := QcofZ (1 + Z.of_nat i).
Definition dip : npts := st (p_init [(fz 0, nv 9); (fz 1, nv 4); (fz 2, nv 2); (fz 3, nv 1); (fz 4, nv 8); (fz 5, nv 9)] ILinear true).
Ltac opt := apply is_opt_eq; vm_compute; reflexivity.
Ltac slope_at a b := exists (QcofZ a), (QcofZ b); split; [split; [eexists; vm_compute; reflexivity|split; opt]|split; vm_compute; reflexivity].
Lemma hill_climbs : (forall i, (i < 2)%nat -> goes (p_crv hill) (Some MIN_STEP) None true (up_hill i) (up_hill (S i)) /\
    exists d0 d1, slopes (p_crv hill) (up_hill i) d0 d1 /\ (0 < d0 /\ 0 < d1)%Qc) /\
  (exists d0 d1, slopes (p_crv hill) (up_hill 2) d0 d1 /\ (0 < d0)%Qc /\ (d1 < 0)%Qc) /\ maximise 9 (p_crv hill) (fz 1) (Some MIN_STEP) None = Ok (Some (fz 3)).
Proof.
  split; [|split; [slope_at 1%Z (-5)%Z|opt]]. intros i I. destruct i as [|[|i]]; [| |lia].
  - split; [unfold goes; opt|]. slope_at 2%Z 3%Z.
  - split; [unfold goes; opt|]. slope_at 3%Z 1%Z.
Qed.
Lemma dip_descends : (forall i, (i < 2)%nat -> goes (p_crv dip) (Some MIN_STEP) None true (up_hill i) (up_hill (S i)) /\
    exists d0 d1, slopes (p_crv dip) (up_hill i) d0 d1 /\ (d0 < 0 /\ d1 < 0)%Qc) /\
  (exists d0 d1, slopes (p_crv dip) (up_hill 2) d0 d1 /\ (d0 < 0)%Qc /\ (0 < d1)%Qc) /\ minimise 9 (p_crv dip) (fz 1) (Some MIN_STEP) None = Ok (Some (fz 3)).
Proof.
  split; [|split; [slope_at (-1)%Z 7%Z|opt]]. intros i I. destruct i as [|[|i]]; [| |lia].
  - split; [unfold goes; opt|]. slope_at (-5)%Z (-2)%Z.
  - split; [unfold goes; opt|]. slope_at (-2)%Z (-1)%Z.
Qed.
