(** Concrete binary64 curves. *)
From Coq Require Import List ZArith Bool SpecFloat.
From Verif Require Import Base Num Interval Curve Points B64Facts GridFacts StepB64 IrregB64.
Import ListNotations.
Open Scope Z_scope.

Definition bn (k : Z) : option b64 := Some (b64_ofZ k).
Definition quarters : list (option b64) := [bn 5; bn 7; None; bn 1; bn 9].
Definition qst : pts b64 (option b64) := fst (fst (p_replace (fst (fst (p_append_list
  (fst (fst (p_init (grid 3 2 (-3) [bn 5; bn 7; None]) ILinear true))) (grid 9 2 (-3) [bn 1; bn 2])))) (fnum 11 (-3), bn 9) false)).
Lemma qst_run : grid_run 3 2 (-3) quarters qst.
Proof.
  apply (gr_replace 3 2 (-3) [bn 5; bn 7; None; bn 1; bn 2] _ 4 (bn 9) false); [|cbn; auto with arith].
  apply (gr_append 3 2 (-3) [bn 5; bn 7; None] [bn 1; bn 2]). apply gr_init.
Qed.
Lemma qst_fits : grid_fits 3 2 (-3) (length quarters).
Proof. unfold grid_fits; cbn; repeat split; discriminate. Qed.
(** hourly positions in seconds since 1970 *)
Definition secs : list (option b64) := [bn 5; bn 7; bn 1; bn 9].
Definition sst : pts b64 (option b64) := fst (fst (p_init (grid 1600000000 3600 0 secs) ILinear true)).
Lemma sst_small : grid_small 1600000000 3600 (length secs).
Proof. unfold grid_small; cbn; repeat split; discriminate. Qed.
Lemma default_step_ok : step_ok 3600 n_minstep.
Proof. vm_compute. auto. Qed.
(** the same in milliseconds *)
Definition mst : pts b64 (option b64) := fst (fst (p_init (grid 1600000000000 3600000 0 secs) ILinear true)).
Lemma mst_fits : grid_fits 1600000000000 3600000 0 (length secs).
Proof. unfold grid_fits; cbn; repeat split; discriminate. Qed.
(** irregular decimal positions 0.1, 0.2, 0.5, 0.7 *)
Definition tenth (k : Z) : b64 := SFdiv 53 1024 (b64_ofZ k) (b64_ofZ 10).
Definition irr : list (b64 * option b64) := [(tenth 1, bn 5); (tenth 2, bn 7); (tenth 5, None); (tenth 7, bn 1)].
Lemma irr_inc : increasing64 irr.
Proof.
  split; [|split].
  - intros p [<-|[<-|[<-|[<-|[]]]]]; vm_compute; auto.
  - intros [|[|[|[|i]]]] p q P Q; cbn [nth_error irr] in P, Q; try discriminate; try (injection P as <-; injection Q as <-; vm_compute; auto).
  - vm_compute. discriminate.
Qed.
Lemma irr_not_uniform : p_eq (fst (fst (p_init irr ILinear false))) = false.
Proof. vm_compute. reflexivity. Qed.

(** the base-class sampling algorithm on the millisecond grid *)
Lemma ms_sampling_raises : forall fuel, sample_points (S fuel) (p_crv mst) None (Some n_minstep) None = Err EExc.
Proof. intros fuel. vm_compute. reflexivity. Qed.
Lemma s_sampling : sample_points 10 (p_crv sst) None (Some n_minstep) None = Ok (p_pts sst).
Proof. vm_compute. reflexivity. Qed.
