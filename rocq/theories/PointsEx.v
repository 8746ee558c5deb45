(** Concrete Points objects used as non-vacuity examples. *)
From Coq Require Import List ZArith QArith Qcanon Bool.
From Verif Require Import Base Num NumFacts Interval IntervalFacts Curve Points PointsSpec PointsQuery PointsOps PointsDec PointsHist PointsRefute PointsTop.
Import ListNotations.

(** uniform=True: xs 0 1 2 then append 3 *)
Definition ex_u0 : npts := st (p_init l012 ILinear true).
Definition ex_u : npts := st (p_append ex_u0 (fz 3, nv 9)).
(** uniform=False: xs 0 1 4, read, then append 5 *)
Definition l014 := [(fz 0, nv 5); (fz 1, nv 7); (fz 4, nv 2)].
Definition ex_n0 : npts := st (p_init l014 IPrevious false).
Definition ex_n : npts := st (p_append (p_touch ex_n0) (fz 5, nv 11)).

Lemma ex_u0_hist : uniform_history ex_u0.
Proof.
  apply uh_init with (l := l012) (ip := ILinear) (evs := evs_of (p_init l012 ILinear true)).
  - apply ascb_sound; vm_compute; reflexivity.
  - apply (eqsb_sound _ (QcofZ 0) (QcofZ 1)); vm_compute; reflexivity.
  - reflexivity.
Qed.
Lemma pair3 {A B} (o : A * B * res unit) : snd o = Ok tt -> o = (fst (fst o), snd (fst o), Ok tt).
Proof. destruct o as [[? ?] ?]; simpl. congruence. Qed.

Lemma ex_u_hist : uniform_history ex_u.
Proof.
  apply (uh_op ex_u0 (OAppend (QcofZ 3) (nv 9)) ex_u (evs_of (p_append ex_u0 (fz 3, nv 9))) ex_u0_hist I I).
  unfold run_op, ex_u, st, evs_of, fz. apply pair3. vm_compute. reflexivity.
Qed.
Lemma ex_u_honest : honest_history ex_u.
Proof. exact (uniform_honest _ ex_u_hist). Qed.

Lemma ex_n0_hist : honest_history ex_n0.
Proof.
  apply hh_init with (l := l014) (ip := IPrevious) (u := false) (evs := evs_of (p_init l014 IPrevious false)).
  - apply ascb_sound; vm_compute; reflexivity.
  - unfold ex_n0, st, evs_of. apply pair3. vm_compute. reflexivity.
  - intros H. exfalso. vm_compute in H. discriminate.
Qed.
Lemma ex_n_hist : honest_history ex_n.
Proof.
  apply (hh_op (p_touch ex_n0) (OAppend (QcofZ 5) (nv 11)) ex_n (evs_of (p_append (p_touch ex_n0) (fz 5, nv 11)))).
  - apply hh_read, ex_n0_hist.
  - exact I.
  - unfold run_op, ex_n, st, evs_of, fz. apply pair3. vm_compute. reflexivity.
  - intros H. exfalso. vm_compute in H. discriminate.
Qed.

Lemma ex_u_pts : p_pts ex_u = l012 ++ [(fz 3, nv 9)].
Proof. vm_compute. reflexivity. Qed.
Lemma ex_n_pts : p_pts ex_n = l014 ++ [(fz 5, nv 11)].
Proof. vm_compute. reflexivity. Qed.
