(** Concrete histories on which Points does not do what its callers expect. *)
From Coq Require Import List ZArith QArith Qcanon Bool Lia Lqa Floats.SpecFloat Sorting.Sorted.
From Verif Require Import Base Num NumFacts Interval IntervalFacts Curve Points PointsSpec PointsQuery PointsOps PointsDec PointsHist.
Import ListNotations.

Definition npts := pts xq (option xq).
Definition st {A} (o : out xq (option xq) A) : npts := fst (fst o).
Definition rs {A} (o : out xq (option xq) A) : res A := snd o.
Definition evs_of {A} (o : out xq (option xq) A) : list (ev xq) := snd (fst o).

(** uniform=True accepts an irregular list whose last x fits, and then misreads it. *)
Definition l_bad := [(fz 0, nv 0); (fz 1, nv 10); (fr 3 2, nv 20); (fz 3, nv 30)].
Lemma uniform_accepts_irregular : exists (l : list (xq * option xq)) (q : Qc) (y w : option xq),
  ascending l /\ ~ equally_spaced l /\ rs (p_init l ILinear true) = Ok tt /\
  In (Fin q, y) l /\ p_y (st (p_init l ILinear true)) (Fin q) = Ok w /\ w <> y.
Proof.
  exists l_bad, (QcofZ 3 / QcofZ 2)%Qc, (nv 20), (nv 15). split; [apply ascb_sound; vm_compute; reflexivity|].
  split; [eapply not_equally; try reflexivity; vm_compute; discriminate|].
  split; [vm_compute; reflexivity|].
  split; [right; right; left; reflexivity|].
  split; [apply is_val_eq; vm_compute; reflexivity|].
  intros H. injection H as H. vm_compute in H. discriminate.
Qed.

(** The same with uniform=False: the flag turns true although the spacing is not equal. *)
Definition l_irr := [(fz 0, nv 0); (fz 1, nv 10); (fz 3, nv 20)].
Definition s_irr := st (p_init l_irr ILinear false).
Lemma nonuniform_flag_flips : exists (l : list (xq * option xq)) (p : Qc) (v : option xq) (q : Qc) (y w : option xq),
  ascending l /\ rs (p_init l ILinear false) = Ok tt /\
  let s := st (p_init l ILinear false) in
  p_uniform s = false /\ rs (p_append s (Fin p, v)) = Ok tt /\
  let s' := st (p_append s (Fin p, v)) in
  p_uniform s' = true /\ ~ equally_spaced (p_pts s') /\ In (Fin q, y) (p_pts s') /\ p_y s' (Fin q) = Ok w /\ w <> y.
Proof.
  exists l_irr, (QcofZ 9 / QcofZ 2)%Qc, (nv 30), (QcofZ 1), (nv 10), (Some (fr 20 3)).
  split; [apply ascb_sound; vm_compute; reflexivity|].
  split; [vm_compute; reflexivity|]. split; [vm_compute; reflexivity|]. split; [vm_compute; reflexivity|].
  split; [vm_compute; reflexivity|].
  replace (p_pts (st (p_append (st (p_init l_irr ILinear false)) (Fin (QcofZ 9 / QcofZ 2)%Qc, nv 30))))
    with (l_irr ++ [(Fin (QcofZ 9 / QcofZ 2)%Qc, nv 30)]) by (vm_compute; reflexivity).
  split; [eapply not_equally; try reflexivity; vm_compute; discriminate|].
  split; [right; left; reflexivity|].
  split; [apply is_val_eq; vm_compute; reflexivity|].
  intros H. injection H as H. vm_compute in H. discriminate.
Qed.

(** set on a curve that already has two points refuses a list with another step. *)
Definition l01 := [(fz 0, nv 1); (fz 1, nv 2)].
Definition l024 := [(fz 0, nv 1); (fz 2, nv 2); (fz 4, nv 3)].
Lemma set_uses_old_interval : exists (l l' : list (xq * option xq)),
  ascending l /\ equally_spaced l /\ ascending l' /\ equally_spaced l' /\
  rs (p_init l ILinear true) = Ok tt /\ rs (p_init l' ILinear true) = Ok tt /\
  rs (p_set (st (p_init l ILinear true)) l' None) = Err EExc.
Proof.
  exists l01, l024.
  split; [apply ascb_sound; vm_compute; reflexivity|].
  split; [apply (eqsb_sound _ (QcofZ 0) (QcofZ 1)); vm_compute; reflexivity|].
  split; [apply ascb_sound; vm_compute; reflexivity|].
  split; [apply (eqsb_sound _ (QcofZ 0) (QcofZ 2)); vm_compute; reflexivity|].
  repeat split; vm_compute; reflexivity.
Qed.

(** A rejected append leaves the update pending; the next accepted append is then
    not announced and not readable. *)
Definition s01 := st (p_init l01 ILinear true).
Lemma rejected_append_poisons : exists (s : npts) (x1 x2 : Qc) (v1 v2 : option xq),
  good s /\ rs (p_append s (Fin x1, v1)) = Err EExc /\
  let s1 := st (p_append s (Fin x1, v1)) in
  is_updating (p_upd s1) = true /\
  rs (p_append s1 (Fin x2, v2)) = Ok tt /\
  let s2 := st (p_append s1 (Fin x2, v2)) in
  evs_of (p_append s1 (Fin x2, v2)) = [] /\
  In (Fin x2, v2) (p_pts s2) /\ p_y s2 (Fin x2) = Ok None /\ v2 <> None /\ is_updating (p_upd s2) = true.
Proof.
  exists s01, (QcofZ 5), (QcofZ 2), (nv 9), (nv 3).
  split.
  { apply (uniform_history_good s01). apply uh_init with (l := l01) (ip := ILinear) (evs := evs_of (p_init l01 ILinear true)).
    - apply ascb_sound; vm_compute; reflexivity.
    - apply (eqsb_sound _ (QcofZ 0) (QcofZ 1)); vm_compute; reflexivity.
    - reflexivity. }
  split; [vm_compute; reflexivity|]. split; [vm_compute; reflexivity|]. split; [vm_compute; reflexivity|].
  split; [vm_compute; reflexivity|].
  replace (p_pts (st (p_append (st (p_append s01 (Fin (QcofZ 5), nv 9))) (Fin (QcofZ 2), nv 3))))
    with (l01 ++ [(Fin (QcofZ 2), nv 3)]) by (vm_compute; reflexivity).
  split; [right; right; left; reflexivity|].
  split; [apply is_opt_eq; vm_compute; reflexivity|]. split; [discriminate|vm_compute; reflexivity].
Qed.

(** replace announces only the point itself although, with linear interpolation,
    values next to it change too. *)
Definition l012 := [(fz 0, nv 0); (fz 1, nv 1); (fz 2, nv 2)].
Definition s012 := st (p_init l012 ILinear true).
Lemma s012_good : good s012.
Proof.
  apply (uniform_history_good s012). apply uh_init with (l := l012) (ip := ILinear) (evs := evs_of (p_init l012 ILinear true)).
  - apply ascb_sound; vm_compute; reflexivity.
  - apply (eqsb_sound _ (QcofZ 0) (QcofZ 1)); vm_compute; reflexivity.
  - reflexivity.
Qed.
Lemma replace_underreports : exists (s : npts) (x q : Qc) (v : option xq),
  good s /\ rs (p_replace s (Fin x, v) false) = Ok tt /\
  (forall D, In (EvEnd D) (evs_of (p_replace s (Fin x, v) false)) -> ~ imem D (Fin q)) /\
  p_y (st (p_replace s (Fin x, v) false)) (Fin q) <> p_y s (Fin q).
Proof.
  exists s012, (QcofZ 1), (QcofZ 1 / QcofZ 2)%Qc, (nv 5). split; [apply s012_good|]. split; [vm_compute; reflexivity|]. split.
  - assert (E : evs_of (p_replace s012 (Fin (QcofZ 1), nv 5) false) = [EvBegin (i_point (Fin (QcofZ 1))); EvEnd (i_point (Fin (QcofZ 1)))]) by (vm_compute; reflexivity).
    intros D. rewrite E. intros [H|[H|[]]]; [discriminate|]. injection H as <-. intros [H1 H2]. vm_compute in H1. discriminate.
  - rewrite (is_val_eq (p_y (st (p_replace s012 (Fin (QcofZ 1), nv 5) false)) (Fin (QcofZ 1 / QcofZ 2)%Qc)) (fr 5 2)) by (vm_compute; reflexivity).
    rewrite (is_val_eq (p_y s012 (Fin (QcofZ 1 / QcofZ 2)%Qc)) (fr 1 2)) by (vm_compute; reflexivity).
    intros H. injection H as H. vm_compute in H. discriminate.
Qed.

(** ** binary64 *)
Definition f01 : b64 := S754_finite false 7205759403792794 (-56).
Definition f02 : b64 := S754_finite false 7205759403792794 (-55).
Definition f03 : b64 := S754_finite false 5404319552844595 (-54).
Definition bpts (n : nat) : list (b64 * option b64) :=
  map (fun i => (n_mul (b64_ofZ (Z.of_nat i)) f01, Some (b64_ofZ (Z.of_nat i)))) (seq 0 n).
Definition bst (n : nat) : pts b64 (option b64) := fst (fst (p_init (bpts n) ILinear true)).

Lemma b64_last_knot_raises : exists n : nat,
  snd (p_init (bpts n) ILinear true) = Ok tt /\
  exists p, last_opt (bpts n) = Some p /\ p_y (bst n) (fst p) = Err EIndex.
Proof. exists 30%nat. split; [vm_compute; reflexivity|]. exists (nth 29 (bpts 30) (b64_ofZ 0, None)). split; vm_compute; reflexivity. Qed.

Lemma b64_knot_misread : exists n i p y,
  snd (p_init (bpts n) ILinear true) = Ok tt /\ nth_error (bpts n) i = Some p /\
  p_y (bst n) (fst p) = Ok y /\ y <> snd p.
Proof.
  exists 4%nat, 2%nat. eexists; eexists. split; [vm_compute; reflexivity|]. split; [reflexivity|].
  split; [vm_compute; reflexivity|]. vm_compute. discriminate.
Qed.

Lemma b64_decimal_literals_rejected : exists l : list (b64 * option b64),
  map fst l = [b64_ofZ 0; f01; f02; f03] /\ snd (p_init l ILinear true) = Err EExc.
Proof. exists [(b64_ofZ 0, None); (f01, None); (f02, None); (f03, None)]. split; [reflexivity|vm_compute; reflexivity]. Qed.
