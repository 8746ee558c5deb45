(** Concrete instances and counterexamples for the derived curves. *)
From Coq Require Import List ZArith QArith Qcanon Bool SpecFloat Sorting.Sorted.
From Verif Require Import Base Num NumFacts Interval IntervalFacts Curve BaseFacts.
From Verif Require Import Points PointsSpec PointsOps PointsDec PointsHist PointsRefute PointsTop PointsEx BaseTop BaseOpt BaseEx.
From Verif Require Import Combine CombineFacts CombineTop CombineLine CombinePiece CombineExpr.
Import ListNotations.

(** y(x) = x on a domain, a Generic curve *)
Definition gid (d : ival xq) (ms : option xq) : xcrv := generic_curve (fun x => Ok (Some x)) (Some d) ms.
Definition num (z : Z) : xcrv := constant_curve (fz z) None.
Definition cpts : xcrv := p_crv ex_u.                     (* points (0,0) (1,1) (2,2) (3,9) *)
Definition g19 : xcrv := gid (iv (fz 1) (fz 9) false true) None.

Definition is_v (r : res (option xq)) (v : option xq) : bool :=
  match r with Ok w => oxq_eqb w v | Err _ => false end.
Lemma is_v_eq r v : is_v r v = true -> r = Ok v.
Proof. destruct r; try discriminate. cbn. intros H. now rewrite (oxq_eqb_eq _ _ H). Qed.
Ltac val := apply is_v_eq; vm_compute; reflexivity.

Lemma ex_doms : doms_ok [cpts; g19; num 10].
Proof. repeat apply Forall_cons; try apply Forall_nil; split; vm_compute; discriminate. Qed.
Lemma ex_in : all_in [cpts; g19; num 10] (fr 5 2).
Proof. repeat apply Forall_cons; try apply Forall_nil; vm_compute; auto. Qed.
Lemma ex_vals : evals [cpts; g19; num 10] (fr 5 2) (map Some [fr 11 2; fr 5 2; fz 10]).
Proof. repeat apply Forall2_cons; try apply Forall2_nil; val. Qed.

Lemma assoc_b64 : exists a b c : b64,
  c_y (add_many [add_many [constant_curve a None; constant_curve b None]; constant_curve c None]) (b64_ofZ 0) <>
  c_y (add_many [constant_curve a None; add_many [constant_curve b None; constant_curve c None]]) (b64_ofZ 0).
Proof. exists f01, f02, f03. vm_compute. discriminate. Qed.

(** Map forces a step of at least MIN_STEP *)
Lemma map_step_floor : exists (c : xcrv) (m : xq), honours_step c /\ lt_x (fz 0) m /\
  c_next c (fz 0) (Some m) None = Ok (Some m) /\
  c_next (additive_inverse c) (fz 0) (Some m) None <> Ok (Some m).
Proof.
  exists ident_crv, (fr 1 1000000). split; [intros x a lim; destruct a; split; reflexivity|]. split; [reflexivity|].
  split; [val|].
  replace (c_next (additive_inverse ident_crv) (fz 0) (Some (fr 1 1000000)) None) with (@Ok (option xq) (Some (fr 1 100000)))
    by (symmetry; val).
  intro H. apply (f_equal (fun r => is_v r (Some (fr 1 1000000)))) in H. vm_compute in H. discriminate.
Qed.

(** Offset hands the limit to the source unshifted *)
Definition i010 := iv (fz 0) (fz 10) false false.
Lemma offset_limit : exists (c : xcrv) k x m l t, iok (c_dom c) /\
  c_next c (Fin (x - k)%Qc) (Some m) (Some (Fin (l - k)%Qc)) = Ok (Some (Fin (l - k)%Qc)) /\
  imem (c_dom c) (Fin (l - k)%Qc) /\
  c_next (offset_curve (Fin k) c) (Fin x) (Some m) (Some (Fin l)) = Ok (Some (Fin t)) /\ (l < t)%Qc.
Proof.
  exists (gid i010 None), (QcofZ 100), (QcofZ 100), (fz 3), (QcofZ 101), (QcofZ 103).
  split; [split; discriminate|].
  split; [val|]. split; [split; reflexivity|]. split; [val|]. reflexivity.
Qed.
(** ... so that sampling a curve shifted to the left loses its points *)
Lemma offset_sample : exists (c : xcrv) k m, iok (c_dom c) /\
  sample_points 100 c None (Some m) None = Ok [(fz 100, nv 100); (fz 101, nv 101); (fz 102, nv 102); (fz 103, nv 103)] /\
  sample_points 100 (offset_curve (Fin k) c) None (Some m) None = Ok [(fz 0, nv 100); (fz 3, nv 103)].
Proof.
  exists (gid (iv (fz 100) (fz 103) false false) None), (QcofZ (-100)), (fz 1).
  split; [split; discriminate|]. split; apply is_pts_eq; vm_compute; reflexivity.
Qed.

(** set() with another point of the same line announces a change *)
Lemma same_graph : exists u (old new : line xq) evs u', idle u /\
  (forall x, line_y old (Fin x) = line_y new (Fin x)) /\
  line_set u old None (Some (fz 1)) (Some (fz 1, fz 1)) None None = Ok (u', new, evs) /\ evs <> [].
Proof.
  exists upd_init, (mkL (fz 0) (fz 0) (fz 1)), (mkL (fz 1) (fz 1) (fz 1)), [EvBegin i_infinite; EvEnd i_infinite], upd_init.
  split; [split; reflexivity|]. split; [|split; [reflexivity|discriminate]].
  intros x. unfold fz. rewrite !line_y_fin. f_equal.
  rewrite QcofZ_0, QcofZ_1. ring.
Qed.
Lemma vertical : line_init None None None None (Some ((fz 1, fz 0), (fz 1, fz 5))) = Ok (mkL (fz 1) (fz 0) PInf) /\
  line_y (mkL (fz 1) (fz 0) PInf) (fz 1) = XNaN.
Proof. split; reflexivity. Qed.

(** Piecewise *)
Definition pw : list (xcrv * ival xq) :=
  [(num 2, iv (fz 1) (fz 2) false true); (cpts, iv (fz 2) (fz 3) false false)].
Lemma pw_ok : Forall iok (map snd pw). Proof. repeat constructor; discriminate. Qed.
Lemma pw_asc : ascending (map snd pw).
Proof.
  apply SSorted_cons; [apply SSorted_cons; [apply SSorted_nil|constructor]|].
  constructor; [|constructor]. intros x y Hx Hy [_ A] [B _]. 
  change (lt_x x (fz 2)) in A. change (le_x (fz 2) y) in B.
  rewrite lt_x_emb in * by (auto; discriminate). rewrite le_x_emb in B by (auto; discriminate).
  eapply QArith_base.Qlt_le_trans; eauto.
Qed.
(** the neighbouring point of the owning piece is not reported *)
Lemma pw_next nr : c_next cpts (fz 2) (Some MIN_STEP) None = Ok (Some (fz 3)) /\
  c_prev cpts (fz 3) (Some MIN_STEP) None = Ok (Some (fz 2)) /\
  piecewise_next nr pw (fr 5 2) (Some MIN_STEP) None <> Ok (Some (fz 3)) /\
  piecewise_prev nr pw (fr 5 2) (Some MIN_STEP) None <> Ok (Some (fz 2)).
Proof.
  split; [val|]. split; [val|].
  destruct nr; split; vm_compute; discriminate.
Qed.

(** Blend: g exists beyond the end of f, the blend does not *)
Lemma blend_beyond nr right : exists (f g : xcrv) a b x y, iok (c_dom f) /\ iok (c_dom g) /\ (a < b)%Qc /\
  lt_x (i_start (c_dom f)) (Fin a) /\ lt_x (Fin b) (i_end (c_dom f)) /\ (b < x)%Qc /\
  imem (c_dom g) (Fin x) /\ c_y g (Fin x) = Ok (Some y) /\
  exists h, blend nr right f g (Fin a) (Fin b) = Ok h /\ c_y h (Fin x) = Ok None.
Proof.
  exists cpts, (num 7), (QcofZ 1), (QcofZ 2), (QcofZ 4), (fz 7).
  split; [split; vm_compute; discriminate|]. split; [apply iok_infinite|].
  split; [reflexivity|]. split; [vm_compute; reflexivity|]. split; [vm_compute; reflexivity|]. split; [reflexivity|].
  split; [apply infinite_mem|]. split; [reflexivity|].
  eexists. split; [reflexivity|]. destruct right; val.
Qed.
