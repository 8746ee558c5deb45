(** Concrete regressions. *)
From Coq Require Import List ZArith QArith Qcanon Bool Lia.
From Verif Require Import Base Num NumFacts Interval IntervalFacts Curve Points PointsSpec PointsQuery PointsOps PointsDec PointsHist PointsRefute PointsTop PointsEx.
From Verif Require Import BaseEx Combine CombineEx ScanFacts ScanTf ScanEx SmaFacts Regression RegressionFacts Extension ExtensionFacts ExtensionTop ExtensionPts ExtensionEx RegressionTan.
Import ListNotations.
Open Scope Qc_scope.
Open Scope bool_scope.

(** A least-squares solver: the closed form. *)
Fixpoint unfin (l : list (xq * xq)) : option (list (Qc * Qc)) :=
  match l with
  | [] => Some []
  | (Fin x, Fin y) :: l => option_map (cons (x, y)) (unfin l)
  | _ => None
  end.
Definition solve (l : list (xq * xq)) : res (xq * xq) :=
  match unfin l with Some d => Ok (Fin (lsq_slope d), Fin (lsq_const d)) | None => Err EValue end.
Lemma unfin_fq d : unfin (map fq d) = Some d.
Proof. induction d as [|[x y] d IH]; [reflexivity|]. cbn. now rewrite IH. Qed.
Lemma solve_ok : lstsq_ok solve.
Proof. intros l S. exists (lsq_slope l), (lsq_const l). split; [unfold solve; now rewrite unfin_fq|now apply lsq_exists]. Qed.

(** (0,0) (1,1) (2,2) (3,9) *)
Definition du : list (Qc * Qc) := map (fun p => (QcofZ (fst p), QcofZ (snd p))) [(0, 0); (1, 1); (2, 2); (3, 9)]%Z.
Definition half : Qc := Q2Qc (1 # 2).
Lemma du_pts : p_pts ex_u = dots du.
Proof. exact ex_u_pts. Qed.
Lemma du_coarse : coarse half (dots du).
Proof. apply coarseb_sound. vm_compute. reflexivity. Qed.
Lemma du_spread : spread du.
Proof. exists (QcofZ 0, QcofZ 0), (QcofZ 3, QcofZ 9). split; [now left|]. split; [now do 3 right; left|]. cbn. intros E. apply (f_equal (fun q => Qceqb q (QcofZ 0))) in E. vm_compute in E. discriminate. Qed.
Lemma half_pos : 0 < half.
Proof. apply Qcltb_true. vm_compute. reflexivity. Qed.

(** slope and value at 0 of a regression *)
Definition is_ln (r : res (option (line xq))) (m c : xq) : bool :=
  match r with Ok (Some l) => xq_eqb (l_slope l) m && xq_eqb (line_y l (fz 0)) c | _ => false end.
Lemma reg_u : is_ln (p_regression solve 20 ex_u None (Some (Fin half)) None) (fr 14 5) (fr (-6) 5) = true.
Proof. vm_compute. reflexivity. Qed.
Lemma reg_u02 : is_ln (p_regression solve 20 ex_u (Some (iv (fz 1) (fz 3) false false)) (Some (Fin half)) None) (fz 4) (fz (-4)) = true.
Proof. vm_compute. reflexivity. Qed.

(** tangents over two steps, over a period of 3/2, and over too many *)
Definition SR : src xq := pts_src (reg_of solve 20 ex_u (Some (Fin half))) ex_u.
Definition KD := tangent_ext (T := xq) (TDegree 2) (Some (Fin half)).
Definition KP := tangent_ext (T := xq) (TPeriod (Fin (Q2Qc (3 # 2)))) (Some (Fin half)).
Definition ed := ext_init KD SR true true false.
Definition ep := ext_init KP SR true true false.
Lemma ed_lives : tan_lives (TDegree 2) (Some (Fin half)) yes yes true true SR ed.
Proof.
  apply (lv_init KD yes yes (tan_good (TDegree 2) (Some (Fin half))) (tan_alike (TDegree 2) (Some (Fin half))) SR true true).
  apply tan_goodb. vm_compute. reflexivity.
Qed.
Lemma ep_lives : tan_lives (TPeriod (Fin (Q2Qc (3 # 2)))) (Some (Fin half)) yes yes true true SR ep.
Proof.
  apply (lv_init KP yes yes (tan_good (TPeriod (Fin (Q2Qc (3 # 2)))) (Some (Fin half))) (tan_alike (TPeriod (Fin (Q2Qc (3 # 2)))) (Some (Fin half))) SR true true).
  apply tan_goodb. vm_compute. reflexivity.
Qed.
Lemma ed_val : is_v (snd (ext_y KD SR ed (fz (-1)))) (nv (-1)) && is_v (snd (ext_y KD SR ed (fz 4))) (nv 12) = true.
Proof. vm_compute. reflexivity. Qed.
Lemma ep_val : is_v (snd (ext_y KP SR ep (fz (-1)))) (nv (-1)) && is_v (snd (ext_y KP SR ep (fz 4))) (nv 16) = true.
Proof. vm_compute. reflexivity. Qed.

(** y = x on the open interval (0, 4) *)
Definition SO : src xq := mkS (gid (iv (fz 0) (fz 4) true true) None) (fun _ _ => Ok (nv 2)) noreg.
Definition KO := tangent_ext (T := xq) TSlope (Some (Fin half)).
Definition eo := ext_init KO SO true true false.
Lemma eo_lives : tan_lives TSlope (Some (Fin half)) yes yes true true SO eo.
Proof.
  apply (lv_init KO yes yes (tan_good TSlope (Some (Fin half))) (tan_alike TSlope (Some (Fin half))) SO true true).
  apply tan_goodb. vm_compute. reflexivity.
Qed.
Lemma eo_val : is_v (snd (ext_y KO SO eo (fz 0))) (Some (fr (-1) 2)) && is_v (snd (ext_y KO SO eo (fz 4))) (Some (fr 9 2)) = true.
Proof. vm_compute. reflexivity. Qed.
