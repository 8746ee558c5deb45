(** Sampling extremas on concrete points. *)
From Coq Require Import List ZArith QArith Qcanon Bool Lia Sorting.Sorted.
From Verif Require Import Base Num NumFacts Interval IntervalFacts Curve Points PointsSpec PointsQuery PointsOps PointsDec PointsHist PointsRefute PointsTop PointsEx.
From Verif Require Import BaseEx Combine CombineEx Scan ScanFacts ScanInv ScanTf ScanEx ScanSample ScanSampleFacts ScanSampleAcc ScanSampleTop ScanSampleEx TrendEx Extremas ExtremasFold ExtremasUniq ExtremasVal ExtremasInv ExtremasEx ExtremasLife ExtremasHist ExtremasHistEx ExtremasSample ExtremasSampleTop.
Import ListNotations.

Fixpoint gapsb (M : Qc) (ks : list Qc) : bool :=
  match ks with [] => true | x :: t => forallb (fun y => Qcltb (x + M) y) t && gapsb M t end.
Lemma gapsb_sound M ks : gapsb M ks = true -> gaps M ks.
Proof.
  induction ks as [|x t IH]; cbn [gapsb]; intros H; [constructor|]. apply andb_prop in H as [H1 H2]. constructor; auto.
  apply Forall_forall. intros y I. rewrite forallb_forall in H1. apply Qcltb_true. auto.
Qed.
Notation smp fuel s e D ms h := (ex_sample_points fuel (p_crv s) own1 (Fin tenth) (ref_fun ten) e D ms h).

Lemma e7_life : elife min_step tenth ten src7 (zs seven) ex_init.
Proof. apply el_new. exact src7_ok. Qed.
Lemma gaps7 : gaps min_step (map fst (stops (zs seven) (zd [(1,15);(5,7)]%Z))).
Proof. apply gapsb_sound. vm_compute. reflexivity. Qed.
Lemma gaps4 : gaps min_step (map fst (stops (zs three ++ zs [(3,8)]%Z) (zd [(0,12);(1,8);(2,12)]%Z))).
Proof. apply gapsb_sound. vm_compute. reflexivity. Qed.
Lemma resolve1 : resolve_min_step (Some (Fin min_step)) None = Some (Fin min_step).
Proof. reflexivity. Qed.
Definition same_rows (r : exs xq * res (list (xq * option xq))) (L : list (xq * option xq)) : bool :=
  match snd r with Ok l => ptsb l L | Err _ => false end.
Lemma whole7 : same_rows (smp 50 src7 ex_init None None None) (pz [(1,15);(5,7)]%Z) = true.
Proof. vm_compute. reflexivity. Qed.
Lemma whole4 : same_rows (smp 50 (st s4) e4 None None None) (pz [(0,12);(1,8);(2,12)]%Z) = true.
Proof. vm_compute. reflexivity. Qed.
Lemma window7 : same_rows (smp 50 src7 ex_init (Some (i_closed (fz 2) (fz 4))) None None) (pz [(2,13);(4,9)]%Z) = true.
Proof. vm_compute. reflexivity. Qed.
Lemma window7' : same_rows (smp 50 src7 ex_init (Some (i_closed (fz 0) (fz 4))) None None) (pz [(1,15);(4,9)]%Z) = true.
Proof. vm_compute. reflexivity. Qed.
Lemma steps7 : same_rows (smp 50 src7 ex_init (Some (i_closed (fz 0) (fz 6))) None (Some (fz 1))) (pz [(1,15);(2,13);(3,11);(4,9);(5,7)]%Z) = true.
Proof. vm_compute. reflexivity. Qed.
Lemma outside7 : same_rows (smp 50 src7 ex_init (Some (i_closed (fz 7) (fz 9))) None None) [] = true.
Proof. vm_compute. reflexivity. Qed.

(** Points one minimum step apart, half way between its multiples. *)
Definition half_ps : list spt := map (fun z => (QcofZ z / QcofZ 2, Some (QcofZ 1))%Qc) [1; 3; 5; 7]%Z.
Lemma half_source : ex_source (QcofZ 1) ten half_s half_ps.
Proof.
  constructor.
  - apply honest_history_good, half_honest.
  - apply ptsb_eq. vm_compute. reflexivity.
  - apply coarseb_sound. vm_compute. reflexivity.
  - apply ten_nonzero.
Qed.
Lemma half_sample_raises : snd (ex_sample_points 50 (p_crv half_s) (Some (fz 1)) (Fin tenth) (ref_fun ten) ex_init None None None) = Err EExc.
Proof. vm_compute. reflexivity. Qed.
(** A window that starts less than the minimum step before an extrema. *)
Lemma close7 : same_rows (smp 50 src7 ex_init (Some (i_closed (fr 1 2) (fz 4))) (Some (fz 1)) None) (pz [(4,9)]%Z) = true.
Proof. vm_compute. reflexivity. Qed.
Lemma close_missed : exists s l e es po D ms r p, elife min_step tenth ten s l e /\ extremas_of tenth ten l es po /\ In p es /\ imem D (Fin (fst p)) /\
  snd (ex_sample_points 50 (p_crv s) (Some (Fin min_step)) (Fin tenth) (ref_fun ten) e (Some D) (Some ms) None) = Ok r /\ ~ In (fop p) r.
Proof.
  exists src7, (zs seven), ex_init, (zd [(1,15);(5,7)]%Z), (Some (QcofZ 6, QcofZ 13)), (i_closed (fr 1 2) (fz 4)), (fz 1), (pz [(4,9)]%Z), (QcofZ 1, QcofZ 15).
  split; [exact e7_life|]. split; [exact seven_extremas|]. split; [now left|]. split.
  - apply contains_iff; [split; discriminate|discriminate|vm_compute; reflexivity].
  - split; [|intros [E|[]]; discriminate E].
    pose proof close7 as K. unfold same_rows, own1 in K. destruct (snd _) as [L|]; [|discriminate K]. now rewrite (ptsb_eq _ _ K).
Qed.
Lemma same_rows_eq r L : same_rows r L = true -> snd r = Ok L.
Proof. unfold same_rows. destruct (snd r) as [l|]; [|discriminate]. intros K. now rewrite (ptsb_eq _ _ K). Qed.
Lemma span7 x : (0 <= x <= 6)%Z -> span (p_pts src7) (QcofZ x).
Proof.
  intros L. exists (QcofZ 0), (QcofZ 6), (nv 12), (nv 13). rewrite (es_pts _ _ _ _ src7_ok), <- pz_zs.
  split; [now left|]. split; [do 6 right; now left|]. split; apply QcofZ_le; lia.
Qed.
Definition v7 (q : Qc) : option xq := match snd (ex_y 8 (p_crv src7) own1 (Fin tenth) (ref_fun ten) ex_init (Fin q)) with Ok v => v | Err _ => None end.
Lemma ms_pos' : (0 < min_step)%Qc.
Proof. apply Qcltb_true. vm_compute. reflexivity. Qed.
Lemma v7_ok : forall q, value ILinear (map fop (zd [(1,15);(5,7)]%Z)) q (v7 q).
Proof.
  intros q. unfold v7. destruct (elife_inv min_step ms_pos' tenth tenth_nn _ _ _ _ e7_life) as (X & k & I).
  destruct (inv_answers min_step ms_pos' tenth tenth_nn ten _ _ _ k _ _ X I seven_extremas q 8%nat) as (e' & v & E & V); [vm_compute; lia|].
  unfold own1. rewrite E. exact V.
Qed.
