(** Which way minimise and maximise go, and the ends of sampled curves
    (curve.py:125-139, 258-358). *)
From Coq Require Import List ZArith QArith Qcanon Bool Lia.
From Verif Require Import Base Num NumFacts Interval Curve Points PointsSpec PointsIdx PointsQuery PointsOps PointsDec PointsHist PointsTop BaseTop ScanInv.
Import ListNotations.

Section Climb.
Variable c : crv xq (option xq).
Variables (ms step : option xq).
(** one step from [x] to [x'], forwards or backwards *)
Definition goes (fw : bool) (x x' : Qc) : Prop :=
  match step with
  | Some h => (if fw then n_add (Fin x) h else n_sub (Fin x) h) = Fin x'
  | None => (if fw then c_next c (Fin x) ms None else c_prev c (Fin x) ms None) = Ok (Some (Fin x'))
  end.
(** the curve has a value at [x], and slopes [d0] before and [d1] after it *)
Definition slopes (x d0 d1 : Qc) : Prop :=
  (exists y, c_y c (Fin x) = Ok (Some y)) /\ d_y c (Fin x) false (Some MIN_STEP) None = Ok (Some (Fin d0)) /\ d_y c (Fin x) true (Some MIN_STEP) None = Ok (Some (Fin d1)).

Lemma ltb_f a b : (b <= a)%Qc -> Qcltb a b = false.
Proof. intros L. destruct (Qcltb a b) eqn:E; [|reflexivity]. apply Qcltb_true in E. exfalso. exact (Qclt_not_le _ _ E L). Qed.
Lemma pos_mul a b : (0 < a)%Qc -> (0 < b)%Qc -> (0 < a * b)%Qc.
Proof. intros A B. replace 0%Qc with (0 * b)%Qc by ring. apply Qcmult_lt_compat_r; assumption. Qed.
Lemma neg_mul a b : (a < 0)%Qc -> (0 < b)%Qc -> (a * b < 0)%Qc.
Proof. intros A B. replace 0%Qc with (0 * b)%Qc at 1 by ring. replace (0%Qc) with (0 * b)%Qc by ring. apply Qcmult_lt_compat_r; assumption. Qed.
Lemma neg_opp a : (a < 0)%Qc -> (0 < - a)%Qc.
Proof. intros A. apply Qclt_minus_iff in A. replace (- a)%Qc with (0 + - a)%Qc by ring. exact A. Qed.
Lemma negs_mul a b : (a < 0)%Qc -> (b < 0)%Qc -> (0 < a * b)%Qc.
Proof. intros A B. replace (a * b)%Qc with ((- a) * (- b))%Qc by ring. apply pos_mul; apply neg_opp; assumption. Qed.

Lemma max_step n x x' xp d0 d1 (fw : bool) : slopes x d0 d1 -> (if fw then 0 < d0 /\ 0 < d1 else d0 < 0 /\ d1 < 0)%Qc -> goes fw x x' ->
  maximise_loop (S n) c ms step (Some (Fin x)) xp = maximise_loop n c ms step (Some (Fin x')) (Some (Fin x)).
Proof.
  intros ((y & Y) & D0 & D1) S G. cbn [maximise_loop]. rewrite Y. cbn [rbind]. rewrite D0, D1. cbn [rbind].
  assert (P : (0 < d0 * d1)%Qc) by (destruct fw, S; [apply pos_mul|apply negs_mul]; assumption).
  assert (E : @n_ltb xq XQ (n_mul (Fin d0) (Fin d1)) n_zero = false) by (apply ltb_f, Qclt_le_weak, P). rewrite E. cbn [andb].
  assert (F : @n_gtb xq XQ (Fin d1) n_zero = fw).
  { unfold n_gtb. destruct fw, S as [S0 S1]; [apply Qcltb_true; exact S1|apply ltb_f, Qclt_le_weak, S1]. }
  rewrite F. unfold goes in G. destruct step as [h|].
  - cbn [rbind]. destruct fw; rewrite G; reflexivity.
  - destruct fw; rewrite G; reflexivity.
Qed.
Lemma max_peak n x xp d0 d1 : slopes x d0 d1 -> (0 < d0)%Qc -> (d1 < 0)%Qc -> maximise_loop (S n) c ms step (Some (Fin x)) xp = Ok (Some (Fin x)).
Proof.
  intros ((y & Y) & D0 & D1) S0 S1. cbn [maximise_loop]. rewrite Y. cbn [rbind]. rewrite D0, D1. cbn [rbind].
  assert (E : @n_ltb xq XQ (n_mul (Fin d0) (Fin d1)) n_zero = true).
  { apply Qcltb_true. change (d0 * d1 < 0)%Qc. rewrite Qcmult_comm. apply neg_mul; assumption. }
  assert (A : @n_geb xq XQ (Fin d0) n_zero = true) by (apply Qcleb_true, Qclt_le_weak, S0).
  assert (B : @n_leb xq XQ (Fin d1) n_zero = true) by (apply Qcleb_true, Qclt_le_weak, S1). rewrite E, A, B. reflexivity.
Qed.
Lemma min_step_to n x x' xp d0 d1 (fw : bool) : slopes x d0 d1 -> (if fw then d0 < 0 /\ d1 < 0 else 0 < d0 /\ 0 < d1)%Qc -> goes fw x x' ->
  minimise_loop (S n) c ms step (Some (Fin x)) xp = minimise_loop n c ms step (Some (Fin x')) (Some (Fin x)).
Proof.
  intros ((y & Y) & D0 & D1) S G. cbn [minimise_loop]. rewrite Y. cbn [rbind]. rewrite D0, D1. cbn [rbind].
  assert (P : (0 < d0 * d1)%Qc) by (destruct fw, S; [apply negs_mul|apply pos_mul]; assumption).
  assert (E : @n_ltb xq XQ (n_mul (Fin d0) (Fin d1)) n_zero = false) by (apply ltb_f, Qclt_le_weak, P). rewrite E. cbn [andb].
  assert (F : @n_ltb xq XQ (Fin d1) n_zero = fw).
  { destruct fw, S as [S0 S1]; [apply Qcltb_true; exact S1|apply ltb_f, Qclt_le_weak, S1]. }
  rewrite F. unfold goes in G. destruct step as [h|].
  - cbn [rbind]. destruct fw; rewrite G; reflexivity.
  - destruct fw; rewrite G; reflexivity.
Qed.
Lemma min_dip n x xp d0 d1 : slopes x d0 d1 -> (d0 < 0)%Qc -> (0 < d1)%Qc -> minimise_loop (S n) c ms step (Some (Fin x)) xp = Ok (Some (Fin x)).
Proof.
  intros ((y & Y) & D0 & D1) S0 S1. cbn [minimise_loop]. rewrite Y. cbn [rbind]. rewrite D0, D1. cbn [rbind].
  assert (E : @n_ltb xq XQ (n_mul (Fin d0) (Fin d1)) n_zero = true) by (apply Qcltb_true; apply neg_mul; assumption).
  assert (A : @n_leb xq XQ (Fin d0) n_zero = true) by (apply Qcleb_true, Qclt_le_weak, S0).
  assert (B : @n_geb xq XQ (Fin d1) n_zero = true) by (apply Qcleb_true, Qclt_le_weak, S1). rewrite E, A, B. reflexivity.
Qed.

Lemma max_walk fw k : forall n (p : nat -> Qc) xp, (k < n)%nat ->
  (forall i, (i < k)%nat -> goes fw (p i) (p (S i)) /\ exists d0 d1, slopes (p i) d0 d1 /\ (if fw then 0 < d0 /\ 0 < d1 else d0 < 0 /\ d1 < 0)%Qc) ->
  (exists d0 d1, slopes (p k) d0 d1 /\ (0 < d0)%Qc /\ (d1 < 0)%Qc) -> maximise_loop n c ms step (Some (Fin (p O))) xp = Ok (Some (Fin (p k))).
Proof.
  induction k as [|k IH]; intros n p xp L H (d0 & d1 & D & S0 & S1); destruct n as [|n]; try lia; [exact (max_peak n (p O) xp d0 d1 D S0 S1)|].
  destruct (H O ltac:(lia)) as (G & e0 & e1 & E & S). rewrite (max_step n (p O) (p 1%nat) xp e0 e1 fw E S G).
  apply (IH n (fun i => p (Datatypes.S i))); [lia|intros i I; apply H; lia|exists d0, d1; auto].
Qed.
Lemma min_walk fw k : forall n (p : nat -> Qc) xp, (k < n)%nat ->
  (forall i, (i < k)%nat -> goes fw (p i) (p (S i)) /\ exists d0 d1, slopes (p i) d0 d1 /\ (if fw then d0 < 0 /\ d1 < 0 else 0 < d0 /\ 0 < d1)%Qc) ->
  (exists d0 d1, slopes (p k) d0 d1 /\ (d0 < 0)%Qc /\ (0 < d1)%Qc) -> minimise_loop n c ms step (Some (Fin (p O))) xp = Ok (Some (Fin (p k))).
Proof.
  induction k as [|k IH]; intros n p xp L H (d0 & d1 & D & S0 & S1); destruct n as [|n]; try lia; [exact (min_dip n (p O) xp d0 d1 D S0 S1)|].
  destruct (H O ltac:(lia)) as (G & e0 & e1 & E & S). rewrite (min_step_to n (p O) (p 1%nat) xp e0 e1 fw E S G).
  apply (IH n (fun i => p (Datatypes.S i))); [lia|intros i I; apply H; lia|exists d0, d1; auto].
Qed.
End Climb.

Lemma point_y (s : pts xq (option xq)) a : honest_history s -> In a (p_pts s) -> p_y s (fst a) = Ok (snd a).
Proof.
  intros H I. destruct (history_asc s H) as [F _]. rewrite Forall_forall in F. destruct (F a I) as [q E]. destruct a as [x v]. cbn [fst snd] in *. subst x.
  apply p_y_knot; auto using honest_history_good. intros _. exact lerp_total_num.
Qed.
Lemma ends_of (s : pts xq (option xq)) : honest_history s -> first_point (p_crv s) = Ok (head_opt (p_pts s)) /\ last_point (p_crv s) = Ok (last_opt (p_pts s)).
Proof.
  intros H. destruct (top_domain s H) as (_ & E & D & _). unfold first_point, last_point. cbn [c_dom c_y p_crv].
  destruct (p_pts s) as [|a l] eqn:P.
  - rewrite (proj2 E eq_refl). split; reflexivity.
  - destruct (i_is_empty (p_dom s)) eqn:Q; [discriminate (proj1 E eq_refl)|].
    destruct (last_opt (a :: l)) as [z|] eqn:L.
    2:{ unfold last_opt in L. destruct (rev (a :: l)) eqn:R; [|discriminate]. apply (f_equal (@rev _)) in R. rewrite rev_involutive in R. discriminate. }
    rewrite (D a z eq_refl eq_refl). cbn [i_start i_end i_closed].
    assert (IZ : In z (p_pts s)).
    { rewrite P. unfold last_opt in L. destruct (rev (a :: l)) as [|z' r] eqn:R; [discriminate|]. injection L as ->. apply in_rev. rewrite R. left. reflexivity. }
    rewrite (point_y s a H) by (rewrite P; left; reflexivity). rewrite (point_y s z H IZ). destruct a, z. split; reflexivity.
Qed.
