(** Which points remain when set_trend_with_boundary_points has removed what
    it removes (trend.py:398-459): a strictly concave chain (upper trend) or a
    strictly convex one (lower trend), under which, up to the tolerance, all
    boundary points lie; and which of its segments becomes the line. *)
From Coq Require Import List ZArith QArith Qcanon Bool Lia Sorting.Sorted.
From Verif Require Import Base Num NumFacts Interval Points Trend TrendGeo TrendPred TrendLineInv TrendCol TrendSet.
Import ListNotations.
Open Scope Qc_scope.

(** The value at [x] of the straight line through [u] and [v]. *)
Definition slope (u v : qpt) : Qc := (snd v - snd u) / (fst v - fst u).
Definition at_x (u v : qpt) (x : Qc) : Qc := snd u + slope u v * (x - fst u).
(** The neighbours of a list. *)
Definition edges {A} (l : list A) : list (A * A) := combine l (List.tl l).
(** The sum of squared distances to the line. *)
Fixpoint sq_err (u v : qpt) (l : list qpt) : Qc :=
  match l with [] => 0 | p :: l => (snd p - at_x u v (fst p)) * (snd p - at_x u v (fst p)) + sq_err u v l end.

Lemma slope_mul u v : fst u < fst v -> slope u v * (fst v - fst u) = snd v - snd u.
Proof. intro H. unfold slope. apply Qc_div_cancel. apply Qc_sub_n0. intro E. now apply (Qclt_ne _ _ H). Qed.
Lemma at_left u v : at_x u v (fst u) = snd u.
Proof. unfold at_x. ring. Qed.
Lemma at_right u v : fst u < fst v -> at_x u v (fst v) = snd v.
Proof. intro H. unfold at_x. rewrite slope_mul by exact H. ring. Qed.
Lemma at_from_right u v x : fst u < fst v -> at_x u v x = snd v - slope u v * (fst v - x).
Proof. intro H. unfold at_x. pose proof (slope_mul u v H) as M. replace (snd v) with (snd u + slope u v * (fst v - fst u)) by (rewrite M; ring). ring. Qed.

Section Hull.
(** Values are compared after multiplication with [s], which is -1 for lower
    trends; a point is removed when it is no more than [c * chord + a]. *)
Variables (c a : Qc).
Hypothesis (Hc : 0 <= c).

Fixpoint lift (k : nat) (t : Qc) : Qc := match k with O => t | S k => lift k (c * t + a) end.
Lemma lift_mono k : forall t t', t <= t' -> lift k t <= lift k t'.
Proof. induction k as [|k IH]; intros t t' H; cbn [lift]; [ exact H | ]. apply IH. clear IH. qc_nra. Qed.
Lemma lift_add j : forall k t, lift (j + k) t = lift j (lift k t).
Proof.
  assert (G : forall k t, lift k (c * t + a) = c * lift k t + a).
  { induction k as [|k IH]; intro t; cbn [lift]; [ reflexivity | ]. apply IH. }
  induction j as [|j IH]; intros k t; cbn [Nat.add lift]; [ reflexivity | ]. rewrite IH, G. reflexivity.
Qed.
Definition okp (p : qpt) : Prop := 0 <= (c - 1) * snd p + a.

Lemma okp_le p : okp p -> snd p <= c * snd p + a.
Proof. intro H. unfold okp in H. assert (E : c * snd p + a - snd p = (c - 1) * snd p + a) by ring. rewrite <- E in H. clear E. revert H. generalize (c * snd p + a). intros. qc_lra. Qed.

(** Some segment of the chain passes, after [k] liftings, above [z]. *)
Fixpoint cov (k : nat) (l : list qpt) (z : qpt) : Prop :=
  match l with
  | u :: ((v :: _) as l') => (fst u <= fst z /\ fst z <= fst v /\ snd z <= lift k (at_x u v (fst z))) \/ cov k l' z
  | _ => False
  end.
Fixpoint concave (l : list qpt) : Prop :=
  match l with
  | u :: ((w :: v :: _) as l') => at_x u v (fst w) < snd w /\ concave l'
  | _ => True
  end.

(** An affine function that is below at two points is below in between. *)
Lemma nn_comb (p q x y : Qc) : 0 <= p -> 0 <= q -> 0 <= x -> 0 <= y -> 0 <= p * x + q * y.
Proof. intros. qc_nra. Qed.
Lemma nn_div (d l : Qc) : 0 <= d * l -> 0 < l -> 0 <= d.
Proof. intros H L. apply (Qcmult_lt_0_le_reg_r 0 d l L). replace (0 * l) with (Q2Qc 0) by ring. exact H. Qed.
Lemma le_sub (x y : Qc) : x <= y -> 0 <= y - x.
Proof. intro. qc_lra. Qed.
Lemma sub_le (x y : Qc) : 0 <= y - x -> x <= y.
Proof. intro. qc_lra. Qed.
Lemma seg_le m k m' k' x0 x1 x : x0 <= x -> x <= x1 -> x0 < x1 -> m * x0 + k <= m' * x0 + k' -> m * x1 + k <= m' * x1 + k' -> m * x + k <= m' * x + k'.
Proof.
  intros A B L E F. apply le_sub in A, B, E, F. apply sub_le. apply (nn_div _ (x1 - x0)); [ | clear - L; qc_lra ].
  replace ((m' * x + k' - (m * x + k)) * (x1 - x0)) with ((m' * x0 + k' - (m * x0 + k)) * (x1 - x) + (m' * x1 + k' - (m * x1 + k)) * (x - x0)) by ring.
  now apply nn_comb.
Qed.
Lemma at_aff u v x : at_x u v x = slope u v * x + (snd u - slope u v * fst u).
Proof. unfold at_x. ring. Qed.
Lemma at_seg_le u v m k x : fst u < fst v -> fst u <= x -> x <= fst v -> snd u <= m * fst u + k -> snd v <= m * fst v + k -> at_x u v x <= m * x + k.
Proof.
  intros L A B E F. rewrite at_aff. apply (seg_le _ _ _ _ (fst u) (fst v) x A B L).
  - replace (slope u v * fst u + (snd u - slope u v * fst u)) with (snd u) by ring. exact E.
  - rewrite <- at_aff, (at_right u v L). exact F.
Qed.
Lemma at_seg_ge u v m k x : fst u < fst v -> fst u <= x -> x <= fst v -> m * fst u + k <= snd u -> m * fst v + k <= snd v -> m * x + k <= at_x u v x.
Proof.
  intros L A B E F. rewrite at_aff. apply (seg_le _ _ _ _ (fst u) (fst v) x A B L).
  - replace (slope u v * fst u + (snd u - slope u v * fst u)) with (snd u) by ring. exact E.
  - rewrite <- at_aff, (at_right u v L). exact F.
Qed.

(** The chord of two admissible points only rises by lifting. *)
Lemma okp_at u v x : okp u -> okp v -> fst u < fst v -> fst u <= x -> x <= fst v -> at_x u v x <= c * at_x u v x + a.
Proof.
  intros U V L A B. rewrite (at_aff u v x). set (m := slope u v). set (k := snd u - m * fst u).
  replace (c * (m * x + k) + a) with ((c * m) * x + (c * k + a)) by ring.
  unfold m, k. rewrite <- at_aff. apply at_seg_le; auto.
  - fold m k. replace (c * m * fst u + (c * k + a)) with (c * snd u + a) by (unfold k; ring). now apply okp_le.
  - fold m k. replace (c * m * fst v + (c * k + a)) with (c * at_x u v (fst v) + a) by (rewrite at_aff; unfold k, m; ring).
    rewrite (at_right u v L). now apply okp_le.
Qed.
Lemma cov_up k l z : StronglySorted by_xs l -> Forall okp l -> cov k l z -> cov (S k) l z.
Proof.
  intros So F. induction l as [|u l IH]; [ easy | ]. destruct l as [|v l]; [ easy | ].
  apply StronglySorted_inv in So. destruct So as [ So Su ].
  intros [ (A & B & C) | C ]; [ left | right; apply IH; [ exact So | exact (Forall_inv_tail F) | exact C ] ].
  split; [ exact A | ]. split; [ exact B | ]. eapply Qcle_trans; [ exact C | ]. cbn [lift]. apply lift_mono.
  apply okp_at; auto; [ exact (Forall_inv F) | exact (Forall_inv (Forall_inv_tail F)) | exact (Forall_inv Su) ].
Qed.
Lemma cov_del k pre u w v post z : StronglySorted by_xs (pre ++ u :: w :: v :: post) -> Forall okp (pre ++ u :: w :: v :: post) ->
  snd w <= c * at_x u v (fst w) + a ->
  cov k (pre ++ u :: w :: v :: post) z -> cov (S k) (pre ++ u :: v :: post) z.
Proof.
  intros So F Hw. induction pre as [|p pre IH].
  - cbn [app] in *. apply StronglySorted_inv in So. destruct So as [ So Su ].
    pose proof (Forall_inv Su) as Luw. pose proof (Forall_inv (Forall_inv_tail Su)) as Luv. unfold by_xs in *.
    apply StronglySorted_inv in So. destruct So as [ So Sw ]. pose proof (Forall_inv Sw) as Lwv. 
    pose proof (Forall_inv F) as Ou. pose proof (Forall_inv (Forall_inv_tail F)) as Ow. pose proof (Forall_inv (Forall_inv_tail (Forall_inv_tail F))) as Ov.
    set (m := slope u v). set (q := snd u - m * fst u).
    assert (Eq : forall x, c * at_x u v x + a = (c * m) * x + (c * q + a)) by (intro x; rewrite at_aff; unfold q, m; ring).
    assert (Pu : snd u <= c * m * fst u + (c * q + a)) by (rewrite <- Eq, at_left; now apply okp_le).
    assert (Pv : snd v <= c * m * fst v + (c * q + a)) by (rewrite <- Eq, (at_right u v Luv); now apply okp_le).
    rewrite Eq in Hw.
    intros [ (A & B & C) | [ (A & B & C) | C ] ].
    + left. split; [ exact A | ]. split; [ clear - B Lwv; qc_lra | ]. eapply Qcle_trans; [ exact C | ]. cbn [lift]. apply lift_mono.
      rewrite Eq. apply at_seg_le; auto.
    + left. split; [ clear - A Luw; qc_lra | ]. split; [ exact B | ]. eapply Qcle_trans; [ exact C | ]. cbn [lift]. apply lift_mono.
      rewrite Eq. apply at_seg_le; auto.
    + right. apply cov_up; auto. exact (Forall_inv_tail (Forall_inv_tail F)).
  - change ((p :: pre) ++ u :: w :: v :: post) with (p :: (pre ++ u :: w :: v :: post)) in *.
    pose proof So as So0. pose proof F as F0.
    apply StronglySorted_inv in So. destruct So as [ So Sp ]. specialize (IH So (Forall_inv_tail F)).
    destruct pre as [|p' pre]; cbn [app] in *.
    + intros [ (A & B & C) | C ]; [ left | right; exact (IH C) ]. split; [ exact A | ]. split; [ exact B | ].
      eapply Qcle_trans; [ exact C | ]. cbn [lift]. apply lift_mono. apply okp_at; auto; [ exact (Forall_inv F) | exact (Forall_inv (Forall_inv_tail F)) | exact (Forall_inv Sp) ].
    + intros [ (A & B & C) | C ]; [ left | right; exact (IH C) ]. split; [ exact A | ]. split; [ exact B | ].
      eapply Qcle_trans; [ exact C | ]. cbn [lift]. apply lift_mono. apply okp_at; auto; [ exact (Forall_inv F) | exact (Forall_inv (Forall_inv_tail F)) | exact (Forall_inv Sp) ].
Qed.
(** At first every point is on the chain. *)
Lemma cov_self l z : StronglySorted by_xs l -> (2 <= length l)%nat -> In z l -> cov 0 l z.
Proof.
  induction l as [|u l IH]; intros So L K; [ destruct K | ]. destruct l as [|v l]; [ cbn in L; lia | ].
  apply StronglySorted_inv in So. destruct So as [ So Su ]. pose proof (Forall_inv Su) as Luv. unfold by_xs in Luv.
  destruct K as [ <- | K ]; [ left; rewrite at_left; repeat split; cbn [lift]; try apply Qcle_refl; now apply Qclt_le_weak | ].
  destruct l as [|w l].
  - destruct K as [ <- | [] ]. left. rewrite (at_right u v Luv). repeat split; cbn [lift]; try apply Qcle_refl; now apply Qclt_le_weak.
  - right. apply IH; [ exact So | cbn; lia | exact K ].
Qed.

(** *** Concave chains *)
Lemma pos_comb (p q x y : Qc) : 0 < p -> 0 < q -> 0 < x -> 0 < y -> p * x + q * y <> 0.
Proof. intros A B C D E. assert (0 < p * x) by (clear - A C; qc_nra). assert (0 < q * y) by (clear - B D; qc_nra). revert E. generalize dependent (p * x). generalize dependent (q * y). intros. qc_lra. Qed.
Lemma lt_cancel (x y d : Qc) : 0 < d -> x * d < y * d -> x < y.
Proof. intros D H. apply Qcnot_le_lt. intro N. apply (Qclt_not_le _ _ H). apply Qcmult_le_compat_r; [ exact N | now apply Qclt_le_weak ]. Qed.
Lemma concave_slope u w v : fst u < fst w -> fst w < fst v -> at_x u v (fst w) < snd w -> slope w v <= slope u w.
Proof.
  intros A B H. assert (L : fst u < fst v) by (clear - A B; qc_lra).
  pose proof (slope_mul u w A) as M1. pose proof (slope_mul w v B) as M2. pose proof (slope_mul u v L) as M3.
  unfold at_x in H. generalize dependent (slope u w). generalize dependent (slope w v). generalize dependent (slope u v).
  intros s3 H H3 s2 H2 s1 H1.
  assert (E : s3 * (fst v - fst u) = s1 * (fst w - fst u) + s2 * (fst v - fst w)) by (rewrite H3, H1, H2; ring).
  assert (G : s3 * (fst w - fst u) < s1 * (fst w - fst u)) by (rewrite H1; clear - H; revert H; generalize (s3 * (fst w - fst u)); intros; qc_lra).
  assert (X : s3 < s1) by (apply (lt_cancel _ _ (fst w - fst u)); [ clear - A; qc_lra | exact G ]).
  apply Qcnot_lt_le. intro N.
  apply (pos_comb (s1 - s3) (s2 - s3) (fst w - fst u) (fst v - fst w)); [ clear - X; qc_lra | clear - X N; qc_lra | clear - A; qc_lra | clear - B; qc_lra | ].
  replace ((s1 - s3) * (fst w - fst u) + (s2 - s3) * (fst v - fst w)) with (s1 * (fst w - fst u) + s2 * (fst v - fst w) - s3 * (fst v - fst u)) by ring. rewrite E. ring.
Qed.
Lemma slopes_fall a0 b l : StronglySorted by_xs (a0 :: b :: l) -> concave (a0 :: b :: l) ->
  forall u v, In (u, v) (edges (a0 :: b :: l)) -> slope u v <= slope a0 b.
Proof.
  revert a0 b. induction l as [|w l IH]; intros a0 b So C u v K.
  - destruct K as [ E | [] ]. injection E as <- <-. apply Qcle_refl.
  - destruct K as [ E | K ]; [ injection E as <- <-; apply Qcle_refl | ].
    apply StronglySorted_inv in So. destruct So as [ So S1 ]. destruct C as [ C1 C2 ].
    eapply Qcle_trans; [ exact (IH b w So C2 u v K) | ]. pose proof (Forall_inv S1) as A.
    apply StronglySorted_inv in So. destruct So as [ _ S2 ]. pose proof (Forall_inv S2) as B. now apply concave_slope.
Qed.
Lemma mul_slack s1 s2 b (x z : Qc) : s2 <= s1 -> x < z -> b + s2 * (z - x) <= b - s1 * (x - z).
Proof. intros A B. apply sub_le. replace (b - s1 * (x - z) - (b + s2 * (z - x))) with ((s1 - s2) * (z - x)) by ring. apply le_sub in A. assert (0 <= z - x) by (clear - B; qc_lra). generalize dependent (s1 - s2). generalize dependent (z - x). intros. qc_nra. Qed.
Lemma first_above a0 b l : StronglySorted by_xs (a0 :: b :: l) -> concave (a0 :: b :: l) ->
  forall z, In z (b :: l) -> snd z <= at_x a0 b (fst z).
Proof.
  revert a0 b. induction l as [|w l IH]; intros a0 b So C z K; apply StronglySorted_inv in So; destruct So as [ So S1 ]; pose proof (Forall_inv S1) as A; unfold by_xs in A.
  - destruct K as [ <- | [] ]. rewrite at_right by exact A. apply Qcle_refl.
  - destruct K as [ <- | K ]; [ rewrite at_right by exact A; apply Qcle_refl | ]. destruct C as [ C1 C2 ].
    eapply Qcle_trans; [ exact (IH b w So C2 z K) | ].
    apply StronglySorted_inv in So. destruct So as [ _ S2 ]. pose proof (Forall_inv S2) as B. unfold by_xs in B.
    pose proof (concave_slope a0 b w A B C1) as Sl. rewrite Forall_forall in S2. specialize (S2 z K). unfold by_xs in S2.
    rewrite (at_from_right a0 b (fst z) A). unfold at_x. generalize dependent (slope a0 b). generalize dependent (slope b w). intros s2 s1 Sl. apply mul_slack; assumption.
Qed.
Lemma edges_asc (l : list qpt) u v : StronglySorted by_xs l -> In (u, v) (edges l) -> fst u < fst v.
Proof. intros So K. pose proof (pairs_asc l So) as P. rewrite Forall_forall in P. exact (P _ K). Qed.
(** Every segment of a concave chain extends above all of it. *)
Lemma edge_above l : StronglySorted by_xs l -> concave l -> forall u v z, In (u, v) (edges l) -> In z l -> snd z <= at_x u v (fst z).
Proof.
  induction l as [|t l IH]; intros So C u v z E K; [ destruct K | ]. destruct l as [|b l]; [ destruct E | ].
  pose proof So as So0. apply StronglySorted_inv in So. destruct So as [ So S1 ]. pose proof (Forall_inv S1) as A. unfold by_xs in A.
  assert (C' : concave (b :: l)) by (destruct l; [ exact Logic.I | exact (proj2 C) ]).
  destruct E as [ E | E ].
  - injection E as <- <-. destruct K as [ <- | K ]; [ rewrite at_left; apply Qcle_refl | exact (first_above _ _ _ So0 C z K) ].
  - destruct K as [ <- | K ]; [ | exact (IH So C' u v z E K) ].
    pose proof (IH So C' u v b E (or_introl eq_refl)) as Pb.
    pose proof (slopes_fall t b l So0 C u v (or_intror E)) as Sl.
    pose proof (slope_mul t b A) as M.
    assert (X : at_x u v (fst t) = at_x u v (fst b) - slope u v * (fst b - fst t)) by (unfold at_x; ring).
    rewrite X. clear X. generalize dependent (at_x u v (fst b)). intros w Pb.
    apply sub_le. replace (w - slope u v * (fst b - fst t) - snd t) with ((w - snd b) + (slope t b - slope u v) * (fst b - fst t)) by (rewrite <- (Qcplus_0_r (w - snd b)); replace (snd t) with (snd b - slope t b * (fst b - fst t)) by (rewrite M; ring); ring).
    apply le_sub in Pb, Sl. assert (0 <= fst b - fst t) by (clear - A; qc_lra).
    replace (w - snd b) with ((w - snd b) * 1) by ring. apply nn_comb; auto. discriminate.
Qed.
Lemma cov_line k l z : StronglySorted by_xs l -> forall u v, (forall y, In y l -> snd y <= at_x u v (fst y)) -> cov k l z -> snd z <= lift k (at_x u v (fst z)).
Proof.
  intros So u v Ab. induction l as [|p l IH]; [ easy | ]. destruct l as [|q l]; [ easy | ].
  apply StronglySorted_inv in So. destruct So as [ So S1 ]. pose proof (Forall_inv S1) as A. unfold by_xs in A.
  intros [ (B & D & C) | C ]; [ | apply IH; auto; intros y K; apply Ab; now right ].
  eapply Qcle_trans; [ exact C | ]. apply lift_mono. rewrite (at_aff u v (fst z)). apply at_seg_le; auto; rewrite <- at_aff; apply Ab; [ now left | right; now left ].
Qed.
End Hull.
