(** Tangent extensions of Points by regression (extension/tangent.py:31-46, 57-72). *)
From Coq Require Import List ZArith QArith Qcanon Bool Lia.
From Verif Require Import Base Num NumFacts Interval IntervalFacts Curve Points PointsSpec PointsIdx PointsQuery PointsDom PointsOps PointsCover PointsDec PointsHist PointsTop.
From Verif Require Import BaseTop UpdFacts Combine ScanFacts ScanInv ScanTf SmaFacts SmaInv Regression RegressionFacts Extension ExtensionFacts ExtensionTop ExtensionPts.
Import ListNotations.
Open Scope Qc_scope.

(** The regression that an extension with min_step [own] asks of Points;
    Interval(a, b) is closed. *)
Definition reg_of lstsq (fuel : nat) (s : pts xq num) (own : option xq) (a b : xq) : res (option (line xq)) :=
  p_regression lstsq fuel s (Some (i_closed a b)) own None.

Section Tan.
Variable lstsq : list (xq * xq) -> res (xq * xq).
Hypothesis OK : lstsq_ok lstsq.
Context (s : pts xq num) (d : list (Qc * Qc)) (m : Qc) (fuel : nat).
Hypothesis H : honest_history s.
Hypothesis P : p_pts s = dots d.
Hypothesis C : coarse m (dots d).
Hypothesis M0 : 0 < m.
Notation own := (Some (Fin m)).
Notation src := (pts_src (reg_of lstsq fuel s own) s).
Notation zed := (length d - 1)%nat.

Lemma ends_dots : d <> [] -> p_dom s = mkI (Fin (at_x d 0)) (Fin (at_x d zed)) false false /\ i_is_empty (p_dom s) = false.
Proof.
  intros NE. assert (L : (0 < length d)%nat) by (destruct d; [congruence|cbn; lia]).
  eapply ends_dom; eauto; rewrite P.
  - transitivity (nth_error (dots d) 0); [now destruct d as [|[? ?] ?]|]. now apply dots_at.
  - rewrite last_opt_nth, dots_len. apply dots_at. lia.
Qed.

Lemma walk_next n : forall i, (i + n < length d)%nat ->
  tangent_walk (fun x => p_x_next s x own None) n (Some (Fin (at_x d i))) = Ok (Some (Fin (at_x d (i + n)))).
Proof.
  induction n as [|n IH]; intros i L; [now rewrite Nat.add_0_r|]. cbn [tangent_walk].
  rewrite (knot_next s m i (at_x d i) (Some (Fin (at_y d i))) None); auto using honest_history_good; [|now rewrite P|rewrite P; apply dots_at; lia].
  rewrite P, dots_at by lia. cbn [option_map fst rbind]. rewrite IH by lia. now rewrite Nat.add_succ_comm.
Qed.
Lemma walk_prev n : forall i, (n <= i)%nat -> (i < length d)%nat ->
  tangent_walk (fun x => p_x_previous s x own None) n (Some (Fin (at_x d i))) = Ok (Some (Fin (at_x d (i - n)))).
Proof.
  induction n as [|n IH]; intros i L Li; [now rewrite Nat.sub_0_r|]. cbn [tangent_walk]. destruct i as [|i]; [lia|].
  rewrite (knot_previous s m i (at_x d (S i)) (Some (Fin (at_y d (S i)))) None); auto using honest_history_good; [|now rewrite P|rewrite P; apply dots_at; lia].
  rewrite P, dots_at by lia. cbn [option_map fst rbind]. rewrite IH by lia. reflexivity.
Qed.
(** a step from beyond the outermost point raises *)
Lemma walk_next_off n i : (length d <= i + n)%nat -> (i < length d)%nat ->
  tangent_walk (fun x => p_x_next s x own None) n (Some (Fin (at_x d i))) = if (i + n =? length d)%nat then Ok None else Err EType.
Proof.
  intros L Li. replace n with (length d - 1 - i + S (i + n - length d))%nat at 1 by lia.
  assert (W : forall a b x y, tangent_walk (fun x => p_x_next s x own None) a x = Ok y ->
    tangent_walk (fun x => p_x_next s x own None) (a + b) x = tangent_walk (fun x => p_x_next s x own None) b y).
  { induction a as [|a IH]; intros b x y E; cbn in E |- *; [now injection E as <-|]. destruct x as [x|]; [|discriminate].
    destruct (p_x_next s x own None) as [x1|]; [|discriminate]. cbn [rbind] in *. now apply IH. }
  rewrite (W _ _ _ _ (walk_next (length d - 1 - i) i ltac:(lia))). cbn [tangent_walk].
  replace (i + (length d - 1 - i))%nat with zed by lia.
  rewrite (knot_next s m zed (at_x d zed) (Some (Fin (at_y d zed))) None); auto using honest_history_good; [|now rewrite P|rewrite P; apply dots_at; lia].
  rewrite P, (proj2 (nth_error_None (dots d) (S zed))) by (rewrite dots_len; lia).
  cbn [option_map rbind]. destruct (Nat.eqb_spec (i + n) (length d)) as [e|e].
  - rewrite e, Nat.sub_diag. reflexivity.
  - destruct (i + n - length d)%nat eqn:Z; [lia|reflexivity].
Qed.

Lemma walk_prev_off n i : (i < n)%nat -> (i < length d)%nat ->
  tangent_walk (fun x => p_x_previous s x own None) n (Some (Fin (at_x d i))) = if (n =? S i)%nat then Ok None else Err EType.
Proof.
  intros L Li. replace n with (i + S (n - S i))%nat at 1 by lia.
  assert (W : forall a b x y, tangent_walk (fun x => p_x_previous s x own None) a x = Ok y ->
    tangent_walk (fun x => p_x_previous s x own None) (a + b) x = tangent_walk (fun x => p_x_previous s x own None) b y).
  { induction a as [|a IH]; intros b x y E; cbn in E |- *; [now injection E as <-|]. destruct x as [x|]; [|discriminate].
    destruct (p_x_previous s x own None) as [x1|]; [|discriminate]. cbn [rbind] in *. now apply IH. }
  rewrite (W _ _ _ _ (walk_prev i i ltac:(lia) Li)). cbn [tangent_walk]. rewrite Nat.sub_diag.
  assert (Z : p_x_previous s (Fin (at_x d 0)) own None = Ok None).
  { destruct (top_previous s (Fin (at_x d 0)) m None H) as [y [Ey Hy]]; [discriminate|]. rewrite Ey. f_equal.
    destruct y as [y|]; [|reflexivity]. destruct Hy as [[w Iw] [L1 _]]. exfalso.
    destruct (ascending_fin _ _ (history_asc s H) Iw) as (yq & vy & X). injection X as -> ->.
    rewrite P in Iw. unfold dots in Iw. apply in_map_iff in Iw. destruct Iw as ([a b] & X & Ia). injection X as <- <-.
    destruct (at_in d _ Ia) as (k & Lk & Ek). assert (Ek' : a = at_x d k) by (now rewrite <- Ek). rewrite Ek' in L1.
    apply Qcleb_true in L1. pose proof (at_le d 0 k (asc_dots s d H P) ltac:(lia) Lk). cbn [xq_sub] in L1. qc_lra. }
  rewrite Z. cbn [rbind]. destruct (Nat.eqb_spec n (S i)) as [e|e].
  - rewrite e, Nat.sub_diag. reflexivity.
  - destruct (n - S i)%nat eqn:Y; [lia|reflexivity].
Qed.

Lemma line_at ln M K q : is_line ln M K -> of_line (Fin q) (Some ln) = (Some (Fin (M * q + K)), Some (Fin M)).
Proof. intros [A B]. unfold of_line. now rewrite A, B. Qed.

Theorem edge_degree_start n : (1 <= n)%nat -> (n < length d)%nat ->
  exists M K, tangent_edge (TDegree n) own src true = Ok (Fin (at_x d 0), Some (Fin (M * at_x d 0 + K)), Some (Fin M)) /\
    fits (firstn (S n) d) M K.
Proof.
  intros N L. destruct (ends_dots ltac:(destruct d; [cbn in L; lia|congruence])) as [D E].
  destruct (part_fits lstsq OK s d m H P C fuel 0 n N L) as (ln & M & K & R & IL & F).
  exists M, K. cbn [skipn] in F. rewrite Nat.sub_0_r in F. split; [|exact F].
  unfold tangent_edge. cbn [pts_src s_c s_reg p_crv c_dom c_next]. rewrite D. cbn [i_so i_start rbind].
  rewrite (walk_next n 0 L). cbn [rbind Nat.add]. unfold reg_of. change xival with (ival xq) in R. rewrite R. cbn [rbind]. now rewrite (line_at ln M K).
Qed.
Theorem edge_degree_end n : (1 <= n)%nat -> (n < length d)%nat ->
  exists M K, tangent_edge (TDegree n) own src false = Ok (Fin (at_x d zed), Some (Fin (M * at_x d zed + K)), Some (Fin M)) /\
    fits (skipn (length d - S n) d) M K.
Proof.
  intros N L. destruct (ends_dots ltac:(destruct d; [cbn in L; lia|congruence])) as [D E].
  destruct (part_fits lstsq OK s d m H P C fuel (zed - n) zed ltac:(lia) ltac:(lia)) as (ln & M & K & R & IL & F).
  exists M, K. split.
  - unfold tangent_edge. cbn [pts_src s_c s_reg p_crv c_dom c_prev]. rewrite D. cbn [i_eo i_end rbind].
    rewrite (walk_prev n zed ltac:(lia) ltac:(lia)). cbn [rbind]. unfold reg_of. change xival with (ival xq) in R. rewrite R. cbn [rbind]. now rewrite (line_at ln M K).
  - replace (length d - S n)%nat with (zed - n)%nat by lia. rewrite firstn_all2 in F; [exact F|]. rewrite skipn_length. lia.
Qed.

Lemma closed_filter a b (l : list (Qc * Qc)) : filter (fun r : Qc * Qc => i_contains (i_closed (Fin a) (Fin b)) (Fin (fst r))) l =
  filter (fun r => Qcleb a (fst r) && Qcleb (fst r) b) l.
Proof.
  apply filter_ext. intros r. unfold i_closed. rewrite contains_closed. destruct (Qcleb a (fst r)) eqn:A, (Qcleb (fst r) b) eqn:B; rewrite ?andb_false_r; auto.
  rewrite andb_true_r. cbn [andb]. rewrite andb_true_r. apply Qcleb_true. apply Qcleb_true in A, B. eapply Qcle_trans; eauto.
Qed.
(** the points within [w] of the first one; at least two of them *)
Theorem edge_period_start w : 0 < w -> (2 <= length d)%nat -> at_x d 1 - at_x d 0 <= w ->
  exists M K, tangent_edge (TPeriod (Fin w)) own src true = Ok (Fin (at_x d 0), Some (Fin (M * at_x d 0 + K)), Some (Fin M)) /\
    fits (filter (fun r => Qcleb (fst r) (at_x d 0 + w)) d) M K.
Proof.
  intros W L G. destruct (ends_dots ltac:(destruct d; [cbn in L; lia|congruence])) as [D E].
  pose proof (asc_dots s d H P) as A.
  assert (FE : filter (fun r => i_contains (i_closed (Fin (at_x d 0)) (Fin (at_x d 0 + w))) (Fin (fst r))) d =
    filter (fun r => Qcleb (fst r) (at_x d 0 + w)) d).
  { rewrite closed_filter. apply filter_ext_in. intros r I. destruct (at_in d r I) as (k & Lk & ->).
    rewrite (proj2 (Qcleb_true _ _) (at_le d 0 k A ltac:(lia) Lk)). reflexivity. }
  destruct (window_fits lstsq OK s d m H P C fuel (i_closed (Fin (at_x d 0)) (Fin (at_x d 0 + w))) ltac:(split; discriminate)) as [F _].
  cbv zeta in F. rewrite FE in F. destruct F as (ln & M & K & R & IL & F).
  { exists (at_x d 0, at_y d 0), (at_x d 1, at_y d 1). split; [|split].
    - apply filter_In. split; [eapply nth_error_In; apply at_nth; lia|]. cbn. apply Qcleb_true. qc_lra.
    - apply filter_In. split; [eapply nth_error_In; apply at_nth; lia|]. cbn. apply Qcleb_true. qc_lra.
    - cbn. intros X. pose proof (at_lt d 0 1 A ltac:(lia) ltac:(lia)) as Y. rewrite X in Y. revert Y. apply Qcle_not_lt, Qcle_refl. }
  exists M, K. split; [|exact F].
  unfold tangent_edge. cbn [pts_src s_c s_reg p_crv c_dom c_next]. rewrite D. cbn [i_so i_start rbind n_add XQ xq_add].
  unfold reg_of. change xival with (ival xq) in R. rewrite R. cbn [rbind]. now rewrite (line_at ln M K).
Qed.
Theorem edge_period_end w : 0 < w -> (2 <= length d)%nat -> at_x d zed - at_x d (zed - 1) <= w ->
  exists M K, tangent_edge (TPeriod (Fin w)) own src false = Ok (Fin (at_x d zed), Some (Fin (M * at_x d zed + K)), Some (Fin M)) /\
    fits (filter (fun r => Qcleb (at_x d zed - w) (fst r)) d) M K.
Proof.
  intros W L G. destruct (ends_dots ltac:(destruct d; [cbn in L; lia|congruence])) as [D E].
  pose proof (asc_dots s d H P) as A.
  assert (FE : filter (fun r => i_contains (i_closed (Fin (at_x d zed - w)) (Fin (at_x d zed))) (Fin (fst r))) d =
    filter (fun r => Qcleb (at_x d zed - w) (fst r)) d).
  { rewrite closed_filter. apply filter_ext_in. intros r I. destruct (at_in d r I) as (k & Lk & ->).
    rewrite (proj2 (Qcleb_true (at_x d k) _) (at_le d k zed A ltac:(lia) ltac:(lia))). now rewrite andb_true_r. }
  destruct (window_fits lstsq OK s d m H P C fuel (i_closed (Fin (at_x d zed - w)) (Fin (at_x d zed))) ltac:(split; discriminate)) as [F _].
  cbv zeta in F. rewrite FE in F. destruct F as (ln & M & K & R & IL & F).
  { exists (at_x d (zed - 1), at_y d (zed - 1)), (at_x d zed, at_y d zed). split; [|split].
    - apply filter_In. split; [eapply nth_error_In; apply at_nth; lia|]. cbn. apply Qcleb_true. qc_lra.
    - apply filter_In. split; [eapply nth_error_In; apply at_nth; lia|]. cbn. apply Qcleb_true. qc_lra.
    - cbn. intros X. pose proof (at_lt d (zed - 1) zed A ltac:(lia) ltac:(lia)) as Y. rewrite X in Y. revert Y. apply Qcle_not_lt, Qcle_refl. }
  exists M, K. split; [|exact F].
  unfold tangent_edge. cbn [pts_src s_c s_reg p_crv c_dom c_next]. rewrite D. cbn [i_eo i_end rbind n_sub XQ xq_sub].
  unfold reg_of. change xival with (ival xq) in R. rewrite R. cbn [rbind]. now rewrite (line_at ln M K).
Qed.

(** With fewer points than the degree needs the constructor's update raises. *)
Theorem edge_degree_short n fwd : d <> [] -> (length d <= n)%nat -> tangent_edge (TDegree n) own src fwd = Err EType.
Proof.
  intros NE L. destruct (ends_dots NE) as [D E].
  assert (Ld : (0 < length d)%nat) by (destruct d; [congruence|cbn; lia]).
  unfold tangent_edge. cbn [pts_src s_c s_reg p_crv c_dom c_prev c_next]. rewrite D. destruct fwd; cbn [i_so i_eo i_start i_end rbind].
  - rewrite (walk_next_off n 0 L Ld). now destruct (_ =? _)%nat.
  - rewrite (walk_prev_off n zed ltac:(lia) ltac:(lia)). now destruct (_ =? _)%nat.
Qed.

Section Value.
Variables (mode : tangent_mode xq) (le ge : ival xq -> ival xq -> bool) (st en : bool) (e : ext xq (line xq)).
Hypothesis L : lives (tangent_ext mode own) le ge (tan_good mode own) (tan_alike mode own) st en src e.
Hypothesis NE : d <> [].

Lemma ends_le : at_x d 0 <= at_x d zed.
Proof. apply at_le; [exact (asc_dots s d H P)|lia|destruct d; [congruence|cbn; lia]]. Qed.

Lemma value_before q M K : q < at_x d 0 ->
  tangent_edge mode own src true = Ok (Fin (at_x d 0), Some (Fin (M * at_x d 0 + K)), Some (Fin M)) ->
  snd (ext_y (tangent_ext mode own) src e (Fin q)) = Ok (if st then Some (Fin (M * q + K)) else None).
Proof.
  intros Q E. destruct (ends_dots NE) as [D N]. pose proof ends_le as AZ.
  assert (O : iok (dom src)) by (cbn; rewrite D; split; discriminate).
  rewrite (tan_value mode own le ge st en src e q L O), E. cbn [pts_src s_c p_crv c_dom c_y]. rewrite N, D, contains_closed.
  replace (Qcleb (at_x d 0) q) with false by (symmetry; now apply Qcleb_false). rewrite andb_false_r. cbn [andb i_start xq_leb].
  replace (Qcleb q (at_x d 0)) with true by (symmetry; apply Qcleb_true; now apply Qclt_le_weak).
  destruct st; [|reflexivity]. cbn. do 3 f_equal. ring.
Qed.
Lemma value_after q M K : at_x d zed < q ->
  tangent_edge mode own src false = Ok (Fin (at_x d zed), Some (Fin (M * at_x d zed + K)), Some (Fin M)) ->
  snd (ext_y (tangent_ext mode own) src e (Fin q)) = Ok (if en then Some (Fin (M * q + K)) else None).
Proof.
  intros Q E. destruct (ends_dots NE) as [D N]. pose proof ends_le as AZ.
  assert (O : iok (dom src)) by (cbn; rewrite D; split; discriminate).
  rewrite (tan_value mode own le ge st en src e q L O), E. cbn [pts_src s_c p_crv c_dom c_y]. rewrite N, D, contains_closed.
  replace (Qcleb q (at_x d zed)) with false by (symmetry; now apply Qcleb_false). rewrite andb_false_r. cbn [andb i_start xq_leb].
  replace (Qcleb q (at_x d 0)) with false by (symmetry; apply Qcleb_false; eapply Qcle_lt_trans; eauto).
  destruct en; [|reflexivity]. cbn. do 3 f_equal. ring.
Qed.
End Value.

(** The extension's values: one line on each side, the least-squares line of
    the outermost n + 1 points, or of the points within [w] of the edge. *)
Theorem degree_value le ge st en n e : (1 <= n)%nat -> (n < length d)%nat ->
  lives (tangent_ext (TDegree n) own) le ge (tan_good (TDegree n) own) (tan_alike (TDegree n) own) st en src e ->
  (exists M K, fits (firstn (S n) d) M K /\ forall q, q < at_x d 0 ->
     snd (ext_y (tangent_ext (TDegree n) own) src e (Fin q)) = Ok (if st then Some (Fin (M * q + K)) else None)) /\
  (exists M K, fits (skipn (length d - S n) d) M K /\ forall q, at_x d zed < q ->
     snd (ext_y (tangent_ext (TDegree n) own) src e (Fin q)) = Ok (if en then Some (Fin (M * q + K)) else None)).
Proof.
  intros N L V. assert (NE : d <> []) by (destruct d; [cbn in L; lia|congruence]). split.
  - destruct (edge_degree_start n N L) as (M & K & E & F). exists M, K. split; [exact F|]. intros q Q. eapply value_before; eauto.
  - destruct (edge_degree_end n N L) as (M & K & E & F). exists M, K. split; [exact F|]. intros q Q. eapply value_after; eauto.
Qed.
Theorem period_value le ge st en w e : 0 < w -> (2 <= length d)%nat ->
  lives (tangent_ext (TPeriod (Fin w)) own) le ge (tan_good (TPeriod (Fin w)) own) (tan_alike (TPeriod (Fin w)) own) st en src e ->
  (at_x d 1 - at_x d 0 <= w -> exists M K, fits (filter (fun r => Qcleb (fst r) (at_x d 0 + w)) d) M K /\ forall q, q < at_x d 0 ->
     snd (ext_y (tangent_ext (TPeriod (Fin w)) own) src e (Fin q)) = Ok (if st then Some (Fin (M * q + K)) else None)) /\
  (at_x d zed - at_x d (zed - 1) <= w -> exists M K, fits (filter (fun r => Qcleb (at_x d zed - w) (fst r)) d) M K /\ forall q, at_x d zed < q ->
     snd (ext_y (tangent_ext (TPeriod (Fin w)) own) src e (Fin q)) = Ok (if en then Some (Fin (M * q + K)) else None)).
Proof.
  intros N L V. assert (NE : d <> []) by (destruct d; [cbn in L; lia|congruence]). split; intros G.
  - destruct (edge_period_start w N L G) as (M & K & E & F). exists M, K. split; [exact F|]. intros q Q. eapply value_before; eauto.
  - destruct (edge_period_end w N L G) as (M & K & E & F). exists M, K. split; [exact F|]. intros q Q. eapply value_after; eauto.
Qed.
End Tan.

(** An open edge is entered by one min_step before the tangent is taken. *)
Section Open.
Variables (own : Qc) (le ge : ival xq -> ival xq -> bool) (st en : bool) (s : src xq) (e : ext xq (line xq)).
Notation K := (tangent_ext TSlope (Some (Fin own))).
Hypothesis L : lives K le ge (tan_good TSlope (Some (Fin own))) (tan_alike TSlope (Some (Fin own))) st en s e.
Hypothesis O : iok (dom s).
Hypothesis NE : i_is_empty (dom s) = false.

Theorem open_start a u v q : i_start (dom s) = Fin a -> i_so (dom s) = true -> i_contains (dom s) (Fin (a + own)) = true ->
  c_y (s_c s) (Fin (a + own)) = Ok (Some (Fin u)) -> s_dy s (Fin (a + own)) true = Ok (Some (Fin v)) -> q <= a ->
  snd (ext_y K s e (Fin q)) = Ok (if st then Some (Fin (u + v * (q - (a + own)))) else None).
Proof.
  intros A So C Y D Q. rewrite (tan_value TSlope (Some (Fin own)) le ge st en s e q L O).
  assert (X : i_contains (dom s) (Fin q) = false).
  { destruct (i_contains (dom s) (Fin q)) eqn:X; auto. apply contains_iff in X; [|exact O|discriminate]. unfold imem in X.
    rewrite A, So in X. destruct X as [X _]. apply lt_x_fin in X. exfalso. apply (Qcle_not_lt _ _ Q X). }
  rewrite X, NE, A. cbn [xq_leb]. rewrite (proj2 (Qcleb_true _ _) Q). destruct st; [|reflexivity].
  unfold tangent_edge. change (c_dom (s_c s)) with (dom s). rewrite A, So. cbn [n_add XQ xq_add]. rewrite C. cbn [rbind]. rewrite Y. cbn [rbind]. rewrite D.
  reflexivity.
Qed.
Theorem open_end z u v q : i_end (dom s) = Fin z -> i_eo (dom s) = true -> i_contains (dom s) (Fin (z - own)) = true ->
  c_y (s_c s) (Fin (z - own)) = Ok (Some (Fin u)) -> s_dy s (Fin (z - own)) false = Ok (Some (Fin v)) -> z <= q ->
  snd (ext_y K s e (Fin q)) = Ok (if en then Some (Fin (u + v * (q - (z - own)))) else None).
Proof.
  intros Z Eo C Y D Q. rewrite (tan_value TSlope (Some (Fin own)) le ge st en s e q L O).
  assert (X : i_contains (dom s) (Fin q) = false).
  { destruct (i_contains (dom s) (Fin q)) eqn:X; auto. apply contains_iff in X; [|exact O|discriminate]. unfold imem in X.
    rewrite Z, Eo in X. destruct X as [_ X]. apply lt_x_fin in X. exfalso. apply (Qcle_not_lt _ _ Q X). }
  rewrite X, NE. replace (xq_leb (Fin q) (i_start (dom s))) with false.
  2: { apply contains_iff in C; [|exact O|discriminate]. unfold imem in C. rewrite Z, Eo in C. destruct C as [C1 C2]. apply lt_x_fin in C2.
    destruct O as [O1 _]. destruct (i_start (dom s)) as [a| | |]; try reflexivity; [|destruct (i_so (dom s)); discriminate].
    symmetry. apply Qcleb_false. assert (a <= z - own).
    { destruct (i_so (dom s)); [apply Qclt_le_weak, lt_x_fin; exact C1|apply Qcleb_true; exact C1]. }
    eapply Qcle_lt_trans; [eassumption|]. eapply Qclt_le_trans; eauto. }
  destruct en; [|reflexivity].
  unfold tangent_edge. change (c_dom (s_c s)) with (dom s). rewrite Z, Eo. cbn [n_sub XQ xq_sub]. rewrite C. cbn [rbind]. rewrite Y. cbn [rbind]. rewrite D.
  reflexivity.
Qed.
End Open.
