(** Sampling a simple moving average: its positions, and its values are those of
    single queries. *)
From Coq Require Import List ZArith QArith Qcanon Bool Sorting.Sorted Lia Arith.
From Verif Require Import Base Num NumFacts Interval IntervalFacts Curve BaseFacts.
From Verif Require Import Points PointsSpec PointsIdx PointsQuery PointsDom PointsOps PointsMut PointsReset PointsReplace PointsCover PointsHist PointsTop.
From Verif Require Import PointsDec BaseTop Combine CombineFacts CombineTop CombineLine Scan ScanFacts ScanSource ScanInv ScanTf SmaFacts SmaInv.
From Verif Require Import ScanTop ScanView ScanSample ScanSampleFacts ScanSampleAcc ScanSampleTop SmaSample.
Import ListNotations.

Section View.
Context (half m o : Qc) (Hhalf : (half + half = 1)%Qc) (Hm : (0 < m)%Qc) (Ho : (0 < o)%Qc) (deg : sma_degree xq).
Notation own := (Some (Fin o)).
Notation degree_ok := (degree_ok m deg).
Notation first_pos := (first_pos m deg).
Notation window := (window m deg).
Notation average := (average m deg).
Notation sma_domain := (sma_domain m deg).
Notation G := (integral_G ILinear).
Notation st := (state G ILinear).
Notation shows := (shows m o).
Notation linv := (linv m deg).
Notation integral fuel c a x := (sma_integral fuel (Fin half) c own deg a x).
Notation query depth fuel c a x := (sma_y depth fuel (Fin half) c own deg a x).
Notation scan_to fuel c x a := (sma_scan fuel (Fin half) c own deg x a).

(** the scan begins at position [b] of the points or before *)
Definition begun (d : list (Qc * Qc)) (b : nat) (a : acc xq num) : Prop :=
  exists i, (i <= b)%nat /\ (i < length d)%nat /\ a_start a = Some (Fin (at_x d i)).

Lemma scan_ok fuel c d a q w : degree_ok -> shows c d -> linv (dots d) a -> (length d < fuel)%nat -> (w < length d)%nat ->
  sma_start c own deg (Fin q) = Ok (Some (Fin (at_x d w))) -> (at_x d w <= q)%Qc -> (q <= at_x d (length d - 1))%Qc ->
  exists a', scan_to fuel c (Fin q) a = (a', Ok tt) /\ linv (dots d) a' /\ begun d w a' /\ (forall b, begun d b a -> begun d b a').
Proof.
  intros DO HS (Id & Ca & (i0 & k & St)) Lf Lw SS Q1 Q2.
  destruct (shows_step m o Hm c d HS) as (h & Hh & EV). pose proof (sh_fine _ _ _ _ HS) as (ES & CS & CM).
  assert (AS : ascending (dots d)) by apply (sh_walks _ _ _ _ HS).
  assert (PRE : exists a1 i k1, (match a_start a, Some (Fin (at_x d w)) with
        | Some s, Some x => if n_ltb x s then reset_scan a else (a, Ok tt)
        | Some _, None => (a, Err EType)
        | None, _ => (a, Ok tt)
        end) = (a1, Ok tt) /\ st (skipn i (dots d)) a1 k1 /\ a_upd a1 = a_upd a /\ (i <= w)%nat /\
        (k1 = 0%nat -> i = w) /\ (forall j, (j < length d)%nat -> a_start a = Some (Fin (at_x d j)) -> (i <= j)%nat)).
  { destruct k as [|k].
    - destruct (start_none d i0 a St) as [N St0]. rewrite N. exists a, w, 0%nat. split; [reflexivity|]. split; [apply St0|].
      split; [reflexivity|]. split; [lia|]. split; [reflexivity|]. discriminate.
    - destruct (start_at d i0 a k St) as [L0 S0]. rewrite S0. cbn [n_ltb XQ xq_ltb]. destruct (Qcltb (at_x d w) (at_x d i0)) eqn:C.
      + destruct (reset_scan_ok G ILinear _ (skipn w (dots d)) a _ St) as (a1 & E & St1 & U1).
        exists a1, w, 0%nat. split; [exact E|]. split; [exact St1|]. split; [exact U1|]. split; [lia|]. split; [reflexivity|].
        intros j Lj [= EJ]. apply Qcltb_true in C. rewrite EJ in C.
        destruct (le_lt_dec w j) as [L|L]; [exact L|]. pose proof (even_le h d EV j w ltac:(lia) Lw). qc_lra.
      + exists a, i0, (S k). split; [reflexivity|]. split; [exact St|]. split; [reflexivity|]. apply Qcltb_false in C.
        split; [apply (even_inv h d EV); auto; lia|]. split; [discriminate|].
        intros j Lj [= EJ]. apply (even_inv h d EV); auto; rewrite EJ; apply Qcle_refl. }
  destruct PRE as (a1 & i & k1 & E1 & St1 & U1 & Li & K1 & UQ).
  pose proof St1 as St1'. rewrite dots_skipn in St1'.
  assert (SP : span (dots (skipn i d)) q).
  { exists (at_x d i), (at_x d (length d - 1)), (Some (Fin (at_y d i))), (Some (Fin (at_y d (length d - 1)))). rewrite <- dots_skipn. repeat split.
    - apply (nth_error_In _ 0). rewrite nth_error_skip, Nat.add_0_r. apply dots_at. lia.
    - apply (nth_error_In _ (length d - 1 - i)). rewrite nth_error_skip. replace (i + (length d - 1 - i))%nat with (length d - 1)%nat by lia. apply dots_at. lia.
    - eapply Qcle_trans; [|exact Q1]. apply even_le with h; auto.
    - exact Q2. }
  destruct (loop_gen lerp_total_num G o Ho ILinear c (integral_scan (Fin half) ILinear (c_y c))
     (dots (skipn i d)) (fun u => u = a_upd a) (fun a x => (a, Ok x)) (Some (Fin (at_x d w))) q)
     with (fuel := fuel) (a := a1) (k := k1) as (a2 & k2 & E2 & U2 & St2 & R2).
  { rewrite <- dots_skipn. now apply ascending_skipn. }
  { rewrite <- dots_skipn. now apply equally_skipn. }
  { eapply shows_serves; eauto. } { eapply shows_computes; eauto. } { exact SP. } { exact U1. } { exact St1'. }
  { rewrite dots_len, skipn_length. lia. }
  { intros ->. rewrite (K1 eq_refl) in *. exists a1, (Fin (at_x d w), Some (Fin (at_y d w))). split; [reflexivity|]. split; [|split; [exact U1|exact St1']].
    rewrite <- dots_skipn. pose proof (dots_at d w ltac:(lia)) as NW. replace w with (w + 0)%nat in NW at 1 by lia. rewrite <- nth_error_skip in NW. destruct (skipn w (dots d)); [discriminate|exact NW]. }
  assert (ST : a_start a2 = Some (Fin (at_x d i))).
  { destruct k2 as [|k2]; [destruct R2 as (z & Z & _); discriminate|]. rewrite <- dots_skipn in St2. apply (start_at d i a2 k2 St2). }
  exists a2. split; [|split; [|split]].
  - unfold sma_scan, scan. rewrite SS, E1, E2. reflexivity.
  - split; [rewrite U2; exact Id|]. split.
    + unfold cached in *. rewrite U2. exact Ca.
    + exists i, k2. rewrite dots_skipn. exact St2.
  - exists i. repeat split; auto; lia.
  - intros b (j & Lb & Lj & Sj). exists i. repeat split; auto; [|lia]. specialize (UQ j Lj Sj). lia.
Qed.

Lemma integral_begun fuel c d a e a' r : degree_ok -> shows c d -> linv (dots d) a -> (e < length d)%nat -> (length d < fuel)%nat ->
  integral fuel c a (Fin (at_x d e)) = (a', r) -> forall b, begun d b a -> begun d b a'.
Proof.
  intros DO HS HI Le Lf E b Hb. pose proof (shows_windows m o Hm deg c d DO HS) as HW. destruct (shows_step m o Hm c d HS) as (h & Hh & EV).
  pose proof (w_le _ _ _ _ _ _ HW e Le) as We.
  destruct (scan_ok fuel c d a (at_x d e) (window d e) DO HS HI Lf ltac:(lia) (w_start _ _ _ _ _ _ HW e Le)) as (a1 & E1 & _ & _ & B1).
  { apply even_le with h; auto. } { apply even_le with h; auto; lia. }
  assert (IC : i_contains (c_dom c) (Fin (at_x d e)) = true).
  { change (Fin (at_x d e)) with (fst (Fin (at_x d e), Some (Fin (at_y d e)))). apply (sv_dom _ _ _ (sh_serves _ _ _ _ HS)).
    eapply nth_error_In. now apply dots_at. }
  unfold sma_integral in E. rewrite IC in E. cbn [negb] in E. unfold sma_scan in E1. rewrite E1 in E. injection E as <- _. now apply B1.
Qed.

Lemma knot_begun dp fuel c d a k a' r : degree_ok -> shows c d -> linv (dots d) a -> (first_pos d <= k)%nat -> (k < length d)%nat -> (length d < fuel)%nat ->
  query (S dp) fuel c a (Fin (at_x d k)) = (a', r) -> forall b, begun d b a -> begun d b a'.
Proof.
  intros DO HS HI L0 L Lf E b Hb. pose proof (shows_windows m o Hm deg c d DO HS) as HW.
  destruct (shows_step m o Hm c d HS) as (h & Hh & EV).
  destruct (sma_dom_ok m o Hm deg c d a DO HS HI) as (a0 & ED & I0 & S0).
  assert (B0 : begun d b a0) by (destruct Hb as (i & Hi & Hl & Hs); exists i; repeat split; auto; congruence).
  cbn [sma_y] in E. rewrite ED in E.
  assert (IC : i_contains (sma_domain d) (Fin (at_x d k)) = true).
  { apply (dom_knots m deg d h); auto. split; [lia|]. split; apply even_le with h; auto; lia. }
  rewrite IC in E. cbn [negb] in E. rewrite (w_start _ _ _ _ _ _ HW k L) in E. rewrite (w_end _ _ _ _ _ _ HW k L0 L) in E.
  rewrite fin_eqb in E. pose proof (w_le _ _ _ _ _ _ HW k L) as LW. set (w := window d k) in *.
  destruct (Nat.eq_dec w k) as [Ew|N].
  - rewrite Ew in E. destruct (Qc_eq_dec (at_x d k) (at_x d k)) as [_|X]; [|congruence]. cbn [orb] in E. injection E as <- _. exact B0.
  - pose proof (even_lt h d EV w k ltac:(lia) L) as LX. pose proof (proj1 EV) as HH.
    destruct (Qc_eq_dec (at_x d w) (at_x d k)) as [X|X]; [exfalso; rewrite X in LX; qc_lra|]. cbn [orb] in E.
    destruct (integral_pair half m o Hhalf Hm Ho deg fuel c d a0 w k DO HS I0 ltac:(lia) L Lf) as (a1 & a2 & y0 & y1 & E1 & E2 & EY & I2).
    assert (I1 : linv (dots d) a1).
    { destruct (integral_at half m o Hhalf Hm Ho deg fuel c d a0 w DO HS I0 ltac:(lia) Lf) as (a1' & i & E1' & I1 & _). rewrite E1 in E1'. injection E1' as -> _. exact I1. }
    pose proof (integral_begun fuel c d a0 w a1 _ DO HS I0 ltac:(lia) Lf E1 b B0) as B1.
    pose proof (integral_begun fuel c d a1 k a2 _ DO HS I1 L Lf E2 b B1) as B2.
    rewrite E1 in E. rewrite E2 in E. cbn [n_sub XQ xq_sub] in E.
    rewrite xdiv in E by (intros Y; clear -Y LX HH; qc_lra). rewrite fin_eqb in E.
    destruct (Qc_eq_dec (at_x d k) (at_x d k)) as [_|Y]; [|congruence]. injection E as <- _. exact B2.
Qed.

Lemma query_begun dp fuel c d a x a' r : degree_ok -> shows c d -> linv (dots d) a -> (length d < fuel)%nat ->
  query (S (S dp)) fuel c a x = (a', r) -> forall b, begun d b a -> begun d b a'.
Proof.
  intros DO HS HI Lf E b Hb. pose proof (shows_windows m o Hm deg c d DO HS) as HW.
  destruct (shows_step m o Hm c d HS) as (h & Hh & EV).
  destruct (sma_dom_ok m o Hm deg c d a DO HS HI) as (a0 & ED & I0 & S0).
  assert (B0 : begun d b a0) by (destruct Hb as (i & Hi & Hl & Hs); exists i; repeat split; auto; congruence).
  destruct (i_contains (sma_domain d) x) eqn:IC.
  2: { cbn [sma_y] in E. rewrite ED, IC in E. cbn [negb] in E. injection E as <- _. exact B0. }
  destruct (sma_domain_fin m deg d x IC) as [q ->]. pose proof IC as IC'.
  apply (dom_knots m deg d h) in IC; auto. destruct IC as [L0 [C0 C1]].
  assert (L : (0 < length d)%nat) by lia.
  destruct (between h d q EV L) as [(k & Lk & ->)|(j & Lj & Q1 & Q2)]; auto.
  { pose proof (even_le h d EV 0 (first_pos d) ltac:(lia) L0). qc_lra. }
  { apply (even_inv h d EV) in C0; auto. exact (knot_begun (S dp) fuel c d a k a' r DO HS HI C0 Lk Lf E b Hb). }
  assert (P0 : (first_pos d <= j)%nat).
  { destruct (le_lt_dec (first_pos d) j) as [C|C]; auto. exfalso. pose proof (even_le h d EV (S j) (first_pos d) C L0). qc_lra. }
  remember (S dp) as dq eqn:EQ. cbn [sma_y] in E. subst dq. rewrite ED, IC' in E. cbn [negb] in E.
  destruct (w_mid _ _ _ _ _ _ HW q j P0 Lj Q1 Q2) as [[S1 S2]|(i & e & Lie & Hj & S1 & S2)].
  { rewrite S1, S2, !fin_eqb in E. destruct (Qc_eq_dec q q) as [_|X]; [|congruence]. cbn [orb] in E. injection E as <- _. exact B0. }
  rewrite S1, S2, !fin_eqb in E.
  assert (Le : (e < length d)%nat) by lia.
  destruct (Qc_eq_dec (at_x d i) q) as [Y|NQ]; cbn [orb] in E; [injection E as <- _; exact B0|].
  destruct (Qc_eq_dec (at_x d i) (at_x d e)) as [Y|NE]; cbn [orb] in E; [injection E as <- _; exact B0|].
  assert (LT : (i < e)%nat) by (destruct (Nat.eq_dec i e) as [->|]; [congruence|lia]).
  pose proof (even_lt h d EV i e LT Le) as LX. pose proof (proj1 EV) as HH.
  destruct (integral_pair half m o Hhalf Hm Ho deg fuel c d a0 i e DO HS I0 LT Le Lf) as (a1 & a2 & y0 & y1 & E1 & E2 & EY & I2).
  assert (I1 : linv (dots d) a1).
  { destruct (integral_at half m o Hhalf Hm Ho deg fuel c d a0 i DO HS I0 ltac:(lia) Lf) as (a1' & i' & E1' & I1 & _). rewrite E1 in E1'. injection E1' as -> _. exact I1. }
  pose proof (integral_begun fuel c d a0 i a1 _ DO HS I0 ltac:(lia) Lf E1 b B0) as B1.
  pose proof (integral_begun fuel c d a1 e a2 _ DO HS I1 Le Lf E2 b B1) as B2.
  rewrite E1 in E. rewrite E2 in E. cbn [n_sub XQ xq_sub] in E.
  rewrite xdiv in E by (intros Y; clear -Y LX HH; qc_lra).
  destruct (Qc_eq_dec q (at_x d e)) as [Y|NX]; [injection E as <- _; exact B2|].
  destruct Hj as [->| ->].
  - assert (GT : n_gtb (Fin q) (Fin (at_x d j)) = true) by (unfold n_gtb; cbn; now apply Qcltb_true). rewrite GT in E.
    rewrite (next_knot c d own m h (sh_walks _ _ _ _ HS) Hm Hh EV j Le) in E.
    apply Nat.ltb_lt in Lj as L'. rewrite L' in E. rewrite fin_eqb in E.
    destruct (Qc_eq_dec (at_x d (S j)) q) as [Y|_]; [exfalso; clear -Y Q2; subst q; qc_lra|].
    destruct (query (S dp) fuel c a2 (Fin (at_x d (S j)))) as [a3 r3] eqn:E3.
    pose proof (knot_begun dp fuel c d a2 (S j) a3 r3 DO HS I2 ltac:(lia) Lj Lf E3 b B2) as B3.
    destruct r3 as [[v|]|]; injection E as <- _; exact B3.
  - assert (GT : n_gtb (Fin q) (Fin (at_x d (S j))) = false).
    { unfold n_gtb; cbn. apply Qcltb_false. now apply Qclt_le_weak. } rewrite GT in E.
    rewrite (prev_knot c d own m h (sh_walks _ _ _ _ HS) Hm Hh EV (S j) Le) in E. rewrite fin_eqb in E.
    destruct (Qc_eq_dec (at_x d j) q) as [Y|_]; [exfalso; clear -Y Q1; subst q; qc_lra|].
    destruct (query (S dp) fuel c a2 (Fin (at_x d j))) as [a3 r3] eqn:E3.
    pose proof (knot_begun dp fuel c d a2 j a3 r3 DO HS I2 P0 ltac:(lia) Lf E3 b B2) as B3.
    destruct r3 as [[v|]|]; injection E as <- _; exact B3.
Qed.

(** ** Steps *)
Lemma find_skip (b : xq) (xs : list xq) i : (forall x, In x (firstn i xs) -> n_leb b x = false) -> find (fun y => n_leb b y) xs = find (fun y => n_leb b y) (skipn i xs).
Proof.
  intros H. rewrite <- (firstn_skipn i xs) at 1. rewrite find_app. destruct (find _ (firstn i xs)) as [y|] eqn:F; [|reflexivity].
  apply find_some in F as [F1 F2]. rewrite (H y F1) in F2. discriminate.
Qed.
Lemma before_knot h d i x : even h d -> In x (firstn i (map fst (dots d))) -> exists j, (j < i)%nat /\ (j < length d)%nat /\ x = Fin (at_x d j).
Proof.
  intros EV I. apply In_nth_error in I as [j J].
  assert (Lj : (j < length (firstn i (map fst (dots d))))%nat) by (apply nth_error_Some; congruence).
  rewrite firstn_length, map_length, dots_len in Lj. exists j. repeat split; try lia.
  assert (J' : nth_error (map fst (dots d)) j = Some x).
  { rewrite <- (firstn_skipn i (map fst (dots d))), nth_error_app1; [exact J|]. rewrite firstn_length, map_length, dots_len. lia. }
  rewrite nth_error_map, dots_at in J' by lia. cbn in J'. congruence.
Qed.
Lemma following_skip h d i M q : even h d -> (forall j, (j < i)%nat -> (j < length d)%nat -> (at_x d j < q + M)%Qc) ->
  following (dots d) M (Fin q) = following (dots (skipn i d)) M (Fin q).
Proof.
  intros EV H. unfold following. rewrite <- dots_skipn, <- skipn_map. apply find_skip.
  intros x I. destruct (before_knot h d i x EV I) as (j & Lj & Ld & ->). cbn. apply Qcleb_false. now apply H.
Qed.

Lemma next_ok c d a q M lim w : shows c d -> linv (dots d) a -> begun d w a -> (forall j, (j < w)%nat -> (j < length d)%nat -> (at_x d j < q + M)%Qc) ->
  strides M c (dots d) -> (o <= M)%Qc -> acc_next c own a (Fin q) (Some (Fin M)) lim = Ok (following (dots d) M (Fin q)).
Proof.
  intros HS (Id & Ca & (i & k & St)) (i' & Li' & Ld & S0) B SC L. destruct (shows_step m o Hm c d HS) as (h & Hh & EV).
  unfold acc_next. cbn [resolve_min_step].
  assert (E : n_max (Fin M) (Fin o) = Fin M).
  { unfold n_max, n_gtb. cbn [n_ltb XQ xq_ltb]. rewrite (proj2 (Qcltb_false _ _) L). reflexivity. }
  rewrite E. rewrite p_next_following by apply (co_good _ _ _ _ _ (st_core _ _ _ _ _ St)). cbn [rbind].
  rewrite SC. unfold following at 1. rewrite (co_pts _ _ _ _ _ (st_core _ _ _ _ _ St)), spec_xs.
  destruct (find _ (map fst (firstn k (skipn i (dots d))))) as [y|] eqn:F; [|reflexivity].
  cbn [py_or]. assert (X : following (dots d) M (Fin q) = Some y).
  { destruct k as [|k]; [discriminate|]. destruct (start_at d i a k St) as [L0 S1]. rewrite S1 in S0. injection S0 as S0.
    assert (EI : i = i') by (apply Nat.le_antisymm; apply (even_inv h d EV); auto; rewrite S0; apply Qcle_refl). subst i'.
    rewrite (following_skip h d i M q EV).
    - unfold following. rewrite <- dots_skipn. rewrite <- (firstn_skipn (S k) (skipn i (dots d))), map_app, find_app.
      change (fun y0 : xq => n_leb (n_add (Fin q) (Fin M)) y0) with (fun y0 => n_leb (n_add (Fin q) (Fin M)) y0) in F. rewrite F. reflexivity.
    - intros j Lj Lk. apply B; auto; lia. }
  rewrite X. destruct (n_eqb y n_zero); reflexivity.
Qed.

(** ** Sampling *)
Definition shown (d : list (Qc * Qc)) : list (Qc * Qc) := skipn (first_pos d) d.
Lemma shown_dom c d : shows c d -> sma_domain d = pts_domain (dots (shown d)).
Proof.
  intros HS. assert (AS : ascending (dots d)) by apply (sh_walks _ _ _ _ HS). unfold SmaInv.sma_domain, shown.
  destruct (Nat.ltb_spec (first_pos d) (length d)) as [L|L].
  - rewrite <- dots_skipn.
    assert (H0 : head_opt (skipn (first_pos d) (dots d)) = Some (Fin (at_x d (first_pos d)), Some (Fin (at_y d (first_pos d))))).
    { pose proof (dots_at d _ L) as N. replace (first_pos d) with (first_pos d + 0)%nat in N at 1 by lia. rewrite <- nth_error_skip in N.
      destruct (skipn (first_pos d) (dots d)); [discriminate|exact N]. }
    assert (Hn : last_opt (skipn (first_pos d) (dots d)) = Some (Fin (at_x d (length d - 1)), Some (Fin (at_y d (length d - 1))))).
    { destruct (skipn (first_pos d) (dots d)) as [|z r] eqn:E using rev_ind; [discriminate|]. rewrite last_opt_app. f_equal.
      assert (N : nth_error (skipn (first_pos d) (dots d)) (length r) = Some z) by (rewrite E, nth_error_app2, Nat.sub_diag by lia; reflexivity).
      rewrite nth_error_skip in N. assert (LL : length (skipn (first_pos d) (dots d)) = S (length r)) by (rewrite E, app_length; cbn; lia).
      rewrite skipn_length, dots_len in LL. replace (first_pos d + length r)%nat with (length d - 1)%nat in N by lia. rewrite dots_at in N by lia. congruence. }
    symmetry. apply (ends_ok _ _ _ (ascending_skipn _ _ AS) H0 Hn).
  - rewrite skipn_all2 by lia. reflexivity.
Qed.

(** windows that begin and end where the average starts at a point *)
Definition rooted (c : crv xq num) (d : list (Qc * Qc)) (q : Qc) : Prop :=
  exists w, (w < length d)%nat /\ sma_start c own deg (Fin q) = Ok (Some (Fin (at_x d w))) /\ (at_x d w <= q)%Qc.

Theorem sma_sample_pure dp fuel c d a p domain ms step M :
  degree_ok -> shows c d -> linv (dots d) a -> (length d < fuel)%nat -> strides M c (dots d) ->
  resolve_min_step own ms = Some (Fin M) -> (o <= M)%Qc -> (forall D, domain = Some D -> iok D) ->
  (forall u, i_is_empty (sampled_domain p domain) = false -> i_start (sampled_domain p domain) = Fin u \/ i_end (sampled_domain p domain) = Fin u -> rooted c d u) ->
  c_dom p = pts_domain (dots (shown d)) -> (forall x, c_y p x = snd (query (S (S dp)) fuel c a x)) -> c_ms p = own -> strides M p (dots (shown d)) ->
  exists a', sma_sample (S (S dp)) fuel (Fin half) c own deg a domain ms step = (a', sample_points fuel p domain ms step) /\ linv (dots d) a'.
Proof.
  intros DO HS HI Lf SC RM L ID RT PD PY PM SP. destruct (shows_step m o Hm c d HS) as (h & Hh & EV).
  assert (AS : ascending (dots (shown d))) by (unfold shown; rewrite <- dots_skipn; apply ascending_skipn, (sh_walks _ _ _ _ HS)).
  pose proof (shown_dom c d HS) as SD.
  unfold sma_sample. rewrite RM. destruct (sma_dom_ok m o Hm deg c d a DO HS HI) as (a0 & E0 & I0 & _). rewrite E0, SD.
  cbv beta iota. match goal with |- context [i_is_empty ?X] => replace X with (sampled_domain p domain) by (unfold sampled_domain; now rewrite PD) end. set (e := sampled_domain p domain) in *.
  destruct (i_is_empty e) eqn:NE.
  { exists a0. split; [|exact I0]. unfold sample_points. change (match domain with Some _ => _ | None => _ end) with e. cbv zeta. now rewrite NE. }
  assert (NL : (first_pos d < length d)%nat).
  { destruct (le_lt_dec (length d) (first_pos d)) as [C|C]; [|exact C]. exfalso. unfold e, sampled_domain in NE. rewrite PD in NE. unfold shown in NE. rewrite skipn_all2 in NE by exact C.
    destruct domain; cbn in NE; discriminate. }
  set (x0 := at_x d (first_pos d)) in *. set (xn := at_x d (length d - 1)) in *.
  assert (EO : pts_domain (dots (shown d)) = i_closed (Fin x0) (Fin xn)).
  { rewrite <- SD. unfold SmaInv.sma_domain. now rewrite (proj2 (Nat.ltb_lt _ _) NL). }
  assert (L0 : (x0 <= xn)%Qc) by (apply even_le with h; auto; lia).
  assert (X : i_inter2 (pts_domain (dots (shown d))) e = e /\ exists u v, i_start e = Fin u /\ i_end e = Fin v /\ (x0 <= u)%Qc /\ (u <= v)%Qc /\ (v <= xn)%Qc).
  { unfold e, sampled_domain in NE |- *. rewrite PD, EO in NE |- *. destruct domain as [d'|].
    - apply inter_idem; auto.
    - split; [|exists x0, xn; cbn; repeat split; auto; apply Qcle_refl].
      assert (DI : i_inter2 (i_closed (Fin x0) (Fin xn)) (i_closed (Fin x0) (Fin xn)) = i_closed (Fin x0) (Fin xn)).
      { unfold i_inter2. rewrite NE. cbn [orb]. unfold later_start, earlier_end. cbn [i_closed i_start i_end i_so i_eo n_ltb XQ xq_ltb].
        rewrite !(proj2 (Qcltb_false _ _) (Qcle_refl _)). cbn [orb]. change (mkI (Fin x0) (Fin xn) false false) with (i_closed (Fin x0) (Fin xn)). now rewrite NE. }
      exact DI. }
  destruct X as (DI & u & v & Su & Ev & B1 & B2 & B3).
  assert (FI : i_is_finite e = true) by (unfold i_is_finite; rewrite Su, Ev; reflexivity).
  assert (II : i_is_infinite e = false) by (unfold i_is_infinite; now rewrite FI). rewrite II.
  destruct (RT u eq_refl (or_introl Su)) as (w & Lw & Sw & Qw). destruct (RT v eq_refl (or_intror Ev)) as (w' & Lw' & Sw' & Qw').
  rewrite Su, Ev.
  destruct (scan_ok fuel c d a0 u w DO HS I0 Lf Lw Sw Qw) as (a1 & E1 & I1 & G1 & _); [eapply Qcle_trans; eauto|]. rewrite E1.
  destruct (scan_ok fuel c d a1 v w' DO HS I1 Lf Lw' Sw' Qw' B3) as (a2 & E2 & I2 & _ & G2). rewrite E2. apply G2 in G1. clear G2.
  assert (RM' : resolve_min_step own (Some (Fin M)) = Some (Fin M)).
  { cbn [resolve_min_step]. unfold n_max, n_gtb. cbn [n_ltb XQ xq_ltb]. now rewrite (proj2 (Qcltb_false _ _) L). }
  assert (SE : sampled_domain p (Some e) = e) by (unfold sampled_domain; rewrite PD; exact DI).
  assert (FS : forall q, (u <= q)%Qc -> following (dots d) M (Fin q) = following (dots (shown d)) M (Fin q)).
  { intros q Q. apply (following_skip h d (first_pos d) M q EV). intros j Lj Lk. pose proof (even_lt h d EV j (first_pos d) Lj NL) as LX. pose proof (proj1 EV). fold x0 in LX.
    assert (0 < M)%Qc by qc_lra. qc_lra. }
  destruct (sample_pure own (sma_dom_again c own deg) (sma_y (S (S dp)) fuel (Fin half) c own deg) (acc_next c own)
    (fun s => linv (dots d) s /\ begun d w s) (pts_domain (dots (shown d)))
    (fun x => snd (query (S (S dp)) fuel c a x)) (fun x => Ok (following (dots (shown d)) M x)) (fun x => exists q, x = Fin q /\ (u <= q)%Qc) p PD PY PM)
    with (fuel := fuel) (s := a2) (domain := Some e) (ms := Some (Fin M)) (step := step) as (a3 & E3 & I3 & _); auto.
  - intros s (Is & (i & Hi & Hl & Hs)). destruct (sma_dom_ok m o Hm deg c d s DO HS Is) as (s' & Es & Is' & Ss). exists s'.
    unfold sma_dom_again. rewrite Es, SD. split; [reflexivity|]. split; [exact Is'|]. exists i. repeat split; auto. congruence.
  - intros s x (Is & Bs). destruct (query (S (S dp)) fuel c s x) as [s' r] eqn:Eq. exists s'. split.
    + f_equal. destruct (i_contains (sma_domain d) x) eqn:IC.
      * destruct (sma_domain_fin m deg d x IC) as [q ->]. destruct (sma_view_value half m o Hhalf Hm Ho deg c d q DO HS) as (vv & HV & _).
        rewrite (HV dp fuel a HI Lf). specialize (HV dp fuel s Is Lf). rewrite Eq in HV. exact HV.
      * destruct (vout_ok half m o Hm deg (S dp) fuel c d a x DO HS HI IC) as (b1 & F1 & _). destruct (vout_ok half m o Hm deg (S dp) fuel c d s x DO HS Is IC) as (b2 & F2 & _).
        rewrite F1. cbn [snd]. congruence.
    + split; [eapply vquery_linv; eauto|eapply query_begun; eauto].
  - intros _ d' m' Ed _ _ Rm'. rewrite SE in Ed. subst d'. rewrite RM' in Rm'. injection Rm' as <-.
    split; [rewrite Su; exists u; split; [reflexivity|apply Qcle_refl]|]. split; [|split].
    + intros s x (Is & Bs) (q & -> & Q). rewrite <- FS by exact Q. apply (next_ok c d s q M _ w); auto.
      intros j Lj Lk. pose proof (even_lt h d EV j w Lj Lw) as LX. pose proof (proj1 EV). assert (0 < M)%Qc by qc_lra. qc_lra.
    + intros x (q & -> & _). apply SP.
    + intros x x1 (q & -> & Q) Q'. injection Q' as Q'. destruct (following_fin (dots (shown d)) M q x1 AS Q') as (r & -> & Lr). exists r. split; [reflexivity|].
      assert (0 < M)%Qc by qc_lra. qc_lra.
  - exists a3. split; [|exact I3]. etransitivity; [exact E3|]. f_equal. apply sample_same; [exact SE|]. now rewrite PM, RM, RM'.
Qed.
End View.
