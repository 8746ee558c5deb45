(** What sampling a simple moving average returns. *)
From Coq Require Import List ZArith QArith Qcanon Bool Sorting.Sorted Lia Arith.
From Verif Require Import Base Num NumFacts Interval IntervalFacts Curve BaseFacts.
From Verif Require Import Points PointsSpec PointsIdx PointsQuery PointsDom PointsOps PointsMut PointsReset PointsReplace PointsCover PointsHist PointsTop.
From Verif Require Import PointsDec BaseTop Combine CombineFacts CombineTop CombineLine Scan ScanFacts ScanSource ScanInv ScanTf SmaFacts SmaInv.
From Verif Require Import ScanTop ScanView ScanSample ScanSampleFacts ScanSampleAcc ScanSampleTop SmaSample SmaSampleFacts.
Import ListNotations.

(** the window reaches back over at least one point: two points or more, or a
    period above the spacing *)
Definition wide (m : Qc) (deg : sma_degree xq) (d : list (Qc * Qc)) : Prop :=
  match deg with
  | SmaDegree n => (2 <= n)%nat
  | SmaPeriod (Fin P) => forall k, (S k < length d)%nat -> (at_x d (S k) - at_x d k + m <= P)%Qc
  | SmaPeriod _ => False
  end.

Section View.
Context (half m o : Qc) (Hhalf : (half + half = 1)%Qc) (Hm : (0 < m)%Qc) (Ho : (0 < o)%Qc) (deg : sma_degree xq).
Notation own := (Some (Fin o)).
Notation degree_ok := (degree_ok m deg).
Notation first_pos := (first_pos m deg).
Notation shows := (shows m o).
Notation linv := (linv m deg).
Notation shown := (shown m deg).
Notation query depth fuel c a x := (sma_y depth fuel (Fin half) c own deg a x).

Lemma knot_rooted c d k : degree_ok -> shows c d -> (k < length d)%nat -> rooted o deg c d (at_x d k).
Proof.
  intros DO HS L. destruct (shows_step m o Hm c d HS) as (h & Hh & EV). pose proof (shows_windows m o Hm deg c d DO HS) as W.
  pose proof (w_le _ _ _ _ _ _ W k L) as Lw. exists (window m deg d k). split; [lia|]. split; [now apply (w_start _ _ _ _ _ _ W)|].
  apply even_le with h; auto.
Qed.
Lemma wide_rooted c d q : degree_ok -> shows c d -> wide m deg d -> (first_pos d < length d)%nat ->
  (at_x d (first_pos d) <= q)%Qc -> (q <= at_x d (length d - 1))%Qc -> rooted o deg c d q.
Proof.
  intros DO HS WD L Q1 Q2. destruct (shows_step m o Hm c d HS) as (h & Hh & EV). pose proof (sh_walks _ _ _ _ HS) as WK.
  pose proof (even_le h d EV 0 (first_pos d) ltac:(lia) L) as L0.
  destruct (between h d q EV ltac:(lia) ltac:(qc_lra) Q2) as [(k & Lk & ->)|(j & Lj & J1 & J2)]; [now apply knot_rooted|].
  assert (FJ : (first_pos d <= j)%nat).
  { destruct (le_lt_dec (first_pos d) j) as [F|F]; [exact F|]. pose proof (even_le h d EV (S j) (first_pos d) F L). qc_lra. }
  unfold rooted. unfold wide in WD. unfold SmaInv.degree_ok in DO. unfold SmaInv.first_pos in *. destruct deg as [p|n].
  - destruct DO as (P & -> & HP). pose proof (ge_start d m P q HP ltac:(lia) Q2) as GS.
    exists (first_ge (q - P + m) d). split; [exact GS|]. split; [exact (period_start c d own m WK P q HP ltac:(lia) Q2)|].
    specialize (WD j Lj). destruct (le_lt_dec (first_ge (q - P + m) d) j) as [F|F].
    + pose proof (even_le h d EV _ j F ltac:(lia)). qc_lra.
    + pose proof (first_ge_lt _ _ _ F). qc_lra.
  - destruct n as [|[|n]]; [lia|lia|]. cbn [sma_start Nat.sub sma_walk]. rewrite ?Nat.sub_0_r.
    destruct (Qclt_le_dec (q - m) (at_x d j)) as [Y|Y].
    + assert (J : exists j', j = S j') by (exists (j - 1)%nat; lia). destruct J as [j' ->].
      assert (E : c_prev c (Fin q) own None = Ok (Some (Fin (at_x d j')))).
      { apply (wk_prev _ _ _ _ WK); [lia| |].
        - pose proof (proj2 EV j' ltac:(lia)). qc_lra.
        - intros i I Li. pose proof (even_le h d EV (S j') i ltac:(lia) Li). qc_lra. }
      exists (j' - n)%nat. split; [lia|]. rewrite E. cbn [rbind]. rewrite (walk_prev c d own m h WK Hm Hh EV) by lia. split; [reflexivity|].
      pose proof (even_le h d EV (j' - n) (S j') ltac:(lia) ltac:(lia)). qc_lra.
    + assert (E : c_prev c (Fin q) own None = Ok (Some (Fin (at_x d j)))).
      { apply (wk_prev _ _ _ _ WK); [lia|exact Y|]. intros i I Li. pose proof (even_le h d EV (S j) i ltac:(lia) Li). qc_lra. }
      exists (j - n)%nat. split; [lia|]. rewrite E. cbn [rbind]. rewrite (walk_prev c d own m h WK Hm Hh EV) by lia. split; [reflexivity|].
      pose proof (even_le h d EV (j - n) j ltac:(lia) ltac:(lia)). qc_lra.
Qed.

Context (dp fuel : nat) (c : crv xq num) (d : list (Qc * Qc)) (a : acc xq num).
Context (DO : degree_ok) (HS : shows c d) (HI : linv (dots d) a) (Fl : (length d < fuel)%nat).
Context (ms : option xq) (M : Qc) (SC : strides M c (dots d)) (RM : resolve_min_step own ms = Some (Fin M)) (SP : spaced M d).
Notation qry := (fun a x => snd (query (S (S dp)) fuel c a x)).
Notation smp := (fun D h => sma_sample (S (S dp)) fuel (Fin half) c own deg a D ms h).
Notation l := (dots (shown d)).
Notation ks := (map fst (shown d)).

Let f (q : Qc) : num := match qry a (Fin q) with Ok w => w | Err _ => None end.
Lemma f_value q : qry a (Fin q) = Ok (f q).
Proof.
  destruct (sma_view_value half m o Hhalf Hm Ho deg c d q DO HS) as (v & V & _). specialize (V dp fuel a HI Fl). unfold f. now rewrite V.
Qed.
Lemma query_same a' x : linv (dots d) a' -> qry a' x = qry a x.
Proof.
  intros I. destruct (i_contains (SmaInv.sma_domain m deg d) x) eqn:IC.
  - destruct (sma_domain_fin m deg d x IC) as [q ->]. destruct (sma_view_value half m o Hhalf Hm Ho deg c d q DO HS) as (v & V & _).
    now rewrite (V dp fuel a' I Fl), (V dp fuel a HI Fl).
  - destruct (vout_ok half m o Hm deg (S dp) fuel c d a x DO HS HI IC) as (b1 & F1 & _). destruct (vout_ok half m o Hm deg (S dp) fuel c d a' x DO HS I IC) as (b2 & F2 & _).
    now rewrite F1, F2.
Qed.
Lemma LM : (o <= M)%Qc. Proof. now apply resolve_ge with ms. Qed.
Lemma asc_shown : ascending l.
Proof. unfold SmaSampleFacts.shown. rewrite <- dots_skipn. apply ascending_skipn, (sh_walks _ _ _ _ HS). Qed.
Lemma len_shown : (length l < fuel)%nat.
Proof. rewrite dots_len. unfold SmaSampleFacts.shown. rewrite skipn_length. lia. Qed.
Lemma keys : map fst l = map Fin ks.
Proof. unfold dots. rewrite !List.map_map. apply map_ext. now intros [x y]. Qed.
Lemma gaps_shown : gaps M ks.
Proof.
  assert (HM : (0 < M)%Qc) by (pose proof LM; qc_lra).
  pose proof (spaced_gaps M d HM SP) as GP. unfold SmaSampleFacts.shown. rewrite <- skipn_map. clear - GP. revert GP. generalize (map fst d). intros r.
  induction (first_pos d) as [|n IH] in r |- *; intros GP; [exact GP|]. destruct r as [|x r]; [exact GP|]. cbn. apply IH. now apply StronglySorted_inv in GP.
Qed.
Definition roots (p : crv xq num) (D : option (ival xq)) : Prop :=
  forall u, i_is_empty (sampled_domain p D) = false -> i_start (sampled_domain p D) = Fin u \/ i_end (sampled_domain p D) = Fin u -> rooted o deg c d u.
Notation p := (mkC (pts_domain l) (qry a) (fun x _ _ => Ok (following l M x)) (fun _ _ _ => Ok None) own).
Lemma pure_sample D step : roots p D -> (forall e, D = Some e -> iok e) ->
  exists a', smp D step = (a', sample_points fuel p D ms step) /\ forall x, qry a' x = qry a x.
Proof.
  intros RT ID. destruct (sma_sample_pure half m o Hhalf Hm Ho deg dp fuel c d a p D ms step M DO HS HI Fl SC RM LM ID RT) as (a' & E & I'); auto.
  - intros q lim. reflexivity.
  - exists a'. split; [exact E|]. intros x. now apply query_same.
Qed.
Lemma roots_whole : roots p None.
Proof.
  intros u NE Q. cbn [sampled_domain c_dom] in *. rewrite <- (shown_dom m o deg c d HS) in *. unfold SmaInv.sma_domain in *.
  destruct (Nat.ltb_spec (first_pos d) (length d)) as [L|L]; [|discriminate]. cbn in Q.
  destruct Q as [Q|Q]; injection Q as <-; apply knot_rooted; auto; lia.
Qed.
Lemma roots_wide D : wide m deg d -> (forall e, D = Some e -> iok e) -> roots p D.
Proof.
  intros WD ID u NE Q. destruct D as [D|]; [|now apply (roots_whole u)]. specialize (ID D eq_refl). cbn [sampled_domain c_dom] in *. rewrite <- (shown_dom m o deg c d HS) in *.
  unfold SmaInv.sma_domain in *. destruct (Nat.ltb_spec (first_pos d) (length d)) as [L|L]; [|destruct D; cbn in NE; discriminate].
  destruct (shows_step m o Hm c d HS) as (h & Hh & EV). assert (L0 : (at_x d (first_pos d) <= at_x d (length d - 1))%Qc) by (apply even_le with h; auto; lia).
  destruct (inter_idem _ _ D L0 ID NE) as (_ & u' & v & Su & Ev & B1 & B2 & B3).
  rewrite Su, Ev in Q. destruct Q as [Q|Q]; injection Q as <-; apply wide_rooted; auto; qc_lra.
Qed.

Theorem view_whole : rows_at qry a ks (smp None None).
Proof.
  assert (HM : (0 < M)%Qc) by (pose proof LM; qc_lra).
  apply (whole_ok own fuel l asc_shown len_shown ms M HM RM ks keys gaps_shown qry a smp f f_value (roots p) pure_sample roots_whole).
Qed.
Theorem view_sampled : wide m deg d -> sampled_along qry a M fuel ks smp.
Proof.
  intros WD. assert (HM : (0 < M)%Qc) by (pose proof LM; qc_lra).
  apply (sampled_ok own fuel l asc_shown len_shown ms M HM RM ks keys gaps_shown qry a smp f f_value (fun _ => True)); [|auto].
  intros D step _ ID. apply pure_sample; auto. now apply roots_wide.
Qed.
(** the rows of the whole average: its values at the points *)
Definition averages : list (xq * num) := map (fun k => (Fin (at_x d k), Some (Fin (average m deg d k)))) (seq (first_pos d) (length d - first_pos d)).
Theorem view_averages : exists a', smp None None = (a', Ok averages) /\ forall x, qry a' x = qry a x.
Proof.
  destruct view_whole as (a' & L & E & R & I). exists a'. split; [|exact I]. rewrite E. do 2 f_equal.
  assert (KS : ks = map (at_x d) (seq (first_pos d) (length d - first_pos d))).
  { unfold SmaSampleFacts.shown. generalize (first_pos d) as n. clear. induction d as [|x r IH]; intros n; [now rewrite skipn_nil|].
    destruct n as [|n].
    - specialize (IH 0%nat). cbn [skipn] in *. rewrite !Nat.sub_0_r in *. cbn [length seq map]. f_equal. rewrite IH, <- seq_shift, List.map_map. reflexivity.
    - cbn [skipn length Nat.sub]. rewrite IH, <- seq_shift, List.map_map. reflexivity. }
  rewrite KS in R. unfold averages.
  assert (B : Forall (fun k => first_pos d <= k < length d)%nat (seq (first_pos d) (length d - first_pos d))).
  { apply Forall_forall. intros k I0. apply in_seq in I0. lia. }
  clear E. revert B L R. generalize (seq (first_pos d) (length d - first_pos d)) as r. induction r as [|k r IH]; intros B L R; inversion R as [|? [x v] ? L' [X Y] R']; subst; [reflexivity|].
  inversion B as [|? ? Bk B']; subst. cbn [map fst snd] in *. subst x. f_equal; [f_equal|].
  - destruct (vknot_ok half m o Hhalf Hm Ho deg (S dp) fuel c d a k DO HS HI) as (b & Eb & _); try lia. rewrite Eb in Y. cbn in Y. congruence.
  - now apply IH.
Qed.
End View.

(** ** Over Points, after any history *)
Definition sma_sampling (half m : Qc) (deg : sma_degree xq) (fuel : nat) (s : pts xq num) (a : acc xq num)
    (D : option (ival xq)) (ms h : option xq) : acc xq num * res (list (xq * num)) :=
  sma_sample 2 fuel (Fin half) (p_crv s) (Some (Fin m)) deg a D ms h.

Section Averaged.
Context (half m : Qc) (Hh : (half + half = 1)%Qc) (Hm : (min_step <= m)%Qc) (deg : sma_degree xq) (DO : degree_ok m deg).
Context (fuel : nat) (s : pts xq num) (a : acc xq num) (d : list (Qc * Qc)).
Context (H : averaged half m deg s a) (EV : evenly m s d) (Lf : (length d < fuel)%nat).
Context (ms : option xq) (M : Qc) (RM : resolve_min_step (Some (Fin m)) ms = Some (Fin M)) (SP : spaced M d).
Lemma av_source : source m s d. Proof. now apply (evenly_source half m deg s a d). Qed.
Lemma av_linv : linv m deg (dots d) a.
Proof. rewrite <- (proj1 (proj2 av_source)). apply (averaged_inv half m Hh (min_pos m Hm) deg s a DO H). Qed.
Lemma av_strides : strides M (p_crv s) (dots d).
Proof. rewrite <- (proj1 (proj2 av_source)). apply points_strides, av_source. Qed.
Lemma averaged_sampled : wide m deg d ->
  sampled_along (fun a x => snd (sma_value half m deg fuel s a x)) a M fuel (map fst (shown m deg d)) (fun D h => sma_sampling half m deg fuel s a D ms h).
Proof.
  intros WD. pose proof (min_pos m Hm) as M0. exact (view_sampled half m m Hh M0 M0 deg 0 fuel (p_crv s) d a DO (source_shows m M0 s d av_source) av_linv Lf ms M av_strides RM SP WD).
Qed.
Lemma averaged_whole : exists a', sma_sampling half m deg fuel s a None ms None = (a', Ok (averages m deg d)) /\
  forall x, snd (sma_value half m deg fuel s a' x) = snd (sma_value half m deg fuel s a x).
Proof.
  pose proof (min_pos m Hm) as M0. exact (view_averages half m m Hh M0 M0 deg 0 fuel (p_crv s) d a DO (source_shows m M0 s d av_source) av_linv Lf ms M av_strides RM SP).
Qed.
End Averaged.

Lemma sma_degree_sampled half m n fuel s a d ms M : (half + half = 1)%Qc -> (min_step <= m)%Qc -> (2 <= n)%nat ->
  averaged half m (SmaDegree n) s a -> evenly m s d -> (length d < fuel)%nat ->
  resolve_min_step (Some (Fin m)) ms = Some (Fin M) -> spaced M d ->
  sampled_along (fun a x => snd (sma_value half m (SmaDegree n) fuel s a x)) a M fuel (skipn (n - 1) (map fst d))
    (fun D h => sma_sampling half m (SmaDegree n) fuel s a D ms h).
Proof.
  intros Hh Hm Hn H EV Lf RM SP. rewrite skipn_map.
  apply (averaged_sampled half m Hh Hm (SmaDegree n)); auto. cbn. lia.
Qed.
(** the first [k] points lie within the period of the first one, the others do not *)
Lemma period_first m P d k : full_from P m d k -> (k < length d)%nat -> (forall j, (j <= k)%nat -> (at_x d j <= at_x d 0 + P - m)%Qc) ->
  first_pos m (SmaPeriod (Fin P)) d = k.
Proof.
  intros FF L B. cbn [first_pos]. pose proof (first_gt_len (at_x d 0 + P - m) d) as F1. pose proof (first_gt_le (at_x d 0 + P - m) d) as F2.
  pose proof (first_gt_at (at_x d 0 + P - m) d) as F3. set (g := first_gt (at_x d 0 + P - m) d) in *.
  destruct (lt_eq_lt_dec g (S k)) as [[C|C]|C]; [| |].
  - specialize (F3 ltac:(lia)). specialize (B g ltac:(lia)). qc_lra.
  - lia.
  - specialize (F2 (S k) C). specialize (FF (S k) ltac:(lia) ltac:(lia)). qc_lra.
Qed.
Lemma sma_period_sampled half m P k fuel s a d ms M : (half + half = 1)%Qc -> (min_step <= m)%Qc ->
  (forall j, (S j < length d)%nat -> (at_x d (S j) - at_x d j + m <= P)%Qc) -> (m <= P)%Qc ->
  (k < length d)%nat -> (forall j, (j <= k)%nat -> (at_x d j <= at_x d 0 + P - m)%Qc) -> full_from P m d k ->
  averaged half m (SmaPeriod (Fin P)) s a -> evenly m s d -> (length d < fuel)%nat ->
  resolve_min_step (Some (Fin m)) ms = Some (Fin M) -> spaced M d ->
  sampled_along (fun a x => snd (sma_value half m (SmaPeriod (Fin P)) fuel s a x)) a M fuel (skipn k (map fst d))
    (fun D h => sma_sampling half m (SmaPeriod (Fin P)) fuel s a D ms h).
Proof.
  intros Hh Hm W HP L B FF H EV Lf RM SP. rewrite skipn_map. rewrite <- (period_first m P d k FF L B).
  apply (averaged_sampled half m Hh Hm (SmaPeriod (Fin P))); auto. exists P. auto.
Qed.
(** all of it: the trapezoid averages at the points from the n-th *)
Lemma sma_degree_whole half m n fuel s a d ms M : (half + half = 1)%Qc -> (min_step <= m)%Qc -> (2 <= n)%nat ->
  averaged half m (SmaDegree n) s a -> evenly m s d -> (length d < fuel)%nat ->
  resolve_min_step (Some (Fin m)) ms = Some (Fin M) -> spaced M d ->
  snd (sma_sampling half m (SmaDegree n) fuel s a None ms None) =
  Ok (map (fun k => (Fin (at_x d k), Some (Fin (area_sum ILinear d (k - (n - 1)) (n - 1) / (at_x d k - at_x d (k - (n - 1))))%Qc))) (seq (n - 1) (length d - (n - 1)))).
Proof.
  intros Hh Hm Hn H EV Lf RM SP. destruct (averaged_whole half m Hh Hm (SmaDegree n) ltac:(cbn; lia) fuel s a d H EV Lf ms M RM SP) as (a' & E & _).
  rewrite E. cbn [snd]. f_equal. unfold averages. cbn [first_pos]. apply map_ext_in. intros k I. apply in_seq in I. do 3 f_equal.
  unfold average. cbn [window]. destruct (Nat.eqb_spec (k - (n - 1)) k) as [C|C]; [lia|]. do 2 f_equal. lia.
Qed.
Lemma sma_one_whole half m fuel s a d ms M : (half + half = 1)%Qc -> (min_step <= m)%Qc ->
  averaged half m (SmaDegree 1) s a -> evenly m s d -> (length d < fuel)%nat ->
  resolve_min_step (Some (Fin m)) ms = Some (Fin M) -> spaced M d ->
  snd (sma_sampling half m (SmaDegree 1) fuel s a None ms None) = Ok (p_pts s).
Proof.
  intros Hh Hm H EV Lf RM SP. destruct (averaged_whole half m Hh Hm (SmaDegree 1) ltac:(cbn; lia) fuel s a d H EV Lf ms M RM SP) as (a' & E & _).
  rewrite E. cbn [snd]. f_equal. rewrite (proj1 EV). unfold averages. cbn [first_pos]. change (1 - 1)%nat with 0%nat. rewrite Nat.sub_0_r.
  clear. transitivity (map (fun k => (Fin (at_x d k), Some (Fin (at_y d k)))) (seq 0 (length d))).
  - apply map_ext_in. intros k _. unfold average. cbn [window]. rewrite Nat.sub_0_r, Nat.eqb_refl. reflexivity.
  - unfold dots. induction d as [|[x y] r IH]; [reflexivity|]. cbn [length seq map]. f_equal. rewrite <- IH, <- seq_shift, List.map_map. reflexivity.
Qed.
