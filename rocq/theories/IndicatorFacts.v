(** The moving averages of the midpoints of uniform Quotes, after any history
    of both. *)
From Coq Require Import List ZArith QArith Qcanon Bool Sorting.Sorted Lia Arith.
From Verif Require Import Base Num NumFacts Interval IntervalFacts Curve BaseFacts.
From Verif Require Import Points PointsSpec PointsIdx PointsQuery PointsDom PointsOps PointsMut PointsReset PointsReplace PointsCover PointsHist PointsTop PointsDec.
From Verif Require Import Combine CombineFacts CombineTop Scan ScanFacts ScanSource ScanInv ScanTf SmaFacts SmaInv ScanTop ScanView Quotes QuotesFacts QuotesTop QuotesScan.
From Verif Require Import OffsetDur OffsetDurFacts OffsetDurTop Indicator.
Import ListNotations.
Implicit Types s : quotes xq.
Implicit Types D : duration xq.

(** the mean of high and low *)
Definition midpoint (cd : list xq) (y : Qc) : Prop := exists h w,
  nth_error cd HIGH = Some (Fin h) /\ nth_error cd LOW = Some (Fin w) /\ y = ((h + w) / (1 + 1))%Qc.
Definition mids := rows midpoint.
Lemma midpoint_fun cd y y' : midpoint cd y -> midpoint cd y' -> y = y'.
Proof. intros (h & w & E1 & E2 & ->) (h' & w' & F1 & F2 & ->). congruence. Qed.

(** the step of hl2 *)
Definition own_step D : Qc := match map_min_step MIN_STEP (Some (d_step D)) with Fin M => M | _ => min_step end.
Lemma own_step_apart D l : apart D l ->
  map_min_step MIN_STEP (Some (d_step D)) = Fin (own_step D) /\ (min_step <= own_step D)%Qc /\ coarse (own_step D) l.
Proof. intros A. destruct (apart_step D l A) as (M & E & L & C). unfold own_step. rewrite E. auto. Qed.
Lemma own_step_pos D : (0 < own_step D)%Qc.
Proof.
  unfold own_step, map_min_step. destruct (negb _ && _) eqn:X; [|exact min_step_pos].
  apply andb_prop in X as [_ X]. destruct (d_step D) as [e| | |] eqn:E; try exact min_step_pos.
  change (xq_ltb (Fin min_step) (Fin e) = true) in X. cbn in X. apply Qcltb_true in X.
  eapply Qclt_trans; [exact min_step_pos|exact X].
Qed.

Section Shows.
Context (D : duration xq) (s : quotes xq) (d : list (Qc * Qc)).
Context (H : qinv D s) (U : d_uniform D = true) (C : mids (candles s) d) (AP : apart D (candles s)).

Lemma hl2_knot p : In p (dots d) -> c_y (hl2 D s) (fst p) = Ok (snd p).
Proof.
  intros I. apply In_nth_error in I as [i I]. destruct (dots_nth _ _ _ I) as (b & y & N & ->). cbn [fst snd].
  destruct (rows_nth' midpoint _ _ _ _ C N) as (cd & N2 & h & w & E1 & E2 & E3). cbn [fst snd] in *. subst y.
  apply hl2_value with cd; auto. apply val_knot. eapply nth_error_In; eauto.
Qed.

Lemma hl2_shows : shows (own_step D) min_step (hl2 D s) d.
Proof.
  pose proof (proj1 (qi_good _ _ H)) as A. fold (candles s) in A.
  destruct (own_step_apart D _ AP) as (EM & LM & CM). pose proof (own_step_pos D) as PM.
  assert (EQ : equally_spaced (dots d)).
  { apply (rows_eq midpoint _ _ C). apply (proj1 (proj2 (proj2 (qi_good _ _ H)))). unfold p_uniform. now rewrite (qi_force _ _ H), U. }
  assert (AS : ascending (dots d)) by now apply (rows_asc midpoint _ _ C).
  destruct (even_of d EQ) as (h & EV).
  assert (XS : map fst (p_pts (q_pts s)) = map fst (dots d)) by exact (rows_xs midpoint _ _ C).
  assert (DM : c_dom (hl2 D s) = pts_domain (dots d)).
  { cbn [hl2 map_curve c_dom q_crv]. rewrite (qi_domain _ _ H). exact (rows_dom midpoint _ _ C). }
  assert (NX : forall x lim, c_next (hl2 D s) x (Some (Fin min_step)) lim = p_x_next (q_pts s) x (Some (Fin (own_step D))) lim).
  { intros x lim. cbn [hl2 map_curve c_next q_crv c_ms]. rewrite EM. change (Fin min_step) with (MIN_STEP : xq). now rewrite (resolve_comp _ LM). }
  assert (PV : forall x lim, c_prev (hl2 D s) x (Some (Fin min_step)) lim = p_x_previous (q_pts s) x (Some (Fin (own_step D))) lim).
  { intros x lim. cbn [hl2 map_curve c_prev q_crv c_ms]. rewrite EM. change (Fin min_step) with (MIN_STEP : xq). now rewrite (resolve_comp _ LM). }
  split.
  - split; [exact EQ|]. split; [now apply (rows_coarse midpoint _ _ _ C)|]. apply (rows_coarse midpoint _ _ _ C). apply AP.
  - split; auto.
    + intros b k L1 L2 L3. rewrite NX. apply (next_to (q_pts s) d (own_step D) h (qi_good _ _ H) XS EV); auto.
    + intros b L. rewrite NX. apply (next_none (q_pts s) d (own_step D) (qi_good _ _ H) XS); auto.
    + intros b k L1 L2 L3. rewrite PV. apply (prev_to (q_pts s) d (own_step D) h (qi_good _ _ H) XS EV); auto.
    + intros b L. rewrite PV. apply (prev_none (q_pts s) d (own_step D) (qi_good _ _ H) XS); auto.
  - split.
    + intros p I. rewrite DM. destruct (ascending_fin _ _ AS I) as (q & v & ->). cbn [fst].
      apply list_dom; [exact AS|]. exists q, q, v, v. repeat split; auto; apply Qcle_refl.
    + exact hl2_knot.
    + intros i p lim N. rewrite NX. destruct (dots_nth _ _ _ N) as (b & y & Nd & ->). cbn [fst].
      destruct (rows_nth' midpoint _ _ _ _ C Nd) as (cd & N2 & _). cbn [fst] in N2.
      rewrite (knot_next (q_pts s) (own_step D) i b (Some cd) lim (qi_good _ _ H) CM); auto.
      f_equal. fold (candles s). rewrite <- !nth_error_map. fold (candles s) in XS. now rewrite XS.
  - intros q L L0 L1. destruct (between h d q EV L L0 L1) as [(k & Lk & ->)|(j & Lj & B1 & B2)].
    + exists (at_y d k). split; [exact (hl2_knot _ (nth_error_In _ _ (dots_at d k Lk)))|].
      intros lo hi W. apply (W _ (nth_error_In _ _ (at_nth d k Lk))).
    + exists (at_y d j). split.
      * destruct (rows_nth' midpoint _ _ _ _ C (at_nth d j ltac:(lia))) as (cd & N & h0 & w & E1 & E2 & E3).
        destruct (rows_nth' midpoint _ _ _ _ C (at_nth d (S j) Lj)) as (cd' & N' & _).
        cbn [fst snd] in *. rewrite E3. apply hl2_value with cd; auto.
        destruct (split_at_nth _ _ _ _ N N') as (l1 & l2 & SP). eapply val_before; [reflexivity|exact SP|exact B1|exact B2].
      * intros lo hi W. apply (W _ (nth_error_In _ _ (at_nth d j ltac:(lia)))).
Qed.
End Shows.

(** ** Histories *)
Definition mok (D : duration xq) (deg : nat) (l : list (Qc * Qc)) (a : acc xq num) : Prop :=
  linv (own_step D) (SmaDegree deg) (dots l) a.

Section History.
Context {O : Type} (point : O -> res (xq * cnd)) (encoder : option (O -> res O)).
Context (D : duration xq).

(** one operation on the Quotes: what hl2 forwards, and the new midpoints *)
Record change (s : quotes xq) (u : upd xq) (s' : quotes xq) (u' : upd xq) (evs : list (ev xq)) (d' : list (Qc * Qc)) : Prop := {
  ch_op : exists o m evs0, reads point encoder o = Ok m /\ ascending m /\ run_q point encoder s o = (s', evs0, Ok tt) /\
    (p_uniform (q_pts s') = true -> equally_spaced (candles s')) /\ forward u evs0 = (u', evs);
  ch_mids : mids (candles s') d'
}.
Lemma change_ok s u s' u' evs d d' : qinv D s -> idle u -> mids (candles s) d -> change s u s' u' evs d' ->
  qinv D s' /\ idle u' /\ announces evs (dots d) (dots d') /\ ascending (dots d) /\ ascending (dots d').
Proof.
  intros H I C [(o & m & evs0 & R & A & E & EQ & FW) C'].
  destruct (run_q_ok point encoder D s o m s' evs0 H R A E EQ) as (H' & AN & _).
  assert (FE : evs = evs0 /\ idle u').
  { destruct AN as [[-> _]|(E0 & q & -> & K & NE & _)].
    - cbn in FW. injection FW as <- <-. auto.
    - rewrite (forward_notify _ _ I K NE) in FW. injection FW as <- <-. split; [reflexivity|split; reflexivity]. }
  destruct FE as [-> I']. split; [exact H'|]. split; [exact I'|].
  split; [apply (rows_announces midpoint midpoint_fun _ _ _ _ _ C C' AN)|].
  split; [apply (rows_asc midpoint _ _ C); apply (qi_good _ _ H)|apply (rows_asc midpoint _ _ C'); apply (qi_good _ _ H')].
Qed.

Section Single.
Context (half : Qc) (Hh : (half + half = 1)%Qc) (deg : nat) (Hdeg : (1 <= deg)%nat) (UD : d_uniform D = true).
Context (s : quotes xq) (d : list (Qc * Qc)) (H : qinv D s) (C : mids (candles s) d) (AP : apart D (candles s)).
Let m := own_step D.
Let DO : degree_ok m (SmaDegree deg) := Hdeg.
Let SH : shows m min_step (hl2 D s) d := hl2_shows D s d H UD C AP.

Lemma mid_dom_ok a : mok D deg d a -> exists a', mid_dom deg D s a = (a', Ok (sma_domain m (SmaDegree deg) d)) /\ mok D deg d a'.
Proof.
  intros I. destruct (sma_dom_ok m min_step (own_step_pos D) (SmaDegree deg) (hl2 D s) d a DO SH I) as (a' & E & I' & _).
  exists a'. split; [exact E|exact I'].
Qed.
Lemma mid_y_ok fuel a x a' r : mok D deg d a -> (length d < fuel)%nat -> mid_y deg (Fin half) fuel D s a x = (a', r) -> mok D deg d a'.
Proof.
  intros I L E. exact (vquery_linv half m min_step Hh (own_step_pos D) min_step_pos (SmaDegree deg) 0 fuel (hl2 D s) d a x a' r DO SH I L E).
Qed.
Lemma mid_knot fuel a k : mok D deg d a -> (deg - 1 <= k)%nat -> (k < length d)%nat -> (length d < fuel)%nat ->
  snd (mid_y deg (Fin half) fuel D s a (Fin (at_x d k))) = Ok (Some (Fin (average m (SmaDegree deg) d k))).
Proof.
  intros I L1 L2 L3.
  destruct (vknot_ok half m min_step Hh (own_step_pos D) min_step_pos (SmaDegree deg) 1 fuel (hl2 D s) d a k DO SH I L1 L2 L3) as (a' & E & _).
  unfold mid_y. change (MIN_STEP : xq) with (Fin min_step). now rewrite E.
Qed.
(** the value does not depend on the state *)
Lemma mid_value q : exists v, (forall fuel a, mok D deg d a -> (length d < fuel)%nat -> snd (mid_y deg (Fin half) fuel D s a (Fin q)) = Ok v) /\
  (((deg <= length d)%nat /\ (at_x d (deg - 1) <= q)%Qc /\ (q <= at_x d (length d - 1))%Qc ->
     exists r, v = Some (Fin r) /\ forall lo hi, within lo hi d -> (lo <= r <= hi)%Qc) /\
   (~ ((deg <= length d)%nat /\ (at_x d (deg - 1) <= q)%Qc /\ (q <= at_x d (length d - 1))%Qc) -> v = None)).
Proof.
  destruct (sma_view_value half m min_step Hh (own_step_pos D) min_step_pos (SmaDegree deg) (hl2 D s) d q DO SH) as (v & V & X).
  exists v. split; [intros fuel a I L; exact (V 0%nat fuel a I L)|].
  cbn [first_pos] in X. destruct (Nat.ltb_spec (deg - 1) (length d)) as [B|B]; cbn [andb] in X.
  - destruct (Qcleb (at_x d (deg - 1)) q) eqn:E1; cbn [andb] in X.
    + destruct (Qcleb q (at_x d (length d - 1))) eqn:E2.
      * split; [auto|]. intros N. exfalso. apply N. split; [lia|]. split; now apply Qcleb_true.
      * split; [|auto]. intros (_ & _ & Y). apply Qcleb_false in E2. exfalso. clear -Y E2. qc_lra.
    + split; [|auto]. intros (_ & Y & _). apply Qcleb_false in E1. exfalso. clear -Y E1. qc_lra.
  - split; [|auto]. intros (Y & _). lia.
Qed.
Lemma mid_dom_in q : i_contains (sma_domain m (SmaDegree deg) d) (Fin q) = true <->
  (deg <= length d)%nat /\ (at_x d (deg - 1) <= q)%Qc /\ (q <= at_x d (length d - 1))%Qc.
Proof.
  destruct (even_of d (proj1 (sh_fine _ _ _ _ SH))) as (h & EV).
  rewrite (dom_knots m (SmaDegree deg) d h q EV). cbn [first_pos]. intuition; lia.
Qed.
End Single.

(** the history of one moving average over the midpoints *)
Section Mid.
Context (half : Qc) (deg : nat).
Inductive mid_hist : quotes xq -> upd xq -> acc xq num -> Prop :=
| mh_new s u d : quoted point encoder D s -> idle u -> mids (candles s) d -> mid_hist s u (mid_init D)
| mh_query s u a x fuel a' r : mid_hist s u a -> apart D (candles s) -> (length (candles s) < fuel)%nat ->
    mid_y deg (Fin half) fuel D s a x = (a', r) -> mid_hist s u a'
| mh_line s u a K n x fuel a' r : mid_hist s u a -> apart D (candles s) -> (length (candles s) < fuel)%nat ->
    line_y K n deg (Fin half) fuel D s a x = (a', r) -> mid_hist s u a'
| mh_domain s u a a' r : mid_hist s u a -> apart D (candles s) -> mid_dom deg D s a = (a', r) -> mid_hist s u a'
| mh_touch s u a : mid_hist s u a -> mid_hist (q_touch s) u a
| mh_read s u a : mid_hist s u a -> mid_hist (qset_pts s (p_touch (q_pts s))) u a
| mh_op s u a s' u' evs a' out r d' : mid_hist s u a -> change s u s' u' evs d' -> acc_events a evs = (a', out, r) -> mid_hist s' u' a'.

Lemma line_ok K n fuel s d a x a' r : (half + half = 1)%Qc -> (1 <= deg)%nat -> d_uniform D = true -> qinv D s -> mids (candles s) d ->
  apart D (candles s) -> mok D deg d a -> (length d < fuel)%nat -> line_y K n deg (Fin half) fuel D s a x = (a', r) -> mok D deg d a'.
Proof.
  intros Hh Hd UD H C AP I L E. unfold line_y in E. destruct (mid_dom_ok deg Hd UD s d H C AP a I) as (a1 & E1 & I1). rewrite E1 in E.
  destruct (negb _ || negb _) in E; [injection E as <- _; exact I1|].
  destruct (n_eqb _ _) in E; [eapply mid_y_ok; eauto|].
  destruct (mid_y deg (Fin half) fuel D s a1 (d_unoffset_x K n x true)) as [a2 y0] eqn:Q0.
  pose proof (mid_y_ok half Hh deg Hd UD s d H C AP fuel a1 _ a2 y0 I1 L Q0) as I2.
  destruct y0 as [y0|e]; [|injection E as <- _; exact I2].
  destruct (mid_y deg (Fin half) fuel D s a2 (d_unoffset_x K n x false)) as [a3 y1] eqn:Q1.
  injection E as <- _. eapply mid_y_ok; eauto.
Qed.

Lemma mid_inv s u a : (half + half = 1)%Qc -> (1 <= deg)%nat -> d_uniform D = true -> mid_hist s u a ->
  qinv D s /\ idle u /\ exists d, mids (candles s) d /\ mok D deg d a.
Proof.
  intros Hh Hd UD. induction 1 as [s u d Q I C|s u a x fuel a' r _ (H & I & d & C & F) AP L E|s u a K n x fuel a' r _ (H & I & d & C & F) AP L E
    |s u a a' r _ (H & I & d & C & F) AP E|s u a _ (H & I & d & C & F)|s u a _ (H & I & d & C & F)|s u a s' u' evs a' out r d' _ (H & I & d & C & F) CH AE].
  - split; [exact (quoted_inv _ _ _ _ Q)|]. split; [exact I|]. exists d. split; [exact C|]. unfold mid_init. rewrite UD. apply linv_new.
  - split; [exact H|]. split; [exact I|]. exists d. split; [exact C|]. rewrite (rows_len midpoint _ _ C) in L. eapply mid_y_ok; eauto.
  - split; [exact H|]. split; [exact I|]. exists d. split; [exact C|]. rewrite (rows_len midpoint _ _ C) in L. eapply line_ok; eauto.
  - split; [exact H|]. split; [exact I|]. exists d. split; [exact C|]. destruct (mid_dom_ok deg Hd UD s d H C AP a F) as (a1 & E1 & I1).
    rewrite E1 in E. injection E as <- _. exact I1.
  - split; [now apply qinv_touch|]. split; [exact I|]. exists d. rewrite candles_touch. auto.
  - split; [now apply qinv_read|]. split; [exact I|]. exists d. auto.
  - destruct (change_ok s u s' u' evs d d' H I C CH) as (H' & I' & AN & A1 & A2). split; [exact H'|]. split; [exact I'|].
    exists d'. split; [apply CH|]. destruct (events_linv (own_step D) (SmaDegree deg) _ _ a evs A1 A2 F AN) as (a1 & E1 & F1).
    rewrite AE in E1. injection E1 as -> _ _. exact F1.
Qed.
End Mid.

(** the history of the oscillator *)
Section Ao.
Context (half : Qc).
Inductive ao_hist : quotes xq -> ao xq -> Prop :=
| ah_new s u d : quoted point encoder D s -> idle u -> mids (candles s) d -> ao_hist s (mkAo u (mid_init D) (mid_init D))
| ah_query s o x fuel o' r : ao_hist s o -> apart D (candles s) -> (length (candles s) < fuel)%nat ->
    ao_y (Fin half) fuel D s o x = (o', r) -> ao_hist s o'
| ah_domain s o o' r : ao_hist s o -> apart D (candles s) -> ao_dom D s o = (o', r) -> ao_hist s o'
| ah_touch s o : ao_hist s o -> ao_hist (q_touch s) o
| ah_read s o : ao_hist s o -> ao_hist (qset_pts s (p_touch (q_pts s))) o
| ah_op s o p m s' evs o' r d' : ao_hist s o -> reads point encoder p = Ok m -> ascending m ->
    run_q point encoder s p = (s', evs, Ok tt) -> (p_uniform (q_pts s') = true -> equally_spaced (candles s')) ->
    mids (candles s') d' -> ao_events o evs = (o', r) -> ao_hist s' o'.

Definition aok (d : list (Qc * Qc)) (o : ao xq) : Prop := mok D FAST d (o_fast o) /\ mok D SLOW d (o_slow o).
Definition ao_domain (d : list (Qc * Qc)) : ival xq :=
  c_dom (subtract_many [Rsi.shown (sma_domain (own_step D) (SmaDegree FAST) d) (Ok None);
                        Rsi.shown (sma_domain (own_step D) (SmaDegree SLOW) d) (Ok None)]).

Lemma ao_dom_ok s d o : d_uniform D = true -> qinv D s -> mids (candles s) d -> apart D (candles s) -> aok d o ->
  exists o', ao_dom D s o = (o', Ok (ao_domain d)) /\ aok d o' /\ o_mid o' = o_mid o.
Proof.
  intros UD H C AP (I1 & I2). unfold ao_dom.
  destruct (mid_dom_ok FAST ltac:(unfold FAST; lia) UD s d H C AP _ I1) as (f & E1 & J1). rewrite E1.
  destruct (mid_dom_ok SLOW ltac:(unfold SLOW; lia) UD s d H C AP _ I2) as (w & E2 & J2). rewrite E2.
  cbn [rbind]. eexists. split; [reflexivity|]. split; [split; assumption|reflexivity].
Qed.
Lemma ao_y_ok fuel s d o x o' r : (half + half = 1)%Qc -> d_uniform D = true -> qinv D s -> mids (candles s) d -> apart D (candles s) ->
  aok d o -> (length d < fuel)%nat -> ao_y (Fin half) fuel D s o x = (o', r) -> aok d o' /\ o_mid o' = o_mid o.
Proof.
  intros Hh UD H C AP I L E. unfold ao_y in E. destruct (ao_dom_ok s d o UD H C AP I) as (o1 & E1 & (J1 & J2) & M1). rewrite E1 in E.
  destruct (negb _) in E; [injection E as <- _; split; [split|]; assumption|].
  destruct (mid_y FAST (Fin half) fuel D s (o_fast o1) x) as [f y] eqn:Q0.
  pose proof (mid_y_ok half Hh FAST ltac:(unfold FAST; lia) UD s d H C AP fuel _ _ f y J1 L Q0) as I2.
  destruct y as [y|e]; [|injection E as <- _; split; [split|]; assumption].
  destruct (mid_y SLOW (Fin half) fuel D s (o_slow o1) x) as [w z] eqn:Q1.
  pose proof (mid_y_ok half Hh SLOW ltac:(unfold SLOW; lia) UD s d H C AP fuel _ _ w z J2 L Q1) as I3.
  injection E as <- _. split; [split|]; assumption.
Qed.
Lemma ao_inv s o : (half + half = 1)%Qc -> d_uniform D = true -> ao_hist s o ->
  qinv D s /\ idle (o_mid o) /\ exists d, mids (candles s) d /\ aok d o.
Proof.
  intros Hh UD. induction 1 as [s u d Q I C|s o x fuel o' r _ (H & I & d & C & F) AP L E|s o o' r _ (H & I & d & C & F) AP E
    |s o _ (H & I & d & C & F)|s o _ (H & I & d & C & F)|s o p m s' evs o' r d' _ (H & I & d & C & F) R A E EQ C' AE].
  - split; [exact (quoted_inv _ _ _ _ Q)|]. split; [exact I|]. exists d. split; [exact C|]. unfold mid_init. rewrite UD. split; apply linv_new.
  - rewrite (rows_len midpoint _ _ C) in L. destruct (ao_y_ok fuel s d o x o' r Hh UD H C AP F L E) as [F' M]. rewrite M. eauto.
  - destruct (ao_dom_ok s d o UD H C AP F) as (o1 & E1 & F1 & M1). rewrite E in E1. injection E1 as -> _. rewrite M1. eauto.
  - split; [now apply qinv_touch|]. split; [exact I|]. exists d. rewrite candles_touch. auto.
  - split; [now apply qinv_read|]. split; [exact I|]. exists d. auto.
  - unfold ao_events in AE. destruct (forward (o_mid o) evs) as [u' evs'] eqn:FW.
    destruct (change_ok s (o_mid o) s' u' evs' d d' H I C) as (H' & I' & AN & A1 & A2).
    { split; [|exact C']. exists p, m, evs. auto. }
    destruct (events_linv (own_step D) (SmaDegree FAST) _ _ _ evs' A1 A2 (proj1 F) AN) as (f & E1 & F1).
    destruct (events_linv (own_step D) (SmaDegree SLOW) _ _ _ evs' A1 A2 (proj2 F) AN) as (w & E2 & F2).
    rewrite E1, E2 in AE. injection AE as <- _. cbn [o_mid]. split; [exact H'|]. split; [exact I'|]. exists d'. split; [exact C'|]. split; assumption.
Qed.
End Ao.
End History.
