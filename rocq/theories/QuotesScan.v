(** trailing_high and trailing_low: accumulating curves over the high and low of
    uniform Quotes, after any history of both. *)
From Coq Require Import List ZArith QArith Qcanon Bool Sorting.Sorted Lia Arith.
From Verif Require Import Base Num NumFacts Interval IntervalFacts Curve BaseFacts.
From Verif Require Import Points PointsSpec PointsIdx PointsQuery PointsDom PointsOps PointsMut PointsReset PointsReplace PointsCover PointsHist PointsTop PointsDec.
From Verif Require Import Combine CombineFacts CombineTop Scan ScanFacts ScanSource ScanInv ScanTf SmaFacts SmaInv ScanTop ScanView Quotes QuotesFacts QuotesTop.
Import ListNotations.
Implicit Types s : quotes xq.
Implicit Types D : duration xq.

(** [d] are the timestamps with a number that each candle determines *)
Definition rows (P : list xq -> Qc -> Prop) (l : list (xq * cnd)) (d : list (Qc * Qc)) : Prop :=
  Forall2 (fun p r => fst p = Fin (fst r) /\ exists cd, snd p = Some cd /\ P cd (snd r)) l d.
(** [d] are the timestamps with the k-th number of each candle *)
Definition column (k : nat) := rows (fun cd y => nth_error cd k = Some (Fin y)).
(** neighbouring candles are no closer than the steps of the curves involved *)
Definition apart D (l : list (xq * cnd)) : Prop := coarse min_step l /\ exists e, d_step D = Fin e /\ coarse e l.

Section Rows.
Context (P : list xq -> Qc -> Prop) (PF : forall cd y y', P cd y -> P cd y' -> y = y').
Implicit Types (l : list (xq * cnd)) (d : list (Qc * Qc)).
Lemma rows_xs l d : rows P l d -> map fst l = map fst (dots d).
Proof. induction 1 as [|p r l d [E _] _ IH]; [reflexivity|]. exact (f_equal2 cons E IH). Qed.
Lemma rows_len l d : rows P l d -> length l = length d.
Proof. induction 1; cbn; auto. Qed.
Lemma rows_nth l d i p : rows P l d -> nth_error l i = Some p ->
  exists r cd, nth_error d i = Some r /\ p = (Fin (fst r), Some cd) /\ P cd (snd r).
Proof.
  intros H. revert i. induction H as [|p0 r0 l d [E (cd & E1 & E2)] _ IH]; intros [|i] N; try discriminate; cbn in N.
  - injection N as <-. exists r0, cd. destruct p0; cbn in *; subst. auto.
  - destruct (IH i N) as (r & cd' & X). exists r, cd'. exact X.
Qed.
Lemma rows_nth' l d i r : rows P l d -> nth_error d i = Some r ->
  exists cd, nth_error l i = Some (Fin (fst r), Some cd) /\ P cd (snd r).
Proof.
  intros H N. assert (L : (i < length l)%nat).
  { rewrite (rows_len l d H). apply nth_error_Some. congruence. }
  destruct (nth_error l i) as [p|] eqn:E; [|apply nth_error_None in E; lia].
  destruct (rows_nth l d i p H E) as (r' & cd & N' & -> & X). rewrite N in N'. injection N' as <-. eauto.
Qed.
Lemma rows_firstn l d n : rows P l d -> rows P (firstn n l) (firstn n d).
Proof. intros H. revert n. induction H; intros [|n]; cbn; constructor; auto. apply IHForall2. Qed.
Lemma rows_unique l d d' : rows P l d -> rows P l d' -> d = d'.
Proof.
  intros H. revert d'. induction H as [|p r l d [E (cd & E1 & E2)] _ IH]; intros d' H'; inversion H' as [|p' r' l' d2 [F (cd' & F1 & F2)] T]; subst; auto.
  f_equal; [|now apply IH]. rewrite E in F. rewrite E1 in F1. injection F1 as <-. pose proof (PF _ _ _ E2 F2). destruct r, r'. cbn in *. congruence.
Qed.
Lemma rows_asc l d : rows P l d -> ascending l -> ascending (dots d).
Proof. intros H A. eapply ascending_xs; [|exact A]. now apply rows_xs. Qed.
Lemma rows_eq l d : rows P l d -> equally_spaced l -> equally_spaced (dots d).
Proof.
  intros H (x0 & h & HP & E). exists x0, h. split; [exact HP|]. intros i p N.
  destruct (dots_nth _ _ _ N) as (b & y & Nd & ->). destruct (rows_nth' _ _ _ _ H Nd) as (cd & N2 & _). exact (E _ _ N2).
Qed.
Lemma rows_dom l d : rows P l d -> pts_domain l = pts_domain (dots d).
Proof.
  intros H. pose proof (rows_xs _ _ H) as X. unfold pts_domain.
  assert (XH : option_map fst (head_opt l) = option_map fst (head_opt (dots d))) by (destruct l, d; cbn in *; congruence).
  assert (XL := last_xs _ _ X).
  destruct (head_opt l), (head_opt (dots d)), (last_opt l), (last_opt (dots d)); cbn in *; congruence.
Qed.
Lemma rows_coarse m l d : rows P l d -> coarse m l -> coarse m (dots d).
Proof.
  intros H C i a b va vb N1 N2.
  destruct (dots_nth _ _ _ N1) as (x1 & y1 & M1 & E1). injection E1 as -> ->.
  destruct (dots_nth _ _ _ N2) as (x2 & y2 & M2 & E2). injection E2 as -> ->.
  destruct (rows_nth' _ _ _ _ H M1) as (c1 & P1 & _). destruct (rows_nth' _ _ _ _ H M2) as (c2 & P2 & _).
  exact (C _ _ _ _ _ P1 P2).
Qed.
Lemma rows_announces l l' d d' evs : rows P l d -> rows P l' d' -> announces evs l l' -> announces evs (dots d) (dots d').
Proof.
  intros H H' [[-> E]|(E & q & -> & K & NE & S & KP)].
  - left. split; [reflexivity|]. subst l'. now rewrite (rows_unique _ _ _ H H').
  - right. exists E, q. repeat split; auto; [apply K|apply K|]. intros n L B.
    assert (Ln : (n <= length l)%nat) by (rewrite (rows_len _ _ H); unfold dots in L; now rewrite map_length in L).
    specialize (KP n Ln). assert (F : firstn n l' = firstn n l).
    { apply KP. intros p I. apply In_nth_error in I as [i I].
      destruct (rows_nth _ _ _ _ (rows_firstn _ _ n H) I) as (r & cd & N & -> & _). cbn [fst].
      apply (B (dot r)). rewrite dots_firstn. unfold dots. apply (in_map dot). eapply nth_error_In; eauto. }
    rewrite !dots_firstn. f_equal. apply rows_unique with (l := firstn n l).
    + rewrite <- F. now apply rows_firstn.
    + now apply rows_firstn.
Qed.
End Rows.

Section Column.
Context (k : nat).
Implicit Types (l : list (xq * cnd)) (d : list (Qc * Qc)).
Lemma entry_fun (cd : list xq) y y' : nth_error cd k = Some (Fin y) -> nth_error cd k = Some (Fin y') -> y = y'.
Proof. congruence. Qed.
Lemma column_xs l d : column k l d -> map fst l = map fst (dots d).
Proof. exact (rows_xs _ l d). Qed.
Lemma column_len l d : column k l d -> length l = length d.
Proof. exact (rows_len _ l d). Qed.
Lemma column_nth l d i p : column k l d -> nth_error l i = Some p ->
  exists r cd, nth_error d i = Some r /\ p = (Fin (fst r), Some cd) /\ nth_error cd k = Some (Fin (snd r)).
Proof. exact (rows_nth _ l d i p). Qed.
Lemma column_nth' l d i r : column k l d -> nth_error d i = Some r ->
  exists cd, nth_error l i = Some (Fin (fst r), Some cd) /\ nth_error cd k = Some (Fin (snd r)).
Proof. exact (rows_nth' _ l d i r). Qed.
Lemma column_firstn l d n : column k l d -> column k (firstn n l) (firstn n d).
Proof. exact (rows_firstn _ l d n). Qed.
Lemma column_unique l d d' : column k l d -> column k l d' -> d = d'.
Proof. exact (rows_unique _ entry_fun l d d'). Qed.
Lemma column_asc l d : column k l d -> ascending l -> ascending (dots d).
Proof. exact (rows_asc _ l d). Qed.
Lemma column_eq l d : column k l d -> equally_spaced l -> equally_spaced (dots d).
Proof. exact (rows_eq _ l d). Qed.
Lemma column_dom l d : column k l d -> pts_domain l = pts_domain (dots d).
Proof. exact (rows_dom _ l d). Qed.
Lemma column_coarse m l d : column k l d -> coarse m l -> coarse m (dots d).
Proof. exact (rows_coarse _ m l d). Qed.
Lemma column_announces l l' d d' evs : column k l d -> column k l' d' -> announces evs l l' -> announces evs (dots d) (dots d').
Proof. exact (rows_announces _ entry_fun l l' d d' evs). Qed.
End Column.

(** ** A component shows its column *)
Lemma comp_step D (e : Qc) : d_step D = Fin e ->
  exists M, map_min_step MIN_STEP (Some (d_step D)) = Fin M /\ (min_step <= M)%Qc /\ (M = e \/ M = min_step).
Proof.
  intros E. rewrite E. unfold map_min_step. change (MIN_STEP : xq) with (Fin min_step).
  destruct (negb _ && _) eqn:X.
  - exists e. split; [reflexivity|]. apply andb_prop in X as [_ X]. change (xq_ltb (Fin min_step) (Fin e) = true) in X.
    cbn in X. apply Qcltb_true in X. split; [now apply Qclt_le_weak|now left].
  - exists min_step. split; [reflexivity|]. split; [apply Qcle_refl|now right].
Qed.
Lemma resolve_comp M : (min_step <= M)%Qc -> resolve_min_step (Some (Fin M)) (Some (MIN_STEP : xq)) = Some (Fin M).
Proof.
  intros L. change (MIN_STEP : xq) with (Fin min_step). unfold resolve_min_step, n_max. f_equal.
  destruct (n_gtb (Fin M) (Fin min_step)) eqn:X; [reflexivity|]. change (xq_ltb (Fin min_step) (Fin M) = false) in X. cbn in X.
  apply Qcltb_false in X. f_equal. now apply Qcle_antisym.
Qed.
Lemma resolve_same M : resolve_min_step (Some (Fin M)) (Some (Fin M)) = Some (Fin M).
Proof. unfold resolve_min_step, n_max. now destruct (n_gtb _ _). Qed.
Lemma min_step_pos : (0 < min_step)%Qc.
Proof. reflexivity. Qed.

Lemma apart_step D l : apart D l -> exists M, map_min_step MIN_STEP (Some (d_step D)) = Fin M /\ (min_step <= M)%Qc /\ coarse M l.
Proof.
  intros (C & e & E & Ce). destruct (comp_step D e E) as (M & EM & L & X). exists M. split; [exact EM|]. split; [exact L|].
  destruct X as [->| ->]; auto.
Qed.

Section Component.
Context (D : duration xq) (s : quotes xq) (k : nat) (d : list (Qc * Qc)).
Context (H : qinv D s) (U : d_uniform D = true) (C : column k (candles s) d) (AP : apart D (candles s)).
Notation comp := (component k D s).

Lemma comp_y p : In p (dots d) -> c_y comp (fst p) = Ok (snd p).
Proof.
  intros I. apply In_nth_error in I as [i I]. destruct (dots_nth _ _ _ I) as (b & y & N & ->). cbn [fst snd].
  destruct (column_nth' k _ _ _ _ C N) as (cd & N2 & E). cbn [fst snd] in *.
  rewrite (component_value D s k b (Some cd) H).
  - cbn [entry]. now rewrite E.
  - apply val_knot. eapply nth_error_In; eauto.
Qed.
Lemma comp_next i p lim M : map_min_step MIN_STEP (Some (d_step D)) = Fin M -> (min_step <= M)%Qc -> coarse M (candles s) ->
  nth_error (dots d) i = Some p -> p_x_next (q_pts s) (fst p) (Some (Fin M)) lim = Ok (option_map fst (nth_error (dots d) (S i))).
Proof.
  intros EM LM CM N. destruct (dots_nth _ _ _ N) as (b & y & Nd & ->). cbn [fst].
  destruct (column_nth' k _ _ _ _ C Nd) as (cd & N2 & _). cbn [fst] in N2.
  rewrite (knot_next (q_pts s) M i b (Some cd) lim (qi_good _ _ H) CM); auto.
  2: { eapply Qclt_le_trans; [exact min_step_pos|exact LM]. }
  f_equal. fold (candles s). rewrite <- !nth_error_map. now rewrite (column_xs k _ _ C).
Qed.
Lemma comp_prev i p lim M : map_min_step MIN_STEP (Some (d_step D)) = Fin M -> (min_step <= M)%Qc -> coarse M (candles s) ->
  nth_error (dots d) i = Some p ->
  p_x_previous (q_pts s) (fst p) (Some (Fin M)) lim = Ok (match i with O => None | S j => option_map fst (nth_error (dots d) j) end).
Proof.
  intros EM LM CM N. destruct (dots_nth _ _ _ N) as (b & y & Nd & ->). cbn [fst].
  destruct (column_nth' k _ _ _ _ C Nd) as (cd & N2 & _). cbn [fst] in N2.
  assert (PM : (0 < M)%Qc) by (eapply Qclt_le_trans; [exact min_step_pos|exact LM]).
  destruct i as [|j].
  - destruct (p_x_previous_spec (q_pts s) (Fin b) M lim (qi_good _ _ H) ltac:(discriminate)) as (z & E & Q). rewrite E.
    destruct z as [z|]; [|reflexivity]. exfalso. destruct Q as ((v & I) & L & _).
    assert (Hh : head_opt (p_pts (q_pts s)) = Some (Fin b, Some cd)).
    { unfold candles in N2. destruct (p_pts (q_pts s)); [discriminate|]. cbn in *. congruence. }
    pose proof (ascending_head_le (p_pts (q_pts s)) _ _ (proj1 (qi_good _ _ H)) Hh I) as A.
    destruct (ascending_fin _ _ (proj1 (qi_good _ _ H)) I) as (r & u & X). injection X as -> ->. cbn [fst] in A.
    apply le_x_fin in A. cbn in L. apply le_x_fin in L. clear -PM A L. qc_lra.
  - rewrite (knot_previous (q_pts s) M j b (Some cd) lim (qi_good _ _ H) CM PM N2).
    f_equal. fold (candles s). rewrite <- !nth_error_map. now rewrite (column_xs k _ _ C).
Qed.

Lemma comp_equal : equally_spaced (candles s).
Proof.
  apply (proj1 (proj2 (proj2 (qi_good _ _ H)))). unfold p_uniform. now rewrite (qi_force _ _ H), U.
Qed.
Lemma comp_view : view min_step comp (dots d).
Proof.
  pose proof (proj1 (qi_good _ _ H)) as A. fold (candles s) in A.
  destruct (apart_step D _ AP) as (M & EM & LM & CM).
  split.
  - now apply column_asc with k (candles s).
  - apply column_eq with k (candles s); auto using comp_equal.
  - cbn [component map_curve c_dom q_crv]. rewrite (qi_domain _ _ H). now apply column_dom with k.
  - split.
    + intros p I. cbn [component map_curve c_dom q_crv]. rewrite (qi_domain _ _ H), (column_dom k _ _ C).
      pose proof (column_asc k _ _ C A) as A'. destruct (ascending_fin _ _ A' I) as (q & v & ->). cbn [fst].
      apply list_dom; [exact A'|]. exists q, q, v, v. repeat split; auto; apply Qcle_refl.
    + exact comp_y.
    + intros i p lim N. cbn [component map_curve c_next q_crv c_ms]. rewrite EM.
      change (Some (Fin min_step)) with (Some (MIN_STEP : xq)). rewrite (resolve_comp M LM). now apply comp_next.
Qed.

(** stepping back through the values *)
Lemma comp_walk M : map_min_step MIN_STEP (Some (d_step D)) = Fin M -> (min_step <= M)%Qc -> coarse M (candles s) ->
  forall n i p, nth_error d i = Some p ->
  spfx_loop py_none comp true (Some (Fin M)) n (Fin (fst p)) = Ok (dots (firstn n (rev (firstn i d)))).
Proof.
  intros EM LM CM. induction n as [|n IH]; intros i p N; [reflexivity|].
  assert (Np : nth_error (dots d) i = Some (dot p)) by (unfold dots; now apply map_nth_error).
  assert (EP : c_prev comp (Fin (fst p)) (Some (Fin M)) None = p_x_previous (q_pts s) (fst (dot p)) (Some (Fin M)) None).
  { cbn [component map_curve c_prev q_crv c_ms]. rewrite EM, resolve_same. reflexivity. }
  cbn [spfx_loop]. rewrite EP, (comp_prev i (dot p) None M EM LM CM Np). cbn [rbind].
  destruct i as [|j]; [reflexivity|].
  assert (Lj : (S j < length d)%nat) by (apply nth_error_Some; congruence).
  destruct (nth_error d j) as [[a ya]|] eqn:Nj; [|apply nth_error_None in Nj; lia].
  unfold dots at 1. rewrite nth_error_map, Nj. cbn [option_map dot fst].
  assert (EY := comp_y (dot (a, ya)) ltac:(unfold dots; apply in_map; eapply nth_error_In; eauto)). cbn [dot fst snd] in EY.
  rewrite EY. cbn [rbind py_none]. pose proof (IH j (a, ya) Nj) as IHj. cbn [fst] in IHj. rewrite IHj. cbn [rbind].
  rewrite (firstn_snoc d j _ Nj), rev_app_distr. reflexivity.
Qed.

Lemma trailing_computes n fuel ip : (1 <= n)%Z ->
  computes_on (map_G (win_degree (Z.to_nat n)) (fun _ => best (fun a b => Qcltb b a))) ip
    (trailing_tf k (MapDegree n) fuel D s) (dots d).
Proof.
  intros Hn pa i p N GP IP PP. destruct (apart_step D _ AP) as (M & EM & LM & CM).
  rewrite dots_firstn. unfold map_G. rewrite undot_dots.
  destruct (dots_nth _ _ _ N) as (b & yb & Nd & ->). cbn [fst snd undot].
  unfold trailing_tf, map_scan.
  assert (MORE : (if negb (n =? 1)%Z then map_from_x comp (Some MIN_STEP) (Fin b) (n - 1)%Z else Ok [])
                 = Ok (dots (firstn (Z.to_nat n - 1) (rev (firstn i d))))).
  { destruct (n =? 1)%Z eqn:E1; cbn [negb].
    - apply Z.eqb_eq in E1. subst n. reflexivity.
    - apply Z.eqb_neq in E1. unfold map_from_x, sample_points_from_x.
      assert (NN : (n - 1 <? 0)%Z = false) by (apply Z.ltb_ge; lia). rewrite NN. cbn [negb].
      change (c_ms comp) with (Some (map_min_step (MIN_STEP : xq) (Some (d_step D)))). rewrite EM, (resolve_comp M LM).
      replace (Z.to_nat (n - 1)) with (Z.to_nat n - 1)%nat by lia.
      exact (comp_walk M EM LM CM _ i (b, yb) Nd). }
  rewrite MORE. cbn [rbind]. assert (ZN : exists n', Z.to_nat n = S n') by (exists (Z.to_nat n - 1)%nat; lia).
  destruct ZN as [n' ZN]. rewrite ZN in *. cbn [Nat.sub]. rewrite Nat.sub_0_r.
  assert (X : win_degree (S n') (firstn i d) (b, yb) = yb :: map snd (firstn n' (rev (firstn i d)))).
  { unfold win_degree. rewrite map_app, rev_app_distr. cbn [map rev app firstn snd]. f_equal. rewrite <- map_rev, firstn_map. reflexivity. }
  rewrite X, some_fin_snd. exact (max_computes b yb _).
Qed.
End Component.

(** ** Histories of the Quotes together with a trailing curve *)
Section Trailing.
Context {O : Type} (point : O -> res (xq * cnd)) (encoder : option (O -> res O)).
Context (k : nat) (n : Z) (fuel0 : nat) (D : duration xq).
(** The component is an observer of the Quotes with its own update state [u],
    the trailing curve one of the component. *)
Inductive trailed : quotes xq -> upd xq -> acc xq num -> Prop :=
| tl_new s d : quoted point encoder D s -> column k (candles s) d -> trailed s upd_init (trailing_init D)
| tl_query s u a x fuel a' r : trailed s u a -> apart D (candles s) -> (length (candles s) < fuel)%nat ->
    trailing_y k (MapDegree n) fuel0 D fuel s a x = (a', r) -> trailed s u a'
| tl_domain s u a a' d : trailed s u a -> acc_dom (q_domain s) a = (a', d) -> trailed s u a'
| tl_touch s u a : trailed s u a -> trailed (q_touch s) u a
| tl_read s u a : trailed s u a -> trailed (qset_pts s (p_touch (q_pts s))) u a
| tl_op s u a o m s' evs u' evs' a' out r d : trailed s u a ->
    reads point encoder o = Ok m -> ascending m -> run_q point encoder s o = (s', evs, Ok tt) ->
    (p_uniform (q_pts s') = true -> equally_spaced (candles s')) -> column k (candles s') d ->
    forward u evs = (u', evs') -> acc_events a evs' = (a', out, r) -> trailed s' u' a'.

Notation G := (map_G (win_degree (Z.to_nat n)) (fun _ => best (fun a b => Qcltb b a))).
Lemma trailed_follows s u a : d_uniform D = true -> (1 <= n)%Z -> trailed s u a ->
  qinv D s /\ idle u /\ exists d, column k (candles s) d /\ follows G min_step IPrevious (fun v => v) (dots d) a.
Proof.
  intros UD Hn. induction 1 as [s d Q C|s u a x fuel a' r _ (H & I & d & C & F) AP L E|s u a a' d0 _ (H & I & d & C & F) E
    |s u a _ (H & I & d & C & F)|s u a _ (H & I & d & C & F)|s u a o m s' evs u' evs' a' out r d' _ (H & I & d & C & F) R A E EQ C' FW AE].
  - pose proof (quoted_inv _ _ _ _ Q) as H. split; [exact H|]. split; [split; reflexivity|]. exists d. split; [exact C|].
    unfold trailing_init. rewrite UD. apply fo_new. apply (column_asc k _ _ C). apply (qi_good _ _ H).
  - split; [exact H|]. split; [exact I|]. exists d. split; [exact C|].
    eapply fo_query; [exact F|apply comp_view; eauto|apply (trailing_computes D s k d H UD C AP n fuel0 IPrevious Hn)| |exact E].
    rewrite dots_len, <- (column_len k _ _ C). exact L.
  - split; [exact H|]. split; [exact I|]. exists d. split; [exact C|]. eapply fo_domain; [exact F|].
    rewrite (qi_domain _ _ H), (column_dom k _ _ C) in E. exact E.
  - split; [now apply qinv_touch|]. split; [exact I|]. exists d. rewrite candles_touch. auto.
  - split; [now apply qinv_read|]. split; [exact I|]. exists d. auto.
  - destruct (run_q_ok point encoder D s o m s' evs H R A E EQ) as (H' & AN & _).
    assert (FE : evs' = evs /\ idle u').
    { destruct AN as [[-> _]|(E0 & q & -> & K & NE & _)].
      - cbn in FW. injection FW as <- <-. auto.
      - rewrite (forward_notify _ _ I K NE) in FW. injection FW as <- <-. split; [reflexivity|split; reflexivity]. }
    destruct FE as [-> I']. split; [exact H'|]. split; [exact I'|]. exists d'. split; [exact C'|].
    eapply fo_change; [exact F| |apply (column_announces k _ _ _ _ _ C C' AN)|exact AE].
    apply (column_asc k _ _ C'). apply (qi_good _ _ H').
Qed.

Lemma trailed_traces s u a d fuel : d_uniform D = true -> (1 <= n)%Z -> trailed s u a -> column k (candles s) d ->
  apart D (candles s) -> (length d < fuel)%nat ->
  exists M, traces IPrevious (table d M) (fun x => snd (trailing_y k (MapDegree n) fuel0 D fuel s a x)) /\
    forall i, (i < length d)%nat -> greatest (in_window (MapDegree n) d i) (M i).
Proof.
  intros UD Hn T C AP L. destruct (trailed_follows s u a UD Hn T) as (H & _ & d' & C' & F).
  rewrite (column_unique k _ _ _ C' C) in F. clear d' C'.
  pose proof (follows_traces G min_step min_step_pos IPrevious (fun v => v) 0%Qc fuel (component k D s)
    (trailing_tf k (MapDegree n) fuel0 D s) a d (mapped (win_degree (Z.to_nat n)) (fun _ => best (fun a b => Qcltb b a)) [] d)
    eq_refl) as TR.
  assert (P1 : forall y : Qc, (fun v : num => v) (Some (Fin y)) = Some (Fin (y + 0)%Qc)) by (intros y; now rewrite Qcplus_0_r).
  specialize (TR P1 F (comp_view D s k d H UD C AP) (trailing_computes D s k d H UD C AP n fuel0 IPrevious Hn) (spec_mapped _ _ d) L).
  destruct (window_exists (MapDegree n) Hn) as (win & HW & IW). cbn in HW. destruct HW as [_ ->].
  eexists. split; [exact TR|]. intros i Li. cbn beta. rewrite Qcplus_0_r.
  assert (Ni : nth_error d i = Some (pt d i)) by (unfold pt; now apply nth_error_nth').
  assert (EY : at_y (mapped (win_degree (Z.to_nat n)) (fun _ => best (fun a b => Qcltb b a)) [] d) i
               = best (fun a b => Qcltb b a) (win_degree (Z.to_nat n) (firstn i d) (pt d i))).
  { unfold at_y. rewrite (nth_error_nth _ _ _ (mapped_nth _ _ d [] i _ Ni)). reflexivity. }
  rewrite EY. assert (N : win_degree (Z.to_nat n) (firstn i d) (pt d i) <> []).
  { intros X. pose proof (proj2 (IW d i (at_y d i) Li) (window_self (MapDegree n) d i Hn)) as J. rewrite X in J. exact J. }
  destruct (best_max _ N) as [B1 B2]. split; [now apply IW|]. intros y Y. apply B2. now apply IW.
Qed.
End Trailing.
