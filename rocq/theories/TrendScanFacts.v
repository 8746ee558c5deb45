(** A Trend over a Points source: what any history of questions and appended
    points leaves scanned, and what y answers. *)
From Coq Require Import List ZArith QArith Qcanon Bool Lia Sorting.Sorted.
From Verif Require Import Base Num NumFacts Interval IntervalFacts Curve Points PointsSpec PointsIdx PointsOps PointsQuery PointsReset PointsCover PointsDec Graph Combine Scan ScanFacts ScanInv ScanSource Extremas ExtremasFold ExtremasUniq ExtremasVal ExtremasInv
  Trend TrendGeo TrendCol TrendCross TrendTop TrendLevels TrendScan.
Import ListNotations.
Open Scope Qc_scope.

Lemma ssorted_app {A} (r : A -> A -> Prop) (a b : list A) : StronglySorted r (a ++ b) ->
  StronglySorted r a /\ StronglySorted r b /\ forall x y, In x a -> In y b -> r x y.
Proof.
  induction a as [|p a IH]; cbn; intros H; [split; [constructor|]; split; [exact H|]; intros x y []|].
  inversion H; subst. destruct (IH H2) as (A1 & B1 & C1). rewrite Forall_app in H3. destruct H3 as [F1 F2].
  split; [constructor; auto|]. split; auto. intros x y [->|I] J; auto. rewrite Forall_forall in F2. auto.
Qed.

Section Facts.
Context (m : Qc) (Hm : 0 < m).
Variables (eps gold gold2 : xq) (polyfit : list (xq * xq) -> xq * xq) (g : cfg xq) (lf : nat).
Notation own := (Some (Fin m)).
Notation trun := (trun eps gold gold2 polyfit g lf).
Notation ts_loop := (fun fuel => ts_loop eps gold gold2 polyfit g fuel lf).
Notation ts_scan := (fun fuel => ts_scan eps gold gold2 polyfit g fuel lf).
Notation ts_y := (fun fuel => ts_y eps gold gold2 polyfit g fuel lf).
Notation ts_side := (fun up fuel => ts_side eps gold gold2 polyfit g up fuel lf).
Notation ts_events := (ts_events eps gold gold2 polyfit g).

(** A Points source with points at least min_step apart. *)
Record tsrc (s : pts xq (option xq)) (l : list spt) : Prop := {
  tr_good : good s;
  tr_pts : p_pts s = map fsp l;
  tr_coarse : coarse m (p_pts s);
  tr_some : l <> []
}.
Definition scan_of (p : spt) : tev (T := xq) := TScan (Fin (fst p)) (option_map Fin (snd p)).
(** The trend of a scan of the points of [l]. *)
Definition scan_all (l : list spt) : res (trend xq) := trun trend0 (map scan_of l).

(** What holds between calls: the first [k] points were scanned, once each. *)
Record ts_inv (s : pts xq (option xq)) (l : list spt) (t : tscan xq) (k : nat) : Prop := {
  ti_len : (k <= length l)%nat;
  ti_cur : ts_cur t = option_map (fun p : spt => Fin (fst p)) (last_opt (firstn k l));
  ti_start : ts_start t = option_map (fun p : spt => Fin (fst p)) (head_opt (firstn k l));
  ti_tr : scan_all (firstn k l) = Ok (ts_tr t);
  ti_dom : u_dom (ts_upd t) = None \/ u_dom (ts_upd t) = Some (onwards (p_dom s));
  ti_idle : PointsOps.idle (ts_upd t)
}.

Let R1 : Qc -> option Qc := fun _ => Some 1.
Lemma tsrc_ex s l : tsrc s l -> ex_source m R1 s l.
Proof.
  intros [A B C _]. constructor; auto. apply Forall_forall. intros p _ _. unfold R1. discriminate.
Qed.
Lemma trun_snoc es e : forall r, trun r (es ++ [e]) = let! r := trun r es in tstep eps gold gold2 polyfit g lf r e.
Proof.
  induction es as [|a es IH]; intros r; cbn [app TrendTop.trun rbind].
  - destruct (tstep _ _ _ _ _ _ r e); reflexivity.
  - destruct (tstep _ _ _ _ _ _ r a); cbn [rbind]; auto.
Qed.
Lemma trun_app es es' : forall r, trun r (es ++ es') = let! r := trun r es in trun r es'.
Proof.
  induction es as [|a es IH]; intros r; cbn [app TrendTop.trun rbind]; auto.
  destruct (tstep _ _ _ _ _ _ r a); cbn [rbind]; auto.
Qed.
Lemma scan_prefix l k r : scan_all l = Ok r -> exists r', scan_all (firstn k l) = Ok r'.
Proof.
  intros H. unfold scan_all in *. rewrite <- (firstn_skipn k l), map_app, trun_app in H.
  destruct (trun trend0 (map scan_of (firstn k l))) as [r'|]; [eauto|discriminate].
Qed.
Lemma scan_next l k p : nth_error l k = Some p -> scan_all (firstn (S k) l) = let! r := scan_all (firstn k l) in
  trend_scan eps gold gold2 polyfit g lf r (Fin (fst p)) (option_map Fin (snd p)).
Proof.
  intros N. rewrite (firstn_snoc _ _ _ N). unfold scan_all. rewrite map_app. cbn [map]. rewrite trun_snoc. reflexivity.
Qed.

Lemma src_dom s l a z : tsrc s l -> head_opt l = Some a -> last_opt l = Some z -> p_dom s = mkI (Fin (fst a)) (Fin (fst z)) false false.
Proof.
  intros X A Z. assert (D : p_dom s = pts_domain (p_pts s)) by (apply calm_dom, good_calm, X).
  rewrite D. unfold pts_domain. rewrite (tr_pts _ _ X), head_map, last_map, A, Z. reflexivity.
Qed.
Lemma src_nonempty s l : tsrc s l -> i_is_empty (p_dom s) = false.
Proof.
  intros X. destruct (i_is_empty (p_dom s)) eqn:Y; auto.
  assert (D : p_dom s = pts_domain (p_pts s)) by (apply calm_dom, good_calm, X). rewrite D in Y.
  apply pts_domain_empty_iff in Y; [|apply X]. exfalso. apply (tr_some _ _ X). rewrite (tr_pts _ _ X) in Y. destruct l; [auto|discriminate].
Qed.
Lemma src_onwards s l a q : tsrc s l -> head_opt l = Some a -> i_contains (onwards (p_dom s)) (Fin q) = Qcleb (fst a) q.
Proof.
  intros X A. destruct (last_opt_some l (tr_some _ _ X)) as [z Z]. unfold onwards. rewrite (src_nonempty s l X), (src_dom s l a z X A Z).
  unfold i_contains, i_contains_gen, i_is_empty, above_start, below_end, n_gtb. cbn. rewrite andb_true_r.
  destruct (Qcleb (fst a) q) eqn:E; qb_simpl.
  - destruct (Qcltb (fst a) q) eqn:E1; cbn; auto. qb_simpl. apply Qceqb_true. qc_lra.
  - destruct (Qcltb (fst a) q) eqn:E1; qb_simpl; [exfalso; qc_lra|]. cbn. destruct (Qceqb (fst a) q) eqn:E2; auto. apply Qceqb_true in E2. exfalso. rewrite E2 in E. qc_lra.
Qed.

Lemma tdom_ok s l t k : ts_inv s l t k -> exists t', ts_dom (p_dom s) t = (t', onwards (p_dom s)) /\ ts_inv s l t' k /\
  ts_cur t' = ts_cur t /\ ts_tr t' = ts_tr t.
Proof.
  intros [L C St X D Id]. unfold ts_dom. destruct (u_dom (ts_upd t)) as [d|] eqn:U.
  - exists t. destruct D as [D|D]; [discriminate|]. injection D as ->. split; auto. split; auto. constructor; auto.
  - eexists. split; [reflexivity|]. split; [|split; reflexivity]. constructor; auto; cbn; auto.
Qed.

Lemma head_least s l a p : tsrc s l -> head_opt l = Some a -> In p l -> fst a <= fst p.
Proof.
  intros X A I. pose proof (source_sorted m R1 s l (tsrc_ex _ _ X)) as SS. destruct l as [|b l]; [discriminate|]. injection A as ->.
  destruct I as [->|I]; [apply Qcle_refl|]. inversion SS; subst. rewrite Forall_forall in H2. specialize (H2 _ I). unfold slt in H2. qc_lra.
Qed.
Lemma onwards_point s l p : tsrc s l -> In p l -> i_contains (onwards (p_dom s)) (Fin (fst p)) = true.
Proof.
  intros X I. destruct (head_opt_some l (tr_some _ _ X)) as [a A]. rewrite (src_onwards s l a (fst p) X A).
  pose proof (head_least s l a p X A I). destruct (Qcleb (fst a) (fst p)) eqn:E; qb_simpl; auto. exfalso. qc_lra.
Qed.

Lemma tinit_ok s l t x p : tsrc s l -> ts_inv s l t 0 -> head_opt l = Some p ->
  exists t', ts_init_scan (p_crv s) own t x = (t', Ok (Some (Fin (fst p)))) /\ ts_inv s l t' 0 /\ ts_tr t' = ts_tr t.
Proof.
  intros X I Hp. destruct (tdom_ok s l t 0 I) as (t' & E & I' & _ & T'). exists t'. split; auto.
  unfold ts_init_scan. cbn [c_dom p_crv]. rewrite (src_nonempty s l X). destruct (last_opt_some l (tr_some _ _ X)) as [z Z].
  assert (NI : i_is_negative_infinite (p_dom s) = false) by (rewrite (src_dom s l p z X Hp Z); reflexivity).
  rewrite NI, E. cbn [orb]. replace (i_start (p_dom s)) with (Fin (fst p)) by (rewrite (src_dom s l p z X Hp Z); reflexivity).
  rewrite (onwards_point s l p X) by now apply head_opt_in. reflexivity.
Qed.

(** The scan went far enough for [q]: every point was scanned, or one at or
    after [q] was and no line wants more. *)
Definition tfar (l : list spt) (t : tscan xq) (q : Qc) (k : nat) : Prop :=
  k = length l \/ (exists z, last_opt (firstn k l) = Some z /\ q <= fst z) /\ wants_more (ts_tr t) (Fin q) = false.

Lemma tloop_ok s l q : tsrc s l -> forall fuel t k, ts_inv s l t k -> (length l - k < fuel)%nat ->
  exists t', (ts_loop fuel (p_crv s) own (Fin q) t = (t', Ok tt) /\ exists k', ts_inv s l t' k' /\ tfar l t' q k' /\ (k <= k')%nat) \/
    (exists er j, ts_loop fuel (p_crv s) own (Fin q) t = (t', Err er) /\ scan_all (firstn j l) = Err er).
Proof.
  intros X. pose proof (tsrc_ex _ _ X) as EX. pose proof (source_sorted m R1 s l EX) as SS. pose proof (tr_some _ _ X) as NE.
  induction fuel as [|f IH]; intros t k I Lf; [lia|]. cbn [TrendScan.ts_loop].
  assert (STEP : forall t1 p, nth_error l k = Some p -> ts_start t1 = option_map (fun p : spt => Fin (fst p)) (head_opt (firstn (S k) l)) ->
    scan_all (firstn k l) = Ok (ts_tr t1) -> (u_dom (ts_upd t1) = None \/ u_dom (ts_upd t1) = Some (onwards (p_dom s))) -> PointsOps.idle (ts_upd t1) ->
    let W := match trend_scan eps gold gold2 polyfit g lf (ts_tr t1) (Fin (fst p)) (option_map Fin (snd p)) with
      | Err er => (t1, Err er)
      | Ok r => ts_loop f (p_crv s) own (Fin q) (ts_set_cur (ts_set_tr t1 r) (Some (Fin (fst p))))
      end in
    exists t', (W = (t', Ok tt) /\ exists k', ts_inv s l t' k' /\ tfar l t' q k' /\ (k <= k')%nat) \/
      (exists er j, W = (t', Err er) /\ scan_all (firstn j l) = Err er)).
  { intros t1 p N S1 T1 D1 Id1. assert (Lk : (k < length l)%nat) by (apply nth_error_Some; congruence).
    pose proof (scan_next l k p N) as SN. rewrite T1 in SN. cbn [rbind] in SN. cbn zeta.
    destruct (trend_scan eps gold gold2 polyfit g lf (ts_tr t1) (Fin (fst p)) (option_map Fin (snd p))) as [r|er] eqn:TS.
    2:{ exists t1. right. exists er, (S k). auto. }
    destruct (IH (ts_set_cur (ts_set_tr t1 r) (Some (Fin (fst p)))) (S k)) as (t' & [(E & k' & I' & F & L)|(er & j & E & J)]); [|lia| |].
    - constructor; auto.
      rewrite (last_firstn_spt _ _ _ N). reflexivity.
    - exists t'. left. split; [exact E|]. exists k'. split; [exact I'|]. split; [exact F|lia].
    - exists t'. right. exists er, j. auto. }
  pose proof (ti_cur _ _ _ _ I) as CUR. destruct k as [|j].
  - cbn [firstn last_opt rev head_opt option_map] in CUR. rewrite CUR.
    destruct (head_opt_some l NE) as [p Hp]. destruct (tinit_ok s l t (Fin q) p X I Hp) as (t1 & E1 & I1 & T1).
    rewrite CUR, E1. cbn [ts_cur ts_set_start]. rewrite (ti_cur _ _ _ _ I1). cbn [firstn last_opt rev head_opt option_map].
    cbn [c_dom c_y p_crv]. rewrite (source_dom m R1 s l p EX) by now apply head_opt_in. cbn [negb].
    rewrite (source_y m R1 s l p EX) by now apply head_opt_in. cbn [ts_tr ts_set_start].
    apply (STEP (ts_set_start t1 (Some (Fin (fst p)))) p).
    + destruct l; [discriminate|]. exact Hp.
    + cbn [ts_set_start ts_start]. destruct l; [discriminate|]. injection Hp as ->. reflexivity.
    + apply I1.
    + apply I1.
    + apply I1.
  - assert (Lj : (j < length l)%nat) by (pose proof (ti_len _ _ _ _ I); lia).
    destruct (nth_error l j) as [z|] eqn:NZ; [|apply nth_error_None in NZ; lia].
    rewrite (last_firstn_spt _ _ _ NZ) in CUR. cbn [option_map] in CUR. rewrite CUR.
    assert (GO : exists t1 go, ts_continue (p_dom s) t (Fin (fst z)) (Fin q) = (t1, go) /\ ts_inv s l t1 (S j) /\
      ts_cur t1 = ts_cur t /\ (go = false -> tfar l t1 q (S j))).
    { unfold ts_continue. destruct (n_ltb (Fin (fst z)) (Fin q)) eqn:LT.
      - exists t, true. split; [reflexivity|]. split; [exact I|]. split; [reflexivity|]. discriminate.
      - destruct (tdom_ok s l t (S j) I) as (t1 & ED & I1 & C1 & T1). rewrite ED.
        rewrite (onwards_point s l z X) by (eapply nth_error_In; eauto). cbn [negb].
        eexists _, _. split; [reflexivity|]. split; [exact I1|]. split; [exact C1|].
        intros G. right. split; [|exact G]. exists z. split; [now apply last_firstn_spt|]. cbn in LT. qb_simpl. exact LT. }
    destruct GO as (t1 & go & EG & I1 & C1 & FG). cbn [c_dom p_crv]. rewrite EG. destruct go.
    + rewrite C1, CUR. unfold ts_next. rewrite resolve_self. cbn [c_next p_crv].
      rewrite (source_next m Hm R1 s l j z _ EX NZ).
      destruct (nth_error l (S j)) as [p|] eqn:N; cbn [option_map].
      2:{ exists t1. left. split; auto. exists (S j). split; auto. split; auto. left. apply nth_error_None in N. lia. }
      assert (Ip : In p l) by (eapply nth_error_In; eauto).
      rewrite (source_dom m R1 s l p EX Ip). cbn [negb]. rewrite C1, CUR.
      assert (LT : fst z < fst p).
      { destruct (nth_split2 _ _ _ _ NZ N) as (l1 & l2 & EL). clear -SS EL. subst l. induction l1 as [|b l1 IH]; inversion SS; subst; auto.
        inversion H2; subst. auto. }
      cbn [n_leb XQ xq_leb]. destruct (Qcleb (fst p) (fst z)) eqn:LE; qb_simpl; [exfalso; qc_lra|].
      cbn [c_y p_crv]. rewrite (source_y m R1 s l p EX Ip). apply STEP; auto.
      * rewrite (ti_start _ _ _ _ I1). now rewrite (head_firstn_S l j (S j)).
      * apply I1.
      * apply I1.
      * apply I1.
    + exists t1. left. split; auto. exists (S j). auto.
Qed.

Lemma scan_stays s l t k q fuel : tsrc s l -> ts_inv s l t k -> (exists p, In p l /\ fst p <= q) ->
  ts_scan fuel (p_crv s) own (Fin q) t = ts_loop fuel (p_crv s) own (Fin q) t.
Proof.
  intros X I (p & Ip & Lp). unfold TrendScan.ts_scan. rewrite (ti_start _ _ _ _ I). destruct k as [|k]; [reflexivity|].
  destruct (head_opt_some l (tr_some _ _ X)) as [a A]. pose proof (head_least s l a p X A Ip) as La.
  destruct l as [|b l]; [discriminate|]. injection A as ->. cbn [firstn head_opt option_map]. cbn [n_ltb XQ xq_ltb].
  destruct (Qcltb q (fst a)) eqn:LT; auto. qb_simpl. exfalso. qc_lra.
Qed.
Lemma far_points s l t k q : tsrc s l -> tfar l t q k -> Forall (fun p => q < fst p) (skipn k l).
Proof.
  intros X [->|((z & Z & L) & _)]; [rewrite skipn_all; constructor|].
  pose proof (source_sorted m R1 s l (tsrc_ex _ _ X)) as SS. rewrite <- (firstn_skipn k l) in SS. apply ssorted_app in SS.
  destruct SS as (_ & _ & C). apply Forall_forall. intros p Ip. specialize (C z p (last_opt_in _ _ Z) Ip). unfold slt in C. qc_lra.
Qed.
Lemma contains_start (d : ival xq) x : i_contains d x = true -> i_contains_gen true false d x = true.
Proof.
  unfold i_contains, i_contains_gen. destruct (i_is_empty d); auto. cbn. intros H. apply andb_prop in H. destruct H as [-> _]. reflexivity.
Qed.
Lemma answer_wants (r : trend xq) q : scanned_lines g r (Some q) <> [] -> wants_more r q = true.
Proof.
  intros H. unfold wants_more. destruct (concat (r_up r) ++ concat (r_lo r)) as [|t0 ls] eqn:E; auto. rewrite <- E. apply existsb_exists.
  assert (K : exists t, In t (scanned_lines g r (Some q))) by (destruct (scanned_lines g r (Some q)); [congruence|eexists; now left]).
  destruct K as [t K]. exists t. unfold scanned_lines, scanned_lower, scanned_upper in K. apply in_app_or in K.
  assert (G : forall cg, line_filter g cg (Some q) t = true -> i_contains_gen true false (t_int t) q = true).
  { intros cg F. unfold line_filter in F. rewrite !andb_true_iff in F. apply contains_start, F. }
  destruct K as [K|K]; apply filter_In in K; destruct K as [K F]; split; eauto; apply in_or_app; auto.
Qed.

(** y at or after the first point. *)
Theorem y_ok s l t k q fuel : tsrc s l -> ts_inv s l t k -> (length l < fuel)%nat -> (exists p, In p l /\ fst p <= q) ->
  exists t', (exists k', ts_y fuel (p_crv s) own t (Fin q) = (t', Ok (Some (scanned_lines g (ts_tr t') (Some (Fin q))))) /\
      ts_inv s l t' k' /\ tfar l t' q k' /\ (k <= k')%nat) \/
    (exists er j, ts_y fuel (p_crv s) own t (Fin q) = (t', Err er) /\ scan_all (firstn j l) = Err er).
Proof.
  intros X I Lf Hq. unfold TrendScan.ts_y. cbn [c_dom p_crv].
  assert (IN : exists t1, (if negb (i_contains (p_dom s) (Fin q)) then let '(t2, d) := ts_dom (p_dom s) t in (t2, negb (i_contains d (Fin q))) else (t, false)) = (t1, false) /\
    ts_inv s l t1 k).
  { destruct (i_contains (p_dom s) (Fin q)); cbn [negb]; [exists t; auto|].
    destruct (tdom_ok s l t k I) as (t1 & E & I1 & _). rewrite E. exists t1. split; auto.
    destruct (head_opt_some l (tr_some _ _ X)) as [a A]. rewrite (src_onwards s l a q X A). destruct Hq as (p & Ip & Lp).
    pose proof (head_least s l a p X A Ip). destruct (Qcleb (fst a) q) eqn:Q; auto. qb_simpl. exfalso. qc_lra. }
  destruct IN as (t1 & -> & I1). cbn [c_dom p_crv]. pose proof (scan_stays s l t1 k q fuel X I1 Hq) as ST. cbv beta in ST. rewrite ST. clear ST.
  destruct (tloop_ok s l q X fuel t1 k I1 ltac:(lia)) as (t' & [(E & k' & I' & F & L)|(er & j & E & J)]); cbv beta in E; rewrite E; exists t'.
  - left. exists k'. auto.
  - right. exists er, j. auto.
Qed.
(** ... and before it. *)
Theorem y_before s l t k q fuel : tsrc s l -> ts_inv s l t k -> (forall p, In p l -> q < fst p) ->
  exists t', ts_y fuel (p_crv s) own t (Fin q) = (t', Ok None) /\ ts_inv s l t' k /\ ts_tr t' = ts_tr t.
Proof.
  intros X I Hq. unfold TrendScan.ts_y. cbn [c_dom p_crv]. destruct (head_opt_some l (tr_some _ _ X)) as [a A].
  assert (NC : i_contains (p_dom s) (Fin q) = false).
  { destruct (i_contains (p_dom s) (Fin q)) eqn:C; auto. exfalso. apply span_dom in C; [|apply X].
    destruct C as (x & y & vx & vy & I1 & _ & L1 & _). rewrite (tr_pts _ _ X) in I1. apply in_map_iff in I1. destruct I1 as (w & Ew & Iw).
    injection Ew as Ex _. specialize (Hq _ Iw). rewrite Ex in Hq. qc_lra. }
  rewrite NC. cbn [negb]. destruct (tdom_ok s l t k I) as (t1 & E & I1 & _ & T1). rewrite E. rewrite (src_onwards s l a q X A).
  specialize (Hq a (head_opt_in _ _ A)). destruct (Qcleb (fst a) q) eqn:Q; qb_simpl; [exfalso; qc_lra|]. cbn [negb]. exists t1. auto.
Qed.
Theorem side_ok up s l t k x fuel t' a : tsrc s l -> ts_inv s l t k -> (length l < fuel)%nat ->
  match x with Some q => exists p, In p l /\ fst p <= q | None => True end ->
  ts_side up fuel (p_crv s) own t (option_map Fin x) = (t', Ok a) ->
  exists k', ts_inv s l t' k' /\ (k <= k')%nat /\ (forall q, x = Some q -> tfar l t' q k') /\ (x = None -> t' = t) /\
    a = if up then scanned_upper g (ts_tr t') (option_map Fin x) else scanned_lower g (ts_tr t') (option_map Fin x).
Proof.
  intros X I Lf Hx. unfold TrendScan.ts_side. destruct x as [q|]; cbn [option_map].
  - pose proof (scan_stays s l t k q fuel X I Hx) as ST. cbv beta in ST. rewrite ST. clear ST.
    destruct (tloop_ok s l q X fuel t k I ltac:(lia)) as (t1 & [(E & k' & I' & F & L)|(er & j & E & J)]); cbv beta in E; rewrite E; [|discriminate].
    intros [= <- <-]. exists k'. split; auto. split; auto. split; [intros q' [= <-]; exact F|]. split; [discriminate|reflexivity].
  - intros [= <- <-]. exists k. split; auto. split; auto. split; [discriminate|]. auto.
Qed.

(** Asking again scans nothing. *)
Lemma tloop_done s l q t k fuel : tsrc s l -> ts_inv s l t k -> tfar l t q k -> (0 < fuel)%nat ->
  exists t', ts_loop fuel (p_crv s) own (Fin q) t = (t', Ok tt) /\ ts_inv s l t' k /\ ts_tr t' = ts_tr t.
Proof.
  intros X I F Lf. pose proof (tsrc_ex _ _ X) as EX. destruct fuel as [|f]; [lia|]. cbn [TrendScan.ts_loop].
  assert (K : exists j z, k = S j /\ nth_error l j = Some z).
  { pose proof (ti_len _ _ _ _ I) as L. destruct k as [|j].
    - exfalso. destruct F as [F|((z & Z & _) & _)]; [|discriminate]. apply (tr_some _ _ X). destruct l; [auto|discriminate].
    - destruct (nth_error l j) as [z|] eqn:NZ; [eauto|]. apply nth_error_None in NZ. lia. }
  destruct K as (j & z & -> & NZ). pose proof (ti_cur _ _ _ _ I) as CUR. rewrite (last_firstn_spt _ _ _ NZ) in CUR. cbn [option_map] in CUR. rewrite CUR.
  assert (GO : exists t1 go, ts_continue (p_dom s) t (Fin (fst z)) (Fin q) = (t1, go) /\ ts_inv s l t1 (S j) /\
      ts_cur t1 = ts_cur t /\ ts_tr t1 = ts_tr t /\ (go = true -> S j = length l)).
  { unfold ts_continue. destruct (n_ltb (Fin (fst z)) (Fin q)) eqn:LT.
    - exists t, true. repeat (split; [auto|]). intros _. destruct F as [F|((y & Y & L) & _)]; [exact F|].
      rewrite (last_firstn_spt _ _ _ NZ) in Y. injection Y as ->. cbn in LT. qb_simpl. exfalso. qc_lra.
    - destruct (tdom_ok s l t (S j) I) as (t1 & ED & I1 & C1 & T1). rewrite ED.
      rewrite (onwards_point s l z X) by (eapply nth_error_In; eauto). cbn [negb]. eexists _, _. split; [reflexivity|]. repeat (split; [auto|]).
      intros G. destruct F as [F|(_ & F)]; [exact F|]. rewrite T1 in G. congruence. }
  destruct GO as (t1 & go & EG & I1 & C1 & T1 & FG). cbn [c_dom p_crv]. rewrite EG. destruct go; [|exists t1; auto].
  rewrite C1, CUR. unfold ts_next. rewrite resolve_self. cbn [c_next p_crv]. rewrite (source_next m Hm R1 s l j z _ EX NZ).
  specialize (FG eq_refl). destruct (nth_error l (S j)) eqn:N; [exfalso; assert (S j < length l)%nat by (apply nth_error_Some; congruence); lia|].
  cbn [option_map]. exists t1. auto.
Qed.

(** ** Points appended to the source *)
Hypothesis (Hlen : exists q, g_len g = Fin q).
Hypothesis (Hfit : forall ps, (3 <= length ps)%nat -> Forall fpt ps -> exists c b, polyfit ps = (Fin c, Fin b)).
Definition vals (l : list spt) : list qpt := flat_map (fun p => match snd p with Some y => [(fst p, y)] | None => [] end) l.
Lemma vals_in q l : In q (vals l) -> exists p, In p l /\ fst p = fst q.
Proof.
  intros H. apply in_flat_map in H. destruct H as (p & Ip & Hp). exists p. split; auto. destruct (snd p); [|destruct Hp].
  destruct Hp as [<-|[]]. reflexivity.
Qed.
Lemma vals_sorted l : StronglySorted slt l -> StronglySorted by_xs (vals l).
Proof.
  induction 1 as [|p l H IH F]; [constructor|]. cbn. destruct (snd p) as [y|]; [|exact IH]. cbn. constructor; auto.
  apply Forall_forall. intros q Iq. destruct (vals_in _ _ Iq) as (p' & Ip & E). rewrite Forall_forall in F. specialize (F _ Ip).
  unfold slt in F. unfold by_xs. cbn. now rewrite <- E.
Qed.
Lemma scan_at z l : StronglySorted slt l -> (forall p, In p l -> fst p <= z) -> forall r, scan_all l = Ok r ->
  at_z eps gold gold2 polyfit g z r (vals l).
Proof.
  induction l as [|p l IH] using rev_ind; intros SS L r H.
  - cbn in H. injection H as <-. apply at_z0.
  - unfold scan_all in H. rewrite map_app in H. cbn [map] in H. rewrite trun_snoc in H. fold (scan_all l) in H.
    destruct (scan_all l) as [r1|] eqn:E1; [|discriminate]. cbn [rbind] in H. pose proof SS as SS0. apply ssorted_app in SS. destruct SS as (S1 & _ & _).
    specialize (IH S1 ltac:(intros; apply L; apply in_or_app; auto) r1 eq_refl). unfold scan_of in H. cbn [tstep] in H.
    unfold vals. rewrite flat_map_app. cbn [flat_map]. fold (vals l). rewrite app_nil_r. destruct (snd p) as [y|] eqn:Y; cbn [option_map] in H.
    + assert (EV : vals (l ++ [p]) = vals l ++ [(fst p, y)]) by (unfold vals; rewrite flat_map_app; cbn; rewrite Y; reflexivity).
      apply (at_z_scan eps gold gold2 polyfit g lf z Hlen Hfit r1 (vals l) (fst p, y) r IH); auto.
      * pose proof (vals_sorted _ SS0) as VS. rewrite EV in VS. exact VS.
      * cut (Forall (fun q : qpt => fst q <= z) (vals (l ++ [p]))); [rewrite EV; auto|]. apply Forall_forall. intros q Iq. destruct (vals_in _ _ Iq) as (p' & Ip & <-). auto.
    + cbn in H. injection H as <-. now rewrite app_nil_r.
Qed.

Lemma sorted_last_le (l : list spt) z : StronglySorted slt l -> last_opt l = Some z -> forall p, In p l -> fst p <= fst z.
Proof.
  intros SS Z p Ip. destruct (last_opt_snoc _ _ Z) as (l' & ->). apply ssorted_app in SS. destruct SS as (_ & _ & C).
  apply in_app_or in Ip. destruct Ip as [Ip|[->|[]]]; [|apply Qcle_refl]. specialize (C p z Ip (or_introl eq_refl)). unfold slt in C. qc_lra.
Qed.
Theorem append_ok s l t k points s' evs : tsrc s l -> ts_inv s l t k -> ascending (map fsp points) ->
  p_append_list s (map fsp points) = (s', evs, Ok tt) -> good s' -> coarse m (p_pts s') ->
  tsrc s' (l ++ points) /\
  exists t', ts_events t evs = (t', map (fun v => match v with EvBegin d => EvBegin (Scan.update_interval d) | EvEnd d => EvEnd (Scan.update_interval d) end) evs, Ok tt) /\
    ts_inv s' (l ++ points) t' k /\ ts_tr t' = ts_tr t.
Proof.
  intros X I A E G' Co. pose proof (tsrc_ex _ _ X) as EX. pose proof (source_sorted m R1 s l EX) as SS.
  destruct points as [|p0 points0].
  { assert (E' : p_append_list s (map fsp []) = (s, [], Ok tt)).
    { cbn. unfold p_append_list. rewrite (tr_pts _ _ X). pose proof (tr_some _ _ X) as NE. destruct l; [congruence|]. reflexivity. }
    rewrite E' in E. injection E as <- <-. rewrite app_nil_r. split; auto. exists t. auto. }
  set (points := p0 :: points0) in *. assert (NP : map fsp points <> []) by discriminate.
  assert (NS : p_pts s <> []) by (rewrite (tr_pts _ _ X); pose proof (tr_some _ _ X); destruct l; [congruence|discriminate]).
  pose proof (proj1 (proj1 (good_calm s) (tr_good _ _ X))) as C.
  destruct (p_append_list_cases s (map fsp points) C NS NP A) as [(a & z & _ & _ & _ & K)|(A' & b & _ & KD & NE & K)]; [congruence|].
  destruct (p_force s && negb b); destruct K as (s2 & K & Y); [congruence|]. rewrite K in E. injection E as <- <-. destruct Y as [Y _].
  assert (PP : p_pts s2 = map fsp (l ++ points)) by (rewrite (so_pts _ _ _ _ _ Y), (tr_pts _ _ X), map_app; reflexivity).
  assert (X' : tsrc s2 (l ++ points)).
  { constructor; auto. destruct l; discriminate. }
  split; auto. destruct (last_opt_some l (tr_some _ _ X)) as [z Z].
  assert (ZB : exists b', append_domain s (map fsp points) = mkI (Fin (fst z)) (Fin b') true false).
  { unfold append_domain. rewrite (tr_pts _ _ X), !last_map, Z. destruct (last_opt_some points) as [y Hy]; [discriminate|]. rewrite Hy. cbn. eauto. }
  destruct ZB as (b' & ED). change (fsp p0 :: map fsp points0) with (map fsp points). unfold notify. rewrite NE. set (D := append_domain s (map fsp points)) in *.
  destruct (update_ok D (fst z)) as [KU NU]; [rewrite ED; reflexivity|].
  assert (LP : forall p, In p (firstn k l) -> fst p <= fst z).
  { intros p Ip. eapply sorted_last_le; eauto. eapply in_firstn; eauto. }
  assert (SK : StronglySorted slt (firstn k l)) by now apply firstn_sorted.
  (* no reset *)
  assert (BS : ts_begin_scan eps gold gold2 polyfit g t D = ts_begin eps gold gold2 polyfit g t (Scan.update_interval D)).
  { unfold ts_begin_scan. f_equal.
    assert (E1 : match ts_cur t with
           | Some cur => if ((i_start (Scan.update_interval D) <? cur)%num || ((i_start (Scan.update_interval D) =? cur)%num && negb (i_so (Scan.update_interval D))))%bool then ts_reset t else t
           | None => t end = t).
    { destruct (ts_cur t) as [cur|] eqn:EC; auto. rewrite (ti_cur _ _ _ _ I) in EC. destruct (last_opt (firstn k l)) as [c|] eqn:LC; [|discriminate].
      injection EC as <-. rewrite ED. cbn. rewrite andb_false_r, orb_false_r. specialize (LP c (last_opt_in _ _ LC)).
      destruct (Qcltb (fst z) (fst c)) eqn:Q; auto. qb_simpl. exfalso. qc_lra. }
    rewrite E1. destruct (ts_cur t) as [cur|] eqn:EC; auto. destruct (ts_start t) as [st|] eqn:ES; auto.
    rewrite (ti_cur _ _ _ _ I) in EC. rewrite (ti_start _ _ _ _ I) in ES. destruct (last_opt (firstn k l)) as [c|] eqn:LC; [|discriminate].
    injection EC as <-. destruct (head_opt (firstn k l)) as [h|] eqn:HH; [|discriminate]. injection ES as <-.
    pose proof (sorted_last_le _ _ SK LC h (head_opt_in _ _ HH)). cbn. destruct (Qcltb (fst c) (fst h)) eqn:Q; auto. qb_simpl. exfalso. qc_lra. }
  cbn [TrendScan.ts_events]. rewrite BS. unfold ts_begin. rewrite begin_idle by (auto; apply I). cbn [ts_tr ts_set_upd].
  assert (AZ : at_z eps gold gold2 polyfit g (fst z) (ts_tr t) (vals (firstn k l))) by (apply (scan_at (fst z) (firstn k l) SK LP); apply I).
  rewrite (begin_after eps gold gold2 polyfit g (fst z) (ts_tr t) (vals (firstn k l)) (Scan.update_interval D) AZ).
  2:{ apply Forall_forall. intros q Iq. destruct (vals_in _ _ Iq) as (p' & Ip & <-). auto. }
  2:{ intros x Lx. rewrite ED. unfold i_contains, i_contains_gen, i_is_empty, above_start, below_end, n_gtb. cbn. rewrite ?andb_false_r, ?orb_false_r, ?andb_true_r.
      destruct (Qcltb (fst z) x) eqn:Q; auto. qb_simpl. exfalso. qc_lra. }
  cbn [ev_begin ev_end app]. unfold ts_end_scan, ts_end, ts_set_tr, ts_set_upd. cbn [ts_upd ts_tr ts_cur ts_start]. rewrite end_begun by auto. cbn [ev_end app map].
  eexists. split; [reflexivity|]. split; [|reflexivity].
  assert (FK : firstn k (l ++ points) = firstn k l).
  { rewrite firstn_app. pose proof (ti_len _ _ _ _ I). replace (k - length l)%nat with 0%nat by lia. cbn [firstn]. apply app_nil_r. }
  constructor; cbn [ts_cur ts_start ts_tr ts_upd u_dom]; rewrite ?FK; try apply I; auto.
  - rewrite app_length. pose proof (ti_len _ _ _ _ I). lia.
  - split; reflexivity.
Qed.

(** ** Histories *)
(** A Trend made over a Points source, asked, and the source appended to; the
    questions that return. *)
Inductive life : pts xq (option xq) -> list spt -> tscan xq -> Prop :=
  | life_new s l : tsrc s l -> life s l ts_new
  | life_y s l t q fuel t' a : life s l t -> (length l < fuel)%nat -> ts_y fuel (p_crv s) own t (Fin q) = (t', Ok a) -> life s l t'
  | life_side s l t up x fuel t' a : life s l t -> (length l < fuel)%nat ->
      match x with Some q => exists p, In p l /\ fst p <= q | None => True end ->
      ts_side up fuel (p_crv s) own t (option_map Fin x) = (t', Ok a) -> life s l t'
  | life_append s l t points s' evs t' out : life s l t -> ascending (map fsp points) ->
      p_append_list s (map fsp points) = (s', evs, Ok tt) -> good s' -> coarse m (p_pts s') ->
      ts_events t evs = (t', out, Ok tt) -> life s' (l ++ points) t'.

Lemma first_or (l : list spt) q : (exists p, In p l /\ fst p <= q) \/ forall p, In p l -> q < fst p.
Proof.
  induction l as [|a l IH]; [right; intros p []|]. destruct (Qclt_le_dec q (fst a)) as [L|L]; [|left; exists a; split; [now left|exact L]].
  destruct IH as [(p & I & K)|IH]; [left; exists p; split; [now right|exact K]|]. right. intros p [->|I]; auto.
Qed.
Theorem life_inv s l t : life s l t -> tsrc s l /\ exists k, ts_inv s l t k.
Proof.
  induction 1 as [s l X|s l t q fuel t' a _ (X & k & I) Lf E|s l t up x fuel t' a _ (X & k & I) Lf Hx E|s l t points s' evs t' out _ (X & k & I) A E G C EV].
  - split; auto. exists 0%nat. constructor; cbn; auto; try lia. split; reflexivity.
  - split; auto. destruct (first_or l q) as [Q|Q].
    + destruct (y_ok s l t k q fuel X I Lf Q) as (t1 & [(k' & E1 & I' & _)|(er & j & E1 & _)]); cbv beta in E, E1; rewrite E1 in E; [|discriminate].
      injection E as <- <-. eauto.
    + destruct (y_before s l t k q fuel X I Q) as (t1 & E1 & I' & _). cbv beta in E, E1. rewrite E1 in E. injection E as <- <-. eauto.
  - split; auto. destruct (side_ok up s l t k x fuel t' a X I Lf Hx E) as (k' & I' & _). eauto.
  - destruct (append_ok s l t k points s' evs X I A E G C) as (X' & t1 & E1 & I' & _). split; auto. rewrite E1 in EV. injection EV as <- <-. eauto.
Qed.

(** What y answers. *)
Theorem life_y_answer s l t q fuel t' a : life s l t -> (length l < fuel)%nat -> ts_y fuel (p_crv s) own t (Fin q) = (t', Ok a) ->
  (exists p, In p l /\ fst p <= q) ->
  exists k, scan_all (firstn k l) = Ok (ts_tr t') /\ a = Some (scanned_lines g (ts_tr t') (Some (Fin q))) /\
    Forall (fun p => q < fst p) (skipn k l) /\ (wants_more (ts_tr t') (Fin q) = true -> firstn k l = l).
Proof.
  intros L Lf E Q. destruct (life_inv _ _ _ L) as (X & k & I).
  destruct (y_ok s l t k q fuel X I Lf Q) as (t1 & [(k' & E1 & I' & F & _)|(er & j & E1 & _)]); cbv beta in E, E1; rewrite E1 in E; [|discriminate].
  injection E as <- <-. exists k'. split; [apply I'|]. split; [reflexivity|]. split; [eapply far_points; eauto|]. intros W.
  destruct F as [->|[_ F]]; [apply firstn_all|congruence].
Qed.
Theorem life_y_outside s l t q fuel t' a : life s l t -> ts_y fuel (p_crv s) own t (Fin q) = (t', Ok a) ->
  (forall p, In p l -> q < fst p) -> a = None /\ ts_tr t' = ts_tr t.
Proof.
  intros L E Q. destruct (life_inv _ _ _ L) as (X & k & I). destruct (y_before s l t k q fuel X I Q) as (t1 & E1 & _ & T). cbv beta in E, E1. rewrite E1 in E.
  injection E as <- <-. auto.
Qed.
(** An answer with a line is that of a scan of every point. *)
Theorem life_y_full s l t q fuel t' x xs : life s l t -> (length l < fuel)%nat -> ts_y fuel (p_crv s) own t (Fin q) = (t', Ok (Some (x :: xs))) ->
  exists r, scan_all l = Ok r /\ x :: xs = scanned_lines g r (Some (Fin q)).
Proof.
  intros L Lf E. destruct (first_or l q) as [Q|Q].
  2:{ destruct (life_y_outside _ _ _ _ _ _ _ L E Q) as [K _]. discriminate. }
  destruct (life_y_answer _ _ _ _ _ _ _ L Lf E Q) as (k & T & A & _ & W). injection A as A. exists (ts_tr t'). split; auto.
  rewrite W in T; auto. apply answer_wants. rewrite <- A. discriminate.
Qed.
(** At or after the last point every answer is. *)
Theorem life_y_end s l t q fuel t' a : life s l t -> (length l < fuel)%nat -> ts_y fuel (p_crv s) own t (Fin q) = (t', Ok a) ->
  (forall p, In p l -> fst p <= q) -> exists r, scan_all l = Ok r /\ a = Some (scanned_lines g r (Some (Fin q))) /\ ts_tr t' = r.
Proof.
  intros L Lf E Q. destruct (life_inv _ _ _ L) as (X & _). destruct (head_opt_some l (tr_some _ _ X)) as [h H].
  destruct (life_y_answer _ _ _ _ _ _ _ L Lf E) as (k & T & A & F & _); [exists h; split; [now apply head_opt_in|apply Q; now apply head_opt_in]|].
  exists (ts_tr t'). split; [|auto]. rewrite <- T. f_equal. rewrite <- (firstn_skipn k l) at 1. destruct (skipn k l) as [|p r] eqn:SK; [now rewrite app_nil_r|].
  exfalso. inversion F; subst. assert (In p l) by (rewrite <- (firstn_skipn k l), SK; apply in_or_app; right; now left). specialize (Q _ H0). qc_lra.
Qed.
(** Two histories that end with the same points. *)
Theorem life_agree s1 s2 l t1 t2 q f1 f2 t1' t2' x1 xs1 x2 xs2 : life s1 l t1 -> life s2 l t2 -> (length l < f1)%nat -> (length l < f2)%nat ->
  ts_y f1 (p_crv s1) own t1 (Fin q) = (t1', Ok (Some (x1 :: xs1))) -> ts_y f2 (p_crv s2) own t2 (Fin q) = (t2', Ok (Some (x2 :: xs2))) ->
  x1 :: xs1 = x2 :: xs2 /\ ts_tr t1' = ts_tr t2'.
Proof.
  intros L1 L2 F1 F2 E1 E2. 
  assert (G : forall s t f t' x xs, life s l t -> (length l < f)%nat -> ts_y f (p_crv s) own t (Fin q) = (t', Ok (Some (x :: xs))) ->
    scan_all l = Ok (ts_tr t') /\ x :: xs = scanned_lines g (ts_tr t') (Some (Fin q))).
  { intros s t f t' x xs L Lf E. destruct (first_or l q) as [Q|Q].
    2:{ destruct (life_y_outside _ _ _ _ _ _ _ L E Q) as [K _]. discriminate. }
    destruct (life_y_answer _ _ _ _ _ _ _ L Lf E Q) as (k & T & A & _ & W). injection A as A. split; auto.
    rewrite W in T; auto. apply answer_wants. rewrite <- A. discriminate. }
  destruct (G _ _ _ _ _ _ L1 F1 E1) as [A1 B1]. destruct (G _ _ _ _ _ _ L2 F2 E2) as [A2 B2].
  assert (T : ts_tr t1' = ts_tr t2') by congruence. split; congruence.
Qed.
(** y returns when a scan of every point does. *)
Theorem life_y_total s l t q fuel r : life s l t -> (length l < fuel)%nat -> scan_all l = Ok r ->
  exists t' a, ts_y fuel (p_crv s) own t (Fin q) = (t', Ok a).
Proof.
  intros L Lf H. destruct (life_inv _ _ _ L) as (X & k & I). destruct (first_or l q) as [Q|Q].
  - destruct (y_ok s l t k q fuel X I Lf Q) as (t1 & [(k' & E1 & _)|(er & j & E1 & J)]); eauto.
    destruct (scan_prefix l j r H) as [r' K]. congruence.
  - destruct (y_before s l t k q fuel X I Q) as (t1 & E1 & _). eauto.
Qed.
(** Otherwise it raises what the scan does. *)
Theorem life_y_raises s l t q fuel t' er : life s l t -> (length l < fuel)%nat -> ts_y fuel (p_crv s) own t (Fin q) = (t', Err er) -> scan_all l = Err er.
Proof.
  intros L Lf E. destruct (life_inv _ _ _ L) as (X & k & I). destruct (first_or l q) as [Q|Q].
  - destruct (y_ok s l t k q fuel X I Lf Q) as (t1 & [(k' & E1 & _)|(e & j & E1 & J)]); cbv beta in E, E1; rewrite E1 in E; [discriminate|].
    injection E as <- <-. unfold scan_all in *. rewrite <- (firstn_skipn j l), map_app, trun_app, J. reflexivity.
  - destruct (y_before s l t k q fuel X I Q) as (t1 & E1 & _). cbv beta in E, E1. rewrite E1 in E. discriminate.
Qed.
Theorem life_y_again s l t q fuel t' a : life s l t -> (length l < fuel)%nat -> ts_y fuel (p_crv s) own t (Fin q) = (t', Ok a) ->
  exists t'', ts_y fuel (p_crv s) own t' (Fin q) = (t'', Ok a) /\ ts_tr t'' = ts_tr t'.
Proof.
  intros L Lf E. destruct (life_inv _ _ _ L) as (X & k & I). destruct (first_or l q) as [Q|Q].
  2:{ destruct (y_before s l t k q fuel X I Q) as (t1 & E1 & I1 & T1). cbv beta in E, E1. rewrite E1 in E. injection E as <- <-.
      destruct (y_before s l t1 k q fuel X I1 Q) as (t2 & E2 & _ & T2). eauto. }
  destruct (y_ok s l t k q fuel X I Lf Q) as (t1 & [(k' & E1 & I' & F & _)|(er & j & E1 & _)]); cbv beta in E, E1; rewrite E1 in E; [|discriminate].
  injection E as <- <-. clear E1. unfold TrendScan.ts_y. cbn [c_dom p_crv].
  assert (IN : exists t2, (if negb (i_contains (p_dom s) (Fin q)) then let '(t2, d) := ts_dom (p_dom s) t1 in (t2, negb (i_contains d (Fin q))) else (t1, false)) = (t2, false) /\
    ts_inv s l t2 k' /\ ts_tr t2 = ts_tr t1).
  { destruct (i_contains (p_dom s) (Fin q)); cbn [negb]; [exists t1; auto|].
    destruct (tdom_ok s l t1 k' I') as (t2 & E & I2 & _ & T2). rewrite E. exists t2. split; auto.
    destruct (head_opt_some l (tr_some _ _ X)) as [h A]. rewrite (src_onwards s l h q X A). destruct Q as (p & Ip & Lp).
    pose proof (head_least s l h p X A Ip). destruct (Qcleb (fst h) q) eqn:Q; auto. qb_simpl. exfalso. qc_lra. }
  destruct IN as (t2 & -> & I2 & T2). pose proof (scan_stays s l t2 k' q fuel X I2 Q) as ST. cbv beta in ST. rewrite ST. clear ST.
  assert (F2 : tfar l t2 q k') by (unfold tfar in *; now rewrite T2).
  destruct (tloop_done s l q t2 k' fuel X I2 F2 ltac:(lia)) as (t3 & E3 & _ & T3). cbv beta in E3. rewrite E3. exists t3.
  rewrite T3, T2. auto.
Qed.
(** Appended points do not change the lines, and are announced onwards. *)
Theorem life_append_quiet s l t points s' evs : life s l t -> ascending (map fsp points) ->
  p_append_list s (map fsp points) = (s', evs, Ok tt) -> good s' -> coarse m (p_pts s') ->
  exists t', ts_events t evs = (t', map (fun v => match v with EvBegin d => EvBegin (mkI (i_start d) PInf (i_so d) true) | EvEnd d => EvEnd (mkI (i_start d) PInf (i_so d) true) end) evs, Ok tt) /\
    ts_tr t' = ts_tr t /\ life s' (l ++ points) t'.
Proof.
  intros L A E G C. destruct (life_inv _ _ _ L) as (X & k & I). destruct (append_ok s l t k points s' evs X I A E G C) as (X' & t1 & E1 & I' & T).
  exists t1. split; [exact E1|]. split; auto. eapply life_append; eauto.
Qed.
End Facts.

(** Which lines are answered. *)
Theorem answered {T} {N : Num T} (g : cfg T) (r : trend T) x t : In t (scanned_lines g r (Some x)) <->
  (In t (concat (r_lo r)) /\ is_valid (line_cfg g false) t = true \/ In t (concat (r_up r)) /\ is_valid (line_cfg g true) t = true) /\
  i_contains (t_int t) x = true /\ n_ltb (width t) (g_width g) = false.
Proof.
  unfold scanned_lines, scanned_lower, scanned_upper, line_filter. rewrite in_app_iff, !filter_In, !andb_true_iff, !negb_true_iff. tauto.
Qed.

(** In the form of the properties. *)
Section Forms.
Variables (m : Qc) (eps gold gold2 : xq) (polyfit : list (xq * xq) -> xq * xq) (g : cfg xq) (lf : nat).
Notation fine := ((exists q, g_len g = Fin q) /\ (forall ps, (3 <= length ps)%nat -> Forall fpt ps -> exists c b, polyfit ps = (Fin c, Fin b))).
Theorem life_state s l t : 0 < m -> fine -> life m eps gold gold2 polyfit g lf s l t ->
  p_pts s = map fsp l /\ exists k, (k <= length l)%nat /\ scan_all eps gold gold2 polyfit g lf (firstn k l) = Ok (ts_tr t) /\
    ts_cur t = option_map (fun p : spt => Fin (fst p)) (last_opt (firstn k l)).
Proof.
  intros Hm [H1 H2] L. destruct (life_inv m Hm eps gold gold2 polyfit g lf H1 H2 s l t L) as (S & k & I). split; [apply S|].
  exists k. destruct I as [A B _ C _ _]. auto.
Qed.
Theorem life_total s l t q fuel : 0 < m -> fine -> life m eps gold gold2 polyfit g lf s l t -> (length l < fuel)%nat ->
  (forall r, scan_all eps gold gold2 polyfit g lf l = Ok r ->
    exists t' a, ts_y eps gold gold2 polyfit g fuel lf (p_crv s) (Some (Fin m)) t (Fin q) = (t', Ok a)) /\
  forall t' er, ts_y eps gold gold2 polyfit g fuel lf (p_crv s) (Some (Fin m)) t (Fin q) = (t', Err er) -> scan_all eps gold gold2 polyfit g lf l = Err er.
Proof.
  intros Hm [H1 H2] L Lf. split; [intros r R|intros t' er E].
  - exact (life_y_total m Hm eps gold gold2 polyfit g lf H1 H2 s l t q fuel r L Lf R).
  - exact (life_y_raises m Hm eps gold gold2 polyfit g lf H1 H2 s l t q fuel t' er L Lf E).
Qed.
Theorem life_sides up s l t x fuel t' a : 0 < m -> fine -> life m eps gold gold2 polyfit g lf s l t -> (length l < fuel)%nat ->
  match x with Some q => exists p, In p l /\ fst p <= q | None => True end ->
  ts_side eps gold gold2 polyfit g up fuel lf (p_crv s) (Some (Fin m)) t (option_map Fin x) = (t', Ok a) ->
  exists k, scan_all eps gold gold2 polyfit g lf (firstn k l) = Ok (ts_tr t') /\
    a = (if up then scanned_upper g (ts_tr t') (option_map Fin x) else scanned_lower g (ts_tr t') (option_map Fin x)) /\
    (x = None -> t' = t) /\ forall q, x = Some q -> Forall (fun p => q < fst p) (skipn k l).
Proof.
  intros Hm [H1 H2] L Lf X E. destruct (life_inv m Hm eps gold gold2 polyfit g lf H1 H2 s l t L) as (S & k & I).
  destruct (side_ok m Hm eps gold gold2 polyfit g lf up s l t k x fuel t' a S I Lf X E) as (k' & I' & _ & F & Nn & A).
  exists k'. refine (conj _ (conj A (conj Nn _))). { apply I'. }
  intros q Q. exact (far_points m s l t' k' q S (F q Q)).
Qed.
End Forms.
