(** Sampling accumulating curves: the samples are those of the accumulated
    values, whatever was queried before; over points more than the minimum step
    apart they are the points themselves. *)
From Coq Require Import List ZArith QArith Qcanon Bool Sorting.Sorted Lia Arith.
From Verif Require Import Base Num NumFacts Interval IntervalFacts Curve BaseFacts.
From Verif Require Import Points PointsSpec PointsIdx PointsQuery PointsDom PointsOps PointsMut PointsReset PointsReplace PointsCover PointsHist PointsDec.
From Verif Require Import Combine CombineFacts CombineTop Scan ScanFacts ScanSource ScanInv ScanTf SmaFacts SmaInv ScanTop ScanView ScanSample ScanSampleFacts.
Import ListNotations.

Lemma find_app {A} (P : A -> bool) l1 l2 : find P (l1 ++ l2) = match find P l1 with Some x => Some x | None => find P l2 end.
Proof. induction l1 as [|x l1 IH]; [reflexivity|]. cbn [app find]. now destruct (P x). Qed.
Lemma sample_same {V} fuel (c : crv xq V) d d' ms ms' step : sampled_domain c d = sampled_domain c d' ->
  resolve_min_step (c_ms c) ms = resolve_min_step (c_ms c) ms' -> sample_points fuel c d ms step = sample_points fuel c d' ms' step.
Proof. intros E R. unfold sample_points. fold (sampled_domain c d). fold (sampled_domain c d'). now rewrite E, R. Qed.
Lemma following_fin {V} {WV : Val xq V} (l : list (xq * V)) m q y : ascending l -> following l m (Fin q) = Some y -> exists r, y = Fin r /\ (q + m <= r)%Qc.
Proof.
  intros A F. pose proof (find_least l (q + m)%Qc A) as L. change (find _ (map fst l)) with (following l m (Fin q)) in L. rewrite F in L.
  destruct L as ((v & I) & L & _). destruct (ascending_fin _ _ A I) as (r & w & E). injection E as -> ->.
  exists r. split; auto. now apply le_x_fin.
Qed.

(** [c] steps from anywhere to the first of the points [l] at least [M] away *)
Definition strides {V} (M : Qc) (c : crv xq V) {U} (l : list (xq * U)) : Prop :=
  forall q lim, c_next c (Fin q) (Some (Fin M)) lim = Ok (following l M (Fin q)).

Lemma points_strides {V} {WV : Val xq V} (s : pts xq V) M : good s -> strides M (p_crv s) (p_pts s).
Proof. intros GS q lim. cbn [p_crv c_next]. now apply p_next_following. Qed.

Section Acc.
Context {V W : Type} {WV : Val xq V} {WW : Val xq W}.
Context (LW : lerp_total (V := W)).
Context (G : list (xq * V) -> xq * V -> W -> W).
Context (m : Qc) (Hm : (0 < m)%Qc) (ip : interp) (post : W -> W) (PN : post v_none = v_none).
Implicit Types l : list (xq * V).
Implicit Types a : acc xq W.
Notation own := (Some (Fin m)).
Notation query fuel c t a x := (acc_y fuel c own t post a x).

Lemma vquery_any fuel c t l a a' x : view m c l -> computes_on G ip t l -> vinv G ip l a -> vinv G ip l a' -> (length l < fuel)%nat ->
  exists a'', query fuel c t a' x = (a'', snd (query fuel c t a x)) /\ vinv G ip l a''.
Proof using LW Hm PN WV.
  intros VW CT I I' F. pose proof (vw_asc _ _ _ VW) as A. assert (AS : ascending (spec G l)) by (eapply ascending_xs; [symmetry; apply spec_xs|exact A]).
  destruct (i_contains (pts_domain l) x) eqn:IC.
  - destruct (list_dom_fin l x A IC) as (q & ->).
    destruct (vquery_ok LW G m Hm ip post PN fuel c t l a q VW CT I F) as (a1 & v & E & VV & I1).
    destruct (vquery_ok LW G m Hm ip post PN fuel c t l a' q VW CT I' F) as (a2 & v' & E' & VV' & I2).
    rewrite E, E'. exists a2. cbn [snd]. split; [|exact I2]. now rewrite (value_unique ip (spec G l) q v v' AS VV VV').
  - destruct (vquery_out G m ip post fuel c t l a x VW I IC) as (a1 & E & I1).
    destruct (vquery_out G m ip post fuel c t l a' x VW I' IC) as (a2 & E' & I2).
    rewrite E, E'. now exists a2.
Qed.

Lemma vscan_ok fuel c t l a q : view m c l -> computes_on G ip t l -> vinv G ip l a -> (length l < fuel)%nat -> span l q ->
  exists a', scan fuel c own (init_scan c own) no_offset t (Fin q) a = (a', Ok tt) /\ vinv G ip l a'.
Proof using LW Hm PN WV.
  intros VW CT I F SP. destruct (vquery_ok LW G m Hm ip post PN fuel c t l a q VW CT I F) as (a1 & v & E & _ & I1).
  unfold acc_y in E. apply list_dom in SP; [|apply VW]. rewrite (vw_dom _ _ _ VW), SP in E. cbn [negb] in E.
  destruct (scan _ _ _ _ _ _ _ _) as [a2 [u|er]]; [|discriminate]. destruct u. injection E as -> _. now exists a1.
Qed.

Lemma vnext_ok c l a q M lim : view m c l -> vinv G ip l a -> strides M c l -> (m <= M)%Qc ->
  acc_next c own a (Fin q) (Some (Fin M)) lim = Ok (following l M (Fin q)).
Proof using Hm WV.
  intros VW (U & k & St) SC L. unfold acc_next. cbn [resolve_min_step].
  assert (E : n_max (Fin M) (Fin m) = Fin M).
  { unfold n_max, n_gtb. cbn [n_ltb XQ xq_ltb]. rewrite (proj2 (Qcltb_false _ _) L). reflexivity. }
  rewrite E. rewrite p_next_following by apply (co_good _ _ _ _ _ (st_core _ _ _ _ _ St)). cbn [rbind].
  rewrite SC. unfold following at 1. rewrite (co_pts _ _ _ _ _ (st_core _ _ _ _ _ St)), spec_xs.
  destruct (find _ (map fst (firstn k l))) as [y|] eqn:F; [|reflexivity].
  cbn [py_or]. assert (X : following l M (Fin q) = Some y).
  { unfold following. rewrite <- (firstn_skipn k l), map_app. rewrite find_app, F. reflexivity. }
  rewrite X. destruct (n_eqb y n_zero); reflexivity.
Qed.

(** The samples are those of any curve with the same domain, values and steps. *)
Theorem acc_sample_pure fuel c t l a p domain ms step M :
  view m c l -> computes_on G ip t l -> vinv G ip l a -> (length l < fuel)%nat ->
  strides M c l -> resolve_min_step own ms = Some (Fin M) -> (m <= M)%Qc -> (forall d, domain = Some d -> iok d) ->
  c_dom p = pts_domain l -> (forall x, c_y p x = snd (query fuel c t a x)) -> c_ms p = own -> strides M p l ->
  exists a', acc_sample fuel c own t post a domain ms step = (a', sample_points fuel p domain ms step) /\ vinv G ip l a'.
Proof using LW Hm PN WV.
  intros VW CT I F SC RM L ID PD PY PM SP. pose proof (vw_asc _ _ _ VW) as A.
  unfold acc_sample. rewrite RM, (vw_dom _ _ _ VW). pose proof I as (U & k & St).
  destruct (vdom_ok G ip l a k U St) as (a0 & E0 & U0 & St0). rewrite E0.
  assert (I0 : vinv G ip l a0) by (split; eauto). clear U St U0 St0 k.
  cbv beta iota. match goal with |- context [i_is_empty ?X] => replace X with (sampled_domain p domain) by (unfold sampled_domain; now rewrite PD) end. set (d := sampled_domain p domain) in *.
  destruct (i_is_empty d) eqn:NE.
  { exists a0. split; [|exact I0]. unfold sample_points. change (match domain with Some _ => _ | None => _ end) with d. cbv zeta. now rewrite NE. }
  (* the domain is inside the points *)
  assert (NL : l <> []).
  { intros ->. unfold d, sampled_domain in NE. rewrite PD in NE. destruct domain; cbn in NE; discriminate. }
  destruct (head_opt_some _ NL) as [hd Hh]. destruct (last_opt_some _ NL) as [z Hz].
  pose proof (ends_ok _ _ _ A Hh Hz) as EO.
  destruct (ascending_fin _ hd A (head_opt_in _ _ Hh)) as (x0 & v0 & E1). destruct (ascending_fin _ z A (last_opt_in _ _ Hz)) as (xn & vn & E2).
  subst hd z. cbn [fst] in EO.
  assert (L0 : (x0 <= xn)%Qc) by (apply le_x_fin; exact (ascending_head_le _ _ _ A Hh (last_opt_in _ _ Hz))).
  assert (IC : iok (i_closed (Fin x0) (Fin xn))) by (split; discriminate).
  assert (X : i_inter2 (pts_domain l) d = d /\ exists u v, i_start d = Fin u /\ i_end d = Fin v /\ (x0 <= u)%Qc /\ (u <= v)%Qc /\ (v <= xn)%Qc).
  { unfold d, sampled_domain in NE |- *. rewrite PD, EO in NE |- *. destruct domain as [d'|].
    - apply inter_idem; auto.
    - split; [|exists x0, xn; cbn; repeat split; auto; apply Qcle_refl].
      assert (DI : i_inter2 (i_closed (Fin x0) (Fin xn)) (i_closed (Fin x0) (Fin xn)) = i_closed (Fin x0) (Fin xn)).
      { unfold i_inter2. rewrite NE. cbn [orb]. unfold later_start, earlier_end. cbn [i_closed i_start i_end i_so i_eo n_ltb XQ xq_ltb].
        rewrite !(proj2 (Qcltb_false _ _) (Qcle_refl _)). cbn [orb]. change (mkI (Fin x0) (Fin xn) false false) with (i_closed (Fin x0) (Fin xn)). now rewrite NE. }
      exact DI. }
  destruct X as (DI & u & v & Su & Ev & B1 & B2 & B3).
  assert (FI : i_is_finite d = true) by (unfold i_is_finite; rewrite Su, Ev; reflexivity).
  assert (II : i_is_infinite d = false) by (unfold i_is_infinite; now rewrite FI). rewrite II.
  assert (SPAN : forall q, (x0 <= q)%Qc -> (q <= xn)%Qc -> span l q).
  { intros q Q1 Q2. apply (span_closed l q _ _ A Hh Hz). cbn [fst]. split; now apply le_x_fin. }
  rewrite Su, Ev.
  destruct (vscan_ok fuel c t l a0 u VW CT I0 F) as (a1 & E1 & I1); [apply SPAN; auto; qc_lra|]. rewrite E1.
  destruct (vscan_ok fuel c t l a1 v VW CT I1 F) as (a2 & E2 & I2); [apply SPAN; auto; qc_lra|]. rewrite E2.
  assert (RM' : resolve_min_step own (Some (Fin M)) = Some (Fin M)).
  { cbn [resolve_min_step]. unfold n_max, n_gtb. cbn [n_ltb XQ xq_ltb]. now rewrite (proj2 (Qcltb_false _ _) L). }
  assert (SD : sampled_domain p (Some d) = d) by (unfold sampled_domain; rewrite PD; exact DI).
  destruct (sample_pure own (acc_dom (pts_domain l)) (acc_y fuel c own t post) (acc_next c own) (vinv G ip l) (pts_domain l)
    (fun x => snd (query fuel c t a x)) (fun x => Ok (following l M x)) xfin p PD PY PM) with (fuel := fuel) (s := a2) (domain := Some d) (ms := Some (Fin M)) (step := step)
    as (a3 & E3 & I3); auto.
  - intros s (Us & ks & Ss). destruct (vdom_ok G ip l s ks Us Ss) as (s' & Es & Us' & Ss'). exists s'. split; [exact Es|]. split; eauto.
  - intros s x Is. now apply (vquery_any fuel c t l a s x).
  - intros _ d' m' Ed _ _ Rm'. rewrite SD in Ed. subst d'. rewrite RM' in Rm'. injection Rm' as <-.
    split; [rewrite Su; now exists u|]. split; [|split].
    + intros s x Is (q & ->). now apply vnext_ok.
    + intros x (q & ->). apply SP.
    + intros x x1 (q & ->) Q. injection Q as Q. destruct (following_fin l M q x1 A Q) as (r & -> & _). now exists r.
  - exists a3. split; [|exact I3]. etransitivity; [exact E3|]. f_equal. apply sample_same; [exact SD|]. now rewrite PM, RM, RM'.
Qed.
End Acc.
