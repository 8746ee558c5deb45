(** The relative strength index over equally spaced points: what the two EMAs
    hold after any history of queries at points, and the index they give. *)
From Coq Require Import List ZArith QArith Qcanon Bool Sorting.Sorted Lia Arith.
From Verif Require Import Base Num NumFacts Interval IntervalFacts Curve BaseFacts.
From Verif Require Import Points PointsSpec PointsIdx PointsQuery PointsDom PointsOps PointsMut PointsReset PointsReplace PointsCover PointsHist PointsTop.
From Verif Require Import PointsDec BaseTop Combine CombineFacts CombineTop Scan ScanFacts ScanSource ScanInv ScanTf SmaFacts SmaInv ScanTop ScanView.
From Verif Require Import Quotes QuotesFacts QuotesScan Rsi.
Import ListNotations.

Notation xcrv := (crv xq num).

(** ** Replacing the stepping of the source *)
Section Ext.
Context {V W : Type} {WW : Val xq W}.
Lemma scan_loop_ext (c c' : crv xq V) (own : option xq) init init' (tf : pts xq W -> xq -> V -> W -> res W) x0 x :
  c_dom c = c_dom c' -> (forall z, c_y c z = c_y c' z) ->
  (forall cur, n_ltb cur x0 = true -> c_next c cur (resolve_min_step own own) (Some x0) = c_next c' cur (resolve_min_step own own) (Some x0)) ->
  (forall a z, init a z = init' a z) ->
  forall fuel a, scan_loop fuel c own init tf x0 x a = scan_loop fuel c' own init' tf x0 x a.
Proof.
  intros D Y NX IN. induction fuel as [|f IH]; intros a; [reflexivity|]. cbn [scan_loop]. rewrite <- D.
  assert (K : forall (b : acc xq W) (r : res (option xq)),
    match r with
    | Ok (Some current) => if negb (i_contains (c_dom c) current) then (b, Ok tt)
        else if match a_cur b with Some cur => n_leb current cur | None => false end then (b, Err EExc)
        else match c_y c current with
             | Ok y => let '(a0, r0) := accumulate tf b current y in
                 match r0 with Ok _ => scan_loop f c own init tf x0 x (set_cur a0 (Some current)) | Err e => (a0, Err e) end
             | Err e => (b, Err e) end
    | Ok None => (b, Ok tt)
    | Err e => (b, Err e)
    end =
    match r with
    | Ok (Some current) => if negb (i_contains (c_dom c) current) then (b, Ok tt)
        else if match a_cur b with Some cur => n_leb current cur | None => false end then (b, Err EExc)
        else match c_y c' current with
             | Ok y => let '(a0, r0) := accumulate tf b current y in
                 match r0 with Ok _ => scan_loop f c' own init' tf x0 x (set_cur a0 (Some current)) | Err e => (a0, Err e) end
             | Err e => (b, Err e) end
    | Ok None => (b, Ok tt)
    | Err e => (b, Err e)
    end).
  { intros b [[z|]|e]; try reflexivity. rewrite Y. destruct (negb _); [reflexivity|].
    destruct (match a_cur b with Some cur => n_leb z cur | None => false end); [reflexivity|].
    destruct (c_y c' z) as [y|]; [|reflexivity]. destruct (accumulate tf b z y) as [a0 [|]]; [apply IH|reflexivity]. }
  destruct (a_cur a) as [cur|] eqn:C.
  - destruct (n_ltb cur x0) eqn:L; [|reflexivity].
    assert (E : acc_next c own a cur own (Some x0) = acc_next c' own a cur own (Some x0)).
    { unfold acc_next. destruct (p_x_next _ _ _ _) as [r|e]; [|reflexivity]. cbn [rbind]. unfold py_or. rewrite (NX cur L). reflexivity. }
    rewrite <- E. specialize (K a). rewrite C in *. apply K.
  - rewrite <- IN. destruct (init a x) as [b r]. destruct r as [o|e]; [exact (K (set_start b o) (Ok o))|reflexivity].
Qed.
Lemma acc_y_ext (c c' : crv xq V) (own : option xq) (tf : pts xq W -> xq -> V -> W -> res W) post fuel a x :
  c_dom c = c_dom c' -> (forall z, c_y c z = c_y c' z) ->
  (forall cur, n_ltb cur x = true -> c_next c cur (resolve_min_step own own) (Some x) = c_next c' cur (resolve_min_step own own) (Some x)) ->
  c_next c (i_start (c_dom c)) own None = c_next c' (i_start (c_dom c)) own None ->
  acc_y fuel c own tf post a x = acc_y fuel c' own tf post a x.
Proof.
  intros D Y NX N0. unfold acc_y, scan, no_offset. rewrite <- D.
  assert (IN : forall (a : acc xq W) z, init_scan c own a z = init_scan c' own a z).
  { intros b z. unfold init_scan. rewrite <- D. destruct (_ || _); [reflexivity|]. destruct (acc_dom _ b) as [b' d]. now rewrite N0. }
  destruct (if negb (i_contains (c_dom c) x) then _ else _) as [b [|]]; [reflexivity|].
  destruct (match a_start b with Some _ => _ | None => _ end) as [b' [|]]; [|reflexivity].
  rewrite (scan_loop_ext c c' own (init_scan c own) (init_scan c' own) tf x (Some x) D Y NX IN). reflexivity.
Qed.
End Ext.

(** ** A curve that steps from point to point when asked to stop at a point *)
Record stops (c : xcrv) (d : list (Qc * Qc)) (g : nat -> Qc) : Prop := {
  sp_asc : ascending (dots d);
  sp_eq : equally_spaced (dots d);
  sp_dom : c_dom c = pts_domain (dots d);
  sp_y : forall k, (k < length d)%nat -> c_y c (Fin (at_x d k)) = Ok (Some (Fin (g k)));
  sp_free : forall k, (k < length d)%nat ->
    c_next c (Fin (at_x d k)) (Some MIN_STEP) None = Ok (option_map fst (nth_error (dots d) (S k)));
  sp_next : forall k j, (k < j)%nat -> (j < length d)%nat ->
    c_next c (Fin (at_x d k)) (Some MIN_STEP) (Some (Fin (at_x d j))) = Ok (Some (Fin (at_x d (S k))))
}.

Fixpoint after (l : list (xq * num)) (x : xq) : option (option xq) :=
  match l with
  | [] => None
  | p :: l' => if xq_eqb (fst p) x then Some (option_map fst (head_opt l')) else after l' x
  end.
Lemma head_nth {A} (l : list A) : head_opt l = nth_error l 0.
Proof. now destruct l. Qed.
Lemma asc_tl (p : xq * num) l : ascending (p :: l) -> ascending l.
Proof. intros [A B]. split; [now inversion A|now inversion B]. Qed.
Lemma after_some l x o : ascending l -> after l x = Some o -> exists k p, nth_error l k = Some p /\ fst p = x /\ o = option_map fst (nth_error l (S k)).
Proof.
  intros A. induction l as [|p l IH]; intros E; [discriminate|]. cbn in E.
  destruct (ascending_fin _ p A (or_introl eq_refl)) as (q & v & ->). cbn [fst] in E.
  destruct (xq_eqb (Fin q) x) eqn:X.
  - injection E as <-. exists 0%nat, (Fin q, v). split; [reflexivity|]. split.
    + destruct x; try discriminate. cbn in X. apply Qceqb_true in X. now subst.
    + now rewrite head_nth.
  - destruct IH as (k & r & N & F & O); auto. { now apply asc_tl with (Fin q, v). } exists (S k), r. auto.
Qed.
Lemma after_nth l k p : ascending l -> nth_error l k = Some p -> after l (fst p) = Some (option_map fst (nth_error l (S k))).
Proof.
  intros A N. revert k N. induction l as [|r l IH]; intros [|k] N; try discriminate.
  - injection N as ->. cbn [after]. destruct (ascending_fin _ p A (or_introl eq_refl)) as (q & v & ->).
    cbn. rewrite (proj2 (Qceqb_true q q) eq_refl). now rewrite head_nth.
  - cbn [after]. pose proof (asc_nth (r :: l) 0 (S k) r p A eq_refl N ltac:(lia)) as L.
    destruct (ascending_fin _ r A (or_introl eq_refl)) as (q & v & ->).
    destruct (ascending_fin _ p A (nth_error_In _ _ N)) as (q' & v' & ->). cbn [fst] in *. apply lt_x_fin in L.
    cbn. rewrite (proj2 (Qceqb_false q q')) by (intros ->; exact (Qclt_not_eq _ _ L eq_refl)).
    rewrite (IH (asc_tl _ _ A) k N). reflexivity.
Qed.
Lemma after_xs l l' x : map fst l = map fst l' -> after l x = after l' x.
Proof.
  revert l'. induction l as [|p l IH]; intros [|p' l'] E; try discriminate; [reflexivity|]. cbn in E. injection E as E1 E2.
  cbn [after]. rewrite E1, (IH l' E2). destruct (xq_eqb _ x); auto. destruct l, l'; cbn in *; congruence.
Qed.

Section Smoothing.
Context (c : xcrv) (d : list (Qc * Qc)) (g : nat -> Qc) (SP : stops c d g).
Definition stepping : xcrv :=
  mkC (c_dom c) (c_y c) (fun x ms lim => match after (dots d) x with Some o => Ok o | None => c_next c x ms lim end) (c_prev c) (c_ms c).
Notation gd := (table d g).
Lemma table_xs : map fst (dots d) = map fst (dots gd).
Proof.
  apply list_nth. intros k. rewrite !nth_error_map. destruct (lt_dec k (length d)) as [L|L].
  - rewrite !dots_at by (rewrite ?table_len; auto). now rewrite table_x.
  - rewrite !(proj2 (nth_error_None _ k)); auto; rewrite dots_len; [|lia]. rewrite table_len. lia.
Qed.
Lemma table_asc : ascending (dots gd).
Proof. eapply ascending_xs; [apply table_xs|]. apply (sp_asc _ _ _ SP). Qed.
Lemma table_equal : equally_spaced (dots gd).
Proof.
  destruct (sp_eq _ _ _ SP) as (x0 & h & H & E). exists x0, h. split; [exact H|]. intros i p N.
  apply (f_equal (option_map fst)) in N. rewrite <- nth_error_map, <- table_xs, nth_error_map in N.
  destruct (nth_error (dots d) i) as [r|] eqn:R; [|discriminate]. cbn in N. injection N as N. rewrite <- N. now apply E.
Qed.
Lemma table_pdom : pts_domain (dots d) = pts_domain (dots gd).
Proof.
  pose proof table_xs as X. unfold pts_domain.
  assert (XH : option_map fst (head_opt (dots d)) = option_map fst (head_opt (dots gd))).
  { rewrite !head_nth, <- !nth_error_map. now rewrite X. }
  assert (XL := last_xs _ _ X).
  destruct (head_opt (dots d)), (head_opt (dots gd)), (last_opt (dots d)), (last_opt (dots gd)); cbn in *; congruence.
Qed.

Lemma stepping_view : view min_step stepping (dots gd).
Proof.
  split; [apply table_asc|apply table_equal|cbn; rewrite (sp_dom _ _ _ SP); apply table_pdom|].
  split.
  - intros [x v] I. apply dots_in in I as (k & L & -> & ->). rewrite table_len in L. rewrite table_x by auto.
    cbn [stepping c_dom fst]. rewrite (sp_dom _ _ _ SP). apply list_dom; [apply SP|].
    pose proof (nth_error_In _ _ (dots_at d k L)) as J.
    exists (at_x d k), (at_x d k), (Some (Fin (at_y d k))), (Some (Fin (at_y d k))). repeat split; auto; apply Qcle_refl.
  - intros [x v] I. apply dots_in in I as (k & L & -> & ->). rewrite table_len in L. rewrite table_x, table_y by auto.
    apply (sp_y _ _ _ SP k L).
  - intros k p lim N. cbn [stepping c_next]. rewrite (after_xs _ _ _ table_xs), (after_nth _ k p table_asc N). reflexivity.
Qed.

Lemma stepping_same al fuel a k : (k < length d)%nat ->
  ema_alpha_y al fuel c a (Fin (at_x d k)) = ema_alpha_y al fuel stepping a (Fin (at_x d k)).
Proof.
  intros L. unfold ema_alpha_y.
  change (fun x : xq => c_prev stepping x (Some MIN_STEP) None) with (fun x : xq => c_prev c x (Some MIN_STEP) None).
  change (Some (MIN_STEP : xq)) with (Some (Fin min_step)).
  apply acc_y_ext; [reflexivity|reflexivity| |].
  - intros cur Lc. rewrite resolve_same. cbn [stepping c_next]. destruct (after (dots d) cur) as [o|] eqn:A; [|reflexivity].
    destruct (after_some _ _ _ (sp_asc _ _ _ SP) A) as (i & p & N & <- & ->).
    destruct p as [x v]. assert (I := nth_error_In _ _ N).
    assert (Li : (i < length d)%nat) by (rewrite <- dots_len; apply nth_error_Some; congruence).
    rewrite (dots_at d i Li) in N. injection N as <- <-. cbn [fst] in *.
    assert (IK : (i < k)%nat).
    { destruct (lt_dec i k) as [|C]; auto. exfalso. change (lt_x (Fin (at_x d i)) (Fin (at_x d k))) in Lc. apply lt_x_fin in Lc.
      destruct (Nat.eq_dec i k) as [->|NE]; [apply (Qclt_not_eq _ _ Lc eq_refl)|].
      pose proof (asc_nth _ k i _ _ (sp_asc _ _ _ SP) (dots_at d k L) (dots_at d i Li) ltac:(lia)) as B. apply lt_x_fin in B.
      clear -Lc B. qc_lra. }
    rewrite (dots_at d (S i)) by lia. cbn [option_map fst]. apply (sp_next _ _ _ SP i k IK L).
  - rewrite (sp_dom _ _ _ SP). destruct d as [|p0 d0] eqn:ED; [cbn in L; lia|]. rewrite <- ED in *. cbn [stepping c_next].
    assert (S0 : i_start (pts_domain (dots d)) = Fin (at_x d 0)).
    { rewrite ED. unfold pts_domain. cbn [dots map head_opt]. destruct (last_opt_cons (dot p0) (map dot d0)) as [z ->]. reflexivity. }
    rewrite S0. assert (L0 : (0 < length d)%nat) by lia.
    pose proof (after_nth _ 0 _ (sp_asc _ _ _ SP) (dots_at d 0 L0)) as A0. cbn [fst] in A0. rewrite A0.
    apply (sp_free _ _ _ SP 0 L0).
Qed.

(** the smoothed values: the recurrence of an EMA *)
Fixpoint ema_seq (al : Qc) (g : nat -> Qc) (k : nat) : Qc :=
  match k with O => g O | S j => (ema_seq al g j + al * (g (S j) - ema_seq al g j))%Qc end.

Lemma seq_smoothed al : forall k, (k < length d)%nat -> at_y (smoothed (fun _ _ => al) (fun _ y => y) gd) k = ema_seq al g k.
Proof.
  pose proof (table_len d g) as TL.
  assert (TY : forall k, (k < length d)%nat -> at_y gd k = g k) by (intros; now apply table_y).
  induction k as [|k IH]; intros L.
  - cbn [ema_seq]. rewrite <- (TY 0%nat L). destruct gd as [|p r]; [cbn in TL; lia|]. reflexivity.
  - cbn [ema_seq]. rewrite <- IH, <- TY by lia. destruct gd as [|p r] eqn:ET; [cbn in TL; lia|].
    cbn [smoothed]. cbn [length] in TL.
    pose proof (smooth_nth (fun _ _ => al) r (fst p) (snd p) k ltac:(lia)) as N. cbn zeta in N. destruct k; exact N.
Qed.

Lemma alpha_computes al cprev : computes_on (ema_G (fun _ _ => al) (fun _ y => y)) ILinear
  (fun _ : pts xq num => ema_scan (EmaAlpha (Fin al)) None cprev) (dots gd).
Proof.
  intros pa k p N GP IP PP. rewrite dots_firstn, spec_smoothed in PP. rewrite PP, dots_lastv.
  destruct (dots_nth _ _ _ N) as (b & yb & Nd & ->). cbn [fst snd]. rewrite dots_firstn.
  destruct k as [|j].
  - reflexivity.
  - assert (Lj : (S j < length gd)%nat) by (apply nth_error_Some; congruence).
    destruct (nth_error gd j) as [[a ya]|] eqn:Nj; [|apply nth_error_None in Nj; lia].
    assert (LA : option_map fst (last_opt (smoothed (fun _ _ => al) (fun _ y => y) (firstn (S j) gd))) = Some a).
    { assert (X : map fst (dots (smoothed (fun _ _ => al) (fun _ y => y) (firstn (S j) gd))) = map fst (dots (firstn (S j) gd))).
      { rewrite <- spec_smoothed. apply spec_xs. }
      apply last_xs in X. rewrite !dots_last in X. rewrite (last_firstn_nth gd j), Nj in X by lia.
      destruct (last_opt (smoothed _ _ (firstn (S j) gd))) as [[? ?]|]; cbn in *; congruence. }
    destruct (last_opt (smoothed _ _ (firstn (S j) gd))) as [[a' e]|] eqn:LL; [|discriminate]. cbn in LA. injection LA as ->.
    cbn [option_map snd ema_scan ema_G]. rewrite dots_last, (last_firstn_nth gd j), Nj by lia. reflexivity.
Qed.

Notation G al := (ema_G (fun _ _ => al) (fun _ y => y)).
Lemma ema_at_knot al fuel a k : follows (G al) min_step ILinear (fun v => v) (dots gd) a -> (k < length d)%nat -> (length d < fuel)%nat ->
  exists a', ema_alpha_y (Fin al) fuel c a (Fin (at_x d k)) = (a', Ok (Some (Fin (ema_seq al g k)))) /\
    follows (G al) min_step ILinear (fun v => v) (dots gd) a'.
Proof.
  intros F L Lf. rewrite stepping_same by auto.
  pose proof stepping_view as VW.
  pose proof (alpha_computes al (fun x => c_prev stepping x (Some MIN_STEP) None)) as CT.
  assert (Lg : (length gd < fuel)%nat) by now rewrite table_len.
  pose proof (follows_traces (G al) min_step min_step_pos ILinear (fun v => v) 0%Qc fuel stepping
    (fun _ => ema_scan (EmaAlpha (Fin al)) None (fun x => c_prev stepping x (Some MIN_STEP) None)) a gd (smoothed (fun _ _ => al) (fun _ y => y) gd) eq_refl) as TR.
  assert (P1 : forall y : Qc, (fun v : num => v) (Some (Fin y)) = Some (Fin (y + 0)%Qc)) by (intros y; now rewrite Qcplus_0_r).
  specialize (TR P1 F VW CT (spec_smoothed _ _ gd) Lg). destruct TR as (T1 & _). rewrite !table_len in T1.
  specialize (T1 k L). rewrite table_x, table_y, table_x, seq_smoothed in T1 by (rewrite ?table_len; auto).
  unfold ema_alpha_y. destruct (acc_y fuel stepping (Some MIN_STEP) _ _ a (Fin (at_x d k))) as [a' r] eqn:E.
  change (Some (Fin min_step)) with (Some (MIN_STEP : xq)) in T1. rewrite E in T1. cbn [snd] in T1. rewrite Qcplus_0_r in T1. subst r.
  exists a'. split; [reflexivity|]. eapply fo_query; [exact F|exact VW|exact CT| |exact E]. now rewrite dots_len.
Qed.
End Smoothing.

(** ** Changes of the source *)
Lemma firstn_dots_eq d d' n : firstn n (dots d') = firstn n (dots d) -> firstn n d' = firstn n d.
Proof.
  rewrite !dots_firstn. generalize (firstn n d) (firstn n d'). intros a b. revert b. unfold dots.
  induction a as [|p a IH]; intros [|q b] E; try discriminate; [reflexivity|]. cbn in E.
  injection E as E1 E2 E3. f_equal; [|now apply IH]. destruct p, q. cbn in *. congruence.
Qed.
Lemma firstn_nth {A} (l : list A) n k : (k < n)%nat -> nth_error (firstn n l) k = nth_error l k.
Proof.
  revert n k. induction l as [|a l IH]; intros [|n] [|k] L; try lia; try reflexivity. cbn. apply IH. lia.
Qed.
(** values that depend only on the points so far *)
Definition causal (g : list (Qc * Qc) -> nat -> Qc) : Prop :=
  forall d d' n k, firstn n d = firstn n d' -> (k < n)%nat -> (n <= length d)%nat -> (n <= length d')%nat -> g d k = g d' k.
Lemma table_announces g d d' evs : causal g -> announces evs (dots d) (dots d') ->
  announces evs (dots (table d (g d))) (dots (table d' (g d'))).
Proof.
  intros C [[-> E]|(D & q & -> & K & NE & S & KP)].
  - left. split; [reflexivity|]. assert (X : firstn (length d + length d') d' = firstn (length d + length d') d) by (apply firstn_dots_eq; now rewrite E).
    rewrite !firstn_all2 in X by lia. now rewrite X.
  - right. exists D, q. repeat split; auto; [apply K|apply K|]. intros n L B. rewrite dots_len, table_len in L.
    assert (F : firstn n (dots d') = firstn n (dots d)).
    { apply KP; [now rewrite dots_len|]. intros [x v] I. apply In_nth_error in I as [i I].
      assert (Li : (i < n)%nat). { pose proof (proj1 (nth_error_Some (firstn n (dots d)) i) ltac:(congruence)) as Y. rewrite firstn_length in Y. lia. }
      rewrite firstn_nth, dots_at in I by lia. injection I as <- <-.
      apply (B (Fin (at_x d i), Some (Fin (g d i)))). apply nth_error_In with i. rewrite firstn_nth by lia.
      rewrite dots_at by (rewrite table_len; lia). rewrite table_x, table_y by lia. reflexivity. }
    apply firstn_dots_eq in F. assert (L' : (n <= length d')%nat).
    { apply (f_equal (@length _)) in F. rewrite !firstn_length in F. lia. }
    apply list_nth. intros k. destruct (lt_dec k n) as [Lk|Lk].
    + rewrite !firstn_nth by auto. rewrite !dots_at by (rewrite table_len; lia). rewrite !table_x, !table_y by lia.
      assert (N : nth_error d' k = nth_error d k) by (rewrite <- (firstn_nth d' n k Lk), <- (firstn_nth d n k Lk), F; reflexivity).
      rewrite !at_nth in N by lia. injection N as N1 N2. rewrite N1. do 4 f_equal. apply C with n; auto.
    + rewrite !(proj2 (nth_error_None _ k)); auto; rewrite firstn_length; lia.
Qed.

(** ** Gains and losses *)
(** the slope of the segment that ends at the k-th point; 0 at the first *)
Definition slope (d : list (Qc * Qc)) (k : nat) : Qc :=
  match k with O => 0%Qc | S j => ((at_y d (S j) - at_y d j) / (at_x d (S j) - at_x d j))%Qc end.
Definition pos (q : Qc) : Qc := if Qcltb q 0 then 0%Qc else q.
Definition gain (d : list (Qc * Qc)) (k : nat) : Qc := pos (slope d k).
Definition loss (d : list (Qc * Qc)) (k : nat) : Qc := pos (- slope d k).
Lemma slope_causal d d' n k : firstn n d = firstn n d' -> (k < n)%nat -> (n <= length d)%nat -> (n <= length d')%nat -> slope d k = slope d' k.
Proof.
  intros F L L1 L2. assert (P : forall i, (i < n)%nat -> at_x d i = at_x d' i /\ at_y d i = at_y d' i).
  { intros i Li. assert (N : nth_error d i = nth_error d' i) by (rewrite <- (firstn_nth d n i Li), <- (firstn_nth d' n i Li), F; reflexivity).
    rewrite !at_nth in N by lia. injection N as N1 N2. auto. }
  destruct k as [|k]; [reflexivity|]. cbn. destruct (P k ltac:(lia)) as [-> ->]. destruct (P (S k) L) as [-> ->]. reflexivity.
Qed.
Lemma gain_causal : causal gain.
Proof. intros d d' n k F L L1 L2. unfold gain. now rewrite (slope_causal d d' n k). Qed.
Lemma loss_causal : causal loss.
Proof. intros d d' n k F L L1 L2. unfold loss. now rewrite (slope_causal d d' n k). Qed.

Lemma inter_all l : ascending l -> i_inter2 (pts_domain l) (i_infinite : ival xq) = pts_domain (l : list (xq * num)).
Proof.
  intros A. unfold pts_domain. destruct (head_opt l) as [a|] eqn:HA; [|reflexivity].
  destruct (last_opt l) as [z|] eqn:HZ; [|reflexivity].
  destruct (ascending_fin _ a A (head_opt_in _ _ HA)) as (p & v & ->). destruct (ascending_fin _ z A (last_opt_in _ _ HZ)) as (q & w & ->).
  pose proof (ascending_head_le l _ _ A HA (last_opt_in _ _ HZ)) as LE. apply le_x_fin in LE.
  unfold i_inter2, i_closed, i_is_empty. cbn. assert (X : Qcltb q p = false) by (apply Qcltb_false; exact LE). rewrite X. cbn.
  rewrite ?andb_false_r. reflexivity.
Qed.
Lemma inter_same l : ascending l -> i_inter2 (pts_domain l) (pts_domain (l : list (xq * num))) = pts_domain l.
Proof.
  intros A. unfold pts_domain. destruct (head_opt l) as [a|] eqn:HA; [|reflexivity].
  destruct (last_opt l) as [z|] eqn:HZ; [|reflexivity].
  destruct (ascending_fin _ a A (head_opt_in _ _ HA)) as (p & v & ->). destruct (ascending_fin _ z A (last_opt_in _ _ HZ)) as (q & w & ->).
  pose proof (ascending_head_le l _ _ A HA (last_opt_in _ _ HZ)) as LE. apply le_x_fin in LE.
  assert (X : Qcltb q p = false) by (apply Qcltb_false; exact LE).
  assert (Xp : Qcltb p p = false) by (apply Qcltb_false, Qcle_refl). assert (Xq : Qcltb q q = false) by (apply Qcltb_false, Qcle_refl).
  unfold i_inter2, i_closed, i_is_empty, later_start, earlier_end. cbn. rewrite X. cbn. rewrite andb_false_r. cbn.
  rewrite ?Xp, ?Xq. cbn. rewrite ?X, ?andb_false_r. reflexivity.
Qed.
Lemma inter_all' l : ascending l -> i_inter2 (i_infinite : ival xq) (pts_domain l) = pts_domain (l : list (xq * num)).
Proof.
  intros A. unfold pts_domain. destruct (head_opt l) as [a|] eqn:HA; [|reflexivity].
  destruct (last_opt l) as [z|] eqn:HZ; [|reflexivity].
  destruct (ascending_fin _ a A (head_opt_in _ _ HA)) as (p & v & ->). destruct (ascending_fin _ z A (last_opt_in _ _ HZ)) as (q & w & ->).
  pose proof (ascending_head_le l _ _ A HA (last_opt_in _ _ HZ)) as LE. apply le_x_fin in LE.
  unfold i_inter2, i_closed, i_is_empty. cbn. assert (X : Qcltb q p = false) by (apply Qcltb_false; exact LE). rewrite X. cbn.
  rewrite ?andb_false_r. reflexivity.
Qed.

Section Source.
Context (s : pts xq num) (d : list (Qc * Qc)) (HS : honest_history s) (EV : evenly min_step s d).
Let A : ascending (dots d).
Proof. destruct EV as (P & _ & _). rewrite <- P. now apply history_asc. Qed.
Lemma src_dom : p_dom s = pts_domain (dots d).
Proof. rewrite (calm_dom s); [|now apply good_calm, honest_history_good]. now rewrite (proj1 EV). Qed.
Lemma src_y k : (k < length d)%nat -> p_y s (Fin (at_x d k)) = Ok (Some (Fin (at_y d k))).
Proof.
  intros L. apply p_y_knot; [intros _; exact lerp_total_num|now apply honest_history_good|].
  rewrite (proj1 EV). eapply nth_error_In. now apply dots_at.
Qed.
Lemma src_next k lim : (k < length d)%nat -> p_x_next s (Fin (at_x d k)) (Some MIN_STEP) lim = Ok (option_map fst (nth_error (dots d) (S k))).
Proof.
  intros L. destruct EV as (P & _ & C). change (Some (MIN_STEP : xq)) with (Some (Fin min_step)). rewrite <- P.
  apply knot_next with (Some (Fin (at_y d k))); [now apply honest_history_good|now rewrite P|exact min_step_pos|].
  rewrite P. now apply dots_at.
Qed.
Lemma gap k : (S k < length d)%nat -> (min_step <= at_x d (S k) - at_x d k)%Qc.
Proof. intros L. destruct EV as (_ & _ & C). eapply C; apply dots_at; lia. Qed.
Lemma src_slope k : (k < length d)%nat ->
  d_y (p_crv s) (Fin (at_x d k)) false (Some MIN_STEP) None = Ok (match k with O => None | S _ => Some (Fin (slope d k)) end).
Proof.
  intros L. change (Some (MIN_STEP : xq)) with (Some (Fin min_step)). destruct k as [|j].
  - apply dy_none. exists None. split; [|exact I]. cbn [p_crv c_prev c_ms].
    destruct (p_x_previous_spec s (Fin (at_x d 0)) min_step None (honest_history_good s HS) ltac:(discriminate)) as (z & E & Q).
    change (resolve_min_step None (Some (Fin min_step))) with (Some (Fin min_step)).
    rewrite E. destruct z as [z|]; [|reflexivity]. exfalso. destruct Q as ((v & I) & Lz & _). rewrite (proj1 EV) in I.
    pose proof (dots_at d 0 L) as N0. rewrite <- head_nth in N0.
    pose proof (ascending_head_le _ _ _ A N0 I) as B. destruct (ascending_fin _ _ A I) as (r & w & X). injection X as -> ->.
    cbn [fst] in B. apply le_x_fin in B. cbn in Lz. apply le_x_fin in Lz. pose proof min_step_pos as M. clear -B Lz M. qc_lra.
  - destruct (dots_two d j L) as (l1 & l2 & E). rewrite <- (proj1 EV) in E.
    pose proof (gap j L) as GP. cbn [slope].
    apply dy_points_backward with l1 l2; auto; [apply Qcle_refl|exact min_step_pos|clear -GP; qc_lra].
Qed.

Lemma max_zero (o : option xq) q : o = Some (Fin q) \/ (o = None /\ q = 0%Qc) -> max_vals_loop None [o; Some (Fin 0%Qc)] = Some (Fin (pos q)).
Proof.
  intros [->|[-> ->]]; [|reflexivity]. unfold pos. cbn. now destruct (Qcltb q 0).
Qed.
Lemma const_next k lim : lim = None \/ (exists j, lim = Some (Fin (at_x d j))) ->
  base_x_next (i_parse None) (Some n_inf) (Fin (at_x d k)) (Some MIN_STEP) lim = Ok lim.
Proof. intros [->|(j & ->)]; reflexivity. Qed.
Lemma between_next k j : (k < j)%nat -> (j < length d)%nat -> (at_x d k < at_x d (S k))%Qc /\ (at_x d (S k) <= at_x d j)%Qc.
Proof.
  intros L Lj. assert (P : forall i i', (i < i')%nat -> (i' < length d)%nat -> (at_x d i < at_x d i')%Qc).
  { intros i i' X Y. apply lt_x_fin. apply (asc_nth _ i i' _ _ A (dots_at d i ltac:(lia)) (dots_at d i' Y) X). }
  split; [apply P; lia|]. destruct (Nat.eq_dec (S k) j) as [<-|NE]; [apply Qcle_refl|]. apply Qclt_le_weak, P; lia.
Qed.

(** both operands of the division: the source's slope or its negation, cut at 0 *)
Lemma cut_stops c (g : nat -> Qc) : c_dom c = pts_domain (dots d) ->
  (forall k, (k < length d)%nat -> c_y c (Fin (at_x d k)) = Ok (match k with O => None | S _ => Some (Fin (g k)) end)) -> g 0%nat = 0%Qc ->
  (forall k lim, (k < length d)%nat -> c_next c (Fin (at_x d k)) (Some MIN_STEP) lim = Ok (option_map fst (nth_error (dots d) (S k)))) ->
  stops (curve_max false [c; constant_curve n_zero None]) d (fun k => pos (g k)).
Proof.
  intros D Y G0 NX. split.
  - exact A.
  - apply EV.
  - cbn [curve_max aggregate c_dom agg_dom map i_inter fold_left constant_curve i_parse]. rewrite D. now apply inter_all.
  - intros k L. cbn [curve_max aggregate c_y agg_dom map i_inter fold_left constant_curve i_parse c_dom]. rewrite D, inter_all by exact A.
    assert (IC : i_contains (pts_domain (dots d)) (Fin (at_x d k)) = true).
    { apply list_dom; [exact A|]. pose proof (nth_error_In _ _ (dots_at d k L)) as J.
      exists (at_x d k), (at_x d k), (Some (Fin (at_y d k))), (Some (Fin (at_y d k))). repeat split; auto; apply Qcle_refl. }
    rewrite IC. cbn [negb rmapM c_y]. rewrite (Y k L). cbn [rbind constant_curve c_y]. unfold max_vals. f_equal. change (n_zero : xq) with (Fin 0%Qc).
    apply max_zero. destruct k; auto.
  - intros k L. cbn [curve_max aggregate c_next rmapM constant_curve]. rewrite (NX k None L). cbn [rbind].
    rewrite const_next by auto. cbn [rbind]. f_equal. destruct (lt_dec (S k) (length d)) as [L'|L'].
    + rewrite dots_at by auto. cbn [option_map fst min_or_none]. destruct (between_next k (S k) ltac:(lia) L') as [B _].
      change (n_gtb (Fin (at_x d (S k))) (Fin (at_x d k))) with (Qcltb (at_x d k) (at_x d (S k))). now rewrite (proj2 (Qcltb_true _ _) B).
    + rewrite (proj2 (nth_error_None (dots d) (S k))) by (rewrite dots_len; lia). reflexivity.
  - intros k j L Lj. cbn [curve_max aggregate c_next rmapM constant_curve]. rewrite (NX k _ ltac:(lia)). cbn [rbind].
    rewrite const_next by eauto. cbn [rbind]. f_equal. rewrite dots_at by lia. cbn [option_map fst min_or_none].
    destruct (between_next k j L Lj) as [B1 B2].
    change (n_gtb (Fin (at_x d (S k))) (Fin (at_x d k))) with (Qcltb (at_x d k) (at_x d (S k))).
    rewrite (proj2 (Qcltb_true _ _) B1).
    change (n_ltb (Fin (at_x d j)) (Fin (at_x d (S k)))) with (Qcltb (at_x d j) (at_x d (S k))).
    now rewrite (proj2 (Qcltb_false _ _) B2).
Qed.

Lemma diff_y k : (k < length d)%nat ->
  c_y (differential false (p_crv s)) (Fin (at_x d k)) = Ok (match k with O => None | S _ => Some (Fin (slope d k)) end).
Proof.
  intros L. unfold differential. cbn [map_curve c_y p_crv]. rewrite (src_y k L). cbn [rbind]. exact (src_slope k L).
Qed.
Lemma diff_next k lim : (k < length d)%nat ->
  c_next (differential false (p_crv s)) (Fin (at_x d k)) (Some MIN_STEP) lim = Ok (option_map fst (nth_error (dots d) (S k))).
Proof. intros L. unfold differential. cbn [map_curve c_next p_crv c_ms]. exact (src_next k lim L). Qed.

Lemma gains_stops : stops (rsi_gains (p_crv s)) d (gain d).
Proof.
  unfold rsi_gains. apply (cut_stops _ (slope d)); auto.
  - cbn [differential map_curve c_dom p_crv]. exact src_dom.
  - exact diff_y.
  - exact diff_next.
Qed.
Lemma losses_stops : stops (rsi_losses (p_crv s)) d (loss d).
Proof.
  unfold rsi_losses. apply (cut_stops _ (fun k => - slope d k)%Qc).
  - cbn [additive_inverse differential map_curve c_dom p_crv]. exact src_dom.
  - intros k L. unfold additive_inverse. cbn [map_curve c_y]. rewrite (diff_y k L). cbn [rbind]. destruct k; reflexivity.
  - cbn. ring.
  - intros k lim L. unfold additive_inverse. cbn [map_curve c_next c_ms].
    change (resolve_min_step (Some (map_min_step MIN_STEP (c_ms (differential false (p_crv s))))) (Some MIN_STEP)) with (Some (MIN_STEP : xq)).
    now apply diff_next.
Qed.
End Source.

(** ** The index *)
(** 100 U / (U + D), and 100 when nothing was lost *)
Definition index (U D : Qc) : Qc := if Qceqb D 0 then QcofZ 100 else (QcofZ 100 - QcofZ 100 / (1 + U / D))%Qc.
Lemma index_mul U D : (0 <= U)%Qc -> (0 <= D)%Qc -> (index U D * (U + D) = QcofZ 100 * U)%Qc.
Proof.
  intros HU HD. unfold index. destruct (Qceqb D 0) eqn:E.
  - apply Qceqb_true in E. subst. ring.
  - apply Qceqb_false in E. assert (X : (U + D <> 0)%Qc) by (intros Z; apply E; clear -HU HD Z; apply Qcle_antisym; qc_lra).
    field. split; [exact E|]. intros Z. apply X. rewrite <- Z. ring.
Qed.
Lemma index_range U D : (0 <= U)%Qc -> (0 <= D)%Qc -> (0 <= index U D)%Qc /\ (index U D <= QcofZ 100)%Qc.
Proof.
  intros HU HD. pose proof (index_mul U D HU HD) as M. unfold index in *. destruct (Qceqb D 0) eqn:E.
  - split; [discriminate|apply Qcle_refl].
  - apply Qceqb_false in E. set (v := (QcofZ 100 - QcofZ 100 / (1 + U / D))%Qc) in *. clearbody v.
    assert (P : (0 < D)%Qc).
    { destruct (Qclt_le_dec 0 D) as [|C]; auto. exfalso. apply E. now apply Qcle_antisym. }
    assert (H0 : (0 <= QcofZ 100)%Qc) by discriminate. set (h := QcofZ 100) in *. clearbody h.
    split.
    + destruct (Qclt_le_dec v 0) as [C|C]; auto. exfalso. clear -M C HU P H0. qc_nra.
    + destruct (Qclt_le_dec h v) as [C|C]; auto. exfalso. clear -M C HU P H0. qc_nra.
Qed.
Lemma index_still U : index U 0 = QcofZ 100.
Proof. reflexivity. Qed.
Lemma index_falls D : (0 < D)%Qc -> index 0 D = 0%Qc.
Proof.
  intros P. unfold index. assert (N : D <> 0%Qc) by (intros ->; discriminate). rewrite (proj2 (Qceqb_false _ _) N).
  replace (1 + 0 / D)%Qc with 1%Qc by (field; exact N). field. discriminate.
Qed.

Lemma rsi_domain l : ascending l -> forall a b, c_dom (rsi_curve (Fin (QcofZ 100)) (shown (pts_domain l) a) (shown (pts_domain (l : list (xq * num))) b)) = pts_domain l.
Proof.
  intros A a b. cbn [rsi_curve subtract_many divide_many add_many aggregate c_dom agg_dom map i_inter fold_left constant_curve i_parse shown].
  rewrite (inter_same l A), !(inter_all' l A). reflexivity.
Qed.
Lemma index_value l x U D : ascending l -> i_contains (pts_domain l) x = true -> (0 <= U)%Qc -> (0 <= D)%Qc ->
  c_y (rsi_curve (Fin (QcofZ 100)) (shown (pts_domain l) (Ok (Some (Fin U)))) (shown (pts_domain (l : list (xq * num))) (Ok (Some (Fin D))))) x
  = Ok (Some (Fin (index U D))).
Proof.
  intros A IC HU HD.
  assert (E1 : c_y (divide_many [shown (pts_domain l) (Ok (Some (Fin U))); shown (pts_domain l) (Ok (Some (Fin D)))]) x
    = Ok (Some (if Qceqb D 0 then PInf else Fin (U / D)%Qc))).
  { cbn [divide_many aggregate c_y agg_dom map i_inter fold_left shown c_dom]. rewrite (inter_same l A), IC.
    cbn [negb rmapM c_y shown rbind]. unfold div_f. cbn [div_loop].
    change (n_eqb (Fin D) n_zero) with (Qceqb D 0). destruct (Qceqb D 0) eqn:E.
    - change (n_geb (Fin U) n_zero) with (Qcleb 0 U). now rewrite (proj2 (Qcleb_true _ _) HU).
    - cbn [n_div XQ xq_div]. rewrite E. reflexivity. }
  set (c1 := divide_many [shown (pts_domain l) (Ok (Some (Fin U))); shown (pts_domain l) (Ok (Some (Fin D)))]) in *.
  assert (D1 : c_dom c1 = pts_domain l).
  { unfold c1. cbn [divide_many aggregate c_dom agg_dom map i_inter fold_left shown]. apply (inter_same l A). }
  unfold rsi_curve. fold c1.
  assert (E2 : c_y (add_many [constant_curve n_one None; c1]) x = Ok (Some (if Qceqb D 0 then PInf else Fin (1 + U / D)%Qc))).
  { cbn [add_many aggregate c_y agg_dom map i_inter fold_left constant_curve i_parse c_dom]. rewrite D1, (inter_all' l A), IC.
    cbn [negb rmapM c_y constant_curve rbind]. rewrite E1. cbn [rbind]. unfold add_f. cbn [has_none somes fold_left].
    destruct (Qceqb D 0); [reflexivity|]. change (n_zero : xq) with (Fin 0%Qc). change (n_one : xq) with (Fin 1%Qc).
    cbn [n_add XQ xq_add]. now rewrite Qcplus_0_l. }
  set (c2 := add_many [constant_curve n_one None; c1]) in *.
  assert (D2 : c_dom c2 = pts_domain l).
  { unfold c2. cbn [add_many aggregate c_dom agg_dom map i_inter fold_left constant_curve i_parse]. rewrite D1. apply (inter_all' l A). }
  assert (E3 : c_y (divide_many [constant_curve (Fin (QcofZ 100)) None; c2]) x =
    Ok (Some (Fin (if Qceqb D 0 then 0%Qc else (QcofZ 100 / (1 + U / D))%Qc)))).
  { cbn [divide_many aggregate c_y agg_dom map i_inter fold_left constant_curve i_parse c_dom]. rewrite D2, (inter_all' l A), IC.
    cbn [negb rmapM c_y constant_curve rbind]. rewrite E2. cbn [rbind]. unfold div_f. cbn [div_loop].
    destruct (Qceqb D 0) eqn:E; [reflexivity|]. apply Qceqb_false in E.
    change (n_eqb (Fin (1 + U / D)%Qc) n_zero) with (Qceqb (1 + U / D)%Qc 0).
    assert (NZ : (1 + U / D)%Qc <> 0%Qc).
    { intros Z. assert (Y : (D + U = 0)%Qc). { transitivity ((1 + U / D) * D)%Qc; [field; exact E|]. rewrite Z. ring. }
      apply E. clear -Y HU HD. apply Qcle_antisym; qc_lra. }
    rewrite (proj2 (Qceqb_false _ _) NZ). cbn [n_div XQ xq_div]. rewrite (proj2 (Qceqb_false _ _) NZ). reflexivity. }
  set (c3 := divide_many [constant_curve (Fin (QcofZ 100)) None; c2]) in *.
  assert (D3 : c_dom c3 = pts_domain l).
  { unfold c3. cbn [divide_many aggregate c_dom agg_dom map i_inter fold_left constant_curve i_parse]. rewrite D2. apply (inter_all' l A). }
  cbn [subtract_many aggregate c_y agg_dom map i_inter fold_left constant_curve i_parse c_dom]. rewrite D3, (inter_all' l A), IC.
  cbn [negb rmapM c_y constant_curve rbind]. rewrite E3. cbn [rbind]. unfold sub_f. cbn [sub_loop n_sub XQ xq_sub]. unfold index.
  destruct (Qceqb D 0); reflexivity.
Qed.

Lemma pos_nonneg q : (0 <= pos q)%Qc.
Proof. unfold pos. destruct (Qcltb q 0) eqn:E; [apply Qcle_refl|]. now apply Qcltb_false in E. Qed.
Lemma seq_nonneg al g : (0 <= al)%Qc -> (al <= 1)%Qc -> (forall k, (0 <= g k)%Qc) -> forall k, (0 <= ema_seq al g k)%Qc.
Proof.
  intros A0 A1 G. induction k as [|k IH]; cbn; [apply G|]. specialize (G (S k)).
  replace (ema_seq al g k + al * (g (S k) - ema_seq al g k))%Qc with (al * g (S k) + (1 - al) * ema_seq al g k)%Qc by ring.
  set (a := g (S k)) in *. set (b := ema_seq al g k) in *. clearbody a b. clear -A0 A1 G IH. qc_nra.
Qed.

(** ** Histories *)
(** A source and an index of it: queries at points of the source (or outside of
    its domain), reads of the cached domains of the EMAs and changes of the
    source, in any order. *)
Inductive rated (degree : Qc) : pts xq num -> rsi xq -> Prop :=
| ra_new s d st : honest_history s -> p_pts s = dots d -> rsi_init (Fin degree) true = Ok st -> rated degree s st
| ra_query s st d x fuel st' r : rated degree s st -> evenly min_step s d -> (length d < fuel)%nat ->
    (exists k, (k < length d)%nat /\ x = Fin (at_x d k)) \/ i_contains (p_dom s) x = false ->
    rsi_y (Fin (QcofZ 100)) fuel (p_crv s) st x = (st', r) -> rated degree s st'
| ra_domain s st g l dg dl : rated degree s st ->
    acc_dom (c_dom (rsi_gains (p_crv s))) (r_gain st) = (g, dg) -> acc_dom (c_dom (rsi_losses (p_crv s))) (r_loss st) = (l, dl) ->
    rated degree s (mkRsi (r_alpha st) (r_d st) (r_n st) (r_up st) (r_down st) g l)
| ra_read s st : rated degree s st -> rated degree (p_touch s) st
| ra_op s st o s' evs d' st' r : rated degree s st -> op_ok o -> run_op s o = (s', evs, Ok tt) ->
    (p_uniform s' = true -> equally_spaced (p_pts s')) -> p_pts s' = dots d' -> rsi_events st evs = (st', r) -> rated degree s' st'
| ra_refused s st o s' e : rated degree s st -> op_ok o -> run_op s o = (s', [], Err e) -> rated degree s' st.

Notation G al := (ema_G (fun _ _ => al) (fun _ y => y)).
Definition smooths (al : Qc) (g : list (Qc * Qc) -> nat -> Qc) (d : list (Qc * Qc)) (a : acc xq num) : Prop :=
  follows (G al) min_step ILinear (fun v => v) (dots (table d (g d))) a.
Record rsi_inv (degree : Qc) (s : pts xq num) (d : list (Qc * Qc)) (st : rsi xq) : Prop := {
  ri_hist : honest_history s;
  ri_pts : p_pts s = dots d;
  ri_alpha : r_alpha st = Fin (1 / degree)%Qc;
  ri_d : PointsOps.idle (r_d st);
  ri_n : PointsOps.idle (r_n st);
  ri_up : PointsOps.idle (r_up st);
  ri_down : PointsOps.idle (r_down st);
  ri_gain : smooths (1 / degree) gain d (r_gain st);
  ri_loss : smooths (1 / degree) loss d (r_loss st)
}.

Lemma src_asc s d : honest_history s -> p_pts s = dots d -> ascending (dots d).
Proof. intros H <-. now apply history_asc. Qed.
Lemma tab_asc d g : ascending (dots d) -> ascending (dots (table d g)).
Proof. intros A. eapply ascending_xs; [apply table_xs|exact A]. Qed.

(** what a query does *)
Lemma rsi_query degree fuel s d st x st' r : rsi_inv degree s d st -> (0 < degree)%Qc -> (1 <= degree)%Qc -> evenly min_step s d -> (length d < fuel)%nat ->
  (exists k, (k < length d)%nat /\ x = Fin (at_x d k)) \/ i_contains (p_dom s) x = false ->
  rsi_y (Fin (QcofZ 100)) fuel (p_crv s) st x = (st', r) ->
  rsi_inv degree s d st' /\
  ((exists k, (k < length d)%nat /\ x = Fin (at_x d k) /\
      r = Ok (Some (Fin (index (ema_seq (1 / degree) (gain d) k) (ema_seq (1 / degree) (loss d) k)))))
   \/ (i_contains (p_dom s) x = false /\ st' = st /\ r = Ok None)).
Proof.
  intros [H P AL I1 I2 I3 I4 FG FL] DP D1 EV Lf X E.
  pose proof (src_asc s d H P) as A. pose proof (src_dom s d H EV) as SD.
  pose proof (gains_stops s d H EV) as SG. pose proof (losses_stops s d H EV) as SL.
  unfold rsi_y in E. rewrite (sp_dom _ _ _ SG), (sp_dom _ _ _ SL), (rsi_domain _ A), AL in E.
  assert (NZ : degree <> 0%Qc) by (intros ->; discriminate).
  assert (A0 : (0 <= 1 / degree)%Qc /\ (1 / degree <= 1)%Qc).
  { assert (Z : (1 / degree * degree = 1)%Qc) by (field; exact NZ). set (z := (1 / degree)%Qc) in *. clearbody z. split.
    - destruct (Qclt_le_dec z 0) as [C|C]; auto. exfalso. clear -C Z DP. qc_nra.
    - destruct (Qclt_le_dec 1 z) as [C|C]; auto. exfalso. clear -C Z D1. qc_nra. }
  destruct X as [(k & L & ->)|X].
  - assert (IC : i_contains (pts_domain (dots d)) (Fin (at_x d k)) = true).
    { apply list_dom; [exact A|]. pose proof (nth_error_In _ _ (dots_at d k L)) as J.
      exists (at_x d k), (at_x d k), (Some (Fin (at_y d k))), (Some (Fin (at_y d k))). repeat split; auto; apply Qcle_refl. }
    rewrite IC in E. cbn [negb] in E.
    destruct (ema_at_knot _ d (gain d) SG (1 / degree) fuel (r_gain st) k FG L Lf) as (g' & EG & FG'). rewrite EG in E. cbn [r_alpha r_loss] in E.
    destruct (ema_at_knot _ d (loss d) SL (1 / degree) fuel (r_loss st) k FL L Lf) as (l' & EL & FL'). rewrite EL in E.
    cbn [r_alpha r_gain r_d r_n r_up r_down] in E.
    rewrite (index_value (dots d) _ _ _ A IC) in E.
    2,3: apply seq_nonneg; try apply A0; intros; apply pos_nonneg.
    injection E as <- <-. split; [split; auto|]. left. exists k. auto.
  - rewrite SD in X. rewrite X in E. cbn [negb] in E. injection E as <- <-. split; [split; auto|]. right. rewrite SD. auto.
Qed.

Lemma forward_pass u (l l' : list (xq * num)) evs : PointsOps.idle u -> announces evs l l' -> exists u', forward u evs = (u', evs) /\ PointsOps.idle u'.
Proof.
  intros I [[-> _]|(E & q & -> & K & NE & _)].
  - exists u. auto.
  - rewrite (forward_notify u E I K NE). eexists. split; [reflexivity|]. split; reflexivity.
Qed.

Theorem rated_inv degree s st : (1 <= degree)%Qc -> rated degree s st -> exists d, rsi_inv degree s d st.
Proof.
  intros D1. assert (DP : (0 < degree)%Qc) by (eapply Qclt_le_trans; [|exact D1]; reflexivity).
  assert (NZ : degree <> 0%Qc) by (intros ->; discriminate).
  induction 1 as [s d st H P E|s st d x fuel st' r _ (d0 & IH) EV L X E|s st g l dg dl _ (d0 & IH) E1 E2|s st _ (d0 & IH)
    |s st o s' evs d' st' r _ (d0 & IH) O R T P' E|s st o s' e _ (d0 & IH) O R].
  - exists d. unfold rsi_init in E. change (n_div n_one (Fin degree)) with (xq_div (Fin 1%Qc) (Fin degree)) in E.
    cbn [xq_div] in E. rewrite (proj2 (Qceqb_false _ _) NZ) in E. cbn [rbind] in E. injection E as <-.
    pose proof (src_asc s d H P) as A.
    split; try (split; reflexivity); auto; apply fo_new; now apply tab_asc.
  - exists d0. pose proof (ri_pts _ _ _ _ IH) as P0. destruct EV as (P & EV). rewrite P in P0.
    assert (d0 = d).
    { assert (Y : firstn (length d0 + length d) d0 = firstn (length d0 + length d) d) by (apply firstn_dots_eq; now rewrite P0).
      rewrite !firstn_all2 in Y by lia. exact Y. }
    subst d0. destruct (rsi_query degree fuel s d st x st' r IH DP D1 (conj P EV) L X E) as [I' _]. exact I'.
  - exists d0. destruct IH as [H P AL I1 I2 I3 I4 FG FL]. pose proof (src_asc s d0 H P) as A.
    assert (DS : p_dom s = pts_domain (dots d0)) by (rewrite (calm_dom s); [now rewrite P|now apply good_calm, honest_history_good]).
    assert (DG : c_dom (rsi_gains (p_crv s)) = pts_domain (dots (table d0 (gain d0)))).
    { rewrite <- table_pdom. unfold rsi_gains. cbn [curve_max aggregate c_dom agg_dom map i_inter fold_left constant_curve i_parse differential map_curve p_crv].
      rewrite DS. now apply inter_all. }
    assert (DL : c_dom (rsi_losses (p_crv s)) = pts_domain (dots (table d0 (loss d0)))).
    { rewrite <- table_pdom. unfold rsi_losses. cbn [curve_max aggregate c_dom agg_dom map i_inter fold_left constant_curve i_parse additive_inverse differential map_curve p_crv].
      rewrite DS. now apply inter_all. }
    rewrite DG in E1. rewrite DL in E2. split; auto; cbn [r_gain r_loss]; eapply fo_domain; eauto.
  - exists d0. destruct IH as [H P AL I1 I2 I3 I4 FG FL]. split; auto. now apply hh_read.
  - exists d'. destruct IH as [H P AL I1 I2 I3 I4 FG FL].
    pose proof (op_announces s o s' evs (honest_history_good s H) O R) as AN. rewrite P, P' in AN.
    assert (H' : honest_history s') by (eapply hh_op; eauto). pose proof (src_asc s' d' H' P') as A'.
    unfold rsi_events in E.
    destruct (forward_pass _ _ _ _ I1 AN) as (ud & F1 & J1). rewrite F1 in E.
    destruct (forward_pass _ _ _ _ I3 AN) as (uu & F2 & J2). rewrite F2 in E.
    destruct (acc_events (r_gain st) evs) as [[g o1] r1] eqn:EG.
    destruct (forward_pass _ _ _ _ I2 AN) as (un & F3 & J3). rewrite F3 in E.
    destruct (forward_pass _ _ _ _ I4 AN) as (ul & F4 & J4). rewrite F4 in E.
    destruct (acc_events (r_loss st) evs) as [[l o2] r2] eqn:EL. injection E as <- _.
    split; auto; cbn [r_gain r_loss].
    + eapply fo_change; [exact FG|now apply tab_asc|apply table_announces; [exact gain_causal|exact AN]|exact EG].
    + eapply fo_change; [exact FL|now apply tab_asc|apply table_announces; [exact loss_causal|exact AN]|exact EL].
  - exists d0. destruct IH as [H P AL I1 I2 I3 I4 FG FL].
    assert (X : p_pts s' = p_pts s) by (destruct (refused_same s o s' e (honest_history_good s H) O R) as [->| ->]; reflexivity).
    split; auto; [now apply hh_refused with s o e|congruence].
Qed.

Theorem rated_value degree s st d k fuel : (1 <= degree)%Qc -> rated degree s st -> evenly min_step s d -> (k < length d)%nat -> (length d < fuel)%nat ->
  snd (rsi_y (Fin (QcofZ 100)) fuel (p_crv s) st (Fin (at_x d k))) =
    Ok (Some (Fin (index (ema_seq (1 / degree) (gain d) k) (ema_seq (1 / degree) (loss d) k)))).
Proof.
  intros D1 H EV L Lf. assert (DP : (0 < degree)%Qc) by (eapply Qclt_le_trans; [|exact D1]; reflexivity).
  destruct (rated_inv degree s st D1 H) as (d0 & I). pose proof (ri_pts _ _ _ _ I) as P0. rewrite (proj1 EV) in P0.
  assert (d0 = d).
  { assert (Y : firstn (length d0 + length d) d0 = firstn (length d0 + length d) d) by (apply firstn_dots_eq; now rewrite P0).
    rewrite !firstn_all2 in Y by lia. exact Y. }
  subst d0. destruct (rsi_y _ fuel (p_crv s) st (Fin (at_x d k))) as [st' r] eqn:E. cbn [snd].
  destruct (rsi_query degree fuel s d st _ st' r I DP D1 EV Lf (or_introl (ex_intro _ k (conj L eq_refl))) E) as [_ [(j & Lj & X & ->)|(X & _ & _)]].
  - injection X as X. assert (A := src_asc s d (ri_hist _ _ _ _ I) (proj1 EV)).
    assert (j = k).
    { destruct (Nat.lt_trichotomy j k) as [C|[C|C]]; auto; exfalso.
      - pose proof (asc_nth _ j k _ _ A (dots_at d j Lj) (dots_at d k L) C) as B. apply lt_x_fin in B. rewrite X in B. exact (Qclt_not_eq _ _ B eq_refl).
      - pose proof (asc_nth _ k j _ _ A (dots_at d k L) (dots_at d j Lj) C) as B. apply lt_x_fin in B. rewrite X in B. exact (Qclt_not_eq _ _ B eq_refl). }
    now subst.
  - exfalso. rewrite (src_dom s d (ri_hist _ _ _ _ I) EV) in X. assert (A := src_asc s d (ri_hist _ _ _ _ I) (proj1 EV)).
    assert (IC : i_contains (pts_domain (dots d)) (Fin (at_x d k)) = true).
    { apply list_dom; [exact A|]. pose proof (nth_error_In _ _ (dots_at d k L)) as J.
      exists (at_x d k), (at_x d k), (Some (Fin (at_y d k))), (Some (Fin (at_y d k))). repeat split; auto; apply Qcle_refl. }
    congruence.
Qed.

Lemma pos_up q : (0 <= q)%Qc -> pos q = q.
Proof. intros H. unfold pos. now rewrite (proj2 (Qcltb_false _ _) H). Qed.
Lemma pos_down q : (q <= 0)%Qc -> pos q = 0%Qc.
Proof.
  intros H. unfold pos. destruct (Qcltb q 0) eqn:E; [reflexivity|]. apply Qcltb_false in E. now apply Qcle_antisym.
Qed.
(** [U] and [D] are the smoothed gains and losses of [d] *)
Definition averages (degree : Qc) (d : list (Qc * Qc)) (U D : nat -> Qc) : Prop :=
  U 0%nat = 0%Qc /\ D 0%nat = 0%Qc /\
  forall k, let g := ((at_y d (S k) - at_y d k) / (at_x d (S k) - at_x d k))%Qc in
    ((0 <= g)%Qc -> U (S k) = (U k + (g - U k) / degree)%Qc /\ D (S k) = (D k + (0 - D k) / degree)%Qc) /\
    ((g <= 0)%Qc -> U (S k) = (U k + (0 - U k) / degree)%Qc /\ D (S k) = (D k + (- g - D k) / degree)%Qc).
Lemma averages_seq degree d : (1 <= degree)%Qc -> averages degree d (ema_seq (1 / degree) (gain d)) (ema_seq (1 / degree) (loss d)).
Proof.
  intros D1. assert (NZ : degree <> 0%Qc) by (intros ->; apply D1; reflexivity).
  assert (E : forall e g, (e + 1 / degree * (g - e) = e + (g - e) / degree)%Qc) by (intros; field; exact NZ).
  split; [reflexivity|]. split; [reflexivity|].
  intros k g. cbn [ema_seq]. rewrite !E. unfold gain, loss. cbn [slope]. fold g. split; intros H.
  - rewrite (pos_up g H), (pos_down (- g)) by (clear -H; qc_lra). auto.
  - rewrite (pos_down g H), (pos_up (- g)) by (clear -H; qc_lra). auto.
Qed.
Lemma averages_unique degree d U D U' D' : averages degree d U D -> averages degree d U' D' -> forall k, U k = U' k /\ D k = D' k.
Proof.
  intros (A0 & B0 & R) (A0' & B0' & R'). induction k as [|k [IH1 IH2]]; [split; congruence|].
  specialize (R k). specialize (R' k). cbn zeta in *. set (g := ((at_y d (S k) - at_y d k) / (at_x d (S k) - at_x d k))%Qc) in *.
  destruct (Qclt_le_dec g 0) as [C|C].
  - destruct (proj2 R (Qclt_le_weak _ _ C)) as [-> ->]. destruct (proj2 R' (Qclt_le_weak _ _ C)) as [-> ->]. now rewrite IH1, IH2.
  - destruct (proj1 R C) as [-> ->]. destruct (proj1 R' C) as [-> ->]. now rewrite IH1, IH2.
Qed.

Section Value.
Context (degree : Qc) (s : pts xq num) (st : rsi xq) (d : list (Qc * Qc)) (fuel : nat).
Context (D1 : (1 <= degree)%Qc) (H : rated degree s st) (EV : evenly min_step s d) (Lf : (length d < fuel)%nat).
Notation at_point k := (snd (rsi_y (Fin (QcofZ 100)) fuel (p_crv s) st (Fin (at_x d k)))).
Lemma al_range : (0 <= 1 / degree)%Qc /\ (1 / degree <= 1)%Qc.
Proof.
  assert (NZ : degree <> 0%Qc) by (intros X; rewrite X in D1; apply D1; reflexivity).
  assert (DP : (0 < degree)%Qc) by (eapply Qclt_le_trans; [|exact D1]; reflexivity).
  assert (Z : (1 / degree * degree = 1)%Qc) by (field; exact NZ). set (z := (1 / degree)%Qc) in *. clearbody z. split.
  - destruct (Qclt_le_dec z 0) as [C|C]; auto. exfalso. clear -C Z DP. qc_nra.
  - destruct (Qclt_le_dec 1 z) as [C|C]; auto. exfalso. clear -C Z D1. qc_nra.
Qed.
Lemma avg_nonneg U D k : averages degree d U D -> (0 <= U k)%Qc /\ (0 <= D k)%Qc.
Proof.
  intros AV. destruct (averages_unique degree d _ _ _ _ AV (averages_seq degree d D1) k) as [-> ->]. destruct al_range.
  split; apply seq_nonneg; auto; intros; apply pos_nonneg.
Qed.
Theorem rsi_value : exists U D, averages degree d U D /\ forall k, (k < length d)%nat ->
  exists v, at_point k = Ok (Some (Fin v)) /\ (0 <= v)%Qc /\ (v <= QcofZ 100)%Qc /\
    (v * (U k + D k) = QcofZ 100 * U k)%Qc /\ (D k = 0%Qc -> v = QcofZ 100).
Proof.
  exists (ema_seq (1 / degree) (gain d)), (ema_seq (1 / degree) (loss d)). pose proof (averages_seq degree d D1) as AV. split; [exact AV|].
  intros k L. eexists. split; [apply (rated_value degree s st d k fuel D1 H EV L Lf)|].
  destruct (avg_nonneg _ _ k AV) as [P Q]. split; [now apply index_range|]. split; [now apply index_range|].
  split; [now apply index_mul|]. intros ->. apply index_still.
Qed.
(** nothing was lost so far *)
Theorem rsi_rises k : (k < length d)%nat -> (forall j, (S j <= k)%nat -> (at_y d j <= at_y d (S j))%Qc) -> at_point k = Ok (Some (Fin (QcofZ 100))).
Proof.
  intros L R. rewrite (rated_value degree s st d k fuel D1 H EV L Lf). do 3 f_equal.
  assert (E : forall j, (j <= k)%nat -> ema_seq (1 / degree) (loss d) j = 0%Qc).
  { induction j as [|j IH]; intros Lj.
    - reflexivity.
    - cbn [ema_seq]. rewrite IH by lia. assert (Z : loss d (S j) = 0%Qc).
      { unfold loss. apply pos_down. cbn [slope]. pose proof (gap s d EV j ltac:(lia)) as GP. pose proof min_step_pos as M.
        specialize (R j Lj). set (w := (at_x d (S j) - at_x d j)%Qc) in *. assert (W : (0 < w)%Qc) by (clear -GP M; qc_lra).
        assert (Y : ((at_y d (S j) - at_y d j) / w * w = at_y d (S j) - at_y d j)%Qc) by (field; intros X; rewrite X in W; discriminate).
        set (z := ((at_y d (S j) - at_y d j) / w)%Qc) in *. clearbody z w. destruct (Qclt_le_dec z 0) as [C|C]; [|clear -C; qc_lra].
        exfalso. clear -C W Y R. qc_nra. }
      rewrite Z. ring. }
  rewrite (E k (le_n k)). apply index_still.
Qed.
(** it only fell *)
Theorem rsi_falls k : (k < length d)%nat -> (0 < k)%nat -> (forall j, (S j <= k)%nat -> (at_y d (S j) < at_y d j)%Qc) -> at_point k = Ok (Some (Fin 0%Qc)).
Proof.
  intros L P R. rewrite (rated_value degree s st d k fuel D1 H EV L Lf). do 3 f_equal.
  assert (SL : forall j, (S j <= k)%nat -> (slope d (S j) < 0)%Qc).
  { intros j Lj. cbn [slope]. pose proof (gap s d EV j ltac:(lia)) as GP. pose proof min_step_pos as M. specialize (R j Lj).
    set (w := (at_x d (S j) - at_x d j)%Qc) in *. assert (W : (0 < w)%Qc) by (clear -GP M; qc_lra).
    assert (Y : ((at_y d (S j) - at_y d j) / w * w = at_y d (S j) - at_y d j)%Qc) by (field; intros X; rewrite X in W; discriminate).
    set (z := ((at_y d (S j) - at_y d j) / w)%Qc) in *. clearbody z w. destruct (Qclt_le_dec z 0) as [C|C]; [exact C|].
    exfalso. clear -C W Y R. qc_nra. }
  assert (E : forall j, (j <= k)%nat -> ema_seq (1 / degree) (gain d) j = 0%Qc /\ ((0 < j)%nat -> (0 < ema_seq (1 / degree) (loss d) j)%Qc)).
  { induction j as [|j IH]; intros Lj.
    - split; [reflexivity|lia].
    - destruct (IH ltac:(lia)) as [I1 I2]. specialize (SL j Lj). cbn [ema_seq]. split.
      + rewrite I1. assert (Z : gain d (S j) = 0%Qc) by (unfold gain; apply pos_down; now apply Qclt_le_weak). rewrite Z. ring.
      + intros _. assert (Z : loss d (S j) = (- slope d (S j))%Qc) by (unfold loss; apply pos_up; clear -SL; qc_lra). rewrite Z.
        destruct al_range as [A0 A1]. assert (AP : (0 < 1 / degree)%Qc).
        { destruct (Qclt_le_dec 0 (1 / degree)) as [C|C]; auto. exfalso. assert (X : (1 / degree)%Qc = 0%Qc) by now apply Qcle_antisym.
          assert (NZ : degree <> 0%Qc) by (intros Y; rewrite Y in D1; apply D1; reflexivity).
          assert (Y : (1 / degree * degree = 1)%Qc) by (field; exact NZ). rewrite X in Y. discriminate. }
        assert (B : (0 <= ema_seq (1 / degree) (loss d) j)%Qc) by (apply seq_nonneg; auto; intros; apply pos_nonneg).
        set (e := ema_seq (1 / degree) (loss d) j) in *. set (al := (1 / degree)%Qc) in *. set (sl := slope d (S j)) in *. clearbody e al sl.
        replace (e + al * (- sl - e))%Qc with (al * (- sl) + (1 - al) * e)%Qc by ring.
        assert (B1 : (0 < al * (- sl))%Qc) by (clear -AP SL; qc_nra). assert (B2 : (0 <= (1 - al) * e)%Qc) by (clear -A1 B; qc_nra). clear -B1 B2. qc_lra. }
  destruct (E k (le_n k)) as [-> E2]. apply index_falls. auto.
Qed.
Lemma rsi_outside x : i_contains (p_dom s) x = false -> rsi_y (Fin (QcofZ 100)) fuel (p_crv s) st x = (st, Ok None).
Proof.
  intros X. destruct (rated_inv degree s st D1 H) as (d0 & I). pose proof (ri_pts _ _ _ _ I) as P0. rewrite (proj1 EV) in P0.
  assert (d0 = d).
  { assert (Y : firstn (length d0 + length d) d0 = firstn (length d0 + length d) d) by (apply firstn_dots_eq; now rewrite P0).
    rewrite !firstn_all2 in Y by lia. exact Y. }
  subst d0. assert (DP : (0 < degree)%Qc) by (eapply Qclt_le_trans; [|exact D1]; reflexivity).
  destruct (rsi_y _ fuel (p_crv s) st x) as [st' r] eqn:E.
  destruct (rsi_query degree fuel s d st x st' r I DP D1 EV Lf (or_intror X) E) as [_ [(j & Lj & -> & _)|(_ & -> & ->)]]; [|reflexivity].
  exfalso. rewrite (src_dom s d (ri_hist _ _ _ _ I) EV) in X. assert (A := src_asc s d (ri_hist _ _ _ _ I) (proj1 EV)).
  assert (IC : i_contains (pts_domain (dots d)) (Fin (at_x d j)) = true).
  { apply list_dom; [exact A|]. pose proof (nth_error_In _ _ (dots_at d j Lj)) as J.
    exists (at_x d j), (at_x d j), (Some (Fin (at_y d j))), (Some (Fin (at_y d j))). repeat split; auto; apply Qcle_refl. }
  congruence.
Qed.
End Value.
