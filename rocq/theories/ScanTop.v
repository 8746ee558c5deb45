(** The accumulating curves over equally spaced numeric points: what they
    evaluate to, everywhere, after any history. *)
From Coq Require Import List ZArith QArith Qcanon Bool Sorting.Sorted Lia Arith.
From Verif Require Import Base Num NumFacts Interval IntervalFacts Curve BaseFacts.
From Verif Require Import Points PointsSpec PointsIdx PointsQuery PointsDom PointsOps PointsMut PointsReset PointsReplace PointsCover PointsHist PointsTop.
From Verif Require Import PointsDec BaseTop Combine CombineFacts CombineTop CombineLine Scan ScanFacts ScanSource ScanInv ScanTf SmaFacts SmaInv.
Import ListNotations.

(** [f] is the curve through the points [r]: the value at each point, the
    interpolation between neighbours and None outside. *)
Definition blend_at (ip : interp) (r : list (Qc * Qc)) (j : nat) (q : Qc) : Qc :=
  match ip with
  | IPrevious => at_y r j
  | INext => at_y r (S j)
  | ILinear => (at_y r j + (q - at_x r j) / (at_x r (S j) - at_x r j) * (at_y r (S j) - at_y r j))%Qc
  end.
Definition traces (ip : interp) (r : list (Qc * Qc)) (f : xq -> res num) : Prop :=
  (forall k, (k < length r)%nat -> f (Fin (at_x r k)) = Ok (Some (Fin (at_y r k)))) /\
  (forall j q, (S j < length r)%nat -> (at_x r j < q)%Qc -> (q < at_x r (S j))%Qc -> f (Fin q) = Ok (Some (Fin (blend_at ip r j q)))) /\
  (forall q, (forall k, (k < length r)%nat -> (q < at_x r k)%Qc) \/ (forall k, (k < length r)%nat -> (at_x r k < q)%Qc) ->
    f (Fin q) = Ok None).

(** the points of [d] with their values replaced *)
Definition table (d : list (Qc * Qc)) (f : nat -> Qc) : list (Qc * Qc) := map (fun k => (at_x d k, f k)) (seq 0 (length d)).
Lemma table_len d f : length (table d f) = length d.
Proof. unfold table. now rewrite map_length, seq_length. Qed.
Lemma table_nth d f k : (k < length d)%nat -> nth_error (table d f) k = Some (at_x d k, f k).
Proof.
  intros L. unfold table. rewrite nth_error_map.
  assert (E : nth_error (seq 0 (length d)) k = Some k).
  { rewrite (nth_error_nth' _ 0%nat) by now rewrite seq_length. now rewrite seq_nth. }
  now rewrite E.
Qed.
Lemma table_x d f k : (k < length d)%nat -> at_x (table d f) k = at_x d k.
Proof. intros L. unfold at_x at 1. now rewrite (nth_error_nth _ _ _ (table_nth d f k L)). Qed.
Lemma table_y d f k : (k < length d)%nat -> at_y (table d f) k = f k.
Proof. intros L. unfold at_y. now rewrite (nth_error_nth _ _ _ (table_nth d f k L)). Qed.
Lemma table_ext d f g : (forall k, (k < length d)%nat -> f k = g k) -> table d f = table d g.
Proof. intros H. unfold table. apply map_ext_in. intros k K. apply in_seq in K. rewrite H; auto. lia. Qed.
Lemma list_nth {A} (l m : list A) : (forall k, nth_error l k = nth_error m k) -> l = m.
Proof.
  revert m. induction l as [|a l IH]; intros [|b m] H; auto.
  - specialize (H 0%nat). discriminate.
  - specialize (H 0%nat). discriminate.
  - pose proof (H 0%nat) as H0. injection H0 as ->. f_equal. apply IH. intros k. exact (H (S k)).
Qed.
Lemma table_of d r : length r = length d -> (forall k, (k < length d)%nat -> nth_error r k = Some (at_x d k, at_y r k)) ->
  r = table d (at_y r).
Proof.
  intros L H. apply list_nth. intros k. destruct (lt_dec k (length d)) as [C|C].
  - rewrite H by auto. now rewrite table_nth.
  - rewrite (proj2 (nth_error_None r k)), (proj2 (nth_error_None (table d (at_y r)) k)); auto; [rewrite table_len|]; lia.
Qed.


Lemma dots_two r j : (S j < length r)%nat -> exists l1 l2,
  dots r = l1 ++ (Fin (at_x r j), Some (Fin (at_y r j))) :: (Fin (at_x r (S j)), Some (Fin (at_y r (S j)))) :: l2.
Proof.
  intros L. destruct (nth_error_split _ _ (dots_at r j ltac:(lia))) as (l1 & l2 & E & Ln).
  pose proof (dots_at r (S j) L) as N. rewrite E, nth_error_app2 in N by lia. replace (S j - length l1)%nat with 1%nat in N by lia.
  destruct l2 as [|p l2]; [discriminate|]. cbn in N. injection N as ->. eauto.
Qed.

Lemma traces_of ip r c (f : xq -> res num) post : ascending (dots r) ->
  post None = None -> (forall y, post (Some (Fin y)) = Some (Fin (y + c)%Qc)) ->
  (forall q, exists v, f (Fin q) = Ok (post v) /\ value ip (dots r) q v) ->
  traces ip (table r (fun k => at_y r k + c)%Qc) f.
Proof.
  intros AS P0 P1 H.
  assert (U : forall q v, value ip (dots r) q v -> f (Fin q) = Ok (post v)).
  { intros q v X. destruct (H q) as (w & E & Y). rewrite E. do 2 f_equal. eapply value_unique; eauto. }
  split; [|split].
  - intros k L. rewrite table_len in L. rewrite table_x, table_y by auto. rewrite <- P1. apply U.
    apply val_knot. eapply nth_error_In. now apply dots_at.
  - intros j q L Q1 Q2. rewrite table_len in L. rewrite table_x in Q1, Q2 by lia.
    destruct (dots_two r j L) as (l1 & l2 & E). unfold blend_at. rewrite !table_x, !table_y by lia.
    assert (N : (at_x r (S j) - at_x r j)%Qc <> 0%Qc) by (intros Z; clear -Z Q1 Q2; qc_lra).
    destruct ip.
    + rewrite <- P1. apply U. eapply val_before; eauto.
    + rewrite (U q (Some (Fin ((1 - (q - at_x r j) / (at_x r (S j) - at_x r j)) * at_y r j +
        (q - at_x r j) / (at_x r (S j) - at_x r j) * at_y r (S j)))%Qc)).
      * rewrite P1. do 3 f_equal. field. exact N.
      * eapply val_lerp; eauto.
    + rewrite <- P1. apply U. eapply val_after; eauto.
  - intros q O. rewrite <- P0. apply U. change (None : num) with (v_none : num). apply val_outside. rewrite table_len in O.
    destruct O as [O|O]; [left|right]; intros [x v] J; apply dots_in in J as (k & Lk & -> & ->); cbn [fst];
      apply lt_x_fin; specialize (O k Lk); now rewrite table_x in O.
Qed.

(** The source holds exactly the numeric points [d], equally spaced by at
    least the minimum step. *)
Definition evenly (m : Qc) (s : pts xq num) (d : list (Qc * Qc)) : Prop :=
  p_pts s = dots d /\ equally_spaced (dots d) /\ coarse m (dots d).

Section General.
Context (G : list (xq * num) -> xq * num -> num -> num) (P : list (xq * num) -> Prop) (m : Qc) (Hm : (0 < m)%Qc) (ip : interp).
Context (tf : pts xq num -> pts xq num -> xq -> num -> num -> res num) (post : num -> num) (TF : tf_ok G P m ip tf).

Lemma watched_traces c fuel s a d r : post None = None -> (forall y, post (Some (Fin y)) = Some (Fin (y + c)%Qc)) ->
  watched P m ip tf post s a -> evenly m s d -> P (dots d) -> spec G (dots d) = dots r -> (length d < fuel)%nat ->
  traces ip (table d (fun k => at_y r k + c)%Qc) (fun x => snd (acc_y fuel (p_crv s) (Some (Fin m)) (tf s) post a x)).
Proof.
  intros P0 P1 H (D & EQ & CO) PD SP L.
  destruct (watched_inv lerp_total_num lerp_total_num G P m Hm ip tf post TF P0 s a H) as [GS _].
  assert (HS : src P m s) by (unfold src; rewrite D; auto).
  assert (XS : map fst (dots d) = map fst (dots r)) by (rewrite <- SP; symmetry; apply spec_xs).
  assert (LR : length r = length d).
  { apply (f_equal (@length _)) in XS. rewrite !map_length in XS. unfold dots in XS. rewrite !map_length in XS. auto. }
  assert (AX : forall k, (k < length d)%nat -> at_x r k = at_x d k).
  { intros k Lk. apply (f_equal (fun l => nth_error l k)) in XS. rewrite !nth_error_map, !dots_at in XS by lia. cbn in XS. congruence. }
  assert (ET : table d (fun k => at_y r k + c)%Qc = table r (fun k => at_y r k + c)%Qc).
  { apply list_nth. intros k. destruct (lt_dec k (length d)) as [C|C].
    - rewrite !table_nth by lia. now rewrite AX.
    - rewrite !(proj2 (nth_error_None _ _)); auto; rewrite table_len; lia. }
  rewrite ET. apply traces_of with (post := post); auto.
  - eapply ascending_xs; [exact XS|]. rewrite <- D. apply GS.
  - intros q. destruct (watched_value lerp_total_num lerp_total_num G P m Hm ip tf post TF P0 fuel s a q H HS) as (a' & v & E & VV).
    + rewrite D, dots_len. exact L.
    + exists v. rewrite E. split; [reflexivity|]. rewrite D, SP in VV. exact VV.
Qed.
End General.

Lemma at_y_nth r k x y : nth_error r k = Some (x, y) -> at_y r k = y.
Proof. intros H. unfold at_y. now rewrite (nth_error_nth _ _ _ H). Qed.

(** ** Integral: curve.integral(const, interpolation) *)
(** a source and an integral of it, after any history *)
Definition integral_of (half : Qc) (ip : interp) (const m : Qc) : pts xq num -> acc xq num -> Prop :=
  watched integral_src m ILinear (fun s => integral_scan (Fin half) ip (p_y s)) (integral_post (Fin const)).
Definition integral_y (half : Qc) (ip : interp) (const m : Qc) (fuel : nat) (s : pts xq num) (a : acc xq num) (x : xq) : acc xq num * res num :=
  acc_y fuel (p_crv s) (Some (Fin m)) (integral_scan (Fin half) ip (p_y s)) (integral_post (Fin const)) a x.

Lemma integral_traces half ip const m fuel s a d : (half + half = 1)%Qc -> (min_step <= m)%Qc ->
  integral_of half ip const m s a -> evenly m s d -> (length d < fuel)%nat ->
  traces ILinear (table d (fun k => area_sum ip d 0 k + const)%Qc) (fun x => snd (integral_y half ip const m fuel s a x)).
Proof.
  intros Hh Hm H EV L.
  assert (M0 : (0 < m)%Qc) by (eapply Qclt_le_trans; [|exact Hm]; reflexivity).
  pose proof (watched_traces _ _ m M0 ILinear _ (integral_post (Fin const)) (integral_tf_ok half ip m Hh M0) const fuel s a d (areas ip d)
    eq_refl (fun y => eq_refl) H EV) as X.
  rewrite (table_ext d _ (fun k => area_sum ip d 0 k + const)%Qc) in X.
  - apply X; auto; [|apply spec_areas]. split; [now exists d|]. intros i x y vx vy A B. eapply Qcle_trans; [exact Hm|]. eapply EV; eauto.
  - intros k Lk. now rewrite (at_y_nth _ _ _ _ (areas_nth ip d k Lk)).
Qed.

(** ** EMA: curve.ema(degree, is_period, init) *)
Definition ema_of (deg : ema_degree xq) (init : option (xq -> res num)) (m : Qc) : pts xq num -> acc xq num -> Prop :=
  watched numeric m ILinear (fun s _ => ema_scan deg init (fun x => p_x_previous s x (Some (Fin m)) None)) (fun v => v).
Definition ema_y (deg : ema_degree xq) (init : option (xq -> res num)) (m : Qc) (fuel : nat) (s : pts xq num) (a : acc xq num) (x : xq) : acc xq num * res num :=
  acc_y fuel (p_crv s) (Some (Fin m)) (fun _ => ema_scan deg init (fun x => p_x_previous s x (Some (Fin m)) None)) (fun v => v) a x.

Lemma smooth_len wt d : forall x e, length (smooth wt x e d) = length d.
Proof. induction d; intros; cbn; auto. Qed.
Lemma smooth_nth wt d : forall x e k, (k < length d)%nat ->
  let r := smooth wt x e d in
  at_y r k = ((match k with O => e | S j => at_y r j end) +
    wt (match k with O => x | S j => at_x d j end) (at_x d k) * (at_y d k - match k with O => e | S j => at_y r j end))%Qc.
Proof.
  induction d as [|p d IH]; intros x e k L; [cbn in L; lia|]. destruct k as [|k]; [reflexivity|].
  cbn [length] in L. specialize (IH (fst p) (e + wt x (fst p) * (snd p - e))%Qc k ltac:(lia)). cbn zeta in *. cbn [smooth].
  destruct k; exact IH.
Qed.

Lemma ema_traces deg init wt first m fuel s a d : (0 < m)%Qc -> weight_of deg wt -> first_of init first ->
  ema_of deg init m s a -> evenly m s d -> (length d < fuel)%nat ->
  exists E, traces ILinear (table d E) (fun x => snd (ema_y deg init m fuel s a x)) /\
    ((0 < length d)%nat -> E 0%nat = first (at_x d 0) (at_y d 0)) /\
    (forall k, (S k < length d)%nat -> E (S k) = (E k + wt (at_x d k) (at_x d (S k)) * (at_y d (S k) - E k))%Qc).
Proof.
  intros Hm HW HF H EV L. set (r := smoothed wt first d). exists (at_y r).
  pose proof (watched_traces _ _ m Hm ILinear _ (fun v => v) (ema_tf_ok deg init wt first m ILinear Hm HW HF) 0%Qc fuel s a d r
    eq_refl) as X.
  split.
  - rewrite (table_ext d _ (fun k => at_y r k + 0)%Qc) by (intros; ring). apply X; auto.
    + intros y. do 2 f_equal. ring.
    + now exists d.
    + apply spec_smoothed.
  - unfold r. destruct d as [|p d]; [split; [cbn; lia|intros k; cbn; lia]|]. split; [reflexivity|]. intros k Lk. cbn [smoothed].
    cbn [length] in Lk. pose proof (smooth_nth wt d (fst p) (first (fst p) (snd p)) k ltac:(lia)) as N. cbn zeta in N.
    destruct k; exact N.
Qed.

Lemma recurrence_within lo hi d (E wt : nat -> Qc) n : (n < length d)%nat -> (forall k, (k <= n)%nat -> (lo <= at_y d k <= hi)%Qc) ->
  (lo <= E 0%nat <= hi)%Qc -> (forall k, (k < n)%nat -> (0 <= wt k)%Qc /\ (wt k <= 1)%Qc) ->
  (forall k, (S k < length d)%nat -> E (S k) = (E k + wt k * (at_y d (S k) - E k))%Qc) -> (lo <= E n <= hi)%Qc.
Proof.
  intros L B B0 W R. induction n as [|n IH]; auto. rewrite R by auto.
  replace (E n + wt n * (at_y d (S n) - E n))%Qc with (wt n * at_y d (S n) + (1 - wt n) * E n)%Qc by ring.
  destruct (W n ltac:(lia)). apply mix_bounds; auto. apply IH; auto; try lia.
Qed.

(** between points the trace stays between its neighbours *)
Lemma blend_within lo hi ip r j q : (at_x r j < q)%Qc -> (q < at_x r (S j))%Qc ->
  (lo <= at_y r j <= hi)%Qc -> (lo <= at_y r (S j) <= hi)%Qc -> (lo <= blend_at ip r j q <= hi)%Qc.
Proof.
  intros Q1 Q2 A B. destruct ip; auto. cbn [blend_at].
  assert (N : (at_x r (S j) - at_x r j)%Qc <> 0%Qc) by (intros Z; clear -Z Q1 Q2; qc_lra).
  set (u := ((q - at_x r j) / (at_x r (S j) - at_x r j))%Qc).
  assert (EU : (u * (at_x r (S j) - at_x r j) = q - at_x r j)%Qc) by (unfold u; field; exact N).
  replace (at_y r j + u * (at_y r (S j) - at_y r j))%Qc with (u * at_y r (S j) + (1 - u) * at_y r j)%Qc by ring.
  clearbody u. apply mix_bounds; auto.
  - destruct (Qclt_le_dec u 0) as [C|C]; auto. exfalso. clear -EU C Q1 Q2. qc_nra.
  - destruct (Qclt_le_dec 1 u) as [C|C]; auto. exfalso. clear -EU C Q1 Q2. qc_nra.
Qed.

Lemma table_even h d f : even h d -> even h (table d f).
Proof. intros [H0 H]. split; auto. intros k L. rewrite table_len in L. rewrite !table_x by lia. now apply H. Qed.
Lemma traces_within lo hi ip r h f q y : traces ip r f -> even h r -> (forall k, (k < length r)%nat -> (lo <= at_y r k <= hi)%Qc) ->
  f (Fin q) = Ok (Some (Fin y)) -> (lo <= y <= hi)%Qc.
Proof.
  intros (T1 & T2 & T3) EV B E.
  assert (O : forall q, (forall k, (k < length r)%nat -> (q < at_x r k)%Qc) \/ (forall k, (k < length r)%nat -> (at_x r k < q)%Qc) ->
    f (Fin q) = Ok (Some (Fin y)) -> False) by (intros z Z F; rewrite (T3 z Z) in F; discriminate).
  destruct (length r) as [|n] eqn:L; [exfalso; apply (O q); auto; left; lia|]. rewrite <- L in *.
  destruct (Qclt_le_dec q (at_x r 0)) as [C|C].
  { exfalso. apply (O q); auto. left. intros k Lk. pose proof (even_le h r EV 0 k ltac:(lia) Lk). qc_lra. }
  destruct (Qclt_le_dec (at_x r (length r - 1)) q) as [C'|C'].
  { exfalso. apply (O q); auto. right. intros k Lk. pose proof (even_le h r EV k (length r - 1) ltac:(lia) ltac:(lia)). qc_lra. }
  destruct (between h r q EV ltac:(lia) C C') as [(k & Lk & ->)|(j & Lj & Q1 & Q2)].
  - rewrite T1 in E by auto. injection E as <-. auto.
  - rewrite (T2 j q Lj Q1 Q2) in E. injection E as <-. apply blend_within; auto. apply B. lia.
Qed.

(** for a weight between 0 and 1 the EMA stays inside the range of the data so far *)
Lemma ema_within al m fuel s a d lo hi k : (0 < m)%Qc -> (0 <= al)%Qc -> (al <= 1)%Qc ->
  ema_of (EmaAlpha (Fin al)) None m s a -> evenly m s d -> (length d < fuel)%nat -> (k < length d)%nat ->
  (forall j, (j <= k)%nat -> (lo <= at_y d j <= hi)%Qc) ->
  exists y, snd (ema_y (EmaAlpha (Fin al)) None m fuel s a (Fin (at_x d k))) = Ok (Some (Fin y)) /\ (lo <= y <= hi)%Qc.
Proof.
  intros Hm A0 A1 H EV L Lk B.
  destruct (ema_traces (EmaAlpha (Fin al)) None (fun _ _ => al) (fun _ y => y) m fuel s a d Hm) as (E & T & E0 & E1); auto.
  - exists al. auto.
  - intros x y. reflexivity.
  - exists (E k). split.
    + destruct T as [T _]. rewrite table_len in T. specialize (T k Lk). now rewrite table_x, table_y in T.
    + apply recurrence_within with (d := d) (wt := fun _ => al); auto. rewrite E0 by lia. apply B. lia.
Qed.
Lemma ema_between al m fuel s a d lo hi q y : (0 < m)%Qc -> (0 <= al)%Qc -> (al <= 1)%Qc ->
  ema_of (EmaAlpha (Fin al)) None m s a -> evenly m s d -> (length d < fuel)%nat -> within lo hi d ->
  snd (ema_y (EmaAlpha (Fin al)) None m fuel s a (Fin q)) = Ok (Some (Fin y)) -> (lo <= y <= hi)%Qc.
Proof.
  intros Hm A0 A1 H EV L W Y. destruct (even_of d (proj1 (proj2 EV))) as [h HE].
  destruct (ema_traces (EmaAlpha (Fin al)) None (fun _ _ => al) (fun _ y => y) m fuel s a d Hm) as (E & T & E0 & E1); auto.
  - exists al. auto.
  - intros x z. reflexivity.
  - eapply traces_within; [exact T|apply table_even; exact HE| |exact Y].
    intros k Lk. rewrite table_len in Lk. rewrite table_y by auto.
    assert (P : forall j, (j < length d)%nat -> (lo <= at_y d j <= hi)%Qc) by (intros j Lj; apply (within_pt lo hi d j W Lj)).
    apply recurrence_within with (d := d) (wt := fun _ => al); auto.
    + intros j Lj. apply P. lia.
    + rewrite E0 by lia. apply P. lia.
Qed.
Lemma ema_constant deg c m fuel s a d k : (0 < m)%Qc -> (exists wt, weight_of deg wt) ->
  ema_of deg None m s a -> evenly m s d -> (length d < fuel)%nat -> (k < length d)%nat ->
  (forall j, (j <= k)%nat -> at_y d j = c) -> snd (ema_y deg None m fuel s a (Fin (at_x d k))) = Ok (Some (Fin c)).
Proof.
  intros Hm (wt & HW) H EV L Lk C.
  destruct (ema_traces deg None wt (fun _ y => y) m fuel s a d Hm HW (fun x y => eq_refl) H EV L) as (E & T & E0 & E1).
  assert (Q : forall j, (j <= k)%nat -> E j = c).
  { induction j as [|j IH]; intros Lj; [rewrite E0 by lia; apply C; lia|]. rewrite E1, IH, C by lia. ring. }
  destruct T as [T _]. rewrite table_len in T. specialize (T k Lk). rewrite table_x, table_y in T by auto. now rewrite Q in T by lia.
Qed.

(** ** Trailing windows: curve.trailing_min, curve.trailing_max, curve.accumulator_map *)
Definition trailing_of (deg : map_degree xq) (tfm : xq -> list num -> res num) (ip : interp) (n : nat) (m : Qc) : pts xq num -> acc xq num -> Prop :=
  watched numeric m ip (map_tf deg tfm n m) (fun v => v).
Definition trailing_y (deg : map_degree xq) (tfm : xq -> list num -> res num) (n : nat) (m : Qc) (fuel : nat) (s : pts xq num) (a : acc xq num) (x : xq) : acc xq num * res num :=
  acc_y fuel (p_crv s) (Some (Fin m)) (map_tf deg tfm n m s) (fun v => v) a x.

Lemma trailing_traces deg tfm win g ip n m fuel s a d : (0 < m)%Qc -> window_of deg win -> computes tfm g ->
  trailing_of deg tfm ip n m s a -> evenly m s d -> (length d < fuel)%nat ->
  traces ip (table d (fun k => g (at_x d k) (win (firstn k d) (pt d k)))) (fun x => snd (trailing_y deg tfm n m fuel s a x)).
Proof.
  intros Hm HW HC H EV L.
  pose proof (watched_traces _ _ m Hm ip _ (fun v => v) (map_tf_ok deg tfm win g m ip n Hm HW HC) 0%Qc fuel s a d (mapped win g [] d)
    eq_refl) as X.
  rewrite (table_ext d _ (fun k => at_y (mapped win g [] d) k + 0)%Qc).
  - apply X; auto.
    + intros y. do 2 f_equal. ring.
    + now exists d.
    + apply spec_mapped.
  - intros k Lk. pose proof (at_nth d k Lk) as N. pose proof (mapped_nth win g d [] k _ N) as Q. cbn [fst app] in Q.
    rewrite (at_y_nth _ _ _ _ Q). assert (E : (at_x d k, at_y d k) = pt d k) by (unfold at_x, at_y, pt; now destruct (nth k d _)).
    rewrite E. ring.
Qed.

Lemma upto_nth d k : (k < length d)%nat -> firstn k d ++ [pt d k] = firstn (S k) d.
Proof. intros L. symmetry. apply firstn_snoc. rewrite (at_nth d k L). unfold at_x, at_y, pt. now destruct (nth k d _). Qed.
Lemma firstn_at (d : list (Qc * Qc)) k j : (j < k)%nat -> (k <= length d)%nat -> nth_error (firstn k d) j = Some (at_x d j, at_y d j).
Proof.
  intros Lj L. rewrite <- (at_nth d j ltac:(lia)). rewrite <- (firstn_skipn k d) at 2. rewrite nth_error_app1; auto.
  rewrite firstn_length. lia.
Qed.
Lemma firstn_in (d : list (Qc * Qc)) k p : (k <= length d)%nat -> In p (firstn k d) -> exists j, (j < k)%nat /\ p = (at_x d j, at_y d j).
Proof.
  intros L J. apply In_nth_error in J as [j J]. assert (Lj : (j < length (firstn k d))%nat) by (apply nth_error_Some; congruence).
  rewrite firstn_length in Lj. exists j. split; [lia|]. rewrite firstn_at in J by lia. congruence.
Qed.
(** the last n values: those of the points j with k - n < j <= k *)
Lemma degree_window n d k y : (k < length d)%nat ->
  In y (win_degree n (firstn k d) (pt d k)) <-> exists j, (j <= k)%nat /\ (k < j + n)%nat /\ at_y d j = y.
Proof.
  intros L. unfold win_degree. rewrite (upto_nth d k L), firstn_rev, <- in_rev.
  set (l := firstn (S k) d). assert (Ll : length l = S k) by (unfold l; rewrite firstn_length; lia). rewrite map_length, Ll. split.
  - intros J. apply In_nth_error in J as [i J]. rewrite nth_error_skip, nth_error_map in J.
    destruct (nth_error l (S k - n + i)) as [p|] eqn:E; [|discriminate]. cbn in J. injection J as <-.
    assert (Li : (S k - n + i < length l)%nat) by (apply nth_error_Some; congruence).
    unfold l in E. rewrite firstn_at in E by lia. injection E as <-. exists (S k - n + i)%nat. split; [lia|]. split; [lia|reflexivity].
  - intros (j & J1 & J2 & <-). apply nth_error_In with (j - (S k - n))%nat. rewrite nth_error_skip, nth_error_map.
    replace (S k - n + (j - (S k - n)))%nat with j by lia. unfold l. rewrite firstn_at by lia. reflexivity.
Qed.
(** the values of the points up to k no further than w before it *)
Lemma period_window w d k y : (k < length d)%nat ->
  In y (win_period w (firstn k d) (pt d k)) <-> exists j, (j <= k)%nat /\ (at_x d k - w <= at_x d j)%Qc /\ at_y d j = y.
Proof.
  intros L. unfold win_period. rewrite (upto_nth d k L), in_map_iff. split.
  - intros (p & <- & J). rewrite <- in_rev, filter_In in J. destruct J as [J C]. apply Qcleb_true in C.
    apply firstn_in in J as (j & Lj & ->); [|lia]. exists j. cbn in *. split; [lia|auto].
  - intros (j & J1 & J2 & <-). exists (at_x d j, at_y d j). split; [reflexivity|]. rewrite <- in_rev, filter_In. split.
    + apply nth_error_In with j. apply firstn_at; lia.
    + apply Qcleb_true. exact J2.
Qed.

(** [M] is the greatest (or, for [le] reversed, the least) of the values satisfying [W] *)
Definition greatest (W : Qc -> Prop) (M : Qc) : Prop := W M /\ forall y, W y -> (y <= M)%Qc.
Definition least (W : Qc -> Prop) (M : Qc) : Prop := W M /\ forall y, W y -> (M <= y)%Qc.
(** the values a trailing window at the k-th point consists of *)
Definition in_window (deg : map_degree xq) (d : list (Qc * Qc)) (k : nat) (y : Qc) : Prop :=
  exists j, (j <= k)%nat /\ at_y d j = y /\
    match deg with
    | MapDegree n => (Z.of_nat k < Z.of_nat j + n)%Z
    | MapPeriod (Fin w) => (at_x d k - w <= at_x d j)%Qc
    | MapPeriod _ => False
    end.
Definition degree_positive (deg : map_degree xq) : Prop :=
  match deg with MapDegree n => (1 <= n)%Z | MapPeriod p => exists w, p = Fin w /\ (0 < w)%Qc end.
Lemma window_exists deg : degree_positive deg -> exists win, window_of deg win /\
  forall d k y, (k < length d)%nat -> In y (win (firstn k d) (pt d k)) <-> in_window deg d k y.
Proof.
  destruct deg as [p|n]; cbn.
  - intros (w & -> & H). exists (win_period w). split; [exists w; auto|]. intros d k y L. rewrite period_window by auto.
    split; intros (j & A & B & C); exists j; auto.
  - intros H. exists (win_degree (Z.to_nat n)). split; [auto|]. intros d k y L. rewrite degree_window by auto.
    split; intros (j & A & B & C); exists j; repeat split; auto; lia.
Qed.
Lemma window_self deg d k : degree_positive deg -> in_window deg d k (at_y d k).
Proof.
  intros H. exists k. split; [lia|]. split; [auto|]. destruct deg as [p|n]; cbn in H.
  - destruct H as (w & -> & H). qc_lra.
  - lia.
Qed.

Lemma trailing_max_traces deg ip n m fuel s a d : (0 < m)%Qc -> degree_positive deg ->
  trailing_of deg (fun _ => py_max) ip n m s a -> evenly m s d -> (length d < fuel)%nat ->
  exists M, traces ip (table d M) (fun x => snd (trailing_y deg (fun _ => py_max) n m fuel s a x)) /\
    forall k, (k < length d)%nat -> greatest (in_window deg d k) (M k).
Proof.
  intros Hm HD H EV L. destruct (window_exists deg HD) as (win & HW & IW).
  eexists. split; [exact (trailing_traces deg _ win _ ip n m fuel s a d Hm HW max_computes H EV L)|].
  intros k Lk. cbn beta. assert (N : win (firstn k d) (pt d k) <> []).
  { intros C. pose proof (proj2 (IW d k (at_y d k) Lk) (window_self deg d k HD)) as J. rewrite C in J. exact J. }
  destruct (best_max _ N) as [B1 B2]. split; [now apply IW|]. intros y Y. apply B2. now apply IW.
Qed.
Lemma trailing_min_traces deg ip n m fuel s a d : (0 < m)%Qc -> degree_positive deg ->
  trailing_of deg (fun _ => py_min) ip n m s a -> evenly m s d -> (length d < fuel)%nat ->
  exists M, traces ip (table d M) (fun x => snd (trailing_y deg (fun _ => py_min) n m fuel s a x)) /\
    forall k, (k < length d)%nat -> least (in_window deg d k) (M k).
Proof.
  intros Hm HD H EV L. destruct (window_exists deg HD) as (win & HW & IW).
  eexists. split; [exact (trailing_traces deg _ win _ ip n m fuel s a d Hm HW min_computes H EV L)|].
  intros k Lk. cbn beta. assert (N : win (firstn k d) (pt d k) <> []).
  { intros C. pose proof (proj2 (IW d k (at_y d k) Lk) (window_self deg d k HD)) as J. rewrite C in J. exact J. }
  destruct (best_min _ N) as [B1 B2]. split; [now apply IW|]. intros y Y. apply B2. now apply IW.
Qed.

(** ** SMA: curve.sma(degree, is_period) *)
Definition sma_value (half m : Qc) (deg : sma_degree xq) (fuel : nat) (s : pts xq num) (a : acc xq num) (x : xq) : acc xq num * res num :=
  sma_y 2 fuel (Fin half) (p_crv s) (Some (Fin m)) deg a x.

Lemma evenly_source half m deg s a d : (half + half = 1)%Qc -> (min_step <= m)%Qc -> degree_ok m deg ->
  averaged half m deg s a -> evenly m s d -> source m s d.
Proof.
  intros Hh Hm DO H (D & EQ & CO).
  assert (M0 : (0 < m)%Qc) by (eapply Qclt_le_trans; [|exact Hm]; reflexivity).
  destruct (averaged_inv half m Hh M0 deg s a DO H) as [GS _]. split; [auto|]. split; [auto|]. split; [auto|]. split; [auto|].
  intros i x y vx vy A B. eapply Qcle_trans; [exact Hm|]. eapply CO; eauto.
Qed.

(** at the k-th point the SMA of degree n is the area of the last n - 1
    trapezoids over their width: the mean of the last n values with half
    weight on the two outermost ones *)
Lemma sma_degree_knot half m n fuel s a d k : (half + half = 1)%Qc -> (min_step <= m)%Qc -> (2 <= n)%nat ->
  averaged half m (SmaDegree n) s a -> evenly m s d -> (n - 1 <= k)%nat -> (k < length d)%nat -> (length d < fuel)%nat ->
  snd (sma_value half m (SmaDegree n) fuel s a (Fin (at_x d k))) =
  Ok (Some (Fin (area_sum ILinear d (k - (n - 1)) (n - 1) / (at_x d k - at_x d (k - (n - 1))))%Qc)).
Proof.
  intros Hh Hm Hn H EV L0 L Lf.
  assert (M0 : (0 < m)%Qc) by (eapply Qclt_le_trans; [|exact Hm]; reflexivity).
  assert (DO : degree_ok m (SmaDegree n)) by (cbn; lia).
  pose proof (evenly_source half m (SmaDegree n) s a d Hh Hm DO H EV) as HS.
  unfold sma_value. rewrite (averaged_knot half m Hh M0 (SmaDegree n) 1 fuel s d a k DO H HS) by (auto; cbn; lia).
  unfold average. cbn [window]. replace (k - (n - 1) =? k)%nat with false by (symmetry; apply Nat.eqb_neq; lia).
  replace (k - (k - (n - 1)))%nat with (n - 1)%nat by lia. reflexivity.
Qed.
Lemma sma_degree_one half m fuel s a d k : (half + half = 1)%Qc -> (min_step <= m)%Qc ->
  averaged half m (SmaDegree 1) s a -> evenly m s d -> (k < length d)%nat -> (length d < fuel)%nat ->
  snd (sma_value half m (SmaDegree 1) fuel s a (Fin (at_x d k))) = Ok (Some (Fin (at_y d k))).
Proof.
  intros Hh Hm H EV L Lf.
  assert (M0 : (0 < m)%Qc) by (eapply Qclt_le_trans; [|exact Hm]; reflexivity).
  assert (DO : degree_ok m (SmaDegree 1)) by (cbn; lia).
  pose proof (evenly_source half m (SmaDegree 1) s a d Hh Hm DO H EV) as HS.
  unfold sma_value. rewrite (averaged_knot half m Hh M0 (SmaDegree 1) 1 fuel s d a k DO H HS) by (auto; cbn; lia).
  unfold average. cbn [window]. replace (k - (1 - 1))%nat with k by lia. now rewrite Nat.eqb_refl.
Qed.
(** the trapezoids of equally spaced points, as a sum of values *)
Fixpoint total (d : list (Qc * Qc)) (i n : nat) : Qc :=
  match n with O => 0%Qc | S n' => (total d i n' + at_y d (i + n'))%Qc end.
Lemma area_total h d i n : even h d -> (i + n < length d)%nat ->
  area_sum ILinear d i n = (h * (total d i (S n) - (at_y d i + at_y d (i + n)) / (1 + 1)))%Qc.
Proof.
  intros EV L. induction n as [|n IH].
  - cbn [area_sum total]. rewrite Nat.add_0_r. field; discriminate.
  - cbn [area_sum]. rewrite IH by lia. clear IH.
    change (total d i (S (S n))) with (total d i (S n) + at_y d (i + S n))%Qc.
    unfold area. change (fst (pt d ?k)) with (at_x d k). change (snd (pt d ?k)) with (at_y d k).
    replace (i + S n)%nat with (S (i + n)) by lia. rewrite (proj2 EV (i + n)%nat) by lia. field; discriminate.
Qed.
Lemma QcofZ_nz z : (0 < z)%Z -> QcofZ z <> 0%Qc.
Proof. intros H C. apply QcofZ_lt in H. rewrite C, QcofZ_0 in H. apply Qclt_not_eq in H. congruence. Qed.
Lemma sma_degree_weights half m n fuel s a d k : (half + half = 1)%Qc -> (min_step <= m)%Qc -> (2 <= n)%nat ->
  averaged half m (SmaDegree n) s a -> evenly m s d -> (n - 1 <= k)%nat -> (k < length d)%nat -> (length d < fuel)%nat ->
  exists y, snd (sma_value half m (SmaDegree n) fuel s a (Fin (at_x d k))) = Ok (Some (Fin y)) /\
  (y * QcofZ (Z.of_nat (n - 1)) = total d (k - (n - 1)) n - (at_y d (k - (n - 1)) + at_y d k) / (1 + 1))%Qc.
Proof.
  intros Hh Hm Hn H EV L0 L Lf. eexists. split; [now apply sma_degree_knot|].
  destruct (even_of d (proj1 (proj2 EV))) as [h HE]. set (i := (k - (n - 1))%nat).
  assert (K : k = (i + (n - 1))%nat) by lia. assert (N : n = S (n - 1)) by lia.
  rewrite (area_total h d i (n - 1) HE) by lia. rewrite <- N, <- K.
  assert (W : (at_x d k - at_x d i = h * QcofZ (Z.of_nat (n - 1)))%Qc).
  { assert (G : forall j, (i + j < length d)%nat -> (at_x d (i + j) - at_x d i = h * QcofZ (Z.of_nat j))%Qc).
    { induction j as [|j IH]; intros Lj; [rewrite Nat.add_0_r; change (Z.of_nat 0) with 0%Z; rewrite QcofZ_0; ring|].
      rewrite Nat.add_succ_r, (proj2 HE) by lia. rewrite Nat2Z.inj_succ, <- Z.add_1_r, QcofZ_add, QcofZ_1.
      specialize (IH ltac:(lia)). rewrite Qcmult_plus_distr_r, <- IH. ring. }
    rewrite K. apply G. lia. }
  rewrite W. assert (NZ : QcofZ (Z.of_nat (n - 1)) <> 0%Qc).
  { apply QcofZ_nz. lia. }
  pose proof (proj1 HE) as H0. field. split; [discriminate|]. split; auto. intros C. clear -C H0. subst h. qc_lra.
Qed.
(** so it is the arithmetic mean exactly when the outermost two values average to the mean *)
Lemma sma_mean half m n fuel s a d k : (half + half = 1)%Qc -> (min_step <= m)%Qc -> (2 <= n)%nat ->
  averaged half m (SmaDegree n) s a -> evenly m s d -> (n - 1 <= k)%nat -> (k < length d)%nat -> (length d < fuel)%nat ->
  let mean := (total d (k - (n - 1)) n / QcofZ (Z.of_nat n))%Qc in
  snd (sma_value half m (SmaDegree n) fuel s a (Fin (at_x d k))) = Ok (Some (Fin mean)) <->
  (at_y d (k - (n - 1)) + at_y d k = (1 + 1) * mean)%Qc.
Proof.
  intros Hh Hm Hn H EV L0 L Lf mean. destruct (sma_degree_weights half m n fuel s a d k) as (y & E & W); auto. rewrite E.
  assert (NZ : QcofZ (Z.of_nat n) <> 0%Qc). { apply QcofZ_nz. lia. }
  assert (NZ1 : QcofZ (Z.of_nat (n - 1)) <> 0%Qc). { apply QcofZ_nz. lia. }
  assert (NE : QcofZ (Z.of_nat n) = (QcofZ (Z.of_nat (n - 1)) + 1)%Qc).
  { rewrite <- QcofZ_1, <- QcofZ_add. f_equal. lia. }
  assert (TM : total d (k - (n - 1)) n = (mean * QcofZ (Z.of_nat n))%Qc) by (unfold mean; field; auto).
  rewrite TM, NE in W. set (N := QcofZ (Z.of_nat (n - 1))) in *. set (b := (at_y d (k - (n - 1)) + at_y d k)%Qc) in *.
  assert (T2 : ((1 + 1) <> 0)%Qc) by discriminate.
  assert (W2 : ((y - mean) * N * (1 + 1) = (1 + 1) * mean - b)%Qc).
  { replace ((y - mean) * N * (1 + 1))%Qc with ((y * N - mean * N) * (1 + 1))%Qc by ring. rewrite W. field; auto. }
  split.
  - intros [= ->]. replace ((mean - mean) * N * (1 + 1))%Qc with 0%Qc in W2 by ring.
    replace b with ((1 + 1) * mean - 0)%Qc by (rewrite W2; ring). ring.
  - intros B. rewrite B in W2. replace ((1 + 1) * mean - (1 + 1) * mean)%Qc with 0%Qc in W2 by ring.
    do 3 f_equal. apply Qcmult_integral in W2 as [W2|W2]; [|contradiction]. apply Qcmult_integral in W2 as [W2|W2]; [|contradiction].
    replace y with ((y - mean) + mean)%Qc by ring. rewrite W2. ring.
Qed.
(** the values are within the data wherever there are any, and there are some
    exactly between the n-th and the last point *)
Lemma sma_range half m n s d q : (half + half = 1)%Qc -> (min_step <= m)%Qc -> (1 <= n)%nat -> good s -> evenly m s d ->
  exists v, (forall fuel a, averaged half m (SmaDegree n) s a -> (length d < fuel)%nat ->
      snd (sma_value half m (SmaDegree n) fuel s a (Fin q)) = Ok v) /\
    (((n <= length d)%nat /\ (at_x d (n - 1) <= q)%Qc /\ (q <= at_x d (length d - 1))%Qc ->
       exists r, v = Some (Fin r) /\ forall lo hi, within lo hi d -> (lo <= r <= hi)%Qc) /\
     (~ ((n <= length d)%nat /\ (at_x d (n - 1) <= q)%Qc /\ (q <= at_x d (length d - 1))%Qc) -> v = None)).
Proof.
  intros Hh Hm Hn GS EV.
  assert (M0 : (0 < m)%Qc) by (eapply Qclt_le_trans; [|exact Hm]; reflexivity).
  assert (DO : degree_ok m (SmaDegree n)) by (cbn; lia).
  assert (HS : source m s d).
  { destruct EV as (D & EQ & CO). split; [auto|]. split; [auto|]. split; [auto|]. split; [auto|].
    intros i x y vx vy A B. eapply Qcle_trans; [exact Hm|]. eapply CO; eauto. }
  destruct (averaged_value half m Hh M0 (SmaDegree n) s d q DO HS) as (v & V1 & V2). exists v. split.
  { intros fuel a H L. now apply V1. }
  cbn [first_pos] in V2. destruct ((n - 1 <? length d)%nat && Qcleb (at_x d (n - 1)) q && Qcleb q (at_x d (length d - 1))) eqn:C.
  - split; [auto|]. intros X. exfalso. apply X. apply andb_prop in C as [C C3]. apply andb_prop in C as [C1 C2].
    apply Nat.ltb_lt in C1. apply Qcleb_true in C2, C3. split; [lia|auto].
  - split; [|auto]. intros (A1 & A2 & A3). exfalso. apply Qcleb_true in A2, A3.
    replace (n - 1 <? length d)%nat with true in C by (symmetry; apply Nat.ltb_lt; lia). rewrite A2, A3 in C. discriminate.
Qed.

(** ** History independence *)
Section Same.
Context (G : list (xq * num) -> xq * num -> num -> num) (P : list (xq * num) -> Prop) (m : Qc) (Hm : (0 < m)%Qc) (ip : interp).
Context (tf : pts xq num -> pts xq num -> xq -> num -> num -> res num) (post : num -> num) (TF : tf_ok G P m ip tf) (PN : post None = None).
Lemma watched_both fuel fuel' s s' a a' d x : watched P m ip tf post s a -> watched P m ip tf post s' a' ->
  evenly m s d -> evenly m s' d -> P (dots d) -> (length d < fuel)%nat -> (length d < fuel')%nat ->
  snd (acc_y fuel (p_crv s) (Some (Fin m)) (tf s) post a (Fin x)) = snd (acc_y fuel' (p_crv s') (Some (Fin m)) (tf s') post a' (Fin x)).
Proof.
  intros H H' (D & EQ & CO) (D' & _ & CO') PD L L'.
  destruct (watched_inv lerp_total_num lerp_total_num G P m Hm ip tf post TF PN s a H) as [GS _].
  destruct (watched_inv lerp_total_num lerp_total_num G P m Hm ip tf post TF PN s' a' H') as [GS' _].
  assert (HS : src P m s) by (unfold src; rewrite D; auto).
  assert (HS' : src P m s') by (unfold src; rewrite D'; auto).
  destruct (watched_value lerp_total_num lerp_total_num G P m Hm ip tf post TF PN fuel s a x H HS) as (a1 & v & E & X); [now rewrite D, dots_len|].
  destruct (watched_value lerp_total_num lerp_total_num G P m Hm ip tf post TF PN fuel' s' a' x H' HS') as (a2 & w & E' & X'); [now rewrite D', dots_len|].
  rewrite E, E'. cbn. do 2 f_equal. rewrite D in X. rewrite D' in X'. eapply value_unique; eauto.
  eapply ascending_xs; [symmetry; apply spec_xs|]. rewrite <- D. apply GS.
Qed.
End Same.

Lemma area_sum_eq ip d i n : area_sum ip d i 0 = 0%Qc /\
  area_sum ip d i (S n) = (area_sum ip d i n + (at_x d (S (i + n)) - at_x d (i + n)) *
    match ip with
    | IPrevious => at_y d (i + n)
    | ILinear => (at_y d (i + n) + at_y d (S (i + n))) / (1 + 1)
    | INext => at_y d (S (i + n))
    end)%Qc.
Proof. split; [reflexivity|]. now destruct ip. Qed.

(** *** the SMA of a period *)
(** the number of leading points of d within the period of the first one *)
Definition full_from (P m : Qc) (d : list (Qc * Qc)) (k : nat) : Prop :=
  forall j, (k < j)%nat -> (j < length d)%nat -> (at_x d 0 + P - m < at_x d j)%Qc.
Lemma sma_period_knot half m P fuel s a d k : (half + half = 1)%Qc -> (min_step <= m)%Qc -> (m <= P)%Qc ->
  averaged half m (SmaPeriod (Fin P)) s a -> evenly m s d -> (length d < fuel)%nat -> (k < length d)%nat -> full_from P m d k ->
  exists i, (i <= k)%nat /\ (at_x d k - P + m <= at_x d i)%Qc /\ (forall j, (j < i)%nat -> (at_x d j < at_x d k - P + m)%Qc) /\
  snd (sma_value half m (SmaPeriod (Fin P)) fuel s a (Fin (at_x d k))) =
  Ok (Some (Fin (if (i =? k)%nat then at_y d k else area_sum ILinear d i (k - i) / (at_x d k - at_x d i))%Qc)).
Proof.
  intros Hh Hm HP H EV Lf L FF.
  assert (M0 : (0 < m)%Qc) by (eapply Qclt_le_trans; [|exact Hm]; reflexivity).
  assert (DO : degree_ok m (SmaPeriod (Fin P))) by (exists P; auto).
  pose proof (evenly_source half m _ s a d Hh Hm DO H EV) as HS.
  assert (F : (first_pos m (SmaPeriod (Fin P)) d <= k)%nat).
  { cbn [first_pos]. destruct (le_lt_dec (first_gt (at_x d 0 + P - m) d) (S k)) as [C|C]; [lia|]. exfalso.
    pose proof (first_gt_len (at_x d 0 + P - m) d) as FL. pose proof (first_gt_le (at_x d 0 + P - m) d (S k) C) as X.
    specialize (FF (S k) ltac:(lia) ltac:(lia)). qc_lra. }
  pose proof (source_windows m M0 (SmaPeriod (Fin P)) s d DO HS) as HW.
  exists (window m (SmaPeriod (Fin P)) d k). split; [exact (w_le _ _ _ _ _ _ HW k L)|].
  pose proof (w_le _ _ _ _ _ _ HW k L) as WL. cbn [window] in *. split; [apply first_ge_at; lia|].
  split; [intros j Lj; now apply (first_ge_lt (at_x d k - P + m) d j)|].
  unfold sma_value. rewrite (averaged_knot half m Hh M0 _ 1 fuel s d a k DO H HS) by auto. reflexivity.
Qed.

(** *** The same data give the same curve, whatever happened before *)
Lemma min_pos m : (min_step <= m)%Qc -> (0 < m)%Qc.
Proof. intros H. eapply Qclt_le_trans; [|exact H]; reflexivity. Qed.
Lemma integral_src_of m s d : (min_step <= m)%Qc -> evenly m s d -> integral_src (dots d).
Proof.
  intros Hm (_ & _ & CO). split; [now exists d|]. intros i x y vx vy A B. eapply Qcle_trans; [exact Hm|]. eapply CO; eauto.
Qed.
Lemma integral_same half ip const m fuel fuel' s s' a a' d x : (half + half = 1)%Qc -> (min_step <= m)%Qc ->
  integral_of half ip const m s a -> integral_of half ip const m s' a' -> evenly m s d -> evenly m s' d ->
  (length d < fuel)%nat -> (length d < fuel')%nat ->
  snd (integral_y half ip const m fuel s a (Fin x)) = snd (integral_y half ip const m fuel' s' a' (Fin x)).
Proof.
  intros Hh Hm H H' E E' L L'.
  exact (watched_both _ _ m (min_pos m Hm) ILinear _ _ (integral_tf_ok half ip m Hh (min_pos m Hm)) eq_refl fuel fuel' s s' a a' d x
    H H' E E' (integral_src_of m s d Hm E) L L').
Qed.
Lemma ema_same deg init wt first m fuel fuel' s s' a a' d x : (0 < m)%Qc -> weight_of deg wt -> first_of init first ->
  ema_of deg init m s a -> ema_of deg init m s' a' -> evenly m s d -> evenly m s' d ->
  (length d < fuel)%nat -> (length d < fuel')%nat ->
  snd (ema_y deg init m fuel s a (Fin x)) = snd (ema_y deg init m fuel' s' a' (Fin x)).
Proof.
  intros Hm HW HF H H' E E' L L'.
  exact (watched_both _ _ m Hm ILinear _ _ (ema_tf_ok deg init wt first m ILinear Hm HW HF) eq_refl fuel fuel' s s' a a' d x
    H H' E E' (ex_intro _ d eq_refl) L L').
Qed.
Lemma trailing_same deg tfm win g ip n m fuel fuel' s s' a a' d x : (0 < m)%Qc -> window_of deg win -> computes tfm g ->
  trailing_of deg tfm ip n m s a -> trailing_of deg tfm ip n m s' a' -> evenly m s d -> evenly m s' d ->
  (length d < fuel)%nat -> (length d < fuel')%nat ->
  snd (trailing_y deg tfm n m fuel s a (Fin x)) = snd (trailing_y deg tfm n m fuel' s' a' (Fin x)).
Proof.
  intros Hm HW HC H H' E E' L L'.
  exact (watched_both _ _ m Hm ip _ _ (map_tf_ok deg tfm win g m ip n Hm HW HC) eq_refl fuel fuel' s s' a a' d x
    H H' E E' (ex_intro _ d eq_refl) L L').
Qed.
Lemma sma_same half m deg fuel fuel' s a a' d x : (half + half = 1)%Qc -> (min_step <= m)%Qc -> degree_ok m deg ->
  averaged half m deg s a -> averaged half m deg s a' -> evenly m s d -> (length d < fuel)%nat -> (length d < fuel')%nat ->
  snd (sma_value half m deg fuel s a (Fin x)) = snd (sma_value half m deg fuel' s a' (Fin x)).
Proof.
  intros Hh Hm DO H H' E L L'. pose proof (evenly_source half m deg s a d Hh Hm DO H E) as HS.
  destruct (averaged_value half m Hh (min_pos m Hm) deg s d x DO HS) as (v & V & _). unfold sma_value.
  rewrite (V 0%nat fuel a H L), (V 0%nat fuel' a' H' L'). reflexivity.
Qed.

(** *** stepping and notifications, on the integral *)
Section IntegralMore.
Context (half : Qc) (ip : interp) (const m : Qc) (Hh : (half + half = 1)%Qc) (Hm : (min_step <= m)%Qc).
Let TF := integral_tf_ok half ip m Hh (min_pos m Hm).
Lemma integral_good s a : integral_of half ip const m s a -> good s.
Proof. intros H. exact (proj1 (watched_inv lerp_total_num lerp_total_num _ _ m (min_pos m Hm) ILinear _ (integral_post (Fin const)) TF eq_refl s a H)). Qed.
Lemma integral_source s a d : integral_of half ip const m s a -> evenly m s d -> src integral_src m s.
Proof.
  intros H E. pose proof (integral_src_of m s d Hm E). destruct E as (D & EQ & CO). unfold src. rewrite D.
  split; [now apply integral_good with a|auto].
Qed.
Lemma integral_next s a d x ms lim : integral_of half ip const m s a -> evenly m s d -> notnan x -> (ms <= m)%Qc ->
  acc_next (p_crv s) (Some (Fin m)) a x (Some (Fin ms)) lim = p_x_next s x (Some (Fin m)) lim.
Proof.
  intros H E. exact (watched_next lerp_total_num lerp_total_num _ _ m (min_pos m Hm) ILinear _ (integral_post (Fin const)) TF eq_refl
    s a x ms lim H (integral_source s a d H E)).
Qed.
Lemma integral_prev s a d x ms lim : integral_of half ip const m s a -> evenly m s d -> notnan x -> (ms <= m)%Qc ->
  (forall cur, a_cur a = Some cur -> le_x x cur) ->
  acc_prev (p_crv s) (Some (Fin m)) a x (Some (Fin ms)) lim = p_x_previous s x (Some (Fin m)) lim.
Proof.
  intros H E. exact (watched_prev lerp_total_num lerp_total_num _ _ m (min_pos m Hm) ILinear _ (integral_post (Fin const)) TF eq_refl
    s a x ms lim H (integral_source s a d H E)).
Qed.
Lemma integral_events s a o s' evs : integral_of half ip const m s a -> op_ok o -> run_op s o = (s', evs, Ok tt) ->
  (p_uniform s' = true -> equally_spaced (p_pts s')) ->
  exists a', acc_events a evs =
      (a', map (fun e => match e with EvBegin D => EvBegin (update_interval D) | EvEnd D => EvEnd (update_interval D) end) evs, Ok tt) /\
    integral_of half ip const m s' a'.
Proof. exact (watched_events lerp_total_num lerp_total_num _ _ m (min_pos m Hm) ILinear _ (integral_post (Fin const)) TF eq_refl s a o s' evs). Qed.
End IntegralMore.
