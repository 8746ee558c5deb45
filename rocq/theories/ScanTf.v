(** The transforms of Integral, EMA and AccumulatorMap compute the intended
    values point by point. *)
From Coq Require Import List ZArith QArith Qcanon Bool Sorting.Sorted Lia Arith.
From Verif Require Import Base Num NumFacts Interval IntervalFacts Curve BaseFacts.
From Verif Require Import Points PointsSpec PointsIdx PointsQuery PointsDom PointsOps PointsMut PointsReset PointsReplace PointsCover PointsHist PointsTop.
From Verif Require Import PointsDec BaseTop Combine CombineFacts CombineTop CombineLine Scan ScanFacts ScanSource ScanInv.
Import ListNotations.

Notation num := (option xq).
(** numeric data as points of a curve *)
Definition dot (p : Qc * Qc) : xq * num := (Fin (fst p), Some (Fin (snd p))).
Definition dots (d : list (Qc * Qc)) : list (xq * num) := map dot d.
Definition min_step : Qc := Q2Qc (1 # 100000).

Lemma dots_nth d k p : nth_error (dots d) k = Some p -> exists x y, nth_error d k = Some (x, y) /\ p = (Fin x, Some (Fin y)).
Proof.
  unfold dots. rewrite nth_error_map. destruct (nth_error d k) as [[x y]|]; [|discriminate].
  intros [= <-]. exists x, y. auto.
Qed.
Lemma dots_firstn d k : firstn k (dots d) = dots (firstn k d).
Proof. unfold dots. apply firstn_map. Qed.
Lemma dots_last d : last_opt (dots d) = option_map dot (last_opt d).
Proof.
  destruct d as [|p d] using rev_ind; [reflexivity|]. unfold dots. rewrite map_app. cbn [map].
  now rewrite !last_opt_app.
Qed.
Lemma dots_lastv d : lastv v_none (dots d) = option_map (fun p => Fin (snd p)) (last_opt d).
Proof. unfold lastv. rewrite dots_last. destruct (last_opt d); reflexivity. Qed.

Lemma firstn_map_nth {A} (l : list A) k p : nth_error l k = Some p -> (k <= length l)%nat.
Proof. intros H. assert (k < length l)%nat by (apply nth_error_Some; congruence). lia. Qed.

(** the last of the first k points *)
Lemma last_firstn_nth {A} (l : list A) k : (S k <= length l)%nat -> last_opt (firstn (S k) l) = nth_error l k.
Proof.
  intros L. destruct (nth_error l k) as [p|] eqn:E; [|apply nth_error_None in E; lia].
  rewrite (firstn_snoc l k p E). apply last_opt_app.
Qed.

Lemma last_xs {V W} (l : list (xq * V)) (l' : list (xq * W)) : map fst l = map fst l' ->
  option_map fst (last_opt l) = option_map fst (last_opt l').
Proof.
  intros E. rewrite !last_opt_nth, <- !nth_error_map, E.
  apply (f_equal (@length _)) in E. rewrite !map_length in E. now rewrite E.
Qed.

(** ** Integral *)
Section Integral.
(** the area between two neighbouring points *)
Definition area (ip : interp) (p q : Qc * Qc) : Qc :=
  let w := (fst q - fst p)%Qc in
  match ip with
  | ILinear => (w * ((snd p + snd q) / (1 + 1)))%Qc
  | IPrevious => (w * snd p)%Qc
  | INext => (w * snd q)%Qc
  end.
(** running sums of the areas *)
Fixpoint sums (ip : interp) (s : Qc) (p : Qc * Qc) (d : list (Qc * Qc)) : list (Qc * Qc) :=
  match d with
  | [] => []
  | q :: d' => let s := (s + area ip p q)%Qc in (fst q, s) :: sums ip s q d'
  end.
Definition areas (ip : interp) (d : list (Qc * Qc)) : list (Qc * Qc) :=
  match d with [] => [] | p :: d' => (fst p, 0%Qc) :: sums ip 0%Qc p d' end.

Definition integral_G (ip : interp) (pre : list (xq * num)) (p : xq * num) (last : num) : num :=
  match last_opt pre, p, last with
  | Some (Fin a, Some (Fin ya)), (Fin b, Some (Fin yb)), Some (Fin s) => Some (Fin (s + area ip (a, ya) (b, yb))%Qc)
  | _, _, _ => Some (Fin 0%Qc)
  end.

Lemma integral_G_dot ip pre p q s : integral_G ip (pre ++ [dot p]) (dot q) (Some (Fin s)) = Some (Fin (s + area ip p q)%Qc).
Proof. unfold integral_G. rewrite last_opt_app. destruct p, q. reflexivity. Qed.
Lemma acc_sums ip d : forall pre p s, acc_list (integral_G ip) (pre ++ [dot p]) (Some (Fin s)) (dots d) = dots (sums ip s p d).
Proof.
  induction d as [|q d IH]; intros pre p s; [reflexivity|].
  change (dots (q :: d)) with (dot q :: dots d). cbn [acc_list sums]. rewrite integral_G_dot, IH. reflexivity.
Qed.
Lemma spec_areas ip d : spec (integral_G ip) (dots d) = dots (areas ip d).
Proof.
  destruct d as [|p d]; [reflexivity|]. unfold spec. change (dots (p :: d)) with (dot p :: dots d). cbn [acc_list areas].
  change (integral_G ip [] (dot p) v_none) with (Some (Fin 0%Qc)). rewrite (acc_sums ip d [] p 0%Qc). reflexivity.
Qed.

Definition numeric (l : list (xq * num)) : Prop := exists d, l = dots d.
Definition integral_src (l : list (xq * num)) : Prop := numeric l /\ coarse min_step l.

Lemma half_eq (h : Qc) : (h + h = 1)%Qc -> forall z, (z * h = z / (1 + 1))%Qc.
Proof.
  intros H z. assert (T : (1 + 1 <> 0)%Qc) by discriminate.
  transitivity (z * (h + h) / (1 + 1))%Qc; [field; exact T|]. now rewrite H, Qcmult_1_r.
Qed.

Lemma integral_on h ip cy d : (h + h = 1)%Qc -> ascending (dots d) -> coarse min_step (dots d) ->
  (forall p, In p (dots d) -> cy (fst p) = Ok (snd p)) ->
  computes_on (integral_G ip) ILinear (integral_scan (Fin h) ip cy) (dots d).
Proof.
  intros H AD CM CY pa k p N GP IP PP.
  rewrite dots_firstn, spec_areas in PP. rewrite PP, dots_lastv, dots_firstn.
  destruct (dots_nth _ _ _ N) as (b & yb & Nd & ->). cbn [fst snd].
  destruct k as [|j].
  - cbn [firstn areas last_opt rev head_opt option_map integral_scan].
    assert (EP : p_x_previous pa (Fin b) (Some MIN_STEP) None = Ok None).
    { unfold p_x_previous. rewrite (good_nil_dom pa GP PP). reflexivity. }
    rewrite EP. reflexivity.
  - assert (Lj : (S j < length d)%nat) by (apply nth_error_Some; congruence).
    destruct (nth_error d j) as [[a ya]|] eqn:Nj; [|apply nth_error_None in Nj; lia].
    assert (LA : option_map fst (last_opt (areas ip (firstn (S j) d))) = Some a).
    { assert (X : map fst (dots (areas ip (firstn (S j) d))) = map fst (dots (firstn (S j) d))).
      { rewrite <- spec_areas. apply spec_xs. }
      apply last_xs in X. rewrite !dots_last in X. rewrite (last_firstn_nth d j), Nj in X by lia.
      destruct (last_opt (areas ip (firstn (S j) d))) as [[? ?]|]; cbn in *; congruence. }
    destruct (last_opt (areas ip (firstn (S j) d))) as [[a' sm]|] eqn:LL; [|discriminate]. cbn in LA. injection LA as ->.
    cbn [option_map snd integral_scan].
    assert (LT : (a < b)%Qc).
    { apply lt_x_fin. apply (asc_nth (dots d) j (S j) (dot (a, ya)) (dot (b, yb))); [exact AD| | |lia];
        unfold dots; now apply map_nth_error. }
    assert (EP : p_x_previous pa (Fin b) (Some MIN_STEP) None = Ok (Some (Fin a))).
    { apply last_previous with (w := Some (Fin sm)) (m := min_step) (1 := GP).
      - rewrite PP, dots_last, LL. reflexivity.
      - specialize (CM j a b (Some (Fin ya)) (Some (Fin yb))).
        unfold dots in CM. rewrite !nth_error_map, Nj, Nd in CM. specialize (CM eq_refl eq_refl). qc_lra. }
    assert (EY : cy (Fin a) = Ok (Some (Fin ya))).
    { apply (CY (dot (a, ya))). apply in_map. eapply nth_error_In; eauto. }
    change (MIN_STEP : xq) with (Fin min_step) in *. rewrite EP. cbn [rbind]. rewrite EY. cbn [rbind].
    assert (NB : (b - a)%Qc <> 0%Qc) by (intros X; clear -X LT; qc_lra).
    assert (LS : forall y1 y2, line_args None None (Some (Fin a, Fin y1)) (Some (Fin b, Fin y2)) None
      = Ok (mkL (Fin a) (Fin y1) (Fin ((y2 - y1) / (b - a))%Qc))).
    { intros y1 y2. unfold line_args. cbn [n_eqb n_div n_sub XQ xq_eqb xq_sub].
      rewrite (proj2 (Qceqb_false b a)) by (intros ->; apply NB; ring). cbn [negb].
      unfold xq_div. rewrite (proj2 (Qceqb_false _ _) NB). reflexivity. }
    assert (AR : forall y1 y2, line_partial_integration (Fin h) (mkL (Fin a) (Fin y1) (Fin ((y2 - y1) / (b - a))%Qc)) (Fin a) (Fin b)
       = Fin ((b - a) * ((y1 + y2) / (1 + 1)))%Qc).
    { intros y1 y2. rewrite (line_area h a y1 _ a b H). f_equal.
      replace (y1 + (y2 - y1) / (b - a) * (a - a) + (y1 + (y2 - y1) / (b - a) * (b - a)))%Qc with (y1 + y2)%Qc by (field; exact NB).
      replace ((b - a) * h * (y1 + y2))%Qc with (((b - a) * (y1 + y2)) * h)%Qc by ring.
      rewrite (half_eq h H). field. discriminate. }
    rewrite (firstn_snoc d j _ Nj). unfold dots. rewrite map_app. cbn [map].
    change (Fin b, Some (Fin yb)) with (dot (b, yb)). rewrite integral_G_dot.
    destruct ip; cbn [area fst snd].
    + rewrite LS. cbn [rbind]. rewrite AR. cbn [n_add XQ xq_add]. do 4 f_equal. field. discriminate.
    + rewrite LS. cbn [rbind]. rewrite AR. reflexivity.
    + rewrite LS. cbn [rbind]. rewrite AR. cbn [n_add XQ xq_add]. do 4 f_equal. field. discriminate.
Qed.
Lemma integral_tf_ok h ip m : (h + h = 1)%Qc -> (0 < m)%Qc ->
  tf_ok (integral_G ip) integral_src m ILinear (fun s => integral_scan (Fin h) ip (p_y s)).
Proof.
  intros H Hm s pa k p (GS & ES & CS & (d & D) & CM) N GP IP PP. rewrite D in *.
  apply (integral_on h ip (p_y s) d H); auto; [rewrite <- D; apply GS|].
  intros q Iq. rewrite <- D in Iq. destruct (ascending_fin _ _ (proj1 GS) Iq) as (x & v & ->).
  apply p_y_knot; [intros _; exact lerp_total_num|exact GS|exact Iq].
Qed.
End Integral.

(** ** EMA *)
Section Ema.
(** exponential smoothing with a weight that may depend on the step *)
Fixpoint smooth (wt : Qc -> Qc -> Qc) (x e : Qc) (d : list (Qc * Qc)) : list (Qc * Qc) :=
  match d with
  | [] => []
  | p :: d' => let e := (e + wt x (fst p) * (snd p - e))%Qc in (fst p, e) :: smooth wt (fst p) e d'
  end.
Definition smoothed (wt : Qc -> Qc -> Qc) (first : Qc -> Qc -> Qc) (d : list (Qc * Qc)) : list (Qc * Qc) :=
  match d with
  | [] => []
  | p :: d' => let e := first (fst p) (snd p) in (fst p, e) :: smooth wt (fst p) e d'
  end.

Definition ema_G (wt : Qc -> Qc -> Qc) (first : Qc -> Qc -> Qc) (pre : list (xq * num)) (p : xq * num) (last : num) : num :=
  match p with
  | (Fin b, Some (Fin y)) =>
      match last_opt pre, last with
      | Some (Fin a, _), Some (Fin e) => Some (Fin (e + wt a b * (y - e))%Qc)
      | _, _ => Some (Fin (first b y))
      end
  | _ => None
  end.
Lemma ema_G_dot wt f pre p q e : ema_G wt f (pre ++ [dot p]) (dot q) (Some (Fin e)) = Some (Fin (e + wt (fst p) (fst q) * (snd q - e))%Qc).
Proof. unfold ema_G. rewrite last_opt_app. destruct p, q. reflexivity. Qed.
Lemma acc_smooth wt f d : forall pre p e, acc_list (ema_G wt f) (pre ++ [dot p]) (Some (Fin e)) (dots d) = dots (smooth wt (fst p) e d).
Proof.
  induction d as [|q d IH]; intros pre p e; [reflexivity|].
  change (dots (q :: d)) with (dot q :: dots d). cbn [acc_list smooth]. rewrite ema_G_dot, IH. reflexivity.
Qed.
Lemma spec_smoothed wt f d : spec (ema_G wt f) (dots d) = dots (smoothed wt f d).
Proof.
  destruct d as [|p d]; [reflexivity|]. unfold spec. change (dots (p :: d)) with (dot p :: dots d). cbn [acc_list smoothed].
  change (ema_G wt f [] (dot p) v_none) with (Some (Fin (f (fst p) (snd p)))).
  rewrite (acc_smooth wt f d [] p _). reflexivity.
Qed.

(** what the degree and the init function mean *)
Definition weight_of (deg : ema_degree xq) (wt : Qc -> Qc -> Qc) : Prop :=
  match deg with
  | EmaAlpha a => exists q, a = Fin q /\ forall x y, wt x y = q
  | EmaPeriod p => exists q, p = Fin q /\ (0 < q)%Qc /\ forall x y, wt x y = ((y - x) / q)%Qc
  end.
Definition first_of (init : option (xq -> res num)) (first : Qc -> Qc -> Qc) : Prop :=
  match init with
  | None => forall x y, first x y = y
  | Some f => forall x y, f (Fin x) = Ok (Some (Fin (first x y)))
  end.

Lemma ema_tf_ok deg init wt first m ip : (0 < m)%Qc -> weight_of deg wt -> first_of init first ->
  tf_ok (ema_G wt first) numeric m ip (fun s pa => ema_scan deg init (fun x => p_x_previous s x (Some (Fin m)) None)).
Proof.
  intros Hm HW HF s pa k p (GS & ES & CS & (d & D)) N GP IP PP.
  rewrite D in *. rewrite dots_firstn, spec_smoothed in PP. rewrite PP, dots_lastv, dots_firstn.
  destruct (dots_nth _ _ _ N) as (b & yb & Nd & ->). cbn [fst snd].
  destruct k as [|j].
  - cbn [firstn smoothed last_opt rev head_opt option_map ema_scan ema_G dots map].
    destruct init as [f|]; cbn in HF; [apply HF|now rewrite HF].
  - assert (Lj : (S j < length d)%nat) by (apply nth_error_Some; congruence).
    destruct (nth_error d j) as [[a ya]|] eqn:Nj; [|apply nth_error_None in Nj; lia].
    assert (LA : option_map fst (last_opt (smoothed wt first (firstn (S j) d))) = Some a).
    { assert (X : map fst (dots (smoothed wt first (firstn (S j) d))) = map fst (dots (firstn (S j) d))).
      { rewrite <- spec_smoothed. apply spec_xs. }
      apply last_xs in X. rewrite !dots_last in X. rewrite (last_firstn_nth d j), Nj in X by lia.
      destruct (last_opt (smoothed wt first (firstn (S j) d))) as [[? ?]|]; cbn in *; congruence. }
    destruct (last_opt (smoothed wt first (firstn (S j) d))) as [[a' e]|] eqn:LL; [|discriminate]. cbn in LA. injection LA as ->.
    cbn [option_map snd ema_scan].
    assert (LT : (a < b)%Qc).
    { apply lt_x_fin. apply (asc_nth (dots d) j (S j) (dot (a, ya)) (dot (b, yb))); [rewrite <- D; apply GS| | |lia];
        unfold dots; now apply map_nth_error. }
    rewrite (firstn_snoc d j _ Nj). unfold dots. rewrite map_app. cbn [map].
    change (Fin b, Some (Fin yb)) with (dot (b, yb)). rewrite ema_G_dot. cbn [fst snd].
    destruct deg as [p|al]; cbn [weight_of] in HW.
    + destruct HW as (q & -> & Q & HW). rewrite HW.
      assert (EP : p_x_previous s (Fin b) (Some (Fin m)) None = Ok (Some (Fin a))).
      { rewrite (knot_previous s m j b (Some (Fin yb)) None GS); rewrite ?D; auto.
        unfold dots. rewrite nth_error_map, Nj. reflexivity. }
      rewrite EP. cbn [rbind n_sub n_div XQ xq_sub xq_div].
      rewrite (proj2 (Qceqb_false q 0%Qc)) by (intros ->; discriminate).
      assert (PQ : (0 <= (b - a) / q)%Qc) by (apply Qclt_le_weak; apply Qc_div_pos; auto; qc_lra).
      cbn [rbind n_abs XQ]. rewrite (proj2 (Qcleb_true _ _) PQ). reflexivity.
    + destruct HW as (q & -> & HW). rewrite HW. reflexivity.
Qed.
End Ema.

(** ** AccumulatorMap *)
Section Map.
(** the values of the window ending at [p], newest first; [pre] are the points before it *)
Definition win_degree (n : nat) (pre : list (Qc * Qc)) (p : Qc * Qc) : list Qc := firstn n (rev (map snd (pre ++ [p]))).
Definition win_period (w : Qc) (pre : list (Qc * Qc)) (p : Qc * Qc) : list Qc :=
  map snd (rev (filter (fun q => Qcleb (fst p - w) (fst q)) (pre ++ [p]))).

Fixpoint mapped (win : list (Qc * Qc) -> Qc * Qc -> list Qc) (g : Qc -> list Qc -> Qc) (pre d : list (Qc * Qc)) : list (Qc * Qc) :=
  match d with
  | [] => []
  | p :: d' => (fst p, g (fst p) (win pre p)) :: mapped win g (pre ++ [p]) d'
  end.
Lemma mapped_nth win g d : forall pre k p, nth_error d k = Some p ->
  nth_error (mapped win g pre d) k = Some (fst p, g (fst p) (win (pre ++ firstn k d) p)).
Proof.
  induction d as [|q d IH]; intros pre [|k] p H; try discriminate; cbn in *.
  - injection H as ->. now rewrite app_nil_r.
  - rewrite (IH _ _ _ H), <- app_assoc. reflexivity.
Qed.

Definition undot (p : xq * num) : Qc * Qc :=
  match p with (Fin x, Some (Fin y)) => (x, y) | _ => (0%Qc, 0%Qc) end.
Lemma undot_dots d : map undot (dots d) = d.
Proof. unfold dots. rewrite List.map_map. rewrite <- (map_id d) at 2. apply map_ext. now intros [x y]. Qed.
Definition map_G win (g : Qc -> list Qc -> Qc) (pre : list (xq * num)) (p : xq * num) (_ : num) : num :=
  Some (Fin (g (fst (undot p)) (win (map undot pre) (undot p)))).
Lemma acc_mapped win g d : forall pre w, acc_list (map_G win g) (dots pre) w (dots d) = dots (mapped win g pre d).
Proof.
  induction d as [|p d IH]; intros pre w; [reflexivity|].
  change (dots (p :: d)) with (dot p :: dots d). cbn [acc_list mapped].
  change (dots pre ++ [dot p]) with (dots pre ++ dots [p]). unfold dots at 2 3. rewrite <- map_app. fold (dots (pre ++ [p])).
  rewrite IH. unfold map_G. rewrite undot_dots. destruct p as [x y]. reflexivity.
Qed.
Lemma spec_mapped win g d : spec (map_G win g) (dots d) = dots (mapped win g [] d).
Proof. apply (acc_mapped win g d []). Qed.

(** what the Python function does on lists of numbers *)
Definition computes (tfm : xq -> list num -> res num) (g : Qc -> list Qc -> Qc) : Prop :=
  forall x y l, tfm (Fin x) (map (fun v => Some (Fin v)) (y :: l)) = Ok (Some (Fin (g x (y :: l)))).

Lemma walk_back s d m k : (0 < m)%Qc -> good s -> p_pts s = dots d -> coarse m (dots d) ->
  forall n p, nth_error d k = Some p ->
  spfx_loop py_none (p_crv s) true (Some (Fin m)) n (Fin (fst p)) = Ok (dots (firstn n (rev (firstn k d)))).
Proof.
  intros Hm GS D CS n. revert k. induction n as [|n IH]; intros k p N; [reflexivity|].
  cbn [spfx_loop c_prev c_y p_crv]. destruct p as [b yb]. cbn [fst].
  destruct k as [|j].
  - destruct (p_x_previous_spec s (Fin b) m None GS ltac:(discriminate)) as (y & E & Q). rewrite E. cbn [rbind].
    destruct y as [y|]; [|reflexivity]. exfalso. destruct Q as ((v & I) & L & _).
    destruct d as [|p0 d0]; [discriminate|]. cbn in N. injection N as ->.
    pose proof (ascending_head_le (p_pts s) (dot (b, yb)) (y, v) (proj1 GS)) as A. rewrite D in A, I. specialize (A eq_refl I).
    cbn in A. rewrite <- D in I. destruct (ascending_fin _ _ (proj1 GS) I) as (r & u & X). injection X as -> ->.
    apply le_x_fin in A. cbn in L. apply le_x_fin in L. clear -Hm A L. qc_lra.
  - assert (Lj : (S j < length d)%nat) by (apply nth_error_Some; congruence).
    destruct (nth_error d j) as [[a ya]|] eqn:Nj; [|apply nth_error_None in Nj; lia].
    rewrite (knot_previous s m j b (Some (Fin yb)) None GS); rewrite ?D; auto.
    2: { unfold dots. rewrite nth_error_map, N. reflexivity. }
    unfold dots at 1. rewrite nth_error_map, Nj. cbn [option_map dot fst rbind].
    rewrite (p_y_knot s a (Some (Fin ya))); [|intros _; exact lerp_total_num|exact GS|].
    2: { rewrite D. apply (in_map dot d (a, ya)). eapply nth_error_In; eauto. }
    cbn [rbind py_none]. pose proof (IH j (a, ya) Nj) as IHj. cbn [fst] in IHj. rewrite IHj. cbn [rbind].
    rewrite (firstn_snoc d j _ Nj), rev_app_distr. reflexivity.
Qed.

Definition map_tf (deg : map_degree xq) (tfm : xq -> list num -> res num) (fuel : nat) (m : Qc)
    (s : pts xq num) (_ : pts xq num) (x : xq) (y _ : num) : res num :=
  map_scan deg (map_from_x (p_crv s) (Some (Fin m))) (fun d => p_sample_points fuel s (Some d) (Some (Fin m)) None) tfm x y.

Definition window_of (deg : map_degree xq) (win : list (Qc * Qc) -> Qc * Qc -> list Qc) : Prop :=
  match deg with
  | MapDegree n => (1 <= n)%Z /\ win = win_degree (Z.to_nat n)
  | MapPeriod p => exists w, p = Fin w /\ (0 < w)%Qc /\ win = win_period w
  end.

Lemma some_fin_snd d : map snd (dots d) = map (fun v => Some (Fin v)) (map snd d).
Proof. unfold dots. rewrite !List.map_map. reflexivity. Qed.

Lemma src_regular (s : pts xq num) m : good s -> equally_spaced (p_pts s) -> coarse m (p_pts s) -> regular s (Some (Fin m)) None.
Proof.
  intros GS (x0 & h & P & E) C hh Hh. split; [|discriminate]. intros ms [= <-].
  destruct (le_lt_dec 2 (length (p_pts s))) as [L|L].
  - pose proof (span_eq (p_pts s) x0 h (p_int s) (proj1 GS) P E (proj1 (proj2 GS)) L) as X. rewrite X in Hh. injection Hh as <-.
    destruct (nth_error (p_pts s) 0) as [[a va]|] eqn:N0; [|apply nth_error_None in N0; lia].
    destruct (nth_error (p_pts s) 1) as [[b vb]|] eqn:N1; [|apply nth_error_None in N1; lia].
    pose proof (E _ _ N0) as E0. pose proof (E _ _ N1) as E1. cbn [fst] in E0, E1. subst a b.
    specialize (C _ _ _ _ _ N0 N1).
    assert (X1 : (m <= h)%Qc).
    { eapply Qcle_trans; [exact C|]. cbn [Z.of_nat Pos.of_succ_nat]. change (QcofZ 0) with 0%Qc. change (QcofZ 1) with 1%Qc.
      assert (X0 : (x0 + 1 * h - (x0 + 0 * h) = h)%Qc) by ring. rewrite X0. apply Qcle_refl. }
    cbn. apply Qcltb_false. exact X1.
  - destruct (good_sgood s GS) as [qs SG]. pose proof (pi_knots _ _ (sg_pinv _ _ SG)) as K.
    pose proof (proj1 (proj2 GS)) as SI. rewrite (span_interval_knots _ _ K) in SI. rewrite <- (knots_len _ _ K) in SI.
    apply Nat.ltb_lt in L. rewrite L in SI. congruence.
Qed.

Lemma filter_map {A B} (f : A -> B) (t : B -> bool) l : filter t (map f l) = map f (filter (fun x => t (f x)) l).
Proof. induction l as [|a l IH]; cbn; [reflexivity|]. rewrite IH. now destruct (t (f a)). Qed.

Lemma map_tf_ok deg tfm win g m ip fuel : (0 < m)%Qc -> window_of deg win -> computes tfm g ->
  tf_ok (map_G win g) numeric m ip (map_tf deg tfm fuel m).
Proof.
  intros Hm HW HC s pa k p (GS & ES & CS & (d & D)) N GP IP PP. clear GP IP PP.
  rewrite D in *. rewrite dots_firstn. unfold map_G. rewrite undot_dots.
  destruct (dots_nth _ _ _ N) as (b & yb & Nd & ->). cbn [fst snd undot].
  unfold map_tf, map_scan.
  assert (FIN : forall more, (exists y l, win (firstn k d) (b, yb) = y :: l) ->
    yb :: map snd more = win (firstn k d) (b, yb) ->
    tfm (Fin b) (Some (Fin yb) :: map snd (dots more)) = Ok (Some (Fin (g b (win (firstn k d) (b, yb)))))).
  { intros more (y & l & E) X. rewrite some_fin_snd. rewrite <- X. apply HC. }
  destruct deg as [w|n]; cbn [window_of] in HW.
  - destruct HW as (q & -> & Q & ->). cbn [n_sub XQ xq_sub].
    rewrite (p_sample_points_spec fuel s _ (Some (Fin m)) None GS).
    2: { apply src_regular; auto; rewrite D; auto. }
    2: { intros d0 [= <-]. split; discriminate. }
    cbn [rbind]. rewrite D. unfold dots. rewrite filter_map, <- map_rev.
    assert (SP : filter (fun x => inside (mkI (Fin (b - q)%Qc) (Fin b) false true) (dot x)) d
               = filter (fun r => Qcleb (b - q) (fst r)) (firstn k d)).
    { rewrite <- (firstn_skipn k d) at 1. rewrite filter_app.
      assert (S1 : filter (fun x => inside (mkI (Fin (b - q)%Qc) (Fin b) false true) (dot x)) (skipn k d) = []).
      { apply filter_none. intros [x y] I. apply In_nth_error in I. destruct I as [i I].
        assert (I' : nth_error d (k + i) = Some (x, y)).
        { rewrite <- I. clear. revert k. induction d as [|a l IH]; intros [|k]; cbn; auto. destruct i; reflexivity. }
        assert (LE : (b <= x)%Qc).
        { destruct i as [|i].
          - rewrite Nat.add_0_r in I'. rewrite Nd in I'. injection I' as -> _. apply Qcle_refl.
          - assert (X : lt_x (Fin b) (Fin x)).
            { apply (asc_nth (dots d) k (k + S i) (dot (b, yb)) (dot (x, y))); [rewrite <- D; apply GS| | |lia];
                unfold dots; now apply map_nth_error. }
            apply lt_x_fin in X. now apply Qclt_le_weak. }
        unfold inside. cbn [dot fst]. destruct (i_contains _ _) eqn:IC; auto. apply contains_inq in IC.
        destruct IC as [_ IC]. cbn in IC. exfalso. qc_lra. }
      rewrite S1, app_nil_r. apply filter_ext_in. intros [x y] I. unfold inside. cbn [dot fst].
      assert (LX : (x < b)%Qc).
      { apply In_nth_error in I. destruct I as [i I].
        assert (Li : (i < length (firstn k d))%nat) by (apply nth_error_Some; congruence).
        assert (I' : nth_error d i = Some (x, y)).
        { rewrite <- (firstn_skipn k d), nth_error_app1; auto. }
        rewrite firstn_length in Li.
        apply lt_x_fin. apply (asc_nth (dots d) i k (dot (x, y)) (dot (b, yb))); [rewrite <- D; apply GS| | |lia];
          unfold dots; now apply map_nth_error. }
      destruct (Qcleb (b - q) x) eqn:QL.
      - apply contains_inq. split; [now apply Qcleb_true|exact LX].
      - apply contains_inq_false. intros [X _]. apply Qcleb_true in X. congruence. }
    rewrite SP. apply FIN.
    + unfold win_period. cbn [fst]. rewrite filter_app. cbn [filter fst].
      assert (X : Qcleb (b - q) b = true) by (apply Qcleb_true; qc_lra). rewrite X, rev_app_distr. cbn. eauto.
    + unfold win_period. cbn [fst]. rewrite filter_app. cbn [filter fst].
      assert (X : Qcleb (b - q) b = true) by (apply Qcleb_true; qc_lra). rewrite X, rev_app_distr. reflexivity.
  - destruct HW as [Hn ->].
    assert (MORE : (if negb (n =? 1)%Z then map_from_x (p_crv s) (Some (Fin m)) (Fin b) (n - 1)%Z else Ok [])
                   = Ok (dots (firstn (Z.to_nat n - 1) (rev (firstn k d))))).
    { destruct (n =? 1)%Z eqn:E1; cbn [negb].
      - apply Z.eqb_eq in E1. subst n. reflexivity.
      - apply Z.eqb_neq in E1. unfold map_from_x, sample_points_from_x.
        assert (NN : (n - 1 <? 0)%Z = false) by (apply Z.ltb_ge; lia). rewrite NN. cbn [negb c_ms p_crv resolve_min_step].
        replace (Z.to_nat (n - 1)) with (Z.to_nat n - 1)%nat by lia.
        change (Fin b) with (Fin (fst (b, yb))). apply walk_back; auto. }
    rewrite MORE. cbn [rbind]. assert (ZN : exists n', Z.to_nat n = S n') by (exists (Z.to_nat n - 1)%nat; lia).
    destruct ZN as [n' ZN]. rewrite ZN in *. cbn [Nat.sub]. rewrite Nat.sub_0_r.
    apply FIN; unfold win_degree; rewrite map_app, rev_app_distr; cbn [map rev app firstn snd].
    + eauto.
    + f_equal. rewrite <- map_rev, firstn_map. reflexivity.
Qed.

(** the builtins min and max *)
Definition best (better : Qc -> Qc -> bool) (l : list Qc) : Qc :=
  match l with [] => 0%Qc | y :: l' => fold_left (fun b a => if better a b then a else b) l' y end.
Lemma fold_cmp_fin (bx : xq -> xq -> bool) (bq : Qc -> Qc -> bool) : (forall a b, bx (Fin a) (Fin b) = bq a b) ->
  forall l y, fold_cmp bx (Some (Fin y)) (map (fun v => Some (Fin v)) l) =
  Ok (Some (Fin (fold_left (fun b a => if bq a b then a else b) l y))).
Proof.
  intros H. induction l as [|a l IH]; intros y; [reflexivity|]. cbn [map fold_cmp fold_left]. rewrite H.
  destruct (bq a y); apply IH.
Qed.
Lemma max_computes : computes (fun _ => py_max) (fun _ => best (fun a b => Qcltb b a)).
Proof. intros x y l. cbn [map py_max]. apply fold_cmp_fin. reflexivity. Qed.
Lemma min_computes : computes (fun _ => py_min) (fun _ => best (fun a b => Qcltb a b)).
Proof. intros x y l. cbn [map py_min]. apply fold_cmp_fin. reflexivity. Qed.

Lemma best_max l : l <> [] -> In (best (fun a b => Qcltb b a) l) l /\ forall y, In y l -> (y <= best (fun a b => Qcltb b a) l)%Qc.
Proof.
  destruct l as [|y l]; [congruence|]. intros _. cbn [best]. revert y. induction l as [|a l IH]; intros y; cbn [fold_left].
  - split; [now left|]. intros z [->|[]]. apply Qcle_refl.
  - destruct (Qcltb y a) eqn:E.
    + destruct (IH a) as [I M]. split; [now right|]. apply Qcltb_true in E. intros z [->|I'].
      * eapply Qcle_trans; [apply Qclt_le_weak; exact E|]. apply M. now left.
      * now apply M.
    + destruct (IH y) as [I M]. apply Qcltb_false in E. split.
      * destruct I as [<-|I]; [now left|right; now right].
      * intros z [->|[->|I']]; [apply M; now left| |apply M; now right].
        eapply Qcle_trans; [exact E|]. apply M. now left.
Qed.
Lemma best_min l : l <> [] -> In (best (fun a b => Qcltb a b) l) l /\ forall y, In y l -> (best (fun a b => Qcltb a b) l <= y)%Qc.
Proof.
  destruct l as [|y l]; [congruence|]. intros _. cbn [best]. revert y. induction l as [|a l IH]; intros y; cbn [fold_left].
  - split; [now left|]. intros z [->|[]]. apply Qcle_refl.
  - destruct (Qcltb a y) eqn:E.
    + destruct (IH a) as [I M]. split; [now right|]. apply Qcltb_true in E. intros z [->|I'].
      * eapply Qcle_trans; [|apply Qclt_le_weak; exact E]. apply M. now left.
      * now apply M.
    + destruct (IH y) as [I M]. apply Qcltb_false in E. split.
      * destruct I as [<-|I]; [now left|right; now right].
      * intros z [->|[->|I']]; [apply M; now left| |apply M; now right].
        eapply Qcle_trans; [|exact E]. apply M. now left.
Qed.
End Map.
