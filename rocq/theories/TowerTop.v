(** Chains of accumulating curves over equally spaced points: the values of
    every curve of the chain, after any history. *)
From Coq Require Import List ZArith QArith Qcanon Bool Sorting.Sorted Lia Arith.
From Verif Require Import Base Num NumFacts Interval IntervalFacts Curve BaseFacts.
From Verif Require Import Points PointsSpec PointsIdx PointsQuery PointsDom PointsOps PointsMut PointsReset PointsReplace PointsCover PointsHist PointsTop PointsDec.
From Verif Require Import BaseTop Combine CombineFacts CombineTop CombineLine Scan ScanFacts ScanSource ScanInv ScanTf SmaFacts SmaInv ScanTop ScanView ScanSample ScanSampleFacts ScanSampleAcc Tower TowerFacts.
Import ListNotations.

(** ** What a layer makes of its source's points *)
Definition wt_of (deg : ema_degree xq) (x y : Qc) : Qc :=
  match deg with EmaAlpha (Fin q) => q | EmaPeriod (Fin q) => ((y - x) / q)%Qc | _ => 0%Qc end.
Definition g_of (tfm : xq -> list num -> res num) (x : Qc) (ys : list Qc) : Qc :=
  match tfm (Fin x) (map (fun v => Some (Fin v)) ys) with Ok (Some (Fin v)) => v | _ => 0%Qc end.
Definition layer_out (k : layer xq) (d : list (Qc * Qc)) : list (Qc * Qc) :=
  match k with
  | LInt _ ip (Fin c) => map (fun p => (fst p, (snd p + c)%Qc)) (areas ip d)
  | LInt _ ip _ => areas ip d
  | LEma deg => smoothed (wt_of deg) (fun _ y => y) d
  | LMap n tfm => mapped (win_degree (Z.to_nat n)) (g_of tfm) [] d
  end.
Fixpoint chain_out (ks : chain xq) (d : list (Qc * Qc)) : list (Qc * Qc) :=
  match ks with [] => d | (k, _) :: ks => layer_out k (chain_out ks d) end.

(** sensible parameters *)
Definition sound_layer (k : layer xq) : Prop :=
  match k with
  | LInt half _ const => exists h c, half = Fin h /\ const = Fin c /\ (h + h = 1)%Qc
  | LEma (EmaAlpha a) => exists q, a = Fin q
  | LEma (EmaPeriod p) => exists q, p = Fin q /\ (0 < q)%Qc
  | LMap n tfm => (1 <= n)%Z /\ forall x y ys, exists v, tfm (Fin x) (map (fun v => Some (Fin v)) (y :: ys)) = Ok (Some (Fin v))
  end.
(** the layer asks its source for x_previous *)
Definition looks_back (k : layer xq) : bool :=
  match k with LEma (EmaPeriod _) => true | LMap n _ => negb (n =? 1)%Z | _ => false end.
(** the points are at least the minimum step of each layer apart; and none is
    at x = 0 if a layer asks for x_previous an accumulating curve over another
    accumulating curve *)
Fixpoint chain_ok (ks : chain xq) (d : list (Qc * Qc)) : Prop :=
  match ks with
  | [] => True
  | (k, own) :: ks' =>
      sound_layer k /\ (exists m, own = Some (Fin m) /\ (0 < m)%Qc /\ coarse m (dots d)) /\
      ((2 <= length ks')%nat -> looks_back k = true -> forall j, (j < length d)%nat -> at_x d j <> 0%Qc) /\
      chain_ok ks' d
  end.

Definition layer_G (k : layer xq) : list (xq * num) -> xq * num -> num -> num :=
  match k with
  | LInt _ ip _ => integral_G ip
  | LEma deg => ema_G (wt_of deg) (fun _ y => y)
  | LMap n tfm => map_G (win_degree (Z.to_nat n)) (g_of tfm)
  end.
Definition img (k : layer xq) := image (layer_G k) (layer_post k).
Fixpoint imgs (ks : chain xq) (l : list (xq * num)) : list (xq * num) :=
  match ks with [] => l | (k, _) :: ks => img k (imgs ks l) end.

Lemma img_dots k d : sound_layer k -> img k (dots d) = dots (layer_out k d).
Proof.
  unfold img, image. destruct k as [half ip const|deg|n tfm]; cbn [layer_G layer_post sound_layer layer_out].
  - intros (h & c & -> & -> & _). rewrite spec_areas. unfold dots. rewrite !List.map_map. apply map_ext. intros [x y]. reflexivity.
  - intros _. rewrite spec_smoothed. unfold dots. rewrite !List.map_map. reflexivity.
  - intros _. rewrite spec_mapped. unfold dots. rewrite !List.map_map. reflexivity.
Qed.
Lemma imgs_dots ks d : chain_ok ks d -> imgs ks (dots d) = dots (chain_out ks d).
Proof. induction ks as [|[k own] ks IH]; cbn; [reflexivity|]. intros (K & _ & _ & C). rewrite IH by auto. now apply img_dots. Qed.
Lemma imgs_xs ks l : map fst (imgs ks l) = map fst l.
Proof. induction ks as [|[k own] ks IH]; cbn; [reflexivity|]. unfold img. now rewrite image_xs. Qed.
Lemma chain_out_len ks d : chain_ok ks d -> length (chain_out ks d) = length d.
Proof.
  intros C. rewrite <- (dots_len (chain_out ks d)), <- (imgs_dots ks d C), <- (dots_len d).
  rewrite <- (map_length fst (imgs ks (dots d))), imgs_xs. apply map_length.
Qed.

(** ** Values after [post] *)
Lemma post_none (k : layer xq) : layer_post k None = None.
Proof. destruct k; reflexivity. Qed.
Lemma value_shift c r q v : value ILinear (dots r) q v ->
  value ILinear (map (fun p => (fst p, integral_post (Fin c) (snd p))) (dots r)) q (integral_post (Fin c) v).
Proof.
  intros H. inversion H as [v0 I|? ? ? ? ? ? X|? ? ? ? ? ? X|v0 l1 a va b vb l2 _ E L1 L2 LV|O]; subst; try discriminate.
  - apply val_knot. apply (in_map (fun p : xq * num => (fst p, integral_post (Fin c) (snd p))) _ _ I).
  - pose proof (f_equal (map (fun p : xq * num => (fst p, integral_post (Fin c) (snd p)))) E) as E'. rewrite map_app in E'. cbn [map fst snd] in E'.
    eapply val_lerp; [reflexivity|exact E'|exact L1|exact L2|].
    assert (Ia : In (Fin a, va) (dots r)) by (rewrite E; apply in_or_app; right; now left).
    assert (Ib : In (Fin b, vb) (dots r)) by (rewrite E; apply in_or_app; right; right; now left).
    apply in_map_iff in Ia as ([xa ya] & Ea & _). apply in_map_iff in Ib as ([xb yb] & Eb & _).
    unfold dot in Ea, Eb. cbn [fst snd] in Ea, Eb. injection Ea as -> <-. injection Eb as -> <-.
    set (u := ((q - a) / (b - a))%Qc) in *. clearbody u. cbn in LV |- *. injection LV as <-. unfold integral_post. cbn. change (QcofZ 1) with 1%Qc. do 3 f_equal. ring.
  - change (integral_post (Fin c) v_none) with (v_none : num). apply val_outside. destruct O as [O|O]; [left|right]; intros p I;
      apply in_map_iff in I as (p' & <- & I); cbn [fst]; auto.
Qed.
Lemma value_img k d q v : sound_layer k -> value ILinear (spec (layer_G k) (dots d)) q v -> value ILinear (img k (dots d)) q (layer_post k v).
Proof.
  unfold img, image. destruct k as [half ip const|deg|n tfm]; cbn [layer_G layer_post sound_layer].
  - intros (h & c & -> & -> & _) H. rewrite spec_areas in *. now apply value_shift.
  - intros _ H. rewrite spec_smoothed in *. unfold dots in *. rewrite List.map_map. exact H.
  - intros _ H. rewrite spec_mapped in *. unfold dots in *. rewrite List.map_map. exact H.
Qed.

(** ** The transforms do what they should *)
Section Tf.
Context {S0 : Type} (src : scrv xq S0) (I : S0 -> Prop) (upto : S0 -> nat -> Prop) (Vr : Qc -> num -> Prop) (d : list (Qc * Qc)) (F : Qc) (Z : Prop).
Context (RD : ready src I upto Vr (dots d) F Z) (A : ascending (dots d)).
Context (m : Qc) (Hm : (0 < m)%Qc) (CM : coarse m (dots d)).

Lemma integral_does h ip : (h + h = 1)%Qc -> coarse min_step (dots d) ->
  tf_does I upto (dots d) (integral_G ip) (st_integral_tf src (Fin h) ip).
Proof.
  intros H CS s pa k p Is U N GP IP PP.
  pose (cy := fun x : xq => match find (fun p : xq * num => xq_eqb (fst p) x) (dots d) with Some p => Ok (snd p) | None => Ok None end : res num).
  assert (CY : forall p, In p (dots d) -> cy (fst p) = Ok (snd p)).
  { intros r J. unfold cy. destruct (find _ (dots d)) as [r'|] eqn:FD.
    - apply find_some in FD as [J' E]. destruct (ascending_fin _ _ A J) as (q & v & ->). destruct (ascending_fin _ _ A J') as (q' & v' & ->).
      cbn [fst snd] in *. cbn in E. apply Qceqb_true in E. subst q'. f_equal.
      apply In_nth_error in J as [i Ji]. apply In_nth_error in J' as [i' Ji'].
      destruct (Nat.lt_trichotomy i i') as [L|[L|L]].
      + pose proof (asc_nth _ _ _ _ _ A Ji Ji' L) as X. cbn in X. apply lt_x_fin in X. exfalso. qc_lra.
      + subst i'. rewrite Ji in Ji'. now injection Ji'.
      + pose proof (asc_nth _ _ _ _ _ A Ji' Ji L) as X. cbn in X. apply lt_x_fin in X. exfalso. qc_lra.
    - pose proof (find_none _ _ FD r J) as X. cbn in X. destruct (ascending_fin _ _ A J) as (q & v & ->). cbn in X.
      rewrite (proj2 (Qceqb_true q q) eq_refl) in X. discriminate. }
  pose proof (integral_on h ip cy d H A CS CY pa k p N GP IP PP) as E.
  set (last := lastv v_none (p_pts pa)) in *. unfold st_integral_tf.
  destruct (dots_nth _ _ _ N) as (b & yb & Nd & ->). cbn [fst snd] in *.
  assert (NX : notnan (Fin b)) by discriminate.
  destruct (p_x_previous_spec pa (Fin b) min_step None GP NX) as (x0 & EX & Q). change (MIN_STEP : xq) with (Fin min_step) in *.
  rewrite EX. destruct x0 as [x0|].
  - destruct Q as ((v & J) & _). apply (in_map fst) in J. rewrite PP, spec_xs in J. apply in_map_iff in J as ([x0' v0] & E0 & J).
    cbn in E0. subst x0'. assert (J' : In (x0, v0) (dots d)) by (rewrite <- (firstn_skipn k (dots d)); apply in_or_app; now left).
    apply In_nth_error in J' as [i Ji]. destruct (src_knot src I upto Vr (dots d) F Z RD A s i (x0, v0) Is Ji) as (s' & E1 & GR & _).
    cbn [fst snd] in E1. exists s'. split; [|exact GR]. unfold sbind. rewrite E1. f_equal. rewrite <- E.
    unfold integral_scan. change (MIN_STEP : xq) with (Fin min_step). rewrite EX. cbn [rbind]. apply nth_error_In in Ji. rewrite (CY _ Ji : cy x0 = Ok v0). reflexivity.
  - exists s. split; [|now apply grows_refl]. f_equal. rewrite <- E. unfold integral_scan. change (MIN_STEP : xq) with (Fin min_step). rewrite EX. reflexivity.
Qed.

Lemma ema_on deg wt cprev ip : weight_of deg wt ->
  (match deg with EmaAlpha _ => True | EmaPeriod _ => forall j p, nth_error (dots d) (S j) = Some p -> cprev (fst p) = Ok (option_map fst (nth_error (dots d) j)) end) ->
  computes_on (ema_G wt (fun _ y => y)) ip (fun _ => ema_scan deg None cprev) (dots d).
Proof.
  intros HW HP pa k p N GP IP PP.
  rewrite dots_firstn, spec_smoothed in PP. rewrite PP, dots_lastv, dots_firstn.
  destruct (dots_nth _ _ _ N) as (b & yb & Nd & ->). cbn [fst snd].
  destruct k as [|j]; [reflexivity|].
  assert (Lj : (S j < length d)%nat) by (apply nth_error_Some; congruence).
  destruct (nth_error d j) as [[a ya]|] eqn:Nj; [|apply nth_error_None in Nj; lia].
  assert (LA : option_map fst (last_opt (smoothed wt (fun _ y => y) (firstn (S j) d))) = Some a).
  { assert (X : map fst (dots (smoothed wt (fun _ y => y) (firstn (S j) d))) = map fst (dots (firstn (S j) d))).
    { rewrite <- spec_smoothed. apply spec_xs. }
    apply last_xs in X. rewrite !dots_last in X. rewrite (last_firstn_nth d j), Nj in X by lia.
    destruct (last_opt (smoothed wt (fun _ y => y) (firstn (S j) d))) as [[? ?]|]; cbn in *; congruence. }
  destruct (last_opt (smoothed wt (fun _ y => y) (firstn (S j) d))) as [[a' e]|] eqn:LL; [|discriminate]. cbn in LA. injection LA as ->.
  cbn [option_map snd ema_scan].
  assert (LT : (a < b)%Qc).
  { apply lt_x_fin. apply (asc_nth (dots d) j (S j) (dot (a, ya)) (dot (b, yb))); [exact A| | |lia];
      unfold dots; now apply map_nth_error. }
  rewrite (firstn_snoc d j _ Nj). unfold dots. rewrite map_app. cbn [map].
  change (Fin b, Some (Fin yb)) with (dot (b, yb)). rewrite ema_G_dot. cbn [fst snd].
  destruct deg as [p|al]; cbn [weight_of] in HW.
  - destruct HW as (q & -> & Q & HW). rewrite HW.
    assert (EP : cprev (Fin b) = Ok (Some (Fin a))).
    { pose proof (HP j _ N) as X. cbn [fst] in X. rewrite X. unfold dots. rewrite nth_error_map, Nj. reflexivity. }
    rewrite EP. cbn [rbind n_sub n_div XQ xq_sub xq_div].
    rewrite (proj2 (Qceqb_false q 0%Qc)) by (intros ->; discriminate).
    assert (PQ : (0 <= (b - a) / q)%Qc) by (apply Qclt_le_weak; apply Qc_div_pos; auto; qc_lra).
    cbn [rbind n_abs XQ]. rewrite (proj2 (Qcleb_true _ _) PQ). reflexivity.
  - destruct HW as (q & -> & HW). rewrite HW. reflexivity.
Qed.

Lemma ema_does deg : sound_layer (LEma deg) -> (looks_back (LEma deg) = true -> Z) ->
  tf_does I upto (dots d) (ema_G (wt_of deg) (fun _ y => y)) (st_ema_tf src (Some (Fin m)) deg).
Proof.
  intros SL HZ s pa k p Is U N GP IP PP.
  assert (HW : weight_of deg (wt_of deg)).
  { destruct deg as [q|q]; cbn [sound_layer] in SL.
    - destruct SL as (r & -> & L). exists r. auto.
    - destruct SL as (r & ->). exists r. auto. }
  destruct (dots_nth _ _ _ N) as (b & yb & Nd & E). subst p. cbn [fst snd].
  assert (LN : forall cprev, (match deg with EmaAlpha _ => True | EmaPeriod _ => cprev (Fin b) = Ok (match k with O => None | S j => option_map fst (nth_error (dots d) j) end) end) ->
     ema_scan deg None cprev (Fin b) (Some (Fin yb)) (lastv v_none (p_pts pa)) = Ok (ema_G (wt_of deg) (fun _ y => y) (firstn k (dots d)) (Fin b, Some (Fin yb)) (lastv v_none (p_pts pa)))).
  { intros cprev HP.
    destruct deg as [q|q].
    - assert (PREV : exists cp : xq -> res (option xq), (forall j p, nth_error (dots d) (S j) = Some p -> cp (fst p) = Ok (option_map fst (nth_error (dots d) j)))).
      { exists (fun x => match find (fun j => match nth_error (dots d) (S j) with Some p => xq_eqb (fst p) x | None => false end) (seq 0 (length d)) with Some j => Ok (option_map fst (nth_error (dots d) j)) | None => Ok None end).
        intros j p Np. cbv beta. destruct (find _ _) as [i|] eqn:FD.
        - apply find_some in FD as [_ E]. destruct (nth_error (dots d) (S i)) as [p'|] eqn:Ni; [|discriminate].
          destruct (asc_fin _ _ _ A Np) as [x X]. destruct (asc_fin _ _ _ A Ni) as [x' X']. rewrite X, X' in E. cbn in E. apply Qceqb_true in E. subst x'.
          destruct (Nat.lt_trichotomy i j) as [L|[L|L]].
          + pose proof (asc_nth _ _ _ _ _ A Ni Np ltac:(lia)) as Y. rewrite X, X' in Y. cbn in Y. apply lt_x_fin in Y. exfalso. qc_lra.
          + now subst.
          + pose proof (asc_nth _ _ _ _ _ A Np Ni ltac:(lia)) as Y. rewrite X, X' in Y. cbn in Y. apply lt_x_fin in Y. exfalso. qc_lra.
        - assert (Lj : (S j < length d)%nat) by (rewrite <- dots_len; apply nth_error_Some; congruence).
          pose proof (find_none _ _ FD j ltac:(apply in_seq; lia)) as X. cbn beta in X. rewrite Np in X.
          destruct (asc_fin _ _ _ A Np) as [x E]. rewrite E in X. cbn in X. rewrite (proj2 (Qceqb_true x x) eq_refl) in X. discriminate. }
      destruct PREV as (cp & PR). pose proof (ema_on (EmaPeriod q) _ cp ILinear HW PR pa k _ N GP IP PP) as E. cbn [fst snd] in E.
      rewrite <- E. unfold ema_scan. destruct k as [|j].
      + rewrite PP. reflexivity.
      + rewrite HP, <- (PR j _ N). reflexivity.
    - pose proof (ema_on (EmaAlpha q) _ cprev ILinear HW Logic.I pa k _ N GP IP PP) as E. exact E. }
  unfold st_ema_tf. destruct (lastv v_none (p_pts pa)) as [e|] eqn:EL; [|exists s; split; [|now apply grows_refl]].
  - destruct deg as [q|q]; [|exists s; split; [|now apply grows_refl]].
    + destruct k as [|j]; [rewrite PP in EL; discriminate|].
      exists s. split; [|now apply grows_refl]. unfold sbind.
      pose proof (rd_prev _ _ _ _ _ _ _ RD (HZ eq_refl) s j _ m Is U Hm CM N) as E. cbn [fst] in E. rewrite E. f_equal. apply LN. reflexivity.
    + f_equal. apply LN. exact Logic.I.
  - f_equal. destruct k as [|j].
    + apply LN. now destruct deg.
    + destruct deg; [|apply LN; exact Logic.I]. etransitivity; [|apply (LN (fun _ => Ok (option_map fst (nth_error (dots d) j)))); reflexivity]. reflexivity.
Qed.

Lemma walk_does M : Z -> (0 < M)%Qc -> coarse M (dots d) -> forall n s k p, I s -> upto s k -> nth_error d k = Some p ->
  exists s', st_walk src (Some (Fin M)) n (Fin (fst p)) s = (s', Ok (dots (firstn n (rev (firstn k d))))) /\ grows I upto s s'.
Proof.
  intros HZ HM C n. induction n as [|n IH]; intros s k p Is U N.
  { exists s. split; [reflexivity|now apply grows_refl]. }
  cbn [st_walk]. destruct p as [b yb]. cbn [fst].
  assert (N' : nth_error (dots d) k = Some (Fin b, Some (Fin yb))) by (unfold dots; rewrite nth_error_map, N; reflexivity).
  destruct k as [|j].
  - pose proof (rd_first _ _ _ _ _ _ _ RD s _ M Is HM N') as E. cbn [fst] in E. unfold sbind. rewrite E.
    exists s. split; [reflexivity|now apply grows_refl].
  - assert (Lj : (S j < length d)%nat) by (apply nth_error_Some; congruence).
    destruct (nth_error d j) as [[a ya]|] eqn:Nj; [|apply nth_error_None in Nj; lia].
    assert (Nj' : nth_error (dots d) j = Some (Fin a, Some (Fin ya))) by (unfold dots; rewrite nth_error_map, Nj; reflexivity).
    pose proof (rd_prev _ _ _ _ _ _ _ RD HZ s j _ M Is U HM C N') as E. cbn [fst] in E. rewrite Nj' in E. cbn [option_map fst] in E.
    unfold sbind at 1. rewrite E.
    destruct (src_knot src I upto Vr (dots d) F Z RD A s j _ Is Nj') as (s1 & E1 & G1 & U1). cbn [fst snd] in E1.
    unfold sbind at 1. rewrite E1.
    destruct (IH s1 j (a, ya) (proj1 G1) U1 Nj) as (s2 & E2 & G2). cbn [fst] in E2. unfold sbind. rewrite E2.
    exists s2. split; [|eapply grows_trans; eauto]. unfold sret.
    rewrite (firstn_snoc d j _ Nj), rev_app_distr. reflexivity.
Qed.

Lemma map_does n tfm sown : sound_layer (LMap n tfm) -> (looks_back (LMap n tfm) = true -> Z) ->
  (sown = None \/ exists m0, sown = Some (Fin m0) /\ (0 < m0)%Qc /\ coarse m0 (dots d)) ->
  tf_does I upto (dots d) (map_G (win_degree (Z.to_nat n)) (g_of tfm)) (st_map_tf src (Some (Fin m)) sown n tfm).
Proof.
  intros [Hn HC] HZ SO s pa k p Is U N GP IP PP. clear GP IP PP.
  rewrite dots_firstn. unfold map_G. rewrite undot_dots.
  destruct (dots_nth _ _ _ N) as (b & yb & Nd & ->). cbn [fst snd undot].
  assert (MORE : exists s', (if negb (n =? 1)%Z then st_walk src (resolve_min_step sown (Some (Fin m))) (Z.to_nat (n - 1)) (Fin b) else sret []) s
                   = (s', Ok (dots (firstn (Z.to_nat n - 1) (rev (firstn k d))))) /\ grows I upto s s').
  { destruct (n =? 1)%Z eqn:E1; cbn [negb].
    - apply Z.eqb_eq in E1. subst n. exists s. split; [reflexivity|now apply grows_refl].
    - replace (Z.to_nat (n - 1)) with (Z.to_nat n - 1)%nat by lia. change (Fin b) with (Fin (fst (b, yb))).
      assert (ZZ : Z) by (apply HZ; cbn; now rewrite E1).
      destruct SO as [->|(m0 & -> & H0 & C0)].
      + apply walk_does; auto.
      + rewrite resolve_max. apply walk_does; auto; destruct (Qcltb m m0); auto. }
  destruct MORE as (s' & E & GR). exists s'. split; [|exact GR]. unfold st_map_tf, sbind. rewrite E. f_equal.
  assert (ZN : exists n', Z.to_nat n = S n') by (exists (Z.to_nat n - 1)%nat; lia).
  destruct ZN as [n' ZN]. rewrite ZN in *. cbn [Nat.sub]. rewrite Nat.sub_0_r.
  rewrite some_fin_snd. unfold win_degree. rewrite map_app, rev_app_distr. cbn [map rev app firstn snd].
  assert (EW : map snd (firstn n' (rev (firstn k d))) = firstn n' (rev (map snd (firstn k d)))) by now rewrite <- map_rev, firstn_map.
  rewrite <- EW. unfold g_of. destruct (HC b yb (map snd (firstn n' (rev (firstn k d))))) as [v HV].
  cbn [map] in HV. cbn [map]. rewrite HV. reflexivity.
Qed.

Lemma layer_does k sown : sound_layer k -> (looks_back k = true -> Z) -> coarse min_step (dots d) ->
  (sown = None \/ exists m0, sown = Some (Fin m0) /\ (0 < m0)%Qc /\ coarse m0 (dots d)) ->
  tf_does I upto (dots d) (layer_G k) (layer_tf src sown (Some (Fin m)) k).
Proof.
  intros SL HZ CS SO. destruct k as [half ip const|deg|n tfm]; cbn [layer_G layer_tf].
  - destruct SL as (h & c & -> & _ & H). now apply integral_does.
  - now apply ema_does.
  - now apply map_does.
Qed.
End Tf.
