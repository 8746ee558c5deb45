(** Smoothed moving averages over equally spaced numeric points. *)
From Coq Require Import List ZArith QArith Qcanon Bool Sorting.Sorted Lia Arith.
From Verif Require Import Base Num NumFacts Interval IntervalFacts Curve BaseFacts.
From Verif Require Import Points PointsSpec PointsIdx PointsQuery PointsDom PointsOps PointsMut PointsReset PointsReplace PointsCover PointsHist PointsTop.
From Verif Require Import PointsDec BaseTop Combine CombineFacts CombineTop CombineLine Scan ScanFacts ScanSource ScanInv ScanTf SmaFacts SmaInv ScanTop Smma.
Import ListNotations.

(** the first value: the trapezoid mean of the first n values *)
Definition seed (n : nat) (d : list (Qc * Qc)) : Qc :=
  if (n =? 1)%nat then at_y d 0 else (area_sum ILinear d 0 (n - 1) / (at_x d (n - 1) - at_x d 0))%Qc.
Definition weight (n : nat) : Qc := (1 / QcofZ (Z.of_nat n))%Qc.
(** the j-th value after the first one *)
Fixpoint smma_at (n : nat) (d : list (Qc * Qc)) (j : nat) : Qc :=
  match j with
  | O => seed n d
  | S i => (smma_at n d i + weight n * (at_y d (n + i) - smma_at n d i))%Qc
  end.
Definition undot (p : xq * num) : Qc * Qc :=
  match p with (Fin x, Some (Fin y)) => (x, y) | _ => (0%Qc, 0%Qc) end.
Lemma undots d : map undot (dots d) = d.
Proof. unfold dots. rewrite List.map_map. rewrite <- (map_id d) at 2. apply map_ext. now intros []. Qed.

Definition smma_G (n : nat) (pre : list (xq * num)) (p : xq * num) (last : num) : num :=
  match p with
  | (Fin b, Some (Fin y)) =>
      match last with
      | Some (Fin e) => Some (Fin (e + weight n * (y - e))%Qc)
      | _ => if (length pre =? n - 1)%nat then Some (Fin (seed n (map undot (pre ++ [p])))) else None
      end
  | _ => None
  end.

Lemma at_x_firstn d j k : (j < k)%nat -> at_x (firstn k d) j = at_x d j.
Proof. intros L. unfold at_x. f_equal. revert j k L. induction d as [|p d IH]; intros [|j] [|k] L; try lia; cbn; auto. apply IH. lia. Qed.
Lemma at_y_firstn d j k : (j < k)%nat -> at_y (firstn k d) j = at_y d j.
Proof. intros L. unfold at_y. f_equal. revert j k L. induction d as [|p d IH]; intros [|j] [|k] L; try lia; cbn; auto. apply IH. lia. Qed.
Lemma pt_xy d k : pt d k = (at_x d k, at_y d k).
Proof. unfold pt, at_x, at_y. now destruct (nth k d (0%Qc, 0%Qc)). Qed.
Lemma area_firstn ip d i n k : (i + n < k)%nat -> area_sum ip (firstn k d) i n = area_sum ip d i n.
Proof.
  intros L. induction n as [|n IH]; [reflexivity|]. cbn [area_sum]. rewrite IH by lia. rewrite !pt_xy.
  rewrite !at_x_firstn, !at_y_firstn by lia. reflexivity.
Qed.
Lemma seed_firstn n d k : (1 <= n)%nat -> (n <= k)%nat -> seed n (firstn k d) = seed n d.
Proof.
  intros Hn L. unfold seed. destruct (n =? 1)%nat; [apply at_y_firstn; lia|].
  rewrite area_firstn, !at_x_firstn by lia. reflexivity.
Qed.

(** what the scan accumulates *)
Definition smma_val (n : nat) (d : list (Qc * Qc)) (k : nat) : num :=
  if (S k <? n)%nat then None else Some (Fin (smma_at n d (k - (n - 1)))).
Lemma smma_spec n d k : (1 <= n)%nat -> (k < length d)%nat ->
  nth_error (spec (smma_G n) (dots d)) k = Some (Fin (at_x d k), smma_val n d k).
Proof.
  intros Hn. induction k as [|k IH]; intros L; rewrite (spec_nth _ _ _ _ (dots_at d _ L)); cbn [fst]; do 2 f_equal.
  - cbn [firstn spec acc_list lastv last_opt rev head_opt smma_G]. change (v_none : num) with (None : num). cbn [length app]. unfold smma_val.
    destruct n as [|[|n]]; [lia| |reflexivity]. cbn. unfold seed, at_y. destruct d; reflexivity.
  - specialize (IH ltac:(lia)).
    assert (LV : lastv v_none (spec (smma_G n) (firstn (S k) (dots d))) = smma_val n d k).
    { rewrite <- spec_firstn. unfold lastv. rewrite last_firstn by (rewrite spec_length, dots_len; lia). now rewrite IH. }
    rewrite LV. unfold smma_G, smma_val. destruct (S k <? n)%nat eqn:C.
    + apply Nat.ltb_lt in C. rewrite firstn_length, dots_len. replace (Nat.min (S k) (length d)) with (S k) by lia.
      destruct (Nat.eqb_spec (S k) (n - 1)) as [E|E].
      * replace (S (S k) <? n)%nat with false by (symmetry; apply Nat.ltb_ge; lia).
        replace (S k - (n - 1))%nat with 0%nat by lia. cbn [smma_at]. do 2 f_equal.
        rewrite <- (firstn_snoc (dots d) (S k) _ (dots_at d _ L)), dots_firstn, undots. apply seed_firstn; lia.
      * replace (S (S k) <? n)%nat with true by (symmetry; apply Nat.ltb_lt; lia). reflexivity.
    + apply Nat.ltb_ge in C. replace (S (S k) <? n)%nat with false by (symmetry; apply Nat.ltb_ge; lia).
      replace (S k - (n - 1))%nat with (S (k - (n - 1))) by lia. cbn [smma_at].
      replace (n + (k - (n - 1)))%nat with (S k) by lia. reflexivity.
Qed.

Section Smma.
Context (half m : Qc) (Hh : (half + half = 1)%Qc) (Hm : (min_step <= m)%Qc) (n : nat) (Hn : (1 <= n)%nat).
Context (sm : pts xq num -> xq -> acc xq num).
(** whatever state the SMA of the source is in *)
Definition sma_ready : Prop := forall s x, good s -> sinv m (SmaDegree n) s (sm s x).
Context (SM : sma_ready).
Definition smma_tf (s : pts xq num) (_ : pts xq num) : xq -> num -> num -> res num :=
  smma_scan (S (length (p_pts s))) (Fin half) (p_crv s) (Some (Fin m)) n (Fin (weight n)) (sm s).

Lemma weight_ok : smma_alpha n = Ok (Fin (weight n) : xq).
Proof.
  unfold smma_alpha. destruct n as [|k]; [lia|]. change (n_one : xq) with (Fin (QcofZ 1)). cbn [n_ofZ XQ].
  rewrite xdiv; [unfold weight; now rewrite QcofZ_1|apply QcofZ_nz; lia].
Qed.

Lemma sma_first_knots s d a k : source m s d -> sinv m (SmaDegree n) s a -> (k < length d)%nat -> (S k <= n)%nat ->
  snd (sma_y 2 (S (length d)) (Fin half) (p_crv s) (Some (Fin m)) (SmaDegree n) a (Fin (at_x d k))) =
  Ok (if (S k <? n)%nat then None else Some (Fin (seed n d))).
Proof.
  intros HS HI L Ln.
  assert (M0 : (0 < m)%Qc) by (eapply Qclt_le_trans; [|exact Hm]; reflexivity).
  assert (DO : degree_ok m (SmaDegree n)) by (cbn; lia).
  destruct (Nat.ltb_spec (S k) n) as [C|C].
  - destruct (out_ok half m M0 (SmaDegree n) 1 (S (length d)) s d a (Fin (at_x d k)) DO HS HI) as (a' & X & _).
    2:{ rewrite X. reflexivity. }
    destruct (source_step m M0 s d HS) as (h & Hs & EV).
    destruct (i_contains _ _) eqn:IC; [|reflexivity]. exfalso. apply (dom_knots m (SmaDegree n) d h) in IC; auto.
    cbn [first_pos] in IC. destruct IC as (L1 & IC & _). pose proof (even_lt h d EV k (n - 1) ltac:(lia) L1). pose proof (proj1 EV). qc_lra.
  - destruct (knot_ok half m Hh M0 (SmaDegree n) 1 (S (length d)) s d a k DO HS HI) as (a' & X & _); auto; [cbn; lia|].
    rewrite X. cbn [snd]. do 3 f_equal. unfold average, window, seed. replace (k - (n - 1))%nat with 0%nat by lia.
    replace k with (n - 1)%nat by lia. destruct (Nat.eqb_spec n 1) as [->|E]; [reflexivity|].
    replace (0 =? n - 1)%nat with false by (symmetry; apply Nat.eqb_neq; lia). now rewrite Nat.sub_0_r.
Qed.

Lemma smma_tf_ok : tf_ok (smma_G n) integral_src m ILinear smma_tf.
Proof.
  intros s pa k p (GS & ES & CS & (d & D) & CM) N GP IP PP.
  assert (HS : source m s d) by (split; [auto|]; rewrite <- D; auto).
  rewrite D in *. assert (L : (k < length d)%nat) by (rewrite <- dots_len; apply nth_error_Some; congruence).
  assert (LV : lastv v_none (p_pts pa) = match k with O => None | S j => smma_val n d j end).
  { rewrite PP. destruct k as [|j]; [reflexivity|].
    rewrite <- spec_firstn. unfold lastv. rewrite last_firstn by (rewrite spec_length, dots_len; lia). now rewrite smma_spec by lia. }
  pose proof (smma_spec n d k Hn L) as SN. rewrite (spec_nth _ _ _ _ N) in SN. rewrite <- PP in SN.
  pose proof N as N'. rewrite (dots_at d k L) in N'. injection N' as <-. cbn [fst snd]. apply (f_equal (option_map snd)) in SN. cbn [option_map snd] in SN.
  assert (SN' : forall A B : num, Some A = Some B -> A = B) by congruence. apply SN' in SN. rewrite SN.
  unfold smma_tf, smma_scan. rewrite D, dots_len, LV. cbn [ema_scan].
  assert (B : (S k <= n)%nat -> match k with O => None | S j => smma_val n d j end = None).
  { intros C. destruct k as [|j]; [reflexivity|]. unfold smma_val. now replace (S j <? n)%nat with true by (symmetry; apply Nat.ltb_lt; lia). }
  destruct (le_lt_dec (S k) n) as [C|C].
  - rewrite B by auto. rewrite (sma_first_knots s d _ k HS (SM s _ GS) L C). unfold smma_val.
    destruct (S k <? n)%nat eqn:E; [reflexivity|]. apply Nat.ltb_ge in E. replace (k - (n - 1))%nat with 0%nat by lia. reflexivity.
  - destruct k as [|j]; [lia|]. unfold smma_val. replace (S j <? n)%nat with false by (symmetry; apply Nat.ltb_ge; lia).
    replace (S (S j) <? n)%nat with false by (symmetry; apply Nat.ltb_ge; lia).
    replace (S j - (n - 1))%nat with (S (j - (n - 1))) by lia. cbn [smma_at]. replace (n + (j - (n - 1)))%nat with (S j) by lia. reflexivity.
Qed.

(** a source and its SMMA, after any history *)
Definition smma_of : pts xq num -> acc xq num -> Prop := watched integral_src m ILinear smma_tf (fun v => v).
Definition smma_y (fuel : nat) (s : pts xq num) (a : acc xq num) (x : xq) : acc xq num * res num :=
  acc_y fuel (p_crv s) (Some (Fin m)) (smma_tf s) (fun v => v) a x.

Lemma smma_traces fuel s a d : smma_of s a -> evenly m s d -> (length d < fuel)%nat ->
  traces ILinear (skipn (n - 1) (table d (fun k => smma_at n d (k - (n - 1))))) (fun x => snd (smma_y fuel s a x)).
Proof.
  intros H (D & EQ & CO) L.
  assert (M0 : (0 < m)%Qc) by (eapply Qclt_le_trans; [|exact Hm]; reflexivity).
  assert (HS : src integral_src m s).
  { destruct (watched_inv lerp_total_num lerp_total_num _ _ m M0 ILinear _ (fun v => v) smma_tf_ok eq_refl s a H) as [GS _].
    split; [auto|]. rewrite D. split; [auto|]. split; [auto|]. split; [now exists d|].
    intros i x y vx vy A B. eapply Qcle_trans; [exact Hm|]. eapply CO; eauto. }
  set (r := spec (smma_G n) (dots d)).
  assert (U : forall q v, value ILinear r q v -> snd (smma_y fuel s a (Fin q)) = Ok v).
  { intros q v X. destruct (watched_value lerp_total_num lerp_total_num _ _ m M0 ILinear _ (fun v => v) smma_tf_ok eq_refl fuel s a q H HS) as (a' & w & E & Y).
    { now rewrite D, dots_len. }
    unfold smma_y. rewrite E. cbn [snd]. f_equal. rewrite D in Y. eapply value_unique; [|exact Y|exact X].
    eapply ascending_xs; [symmetry; apply spec_xs|]. rewrite <- D. apply HS. }
  assert (T : forall k, (n - 1 + k < length d)%nat -> at_x (skipn (n - 1) (table d (fun k => smma_at n d (k - (n - 1))))) k = at_x d (n - 1 + k) /\
    at_y (skipn (n - 1) (table d (fun k => smma_at n d (k - (n - 1))))) k = smma_at n d k).
  { intros k Lk. rewrite skipn_x, table_x by auto. split; [reflexivity|]. unfold at_y. rewrite nth_skipn.
    change (at_y (table d (fun k => smma_at n d (k - (n - 1)))) (n - 1 + k) = smma_at n d k). rewrite table_y by auto. f_equal. lia. }
  assert (LT : length (skipn (n - 1) (table d (fun k => smma_at n d (k - (n - 1))))) = (length d - (n - 1))%nat) by now rewrite skipn_length, table_len.
  assert (TWO : forall j, (S j < length d)%nat -> exists l1 l2, r = l1 ++ (Fin (at_x d j), smma_val n d j) :: (Fin (at_x d (S j)), smma_val n d (S j)) :: l2).
  { intros j Lj. destruct (nth_error_split _ _ (smma_spec n d j Hn ltac:(lia))) as (l1 & l2 & E & Ln).
    pose proof (smma_spec n d (S j) Hn Lj) as Nx. rewrite E, nth_error_app2 in Nx by lia. replace (S j - length l1)%nat with 1%nat in Nx by lia.
    destruct l2 as [|p l2]; [discriminate|]. cbn in Nx. injection Nx as ->. unfold r. rewrite E. eauto. }
  split; [|split].
  - intros k Lk. rewrite LT in Lk. destruct (T k ltac:(lia)) as [-> ->]. apply U. apply val_knot. apply (nth_error_In _ (n - 1 + k)).
    unfold r. rewrite (smma_spec n d (n - 1 + k) Hn) by lia. unfold smma_val. replace (S (n - 1 + k) <? n)%nat with false by (symmetry; apply Nat.ltb_ge; lia).
    do 5 f_equal. lia.
  - intros j q Lj Q1 Q2. rewrite LT in Lj. unfold blend_at. destruct (T j ltac:(lia)) as [X0 Y0]. destruct (T (S j) ltac:(lia)) as [X1 Y1].
    rewrite X0, X1, Y0, Y1 in *. replace (n - 1 + S j)%nat with (S (n - 1 + j)) in * by lia.
    assert (NZ : (at_x d (S (n - 1 + j)) - at_x d (n - 1 + j))%Qc <> 0%Qc) by (intros Z; clear -Z Q1 Q2; qc_lra).
    destruct (TWO (n - 1 + j)%nat ltac:(lia)) as (l1 & l2 & E).
    rewrite (U q (Some (Fin ((1 - (q - at_x d (n - 1 + j)) / (at_x d (S (n - 1 + j)) - at_x d (n - 1 + j))) * smma_at n d j +
        (q - at_x d (n - 1 + j)) / (at_x d (S (n - 1 + j)) - at_x d (n - 1 + j)) * smma_at n d (S j)))%Qc)).
    { do 3 f_equal. field. exact NZ. }
    eapply val_lerp; eauto. unfold smma_val. replace (S (n - 1 + j) <? n)%nat with false by (symmetry; apply Nat.ltb_ge; lia).
    replace (S (S (n - 1 + j)) <? n)%nat with false by (symmetry; apply Nat.ltb_ge; lia).
    replace (n - 1 + j - (n - 1))%nat with j by lia. replace (S (n - 1 + j) - (n - 1))%nat with (S j) by lia. reflexivity.
  - intros q O. rewrite LT in O. apply U. change (None : num) with (v_none : num).
    destruct (even_of d EQ) as [h EV].
    destruct (le_lt_dec (length d) 0) as [Z|Z].
    { apply val_outside. left. intros [x v] J. unfold r in J. destruct d; [destruct J|cbn in Z; lia]. }
    destruct (Qclt_le_dec q (at_x d 0)) as [Q0|Q0].
    { apply val_outside. left. intros p J. apply (in_map fst) in J. unfold r in J. rewrite spec_xs in J. apply in_map_iff in J as ([x v] & <- & J).
      apply dots_in in J as (k & Lk & -> & ->). cbn [fst]. apply lt_x_fin. pose proof (even_le h d EV 0 k ltac:(lia) Lk). qc_lra. }
    destruct (Qclt_le_dec (at_x d (length d - 1)) q) as [Q1|Q1].
    { apply val_outside. right. intros p J. apply (in_map fst) in J. unfold r in J. rewrite spec_xs in J. apply in_map_iff in J as ([x v] & <- & J).
      apply dots_in in J as (k & Lk & -> & ->). cbn [fst]. apply lt_x_fin. pose proof (even_le h d EV k (length d - 1) ltac:(lia) ltac:(lia)). qc_lra. }
    assert (BN : forall j, (j < length d)%nat -> (at_x d j <= q)%Qc -> (S j < n)%nat).
    { intros j Lj Qj. destruct (le_lt_dec n (S j)) as [C|C]; auto. exfalso. destruct O as [O|O].
      - specialize (O (j - (n - 1))%nat ltac:(lia)).
        destruct (T (j - (n - 1))%nat ltac:(lia)) as [X _]. rewrite X in O. replace (n - 1 + (j - (n - 1)))%nat with j in O by lia. qc_lra.
      - specialize (O (length d - 1 - (n - 1))%nat ltac:(lia)).
        destruct (T (length d - 1 - (n - 1))%nat ltac:(lia)) as [X _]. rewrite X in O.
        replace (n - 1 + (length d - 1 - (n - 1)))%nat with (length d - 1)%nat in O by lia. qc_lra. }
    destruct (between h d q EV Z Q0 Q1) as [(k & Lk & E)|(j & Lj & B1 & B2)].
    + apply val_knot. subst q. apply (nth_error_In _ k). unfold r. rewrite (smma_spec n d k Hn Lk). unfold smma_val.
      specialize (BN k Lk (Qcle_refl _)). now replace (S k <? n)%nat with true by (symmetry; apply Nat.ltb_lt; lia).
    + destruct (TWO j Lj) as (l1 & l2 & E). specialize (BN j ltac:(lia) (Qclt_le_weak _ _ B1)).
      eapply val_lerp; eauto. unfold smma_val. now replace (S j <? n)%nat with true by (symmetry; apply Nat.ltb_lt; lia).
Qed.

Lemma smma_unfold fuel s a d : smma_of s a -> evenly m s d -> (length d < fuel)%nat ->
  exists E, traces ILinear (skipn (n - 1) (table d E)) (fun x => snd (smma_y fuel s a x)) /\
    ((n <= length d)%nat -> forall fuel' a', averaged half m (SmaDegree n) s a' -> (length d < fuel')%nat ->
      snd (sma_value half m (SmaDegree n) fuel' s a' (Fin (at_x d (n - 1)))) = Ok (Some (Fin (E (n - 1)%nat)))) /\
    (forall k, (n - 1 <= k)%nat -> (S k < length d)%nat -> E (S k) = (E k + (at_y d (S k) - E k) / QcofZ (Z.of_nat n))%Qc).
Proof.
  intros H EV L. exists (fun k => smma_at n d (k - (n - 1))). split; [now apply smma_traces|]. split.
  - intros Ln fuel' a' HA L'. rewrite Nat.sub_diag. cbn [smma_at]. unfold seed. destruct (Nat.eqb_spec n 1) as [->|C].
    + rewrite sma_degree_one with (d := d); auto; try lia.
    + rewrite sma_degree_knot with (d := d); auto; try lia. rewrite Nat.sub_diag. reflexivity.
  - intros k L0 Lk. replace (S k - (n - 1))%nat with (S (k - (n - 1))) by lia. cbn [smma_at].
    replace (n + (k - (n - 1)))%nat with (S k) by lia. unfold weight. field. apply QcofZ_nz. lia.
Qed.

Lemma weight_01 : (0 <= weight n)%Qc /\ (weight n <= 1)%Qc.
Proof.
  unfold weight. set (N := QcofZ (Z.of_nat n)). assert (N1 : (1 <= N)%Qc).
  { unfold N. rewrite <- QcofZ_1. destruct (Z.eq_dec (Z.of_nat n) 1) as [->|C]; [apply Qcle_refl|].
    apply Qclt_le_weak, QcofZ_lt. lia. }
  assert (NZ : N <> 0%Qc) by (intros Z; rewrite Z in N1; clear -N1; qc_lra).
  assert (E : (1 / N * N = 1)%Qc) by (field; exact NZ). set (w := (1 / N)%Qc) in *. clearbody w N. clear NZ Hh Hm Hn. split.
  - destruct (Qclt_le_dec w 0) as [C|C]; auto. exfalso. qc_nra.
  - destruct (Qclt_le_dec 1 w) as [C|C]; auto. exfalso. qc_nra.
Qed.

Lemma seed_within lo hi h d : even h d -> within lo hi d -> (n <= length d)%nat -> (lo <= seed n d <= hi)%Qc.
Proof.
  intros EV W L. unfold seed. destruct (Nat.eqb_spec n 1) as [C|C]; [apply (within_pt lo hi d 0 W); lia|].
  pose proof (average_bounds lo hi d h 0 (n - 1) EV W ltac:(lia) ltac:(lia)) as B. now rewrite Nat.sub_0_r in B.
Qed.

Lemma smma_within fuel s a d lo hi q y : smma_of s a -> evenly m s d -> (length d < fuel)%nat -> within lo hi d ->
  snd (smma_y fuel s a (Fin q)) = Ok (Some (Fin y)) -> (lo <= y <= hi)%Qc.
Proof.
  intros H EV L W Y. destruct (even_of d (proj1 (proj2 EV))) as [h HE]. destruct weight_01 as [W0 W1].
  apply (traces_within lo hi ILinear _ h _ q y (smma_traces fuel s a d H EV L)); [| |exact Y].
  - destruct HE as [H0 HE]. split; [exact H0|]. intros k Lk. rewrite skipn_length, table_len in Lk.
    rewrite !skipn_x, !table_x by lia. replace (n - 1 + S k)%nat with (S (n - 1 + k)) by lia. apply HE. lia.
  - intros k Lk. rewrite skipn_length, table_len in Lk. unfold at_y. rewrite nth_skipn.
    change (snd (nth ?i ?l (0%Qc, 0%Qc))) with (at_y l i). rewrite table_y by lia. replace (n - 1 + k - (n - 1))%nat with k by lia.
    induction k as [|k IH]; cbn [smma_at]; [apply (seed_within lo hi h); auto; lia|].
    specialize (IH ltac:(lia)). pose proof (within_pt lo hi d (n + k) W ltac:(lia)) as B. change (snd (pt d (n + k))) with (at_y d (n + k)) in B.
    set (e := smma_at n d k) in *. replace (e + weight n * (at_y d (n + k) - e))%Qc with (weight n * at_y d (n + k) + (1 - weight n) * e)%Qc by ring.
    apply mix_bounds; auto.
Qed.

Lemma smma_same fuel fuel' s s' a a' d x : smma_of s a -> smma_of s' a' -> evenly m s d -> evenly m s' d ->
  (length d < fuel)%nat -> (length d < fuel')%nat ->
  snd (smma_y fuel s a (Fin x)) = snd (smma_y fuel' s' a' (Fin x)).
Proof.
  intros H H' E E' L L'.
  exact (watched_both _ _ m (min_pos m Hm) ILinear _ _ smma_tf_ok eq_refl fuel fuel' s s' a a' d x
    H H' E E' (integral_src_of m s d Hm E) L L').
Qed.

Lemma smma_events s a o s' evs : smma_of s a -> op_ok o -> run_op s o = (s', evs, Ok tt) ->
  (p_uniform s' = true -> equally_spaced (p_pts s')) ->
  exists a', acc_events a evs =
      (a', map (fun e => match e with EvBegin D => EvBegin (update_interval D) | EvEnd D => EvEnd (update_interval D) end) evs, Ok tt) /\
    smma_of s' a'.
Proof. apply (watched_events lerp_total_num lerp_total_num _ _ m (min_pos m Hm) ILinear _ (fun v => v) smma_tf_ok eq_refl). Qed.
End Smma.

(** an SMA that was never asked, and one that was, are ready *)
Lemma fresh_ready m n : sma_ready m n (fun _ _ => acc_init ILinear true).
Proof.
  intros s x GS. destruct (acc_init_eq (W := num) ILinear) as (_ & E2 & E3 & E4 & E5).
  split; [split; reflexivity|]. split; [now left|]. exists 0%nat, 0%nat. apply state0; auto.
Qed.
Lemma averaged_ready half m n s a : (half + half = 1)%Qc -> (min_step <= m)%Qc -> (1 <= n)%nat ->
  averaged half m (SmaDegree n) s a -> sinv m (SmaDegree n) s a.
Proof. intros Hh Hm Hn H. eapply averaged_inv; eauto using min_pos. Qed.
