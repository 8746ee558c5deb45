(** The simple moving average over an equally spaced Points source: the
    invariant of its scan and the values it returns. *)
From Coq Require Import List ZArith QArith Qcanon Bool Sorting.Sorted Lia Arith.
From Verif Require Import Base Num NumFacts Interval IntervalFacts Curve BaseFacts.
From Verif Require Import Points PointsSpec PointsIdx PointsQuery PointsDom PointsOps PointsMut PointsReset PointsReplace PointsCover PointsHist PointsTop.
From Verif Require Import PointsDec BaseTop Combine CombineFacts CombineTop CombineLine Scan ScanFacts ScanSource ScanInv ScanTf SmaFacts.
Import ListNotations.

(** ** Sums of areas *)
Definition pt (d : list (Qc * Qc)) (k : nat) : Qc * Qc := nth k d (0%Qc, 0%Qc).
(** the area under [n] pieces from position [i] on *)
Fixpoint area_sum (ip : interp) (d : list (Qc * Qc)) (i n : nat) : Qc :=
  match n with
  | O => 0%Qc
  | S n' => (area_sum ip d i n' + area ip (pt d (i + n')) (pt d (S (i + n'))))%Qc
  end.
Lemma area_sum_add ip d i a b : area_sum ip d i (a + b) = (area_sum ip d i a + area_sum ip d (i + a) b)%Qc.
Proof.
  induction b as [|b IH]; [rewrite Nat.add_0_r; cbn; ring|]. rewrite Nat.add_succ_r. cbn [area_sum].
  rewrite IH, Nat.add_assoc. ring.
Qed.
Lemma area_sum_cons ip p d n : area_sum ip (p :: d) 1 n = area_sum ip d 0 n.
Proof. induction n as [|n IH]; cbn [area_sum]; [reflexivity|]. rewrite IH. reflexivity. Qed.
Lemma sums_nth ip d : forall p s k, (k < length d)%nat ->
  nth_error (sums ip s p d) k = Some (at_x d k, (s + area_sum ip (p :: d) 0 (S k))%Qc).
Proof.
  induction d as [|q d IH]; intros p s [|k] L; cbn [length] in L; try lia; cbn [sums nth_error].
  - unfold at_x. cbn. do 3 f_equal. ring.
  - rewrite IH by lia. f_equal. f_equal.
    change (S (S k)) with (1 + S k)%nat. rewrite (area_sum_add ip (p :: q :: d) 0 1 (S k)). cbn [Nat.add].
    rewrite area_sum_cons. cbn [area_sum pt nth Nat.add]. ring.
Qed.
Lemma areas_nth ip d k : (k < length d)%nat -> nth_error (areas ip d) k = Some (at_x d k, area_sum ip d 0 k).
Proof.
  destruct d as [|p d]; cbn [length]; intros L; [lia|]. destruct k as [|k]; [reflexivity|]. cbn [areas nth_error].
  rewrite sums_nth by lia. do 2 f_equal. ring.
Qed.
Lemma nth_skipn {A} (l : list A) i k z : nth k (skipn i l) z = nth (i + k) l z.
Proof. revert l. induction i as [|i IH]; intros [|x l]; cbn; auto. now destruct k. Qed.
Lemma skipn_sum ip d i n : area_sum ip (skipn i d) 0 n = area_sum ip d i n.
Proof.
  induction n as [|n IH]; cbn [area_sum]; [reflexivity|]. rewrite IH. unfold pt. cbn [Nat.add].
  rewrite !nth_skipn. now rewrite <- plus_n_Sm.
Qed.
Lemma skipn_x d i k : at_x (skipn i d) k = at_x d (i + k).
Proof. unfold at_x. now rewrite nth_skipn. Qed.
Lemma dots_skipn d i : skipn i (dots d) = dots (skipn i d).
Proof. unfold dots. symmetry. revert d. induction i as [|i IH]; intros [|p d]; cbn; auto. Qed.
Lemma nth_error_skip {A} (l : list A) i k : nth_error (skipn i l) k = nth_error l (i + k).
Proof. revert l. induction i as [|i IH]; intros [|x l]; cbn; auto. now destruct k. Qed.

Lemma ascending_skipn {V} (l : list (xq * V)) i : ascending l -> ascending (skipn i l).
Proof. intros A. rewrite <- (firstn_skipn i l) in A. now apply ascending_app_iff in A. Qed.
Lemma equally_skipn {V} (l : list (xq * V)) i : equally_spaced l -> equally_spaced (skipn i l).
Proof.
  intros (x0 & h & H & E). exists (x0 + QcofZ (Z.of_nat i) * h)%Qc, h. split; [exact H|]. intros k p N.
  rewrite nth_error_skip in N. rewrite (E _ _ N), Nat2Z.inj_add, QcofZ_add. f_equal. ring.
Qed.
Lemma coarse_skipn {V} (l : list (xq * V)) m i : coarse m l -> coarse m (skipn i l).
Proof.
  intros C k a b va vb N1 N2. rewrite nth_error_skip in N1, N2. rewrite <- plus_n_Sm in N2. eapply C; eauto.
Qed.
Lemma keeps_skipn (l l' : list (xq * num)) D q i : ascending l -> i_start D = Fin q -> keeps D l l' -> keeps D (skipn i l) (skipn i l').
Proof.
  intros A SD K k L B. destruct k as [|k]; [reflexivity|].
  rewrite skipn_length in L.
  assert (X : firstn (i + S k) l' = firstn (i + S k) l).
  { apply K; [lia|]. intros p Ip.
    assert (Z : exists z, nth_error l (i + k) = Some z).
    { destruct (nth_error l (i + k)) eqn:E; eauto. apply nth_error_None in E. lia. }
    destruct Z as [z Z].
    assert (Bz : before D (fst z)).
    { apply B. rewrite <- nth_error_skip in Z. rewrite (firstn_snoc _ _ _ Z). apply in_or_app. right. now left. }
    destruct (ascending_fin _ _ A (nth_error_In _ _ Z)) as (zq & zv & ->).
    apply In_nth_error in Ip. destruct Ip as [j Ij].
    assert (Lj : (j < i + S k)%nat).
    { assert (j < length (firstn (i + S k) l))%nat by (apply nth_error_Some; congruence). rewrite firstn_length in *. lia. }
    assert (Ij' : nth_error l j = Some p).
    { rewrite <- (firstn_skipn (i + S k) l), nth_error_app1; [exact Ij|]. rewrite firstn_length. lia. }
    destruct (ascending_fin _ _ A (nth_error_In _ _ Ij')) as (pq & pv & ->). cbn [fst] in *.
    apply before_trans with (d := q) (y := zq); auto. apply le_x_fin.
    destruct (Nat.eq_dec j (i + k)) as [->|Nj]; [rewrite Z in Ij'; injection Ij' as -> _; apply Qcle_refl|].
    pose proof (asc_nth _ _ _ _ _ A Ij' Z ltac:(lia)) as Y. cbn in Y. apply lt_x_fin in Y. now apply Qclt_le_weak. }
  assert (F : forall (x : list (xq * num)), firstn (S k) (skipn i x) = skipn i (firstn (i + S k) x)).
  { intros x. rewrite skipn_firstn_comm. f_equal. lia. }
  rewrite !F, X. reflexivity.
Qed.

(** ** Bounds *)
Definition within (lo hi : Qc) (d : list (Qc * Qc)) : Prop := forall p, In p d -> (lo <= snd p <= hi)%Qc.
Lemma within_pt lo hi d k : within lo hi d -> (k < length d)%nat -> (lo <= snd (pt d k) <= hi)%Qc.
Proof. intros W L. apply W. now apply nth_In. Qed.
Lemma area_sum_bounds lo hi d h i n : even h d -> within lo hi d -> (i + n < length d)%nat ->
  (lo * (at_x d (i + n) - at_x d i) <= area_sum ILinear d i n <= hi * (at_x d (i + n) - at_x d i))%Qc.
Proof.
  intros E W. induction n as [|n IH]; intros L.
  - rewrite Nat.add_0_r. cbn [area_sum].
    assert (Z : forall c, (c * (at_x d i - at_x d i) = 0)%Qc) by (intros; ring). rewrite !Z. split; apply Qcle_refl.
  - destruct (IH ltac:(lia)) as [B1 B2]. cbn [area_sum]. rewrite <- plus_n_Sm in *.
    destruct (within_pt lo hi d (i + n) W ltac:(lia)) as [P1 P2].
    destruct (within_pt lo hi d (S (i + n)) W ltac:(lia)) as [Q1 Q2].
    unfold area. pose proof (proj2 E (i + n)%nat ltac:(lia)) as SX. pose proof (proj1 E) as HH.
    change (fst (pt d (S (i + n)))) with (at_x d (S (i + n))). change (fst (pt d (i + n))) with (at_x d (i + n)).
    rewrite SX in *. set (w := at_x d (i + n)) in *. set (a := area_sum ILinear d i n) in *.
    set (p := snd (pt d (i + n))) in *. set (q := snd (pt d (S (i + n)))) in *.
    replace (w + h - w)%Qc with h by ring.
    assert (A1 : (lo <= (p + q) / (1 + 1) <= hi)%Qc).
    { replace ((p + q) / (1 + 1))%Qc with (p * Q2Qc (1 # 2) + q * Q2Qc (1 # 2))%Qc.
      - split; qc_lra.
      - assert (T : (1 / (1 + 1) = Q2Qc (1 # 2))%Qc) by (apply Qc_is_canon; reflexivity).
        rewrite <- T. field. discriminate. }
    set (g := ((p + q) / (1 + 1))%Qc) in *. destruct A1 as [A1 A2]. split; qc_nra.
Qed.
Lemma average_bounds lo hi d h i e : even h d -> within lo hi d -> (i < e)%nat -> (e < length d)%nat ->
  (lo <= area_sum ILinear d i (e - i) / (at_x d e - at_x d i) <= hi)%Qc.
Proof.
  intros E W L Le. destruct (area_sum_bounds lo hi d h i (e - i) E W ltac:(lia)) as [B1 B2].
  replace (i + (e - i))%nat with e in * by lia.
  pose proof (even_lt h d E i e L Le) as X. pose proof (proj1 E) as HH.
  set (w := (at_x d e - at_x d i)%Qc) in *. assert (P : (0 < w)%Qc) by (unfold w; qc_lra).
  assert (N : w <> 0%Qc) by (intros Y; rewrite Y in P; qc_lra).
  set (a := area_sum ILinear d i (e - i)) in *.
  assert (Y : (a = a / w * w)%Qc) by (field; exact N). set (g := (a / w)%Qc) in *.
  split.
  - destruct (Qclt_le_dec g lo) as [C|C]; auto. exfalso. rewrite Y in B1. clear -B1 C P. qc_nra.
  - destruct (Qclt_le_dec hi g) as [C|C]; auto. exfalso. rewrite Y in B2. clear -B2 C P. qc_nra.
Qed.
Lemma mix_bounds lo hi a b u : (lo <= a <= hi)%Qc -> (lo <= b <= hi)%Qc -> (0 <= u)%Qc -> (u <= 1)%Qc ->
  (lo <= u * a + (1 - u) * b <= hi)%Qc.
Proof. intros [] [] ? ?. split; qc_nra. Qed.

(** values of a numeric source inside its span *)
Lemma value_num ip d h q v : even h d -> value ip (dots d) q v -> (0 < length d)%nat -> (at_x d 0 <= q)%Qc -> (q <= at_x d (length d - 1))%Qc ->
  exists r, v = Some (Fin r) /\ forall lo hi, within lo hi d -> (lo <= r <= hi)%Qc.
Proof.
  intros E H L L0 L1.
  assert (PW : forall x w, In (x, w) (dots d) -> exists r, w = Some (Fin r) /\ forall lo hi, within lo hi d -> (lo <= r <= hi)%Qc).
  { intros x w I. destruct (dots_in _ _ _ I) as (k & Lk & -> & ->). exists (at_y d k). split; [reflexivity|].
    intros lo hi W. apply (within_pt lo hi d k W Lk). }
  destruct H as [v I|v l1 a b vb l2 _ EL Q1 Q2|v l1 a b va l2 _ EL Q1 Q2|v l1 a va b vb l2 _ EL Q1 Q2 V|O].
  - eapply PW; eauto.
  - apply (PW (Fin a)). rewrite EL. apply in_or_app. right. now left.
  - apply (PW (Fin b)). rewrite EL. apply in_or_app. right. right. now left.
  - destruct (PW (Fin a) va) as (ra & -> & Ba); [rewrite EL; apply in_or_app; right; now left|].
    destruct (PW (Fin b) vb) as (rb & -> & Bb); [rewrite EL; apply in_or_app; right; right; now left|].
    cbn in V. injection V as <-. eexists. split; [reflexivity|]. intros lo hi W.
    specialize (Ba lo hi W). specialize (Bb lo hi W).
    assert (NB : (b - a)%Qc <> 0%Qc) by (intros X; clear -X Q1 Q2; qc_lra).
    set (u := ((q - a) / (b - a))%Qc).
    assert (EU : (u * (b - a) = q - a)%Qc) by (unfold u; field; exact NB).
    assert (U0 : (0 <= u)%Qc).
    { destruct (Qclt_le_dec u 0) as [C|C]; auto. exfalso. clearbody u. clear -EU C Q1 Q2. qc_nra. }
    assert (U1 : (u <= 1)%Qc).
    { destruct (Qclt_le_dec 1 u) as [C|C]; auto. exfalso. clearbody u. clear -EU C Q1 Q2. qc_nra. }
    pose proof (mix_bounds lo hi rb ra u Bb Ba U0 U1) as M.
    fold u. rewrite QcofZ_1. replace ((1 - u) * ra + u * rb)%Qc with (u * rb + (1 - u) * ra)%Qc by ring. exact M.
  - exfalso. destruct O as [O|O].
    + specialize (O (dot (pt d 0))). assert (I : In (dot (pt d 0)) (dots d)) by (apply in_map, nth_In; auto).
      specialize (O I). cbn in O. apply lt_x_fin in O. change (fst (pt d 0)) with (at_x d 0) in O. qc_lra.
    + specialize (O (dot (pt d (length d - 1)))).
      assert (I : In (dot (pt d (length d - 1))) (dots d)) by (apply in_map, nth_In; lia).
      specialize (O I). cbn in O. apply lt_x_fin in O. change (fst (pt d (length d - 1))) with (at_x d (length d - 1)) in O. qc_lra.
Qed.

Section Degree.
Context (m : Qc) (deg : sma_degree xq).

(** a valid degree: what the constructor accepts, and a period of at least
    the curve's own step *)
Definition degree_ok : Prop :=
  match deg with SmaDegree n => (1 <= n)%nat | SmaPeriod p => exists P, p = Fin P /\ (m <= P)%Qc end.
(** the first position of the domain and the first position of the window
    ending at [k] *)
Definition first_pos (d : list (Qc * Qc)) : nat :=
  match deg with
  | SmaDegree n => n - 1
  | SmaPeriod (Fin P) => first_gt (at_x d 0 + P - m) d - 1
  | SmaPeriod _ => 0
  end.
Definition window (d : list (Qc * Qc)) (k : nat) : nat :=
  match deg with
  | SmaDegree n => k - (n - 1)
  | SmaPeriod (Fin P) => first_ge (at_x d k - P + m) d
  | SmaPeriod _ => 0
  end.
(** the average over the window: the area under the polygon divided by its width *)
Definition average (d : list (Qc * Qc)) (k : nat) : Qc :=
  let i := window d k in
  if (i =? k)%nat then at_y d k else (area_sum ILinear d i (k - i) / (at_x d k - at_x d i))%Qc.

Definition sma_domain (d : list (Qc * Qc)) : ival xq :=
  if (first_pos d <? length d)%nat then i_closed (Fin (at_x d (first_pos d))) (Fin (at_x d (length d - 1))) else i_empty.

Lemma dom_knots d h q : even h d -> i_contains (sma_domain d) (Fin q) = true <->
  (first_pos d < length d)%nat /\ (at_x d (first_pos d) <= q <= at_x d (length d - 1))%Qc.
Proof.
  intros EV. unfold sma_domain. destruct (Nat.ltb_spec (first_pos d) (length d)) as [L|L].
  - unfold i_closed. rewrite contains_inq. split; [intros [B1 B2]; auto|intros [_ [B1 B2]]; split; auto].
  - split; [discriminate|]. lia.
Qed.

Lemma sma_domain_fin d x : i_contains (sma_domain d) x = true -> exists q, x = Fin q.
Proof.
  unfold sma_domain. destruct (first_pos d <? length d)%nat; [|destruct x; discriminate].
  destruct x as [q| | |]; [eauto| | |]; unfold i_contains, i_contains_gen, i_closed, above_start, below_end;
    cbn [i_start i_end i_so i_eo]; intros H; apply andb_prop in H; destruct H as [H1 H2]; try discriminate H2;
    apply andb_prop in H1; destruct H1 as [_ H1]; discriminate H1.
Qed.
(** points the average is defined for *)
Definition fine (d : list (Qc * Qc)) : Prop := equally_spaced (dots d) /\ coarse m (dots d) /\ coarse min_step (dots d).
Lemma fine_step d : (0 < m)%Qc -> fine d -> exists h, (m <= h)%Qc /\ even h d.
Proof.
  intros Hm (ES & CS & _). destruct (even_of d ES) as [h E].
  destruct (le_lt_dec 2 (length d)) as [L|L].
  - exists h. split; [|exact E]. pose proof (CS 0%nat _ _ _ _ (dots_at d 0 ltac:(lia)) (dots_at d 1 ltac:(lia))) as C.
    rewrite (proj2 E 0%nat ltac:(lia)) in C. qc_lra.
  - exists m. split; [apply Qcle_refl|]. split; [exact Hm|]. intros k K. lia.
Qed.
End Degree.

(** ** Over any curve that shows the points *)
Section View.
Context (half m o : Qc) (Hhalf : (half + half = 1)%Qc) (Hm : (0 < m)%Qc) (Ho : (0 < o)%Qc) (deg : sma_degree xq).
Notation own := (Some (Fin o)).
Notation degree_ok := (degree_ok m deg).
Notation first_pos := (first_pos m deg).
Notation window := (window m deg).
Notation average := (average m deg).
Notation sma_domain := (sma_domain m deg).
Notation dom_knots := (dom_knots m deg).
Notation sma_domain_fin := (sma_domain_fin m deg).
Notation G := (integral_G ILinear).
Notation st := (state G ILinear).

(** [c] shows the points of [d]: it steps over them (by at least [m] when asked
    for steps of [o]), has their values, and between them numbers within
    their range *)
Record shows (c : crv xq num) (d : list (Qc * Qc)) : Prop := {
  sh_fine : fine m d;
  sh_walks : walks own m c d;
  sh_serves : serves o c (dots d);
  sh_mid : forall q, (0 < length d)%nat -> (at_x d 0 <= q)%Qc -> (q <= at_x d (length d - 1))%Qc ->
    exists r, c_y c (Fin q) = Ok (Some (Fin r)) /\ forall lo hi, within lo hi d -> (lo <= r <= hi)%Qc
}.
Lemma shows_step c d : shows c d -> exists h, (m <= h)%Qc /\ even h d.
Proof. intros HS. apply fine_step; [exact Hm|apply HS]. Qed.
Lemma shows_windows c d : degree_ok -> shows c d -> windows c d own deg (first_pos d) (window d).
Proof.
  intros DO HS. destruct (shows_step c d HS) as (h & Hh & E). pose proof (sh_walks _ _ HS) as WK.
  unfold SmaInv.degree_ok, SmaInv.first_pos, SmaInv.window in *. destruct deg as [p|n].
  - destruct DO as (P & -> & HP). now apply period_windows with h.
  - now apply degree_windows with m h.
Qed.

Definition slot (l : list (xq * num)) (a : acc xq num) : Prop := exists i k, st (skipn i l) a k.
Definition cached (l : list (xq * num)) (a : acc xq num) : Prop := u_dom (a_upd a) = None \/
  forall d, l = dots d -> fine m d -> u_dom (a_upd a) = Some (sma_domain d).
Definition linv (l : list (xq * num)) (a : acc xq num) : Prop :=
  PointsOps.idle (a_upd a) /\ cached l a /\ slot l a.

Lemma sma_dom_ok c d a : degree_ok -> shows c d -> linv (dots d) a ->
  exists a', sma_dom c own deg a = (a', Ok (sma_domain d)) /\ linv (dots d) a' /\ a_start a' = a_start a.
Proof.
  intros DO HS (Id & C & SL). unfold sma_dom.
  assert (INJ : forall d', dots d = dots d' -> d = d').
  { clear. unfold dots. induction d as [|[x y] d IH]; intros [|[x' y'] d'] E; cbn in E; try discriminate; auto.
    injection E as -> -> E. now rewrite (IH d' E). }
  destruct C as [N|N]; [rewrite N|rewrite (N d eq_refl (sh_fine _ _ HS))].
  - rewrite (w_dom _ _ _ _ _ _ (shows_windows c d DO HS)). eexists. split; [reflexivity|]. split; [|reflexivity].
    split; [exact Id|]. split; [|destruct SL as (i & k & [C Q R]); exists i, k; split; auto].
    right. intros d' E _. now rewrite <- (INJ d' E).
  - exists a. split; [reflexivity|]. split; [|reflexivity]. split; [exact Id|]. split; [now right|exact SL].
Qed.

Lemma shows_serves c d i : shows c d -> serves o c (dots (skipn i d)).
Proof.
  intros HS. pose proof (sh_serves _ _ HS) as [S1 S2 S3].
  assert (IN : forall p, In p (skipn i (dots d)) -> In p (dots d)).
  { intros p I. rewrite <- (firstn_skipn i (dots d)). apply in_or_app. now right. }
  split; rewrite <- dots_skipn; auto.
  intros k p lim N. rewrite nth_error_skip in *. rewrite <- plus_n_Sm. eauto.
Qed.
Lemma shows_computes c d i : shows c d -> computes_on G ILinear (integral_scan (Fin half) ILinear (c_y c)) (dots (skipn i d)).
Proof.
  intros HS. pose proof (sh_fine _ _ HS) as (ES & CS & CM). apply integral_on; auto.
  - rewrite <- dots_skipn. apply ascending_skipn, (sh_walks _ _ HS).
  - rewrite <- dots_skipn. now apply coarse_skipn.
  - intros p I. rewrite <- dots_skipn in I. apply (sv_y _ _ _ (sh_serves _ _ HS)).
    rewrite <- (firstn_skipn i (dots d)). apply in_or_app. now right.
Qed.

Notation integral fuel c a x := (sma_integral fuel (Fin half) c own deg a x).

Lemma start_at d i a k : st (skipn i (dots d)) a (S k) -> (i < length d)%nat /\ a_start a = Some (Fin (at_x d i)).
Proof.
  intros St. pose proof (co_len _ _ _ _ _ (st_core _ _ _ _ _ St)) as L. rewrite skipn_length, dots_len in L.
  split; [lia|]. rewrite (st_start _ _ _ _ _ St). rewrite dots_skipn, dots_firstn.
  pose proof (skipn_x d i 0) as X. rewrite Nat.add_0_r in X. rewrite <- X.
  destruct (skipn i d) as [|[x y] r] eqn:E; [|reflexivity].
  apply (f_equal (@length _)) in E. rewrite skipn_length in E. cbn in E. lia.
Qed.
Lemma start_none d i a : st (skipn i (dots d)) a 0 -> a_start a = None /\ forall l', st l' a 0.
Proof.
  intros [[L CP Gd F I] Q R]. cbn in Q, R. split; [exact R|]. intros l'. apply state0; auto.
Qed.

Lemma integral_at fuel c d a e : degree_ok -> shows c d -> linv (dots d) a -> (e < length d)%nat -> (length d < fuel)%nat ->
  exists a' i, integral fuel c a (Fin (at_x d e)) = (a', Ok (Some (Fin (area_sum ILinear d i (e - i))))) /\ linv (dots d) a' /\
    (i <= window d e)%nat /\ a_start a' = Some (Fin (at_x d i)) /\
    (forall j, (j < length d)%nat -> a_start a = Some (Fin (at_x d j)) -> (j <= window d e)%nat -> i = j).
Proof.
  intros DO HS (Id & Ca & (i0 & k & St)) Le Lf. pose proof (shows_windows c d DO HS) as HW.
  destruct (shows_step c d HS) as (h & Hh & EV). pose proof (sh_fine _ _ HS) as (ES & CS & CM).
  assert (AS : ascending (dots d)) by apply (sh_walks _ _ HS).
  pose proof (w_le _ _ _ _ _ _ HW e Le) as We. set (w := window d e) in *.
  (* the state the loop starts in *)
  assert (PRE : exists a1 i k1, (match a_start a, Some (Fin (at_x d w)) with
        | Some s, Some x => if n_ltb x s then reset_scan a else (a, Ok tt)
        | Some _, None => (a, Err EType)
        | None, _ => (a, Ok tt)
        end) = (a1, Ok tt) /\ st (skipn i (dots d)) a1 k1 /\ a_upd a1 = a_upd a /\ (i <= w)%nat /\
        (k1 = 0%nat -> i = w) /\ (forall j, (j < length d)%nat -> a_start a = Some (Fin (at_x d j)) -> (j <= w)%nat -> i = j)).
  { destruct k as [|k].
    - destruct (start_none d i0 a St) as [N St0]. rewrite N. exists a, w, 0%nat. split; [reflexivity|]. split; [apply St0|].
      split; [reflexivity|]. split; [lia|]. split; [reflexivity|]. discriminate.
    - destruct (start_at d i0 a k St) as [L0 S0]. rewrite S0. cbn [n_ltb XQ xq_ltb]. destruct (Qcltb (at_x d w) (at_x d i0)) eqn:C.
      + destruct (reset_scan_ok G ILinear _ (skipn w (dots d)) a _ St) as (a1 & E & St1 & U1).
        exists a1, w, 0%nat. split; [exact E|]. split; [exact St1|]. split; [exact U1|]. split; [lia|]. split; [reflexivity|].
        intros j Lj [= EJ] Lw. exfalso. apply Qcltb_true in C. rewrite EJ in C.
        pose proof (even_le h d EV j w Lw ltac:(lia)). qc_lra.
      + exists a, i0, (S k). split; [reflexivity|]. split; [exact St|]. split; [reflexivity|]. apply Qcltb_false in C.
        split; [apply (even_inv h d EV); auto; lia|]. split; [discriminate|].
        intros j Lj [= EJ] Lw. apply Nat.le_antisymm; apply (even_inv h d EV); auto; rewrite EJ; apply Qcle_refl. }
  destruct PRE as (a1 & i & k1 & E1 & St1 & U1 & Li & K1 & UQ).
  pose proof St1 as St1'. rewrite dots_skipn in St1'.
  assert (SP : span (dots (skipn i d)) (at_x d e)).
  { exists (at_x d i), (at_x d e), (Some (Fin (at_y d i))), (Some (Fin (at_y d e))). rewrite <- dots_skipn. repeat split.
    - apply (nth_error_In _ 0). rewrite nth_error_skip, Nat.add_0_r. apply dots_at. lia.
    - apply (nth_error_In _ (e - i)). rewrite nth_error_skip. replace (i + (e - i))%nat with e by lia. now apply dots_at.
    - apply even_le with h; auto; lia.
    - apply Qcle_refl. }
  destruct (loop_gen lerp_total_num G o Ho ILinear c (integral_scan (Fin half) ILinear (c_y c))
     (dots (skipn i d)) (fun u => u = a_upd a) (fun a x => (a, Ok x)) (Some (Fin (at_x d w))) (at_x d e))
     with (fuel := fuel) (a := a1) (k := k1) as (a2 & k2 & E2 & U2 & St2 & R2).
  { rewrite <- dots_skipn. now apply ascending_skipn. }
  { rewrite <- dots_skipn. now apply equally_skipn. }
  { now apply shows_serves. } { now apply shows_computes. } { exact SP. } { exact U1. } { exact St1'. }
  { rewrite dots_len, skipn_length. lia. }
  { intros ->. rewrite (K1 eq_refl) in *. exists a1, (Fin (at_x d w), Some (Fin (at_y d w))). split; [reflexivity|]. split; [|split; [exact U1|exact St1']].
    rewrite <- dots_skipn. pose proof (dots_at d w ltac:(lia)) as NW. replace w with (w + 0)%nat in NW at 1 by lia. rewrite <- nth_error_skip in NW. destruct (skipn w (dots d)); [discriminate|exact NW]. }
  assert (IC : i_contains (c_dom c) (Fin (at_x d e)) = true).
  { change (Fin (at_x d e)) with (fst (Fin (at_x d e), Some (Fin (at_y d e)))). apply (sv_dom _ _ _ (sh_serves _ _ HS)).
    eapply nth_error_In. now apply dots_at. }
  assert (IL : (i < length d)%nat) by lia.
  destruct (p_y_value (a_pts a2) (at_x d e)) as (v & Y & VV); [intros _; exact lerp_total_num|apply St2|].
  assert (VE : v = Some (Fin (area_sum ILinear d i (e - i)))).
  { assert (A : ascending (dots (areas ILinear (skipn i d)))).
    { rewrite <- spec_areas. eapply ascending_xs; [symmetry; apply spec_xs|]. rewrite <- dots_skipn. now apply ascending_skipn. }
    rewrite (co_interp _ _ _ _ _ (st_core _ _ _ _ _ St2)) in VV.
    assert (AD : ascending (dots (skipn i d))) by (rewrite <- dots_skipn; now apply ascending_skipn).
    pose proof (reached_value G ILinear (dots (skipn i d)) a2 k2 (at_x d e) v AD St2 R2 VV) as VW. clear VV. rename VW into VV.
    rewrite spec_areas in VV. eapply value_unique; [exact A|exact VV|]. apply val_knot.
    eapply nth_error_In with (n := (e - i)%nat). unfold dots. rewrite nth_error_map, areas_nth by (rewrite skipn_length; lia).
    rewrite skipn_x, skipn_sum. replace (i + (e - i))%nat with e by lia. reflexivity. }
  exists a2, i. split; [|split; [|split; [exact Li|split; [|exact UQ]]]].
  - unfold sma_integral. rewrite IC. cbn [negb]. unfold scan.
    rewrite (w_start _ _ _ _ _ _ HW e Le). fold w. rewrite E1. rewrite E2. rewrite Y, VE. cbn [rbind integral_post option_map].
    do 4 f_equal. change (n_zero : xq) with (Fin 0%Qc). cbn [n_add XQ xq_add]. f_equal. ring.
  - split; [rewrite U2; exact Id|]. split.
    + unfold cached in *. rewrite U2. exact Ca.
    + exists i, k2. rewrite dots_skipn. exact St2.
  - destruct k2 as [|k2].
    + destruct R2 as (z & Z & _). discriminate.
    + rewrite <- dots_skipn in St2. apply (start_at d i a2 k2 St2).
Qed.

Notation query depth fuel c a x := (sma_y depth fuel (Fin half) c own deg a x).

(** two integrals in ascending order give the area between them *)
Lemma integral_pair fuel c d a i e : degree_ok -> shows c d -> linv (dots d) a -> (i < e)%nat -> (e < length d)%nat -> (length d < fuel)%nat ->
  exists a1 a2 y0 y1, integral fuel c a (Fin (at_x d i)) = (a1, Ok (Some (Fin y0))) /\
    integral fuel c a1 (Fin (at_x d e)) = (a2, Ok (Some (Fin y1))) /\ (y1 - y0)%Qc = area_sum ILinear d i (e - i) /\ linv (dots d) a2.
Proof.
  intros DO HS HI L Le Lf. pose proof (shows_windows c d DO HS) as HW.
  destruct (integral_at fuel c d a i DO HS HI ltac:(lia) Lf) as (a1 & b & E1 & I1 & W1 & S1 & _).
  destruct (integral_at fuel c d a1 e DO HS I1 Le Lf) as (a2 & b2 & E2 & I2 & W2 & S2 & U2).
  pose proof (w_mono _ _ _ _ _ _ HW i e ltac:(lia) Le) as MW. pose proof (w_le _ _ _ _ _ _ HW i ltac:(lia)) as LW.
  assert (EB : b2 = b) by (apply U2; [lia|exact S1|lia]). subst b2.
  exists a1, a2, (area_sum ILinear d b (i - b)), (area_sum ILinear d b (e - b)). split; [exact E1|]. split; [exact E2|]. split; [|exact I2].
  replace (e - b)%nat with ((i - b) + (e - i))%nat by lia. rewrite area_sum_add.
  replace (b + (i - b))%nat with i by lia. ring.
Qed.

Lemma fin_eqb a b : n_eqb (Fin a) (Fin b) = if Qc_eq_dec a b then true else false.
Proof.
  destruct (Qc_eq_dec a b) as [->|N]; [cbn [n_eqb XQ]; now rewrite xq_eqb_refl by discriminate|].
  cbn [n_eqb XQ xq_eqb]. now apply Qceqb_false.
Qed.
Lemma xdiv a b : b <> 0%Qc -> n_div (Fin a) (Fin b) = Ok (Fin (a / b)%Qc).
Proof. intros N. cbn [n_div XQ]. unfold xq_div. now rewrite (proj2 (Qceqb_false _ _) N). Qed.

Lemma vknot_ok dp fuel c d a k : degree_ok -> shows c d -> linv (dots d) a -> (first_pos d <= k)%nat -> (k < length d)%nat -> (length d < fuel)%nat ->
  exists a', query (S dp) fuel c a (Fin (at_x d k)) = (a', Ok (Some (Fin (average d k)))) /\ linv (dots d) a'.
Proof.
  intros DO HS HI L0 L Lf. pose proof (shows_windows c d DO HS) as HW.
  destruct (shows_step c d HS) as (h & Hh & EV).
  destruct (sma_dom_ok c d a DO HS HI) as (a0 & ED & I0 & _).
  cbn [sma_y]. rewrite ED.
  assert (IC : i_contains (sma_domain d) (Fin (at_x d k)) = true).
  { apply (dom_knots d h); auto. split; [lia|]. split; apply even_le with h; auto; lia. }
  rewrite IC. cbn [negb]. rewrite (w_start _ _ _ _ _ _ HW k L). rewrite (w_end _ _ _ _ _ _ HW k L0 L).
  rewrite fin_eqb. unfold average. pose proof (w_le _ _ _ _ _ _ HW k L) as LW. set (w := window d k) in *.
  destruct (Nat.eqb_spec w k) as [->|N].
  - destruct (Qc_eq_dec (at_x d k) (at_x d k)) as [_|X]; [|congruence]. cbn [orb]. exists a0. split; [|exact I0].
    f_equal. apply (sv_y _ _ _ (sh_serves _ _ HS) (Fin (at_x d k), Some (Fin (at_y d k)))).
    eapply nth_error_In. now apply dots_at.
  - pose proof (even_lt h d EV w k ltac:(lia) L) as LX. pose proof (proj1 EV) as HH.
    destruct (Qc_eq_dec (at_x d w) (at_x d k)) as [X|X]; [exfalso; rewrite X in LX; qc_lra|]. cbn [orb].
    destruct (integral_pair fuel c d a0 w k DO HS I0 ltac:(lia) L Lf) as (a1 & a2 & y0 & y1 & E1 & E2 & EY & I2).
    rewrite E1. rewrite E2. cbn [n_sub XQ xq_sub].
    rewrite xdiv by (intros Y; clear -Y LX HH; qc_lra). rewrite EY.
    rewrite fin_eqb. destruct (Qc_eq_dec (at_x d k) (at_x d k)) as [_|Y]; [|congruence]. exists a2. auto.
Qed.

Lemma vaverage_within lo hi c d k : degree_ok -> shows c d -> within lo hi d -> (k < length d)%nat -> (lo <= average d k <= hi)%Qc.
Proof.
  intros DO HS W L. pose proof (shows_windows c d DO HS) as HW. destruct (shows_step c d HS) as (h & Hh & EV).
  pose proof (w_le _ _ _ _ _ _ HW k L) as LW. unfold average. set (w := window d k) in *.
  destruct (Nat.eqb_spec w k) as [E|N]; [now apply within_pt|]. apply average_bounds with h; auto; lia.
Qed.

Lemma vmid_ok c d j q : degree_ok -> shows c d -> (first_pos d <= j)%nat -> (S j < length d)%nat ->
  (at_x d j < q)%Qc -> (q < at_x d (S j))%Qc ->
  exists r, (forall lo hi, within lo hi d -> (lo <= r <= hi)%Qc) /\
  forall dp fuel a, linv (dots d) a -> (length d < fuel)%nat ->
  exists a', query (S (S dp)) fuel c a (Fin q) = (a', Ok (Some (Fin r))) /\ linv (dots d) a'.
Proof.
  intros DO HS L0 L Q1 Q2. pose proof (shows_windows c d DO HS) as HW.
  destruct (shows_step c d HS) as (h & Hh & EV).
  assert (B0 : (at_x d (first_pos d) <= at_x d j)%Qc) by (apply even_le with h; auto; lia).
  assert (B1 : (at_x d (S j) <= at_x d (length d - 1))%Qc) by (apply even_le with h; auto; lia).
  assert (IC : i_contains (sma_domain d) (Fin q) = true).
  { apply (dom_knots d h); auto. split; [lia|]. split; qc_lra. }
  assert (CY : exists r, c_y c (Fin q) = Ok (Some (Fin r)) /\ forall lo hi, within lo hi d -> (lo <= r <= hi)%Qc).
  { apply (sh_mid _ _ HS); [lia| |qc_lra]. pose proof (even_le h d EV 0 j ltac:(lia) ltac:(lia)). qc_lra. }
  destruct CY as (ry & CY & BY).
  assert (HEAD : forall r e, sma_start c own deg (Fin q) = Ok (Some (Fin r)) -> sma_end c own deg (Fin r) = Ok (Some (Fin e)) ->
    (r = q \/ r = e) -> forall dp fuel a, linv (dots d) a -> (length d < fuel)%nat ->
    exists a', query (S (S dp)) fuel c a (Fin q) = (a', Ok (Some (Fin ry))) /\ linv (dots d) a').
  { intros r e S0 S1 C dp fuel a HI Lf. destruct (sma_dom_ok c d a DO HS HI) as (a0 & ED & I0 & _).
    remember (S dp) as dq eqn:EQ. cbn [sma_y]. subst dq. rewrite ED, IC. cbn [negb]. rewrite S0, S1, !fin_eqb.
    exists a0. split; [|exact I0]. rewrite CY. destruct (Qc_eq_dec r q) as [X|X]; [reflexivity|]. cbn [orb].
    destruct (Qc_eq_dec r e) as [Y|Y]; [reflexivity|]. destruct C; congruence. }
  destruct (w_mid _ _ _ _ _ _ HW q j L0 L Q1 Q2) as [[S0 S1]|(i & e & Lie & Hj & S0 & S1)].
  { exists ry. split; [exact BY|]. intros dp fuel a HI Lf. exact (HEAD q q S0 S1 (or_introl eq_refl) dp fuel a HI Lf). }
  assert (Le : (e < length d)%nat) by lia.
  destruct (Qc_eq_dec (at_x d i) (at_x d e)) as [X|X].
  { exists ry. split; [exact BY|]. intros dp fuel a HI Lf. exact (HEAD _ _ S0 S1 (or_intror X) dp fuel a HI Lf). }
  assert (NQ : at_x d i <> q).
  { intros Y. destruct (le_lt_dec i j) as [C|C].
    - pose proof (even_le h d EV i j C ltac:(lia)). rewrite Y in *. qc_lra.
    - pose proof (even_le h d EV (S j) i C ltac:(lia)). rewrite Y in *. qc_lra. }
  assert (LT : (i < e)%nat) by (destruct (Nat.eq_dec i e) as [->|]; [congruence|lia]).
  pose proof (even_lt h d EV i e LT Le) as LX. pose proof (proj1 EV) as HH.
  assert (BA : forall lo hi, within lo hi d -> (lo <= area_sum ILinear d i (e - i) / (at_x d e - at_x d i) <= hi)%Qc).
  { intros lo hi W. now apply average_bounds with h. }
  set (sma1 := (area_sum ILinear d i (e - i) / (at_x d e - at_x d i))%Qc) in *.
  pose proof (proj2 EV j L) as SX.
  assert (NB : (at_x d (S j) - at_x d j)%Qc <> 0%Qc) by (intros X0; clear -X0 Q1 Q2; qc_lra).
  set (u := ((q - at_x d j) / (at_x d (S j) - at_x d j))%Qc) in *.
  assert (MIX : forall sma2, (forall lo hi, within lo hi d -> (lo <= sma2 <= hi)%Qc) ->
    forall lo hi, within lo hi d -> (lo <= u * sma2 + (1 - u) * sma1 <= hi)%Qc).
  { intros sma2 B2 lo hi W.
    assert (EU : (u * (at_x d (S j) - at_x d j) = q - at_x d j)%Qc) by (unfold u; field; exact NB).
    apply mix_bounds; auto.
    - destruct (Qclt_le_dec u 0) as [C|C]; auto. exfalso. clearbody u. clear -EU C Q1 Q2. qc_nra.
    - destruct (Qclt_le_dec 1 u) as [C|C]; auto. exfalso. clearbody u. clear -EU C Q1 Q2. qc_nra. }
  destruct Hj as [->| ->].
  - exists (u * average d (S j) + (1 - u) * sma1)%Qc. split.
    { apply MIX. intros lo hi W. eapply vaverage_within; eauto. }
    intros dp fuel a HI Lf. destruct (sma_dom_ok c d a DO HS HI) as (a0 & ED & I0 & _).
    destruct (integral_pair fuel c d a0 i j DO HS I0 LT Le Lf) as (a1 & a2 & y0 & y1 & E1 & E2 & EY & I2).
    destruct (vknot_ok dp fuel c d a2 (S j) DO HS I2 ltac:(lia) L Lf) as (a3 & E3 & I3). exists a3. split; [|exact I3].
    remember (S dp) as dq eqn:EQ. cbn [sma_y]. subst dq. rewrite ED, IC. cbn [negb]. rewrite S0, S1, !fin_eqb.
    destruct (Qc_eq_dec (at_x d i) q) as [Y|_]; [congruence|]. cbn [orb].
    destruct (Qc_eq_dec (at_x d i) (at_x d j)) as [Y|_]; [congruence|].
    rewrite E1. rewrite E2. cbn [n_sub XQ xq_sub].
    rewrite xdiv by (intros Y; clear -Y LX HH; qc_lra). rewrite EY.
    destruct (Qc_eq_dec q (at_x d j)) as [Y|_]; [exfalso; clear -Y Q1; subst q; qc_lra|].
    assert (GT : n_gtb (Fin q) (Fin (at_x d j)) = true) by (unfold n_gtb; cbn; now apply Qcltb_true). rewrite GT.
    rewrite (next_knot c d own m h (sh_walks _ _ HS) Hm Hh EV j Le).
    apply Nat.ltb_lt in L as L'. rewrite L'. rewrite fin_eqb.
    destruct (Qc_eq_dec (at_x d (S j)) q) as [Y|_]; [exfalso; clear -Y Q2; subst q; qc_lra|]. rewrite E3.
    cbn [n_sub XQ xq_sub]. rewrite xdiv by exact NB. cbn [rbind].
    change (n_one : xq) with (Fin (QcofZ 1)). rewrite QcofZ_1. reflexivity.
  - exists (u * average d j + (1 - u) * sma1)%Qc. split.
    { apply MIX. intros lo hi W. eapply vaverage_within; eauto. lia. }
    intros dp fuel a HI Lf. destruct (sma_dom_ok c d a DO HS HI) as (a0 & ED & I0 & _).
    destruct (integral_pair fuel c d a0 i (S j) DO HS I0 LT Le Lf) as (a1 & a2 & y0 & y1 & E1 & E2 & EY & I2).
    destruct (vknot_ok dp fuel c d a2 j DO HS I2 L0 ltac:(lia) Lf) as (a3 & E3 & I3). exists a3. split; [|exact I3].
    remember (S dp) as dq eqn:EQ. cbn [sma_y]. subst dq. rewrite ED, IC. cbn [negb]. rewrite S0, S1, !fin_eqb.
    destruct (Qc_eq_dec (at_x d i) q) as [Y|_]; [congruence|]. cbn [orb].
    destruct (Qc_eq_dec (at_x d i) (at_x d (S j))) as [Y|_]; [congruence|].
    rewrite E1. rewrite E2. cbn [n_sub XQ xq_sub].
    rewrite xdiv by (intros Y; clear -Y LX HH; qc_lra). rewrite EY.
    destruct (Qc_eq_dec q (at_x d (S j))) as [Y|_]; [exfalso; clear -Y Q2; subst q; qc_lra|].
    assert (GT : n_gtb (Fin q) (Fin (at_x d (S j))) = false).
    { unfold n_gtb; cbn. apply Qcltb_false. now apply Qclt_le_weak. } rewrite GT.
    rewrite (prev_knot c d own m h (sh_walks _ _ HS) Hm Hh EV (S j) Le). rewrite fin_eqb.
    destruct (Qc_eq_dec (at_x d j) q) as [Y|_]; [exfalso; clear -Y Q1; subst q; qc_lra|]. rewrite E3.
    cbn [n_sub XQ xq_sub]. rewrite xdiv by exact NB. cbn [rbind].
    change (n_one : xq) with (Fin (QcofZ 1)). rewrite QcofZ_1. reflexivity.
Qed.

Lemma vout_ok dp fuel c d a x : degree_ok -> shows c d -> linv (dots d) a -> i_contains (sma_domain d) x = false ->
  exists a', query (S dp) fuel c a x = (a', Ok None) /\ linv (dots d) a'.
Proof.
  intros DO HS HI N. destruct (sma_dom_ok c d a DO HS HI) as (a0 & ED & I0 & _).
  cbn [sma_y]. rewrite ED, N. exists a0. auto.
Qed.
Lemma vquery_linv dp fuel c d a x a' r : degree_ok -> shows c d -> linv (dots d) a -> (length d < fuel)%nat ->
  query (S (S dp)) fuel c a x = (a', r) -> linv (dots d) a'.
Proof.
  intros DO HS HI Lf E. destruct (i_contains (sma_domain d) x) eqn:IC.
  2: { destruct (vout_ok (S dp) fuel c d a x DO HS HI IC) as (a1 & E1 & I1). rewrite E in E1. injection E1 as -> _. exact I1. }
  destruct (sma_domain_fin d x IC) as [q ->].
  destruct (shows_step c d HS) as (h & Hh & EV). apply (dom_knots d h) in IC; auto. destruct IC as [L0 [B0 B1]].
  assert (L : (0 < length d)%nat) by lia.
  destruct (between h d q EV L) as [(k & Lk & ->)|(j & Lj & Q1 & Q2)]; auto.
  - pose proof (even_le h d EV 0 (first_pos d) ltac:(lia) L0). qc_lra.
  - apply (even_inv h d EV) in B0; auto.
    destruct (vknot_ok (S dp) fuel c d a k DO HS HI B0 Lk Lf) as (a1 & E1 & I1). rewrite E in E1. injection E1 as -> _. exact I1.
  - assert (P0 : (first_pos d <= j)%nat).
    { destruct (le_lt_dec (first_pos d) j) as [C|C]; auto. exfalso. pose proof (even_le h d EV (S j) (first_pos d) C L0). qc_lra. }
    destruct (vmid_ok c d j q DO HS P0 Lj Q1 Q2) as (r1 & _ & M). destruct (M dp fuel a HI Lf) as (a1 & E1 & I1). rewrite E in E1. injection E1 as -> _. exact I1.
Qed.


(** everywhere the value is fixed by the points alone *)
Theorem sma_view_value c d q : degree_ok -> shows c d ->
  exists v, (forall dp fuel a, linv (dots d) a -> (length d < fuel)%nat -> snd (query (S (S dp)) fuel c a (Fin q)) = Ok v) /\
  if (first_pos d <? length d)%nat && Qcleb (at_x d (first_pos d)) q && Qcleb q (at_x d (length d - 1))
  then exists r, v = Some (Fin r) /\ forall lo hi, within lo hi d -> (lo <= r <= hi)%Qc
  else v = None.
Proof.
  intros DO HS. destruct (shows_step c d HS) as (h & Hh & EV).
  destruct ((first_pos d <? length d)%nat && Qcleb (at_x d (first_pos d)) q && Qcleb q (at_x d (length d - 1))) eqn:C.
  - apply andb_prop in C as [C C3]. apply andb_prop in C as [C1 C2]. apply Nat.ltb_lt in C1. apply Qcleb_true in C2, C3.
    assert (L : (0 < length d)%nat) by lia.
    destruct (between h d q EV L) as [(k & Lk & ->)|(j & Lj & Q1 & Q2)]; auto.
    + pose proof (even_le h d EV 0 (first_pos d) ltac:(lia) C1). qc_lra.
    + apply (even_inv h d EV) in C2; auto. exists (Some (Fin (average d k))). split.
      * intros dp fuel a HI Lf. destruct (vknot_ok (S dp) fuel c d a k DO HS HI C2 Lk Lf) as (a' & E & _). now rewrite E.
      * exists (average d k). split; [reflexivity|]. intros lo hi W. eapply vaverage_within; eauto.
    + assert (P0 : (first_pos d <= j)%nat).
      { destruct (le_lt_dec (first_pos d) j) as [C|C]; auto. exfalso. pose proof (even_le h d EV (S j) (first_pos d) C C1). qc_lra. }
      destruct (vmid_ok c d j q DO HS P0 Lj Q1 Q2) as (r & B & M). exists (Some (Fin r)). split; [|eauto].
      intros dp fuel a HI Lf. destruct (M dp fuel a HI Lf) as (a1 & E1 & _). now rewrite E1.
  - exists None. split; [|reflexivity]. intros dp fuel a HI Lf.
    destruct (vout_ok (S dp) fuel c d a (Fin q) DO HS HI) as (a1 & E1 & _); [|now rewrite E1].
    destruct (i_contains (sma_domain d) (Fin q)) eqn:IC; auto. apply (dom_knots d h) in IC; auto. destruct IC as [B0 [B1 B2]].
    apply Nat.ltb_lt in B0. apply Qcleb_true in B1, B2. rewrite B0, B1, B2 in C. discriminate.
Qed.

Lemma linv_new l : linv l (acc_init ILinear true).
Proof.
  destruct (acc_init_eq (W := num) ILinear) as (_ & E2 & E3 & E4 & E5).
  split; [split; reflexivity|]. split; [now left|]. exists 0%nat, 0%nat. apply state0; auto.
Qed.
Lemma events_linv l l' a evs : ascending l -> ascending l' -> linv l a -> announces evs l l' ->
  exists a', acc_events a evs = (a', map (fun e => match e with EvBegin D => EvBegin (update_interval D) | EvEnd D => EvEnd (update_interval D) end) evs, Ok tt) /\ linv l' a'.
Proof.
  intros A A' (Id & Ca & (i & k & St)) [[-> E]|(D & q & -> & KD & NE & S & K)].
  { exists a. split; [reflexivity|]. subst l'. split; [exact Id|]. split; [exact Ca|]. now exists i, k. }
  destruct (events_gen G ILinear (skipn i l) (skipn i l') a k D q) as (a' & E & I & N & k' & St'); auto.
  - now apply ascending_skipn.
  - now apply ascending_skipn.
  - eapply keeps_skipn; eauto.
  - exists a'. split; [exact E|]. split; [exact I|]. split; [now left|]. exists i, k'. exact St'.
Qed.
End View.

(** ** Over Points *)
Section Sma.
Context (half m : Qc) (Hhalf : (half + half = 1)%Qc) (Hm : (0 < m)%Qc) (deg : sma_degree xq).
Notation own := (Some (Fin m)).
Notation degree_ok := (degree_ok m deg).
Notation first_pos := (first_pos m deg).
Notation average := (average m deg).
Notation sma_domain := (sma_domain m deg).

Definition source (s : pts xq num) (d : list (Qc * Qc)) : Prop :=
  good s /\ p_pts s = dots d /\ equally_spaced (dots d) /\ coarse m (dots d) /\ coarse min_step (dots d).
Definition sinv (s : pts xq num) (a : acc xq num) : Prop := linv m deg (p_pts s) a.
Notation query depth fuel s a x := (sma_y depth fuel (Fin half) (p_crv s) own deg a x).

Lemma source_step s d : source s d -> exists h, (m <= h)%Qc /\ even h d.
Proof. intros (_ & _ & F). now apply fine_step. Qed.
Lemma source_shows s d : source s d -> shows m m (p_crv s) d.
Proof.
  intros HS. destruct (source_step s d HS) as (h & Hh & EV). destruct HS as (GS & D & ES & CS & CM).
  split; [split; auto|now apply points_walks with h| |].
  - rewrite <- D. split.
    + intros p I. now apply dom_point.
    + intros p I. apply src_y; auto. exact lerp_total_num.
    + intros k p lim N. destruct (asc_fin _ _ _ (proj1 GS) N) as [q Q]. rewrite Q in *. cbn [fst c_next p_crv].
      eapply knot_next; eauto. now rewrite D.
  - intros q L L0 L1. cbn [c_y p_crv]. destruct (p_y_value s q) as (v & Y & VV); [intros _; exact lerp_total_num|exact GS|]. rewrite D in VV.
    destruct (value_num _ d h q v EV VV) as (r & -> & B); auto. exists r; auto.
Qed.
Lemma source_windows s d : degree_ok -> source s d -> windows (p_crv s) d own deg (first_pos d) (window m deg d).
Proof. intros DO HS. apply (shows_windows m m Hm deg _ _ DO (source_shows s d HS)). Qed.
Lemma average_within lo hi s d k : degree_ok -> source s d -> within lo hi d -> (k < length d)%nat -> (lo <= average d k <= hi)%Qc.
Proof. intros DO HS. apply (vaverage_within m m Hm deg _ _ _ _ _ DO (source_shows s d HS)). Qed.
Lemma knot_ok dp fuel s d a k : degree_ok -> source s d -> sinv s a -> (first_pos d <= k)%nat -> (k < length d)%nat -> (length d < fuel)%nat ->
  exists a', query (S dp) fuel s a (Fin (at_x d k)) = (a', Ok (Some (Fin (average d k)))) /\ sinv s a'.
Proof.
  intros DO HS HI L0 L Lf. unfold sinv in *. destruct HS as [GS [D F]]. rewrite D in *.
  apply (vknot_ok half m m Hhalf Hm Hm deg); auto. apply source_shows. split; auto.
Qed.
Lemma out_ok dp fuel s d a x : degree_ok -> source s d -> sinv s a -> i_contains (sma_domain d) x = false ->
  exists a', query (S dp) fuel s a x = (a', Ok None) /\ sinv s a'.
Proof.
  intros DO HS HI N. unfold sinv in *. destruct HS as [GS [D F]]. rewrite D in *.
  apply (vout_ok half m m Hm deg dp fuel); auto. apply source_shows. split; auto.
Qed.
Lemma query_sinv dp fuel s d a x a' r : degree_ok -> source s d -> sinv s a -> (length d < fuel)%nat ->
  query (S (S dp)) fuel s a x = (a', r) -> sinv s a'.
Proof.
  intros DO HS HI Lf E. unfold sinv in *. destruct HS as [GS [D F]]. rewrite D in *.
  apply (vquery_linv half m m Hhalf Hm Hm deg dp fuel (p_crv s) d a x a' r); auto. apply source_shows. split; auto.
Qed.

(** ** Histories *)
Inductive averaged : pts xq num -> acc xq num -> Prop :=
| av_new s : honest_history s -> averaged s (acc_init ILinear true)
| av_query dp fuel s d a x a' r : averaged s a -> source s d -> (length d < fuel)%nat ->
    query (S (S dp)) fuel s a x = (a', r) -> averaged s a'
| av_domain s a a' r : averaged s a -> sma_dom (p_crv s) own deg a = (a', r) -> averaged s a'
| av_read s a : averaged s a -> averaged (p_touch s) a
| av_op s a o s' evs a' out r : averaged s a -> op_ok o -> run_op s o = (s', evs, Ok tt) ->
    (p_uniform s' = true -> equally_spaced (p_pts s')) -> acc_events a evs = (a', out, r) -> averaged s' a'
| av_refused s a o s' e : averaged s a -> op_ok o -> run_op s o = (s', [], Err e) -> averaged s' a.

Lemma events_sinv s s' a evs : good s -> good s' -> sinv s a -> announces evs (p_pts s) (p_pts s') ->
  exists a' out, acc_events a evs = (a', out, Ok tt) /\ sinv s' a'.
Proof.
  intros GS GS' HI AN. destruct (events_linv m deg (p_pts s) (p_pts s') a evs (proj1 GS) (proj1 GS') HI AN) as (a' & E & I). eauto.
Qed.

Theorem averaged_inv s a : degree_ok -> averaged s a -> good s /\ sinv s a.
Proof.
  intros DO. induction 1 as [s H|dp fuel s d a x a' r _ [GS HI] HS L E|s a a' r _ [GS HI] E|s a _ [GS HI]|s a o s' evs a' out r _ [GS HI] O R T E|s a o s' e _ [GS HI] O R].
  - split; [now apply honest_history_good|].
    apply linv_new.
  - split; [exact GS|]. eapply query_sinv; eauto.
  - split; [exact GS|]. destruct HI as (Id & Ca & SL). unfold sma_dom in E. destruct (u_dom (a_upd a)) eqn:U.
    { injection E as <- _. split; auto. }
    destruct (sma_get_domain (p_crv s) own deg) as [I|] eqn:GD; injection E as <- _; [|split; auto].
    split; [exact Id|]. split; [|destruct SL as (i & k & [C Q R]); exists i, k; split; auto].
    right. intros d D F. assert (HS : source s d) by (split; auto).
    rewrite (w_dom _ _ _ _ _ _ (source_windows s d DO HS)) in GD. injection GD as <-. reflexivity.
  - split; [now apply good_touch|exact HI].
  - assert (GS' : good s') by (apply good_calm; split; [eapply step_calm; eauto|exact T]).
    split; [exact GS'|]. destruct (events_sinv s s' a evs GS GS' HI (op_announces s o s' evs GS O R)) as (a1 & o1 & E1 & I1).
    rewrite E in E1. now injection E1 as -> _ _.
  - destruct (refused_same s o s' e GS O R) as [->| ->]; [auto|]. split; [now apply good_touch|exact HI].
Qed.

(** At the source's points the average is the one of the window ending there. *)
Theorem averaged_knot dp fuel s d a k : degree_ok -> averaged s a -> source s d -> (first_pos d <= k)%nat -> (k < length d)%nat ->
  (length d < fuel)%nat -> snd (query (S dp) fuel s a (Fin (at_x d k))) = Ok (Some (Fin (average d k))).
Proof.
  intros DO H HS L0 L Lf. destruct (averaged_inv s a DO H) as [_ HI].
  destruct (knot_ok dp fuel s d a k DO HS HI L0 L Lf) as (a' & E & _). now rewrite E.
Qed.
(** Everywhere its value is fixed by the source's points alone; it has one
    exactly in its domain, within the range of the source's values. *)
Theorem averaged_value s d q : degree_ok -> source s d ->
  exists v, (forall dp fuel a, averaged s a -> (length d < fuel)%nat -> snd (query (S (S dp)) fuel s a (Fin q)) = Ok v) /\
  if (first_pos d <? length d)%nat && Qcleb (at_x d (first_pos d)) q && Qcleb q (at_x d (length d - 1))
  then exists r, v = Some (Fin r) /\ forall lo hi, within lo hi d -> (lo <= r <= hi)%Qc
  else v = None.
Proof.
  intros DO HS. destruct (sma_view_value half m m Hhalf Hm Hm deg (p_crv s) d q DO (source_shows s d HS)) as (v & V & R).
  exists v. split; [|exact R]. intros dp fuel a H Lf. apply V; auto. destruct (averaged_inv s a DO H) as [_ HI].
  unfold sinv in HI. now rewrite (proj1 (proj2 HS)) in HI.
Qed.
End Sma.
