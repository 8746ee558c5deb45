(** The windows of the simple moving average on an equally spaced Points
    source, as positions in the list of points. *)
From Coq Require Import List ZArith QArith Qcanon Bool Sorting.Sorted Lia Arith.
From Verif Require Import Base Num NumFacts Interval IntervalFacts Curve BaseFacts.
From Verif Require Import Points PointsSpec PointsIdx PointsQuery PointsDom PointsOps PointsMut PointsReset PointsReplace PointsCover PointsHist PointsTop.
From Verif Require Import PointsDec BaseTop Combine CombineFacts CombineTop CombineLine Scan ScanFacts ScanSource ScanInv ScanTf.
Import ListNotations.

Definition at_x (d : list (Qc * Qc)) (k : nat) : Qc := fst (nth k d (0%Qc, 0%Qc)).
Definition at_y (d : list (Qc * Qc)) (k : nat) : Qc := snd (nth k d (0%Qc, 0%Qc)).
Lemma at_nth d k : (k < length d)%nat -> nth_error d k = Some (at_x d k, at_y d k).
Proof.
  intros L. rewrite (nth_error_nth' d (0%Qc, 0%Qc) L). unfold at_x, at_y. now destruct (nth k d (0%Qc, 0%Qc)).
Qed.
Lemma dots_at d k : (k < length d)%nat -> nth_error (dots d) k = Some (Fin (at_x d k), Some (Fin (at_y d k))).
Proof. intros L. unfold dots. rewrite nth_error_map, (at_nth d k L). reflexivity. Qed.
Lemma dots_len d : length (dots d) = length d.
Proof. apply map_length. Qed.
Lemma dots_in d x v : In (x, v) (dots d) -> exists k, (k < length d)%nat /\ x = Fin (at_x d k) /\ v = Some (Fin (at_y d k)).
Proof.
  intros H. apply In_nth_error in H. destruct H as [k H].
  assert (L : (k < length d)%nat) by (rewrite <- dots_len; apply nth_error_Some; congruence).
  exists k. rewrite (dots_at d k L) in H. injection H as <- <-. auto.
Qed.

(** the first position whose x is at least (greater than) [b] *)
Fixpoint first_ge (b : Qc) (d : list (Qc * Qc)) : nat :=
  match d with [] => 0 | p :: d' => if Qcleb b (fst p) then 0 else S (first_ge b d') end.
Fixpoint first_gt (b : Qc) (d : list (Qc * Qc)) : nat :=
  match d with [] => 0 | p :: d' => if Qcltb b (fst p) then 0 else S (first_gt b d') end.
Lemma first_ge_len b d : (first_ge b d <= length d)%nat.
Proof. induction d as [|p d IH]; cbn; [lia|]. destruct (Qcleb b (fst p)); lia. Qed.
Lemma first_ge_lt b d : forall j, (j < first_ge b d)%nat -> (at_x d j < b)%Qc.
Proof.
  induction d as [|p d IH]; cbn; intros j H; [lia|]. destruct (Qcleb b (fst p)) eqn:E; [lia|].
  destruct j as [|j]; [cbn; now apply Qcleb_false|]. apply (IH j). lia.
Qed.
Lemma first_ge_at b d : (first_ge b d < length d)%nat -> (b <= at_x d (first_ge b d))%Qc.
Proof.
  induction d as [|p d IH]; cbn; intros H; [lia|]. destruct (Qcleb b (fst p)) eqn:E; [now apply Qcleb_true|].
  apply IH. lia.
Qed.
Lemma first_gt_len b d : (first_gt b d <= length d)%nat.
Proof. induction d as [|p d IH]; cbn; [lia|]. destruct (Qcltb b (fst p)); lia. Qed.
Lemma first_gt_le b d : forall j, (j < first_gt b d)%nat -> (at_x d j <= b)%Qc.
Proof.
  induction d as [|p d IH]; cbn; intros j H; [lia|]. destruct (Qcltb b (fst p)) eqn:E; [lia|].
  destruct j as [|j]; [cbn; now apply Qcltb_false|]. apply (IH j). lia.
Qed.
Lemma first_gt_at b d : (first_gt b d < length d)%nat -> (b < at_x d (first_gt b d))%Qc.
Proof.
  induction d as [|p d IH]; cbn; intros H; [lia|]. destruct (Qcltb b (fst p)) eqn:E; [now apply Qcltb_true|].
  apply IH. lia.
Qed.

(** equal spacing, by positions *)
Definition even (h : Qc) (d : list (Qc * Qc)) : Prop :=
  (0 < h)%Qc /\ forall k, (S k < length d)%nat -> at_x d (S k) = (at_x d k + h)%Qc.
Lemma even_lt h d : even h d -> forall i j, (i < j)%nat -> (j < length d)%nat -> (at_x d i + h <= at_x d j)%Qc.
Proof.
  intros [H E] i j L. induction j as [|j IH]; intros Lj; [lia|]. rewrite (E j Lj).
  destruct (Nat.eq_dec i j) as [->|N]; [apply Qcle_refl|]. specialize (IH ltac:(lia) ltac:(lia)). qc_lra.
Qed.
Lemma even_le h d : even h d -> forall i j, (i <= j)%nat -> (j < length d)%nat -> (at_x d i <= at_x d j)%Qc.
Proof.
  intros E i j L Lj. destruct (Nat.eq_dec i j) as [->|N]; [apply Qcle_refl|].
  pose proof (even_lt h d E i j ltac:(lia) Lj). destruct E as [Hp _]. qc_lra.
Qed.
Lemma even_inv h d : even h d -> forall i j, (i < length d)%nat -> (at_x d i <= at_x d j)%Qc -> (j < length d)%nat -> (i <= j)%nat.
Proof.
  intros E i j Li L Lj. destruct (le_lt_dec i j) as [X|X]; auto. exfalso.
  pose proof (even_lt h d E j i X Li). destruct E as [Hp _]. qc_lra.
Qed.
Lemma even_of d : equally_spaced (dots d) -> exists h, even h d.
Proof.
  intros (x0 & h & H & E). exists h. split; [exact H|]. intros k L.
  pose proof (E k _ (dots_at d k ltac:(lia))) as E0. pose proof (E (S k) _ (dots_at d (S k) L)) as E1.
  cbn [fst] in E0, E1. rewrite Nat2Z.inj_succ in E1. injection E0 as ->. injection E1 as ->. unfold Z.succ. rewrite QcofZ_add, QcofZ_1. ring.
Qed.

Lemma between h d q : even h d -> (0 < length d)%nat -> (at_x d 0 <= q)%Qc -> (q <= at_x d (length d - 1))%Qc ->
  (exists k, (k < length d)%nat /\ q = at_x d k) \/
  (exists j, (S j < length d)%nat /\ (at_x d j < q)%Qc /\ (q < at_x d (S j))%Qc).
Proof.
  intros E N L0 L1. pose proof (first_ge_len q d) as F. pose proof (first_ge_lt q d) as FL. pose proof (first_ge_at q d) as FA.
  destruct (Nat.eq_dec (first_ge q d) (length d)) as [X|X].
  { specialize (FL (length d - 1)%nat ltac:(lia)). exfalso. qc_lra. }
  specialize (FA ltac:(lia)). destruct (Qc_eq_dec q (at_x d (first_ge q d))) as [Y|Y].
  - left. exists (first_ge q d). split; [lia|exact Y].
  - right. destruct (first_ge q d) as [|j] eqn:K.
    { exfalso. apply Y. now apply Qcle_antisym. }
    exists j. split; [lia|]. split; [apply FL; lia|]. destruct (Qcle_lt_or_eq _ _ FA) as [Z|Z]; [exact Z|congruence].
Qed.

(** [c] steps over the points of [d]: it goes to the nearest one that is at
    least [m] away *)
Record walks (own : option xq) (m : Qc) (c : crv xq num) (d : list (Qc * Qc)) : Prop := {
  wk_next : forall b k, (k < length d)%nat -> (b + m <= at_x d k)%Qc -> (forall j, (j < k)%nat -> (at_x d j < b + m)%Qc) ->
    c_next c (Fin b) own None = Ok (Some (Fin (at_x d k)));
  wk_no_next : forall b, (forall j, (j < length d)%nat -> (at_x d j < b + m)%Qc) -> c_next c (Fin b) own None = Ok None;
  wk_prev : forall b k, (k < length d)%nat -> (at_x d k <= b - m)%Qc -> (forall j, (k < j)%nat -> (j < length d)%nat -> (b - m < at_x d j)%Qc) ->
    c_prev c (Fin b) own None = Ok (Some (Fin (at_x d k)));
  wk_no_prev : forall b, (forall j, (j < length d)%nat -> (b - m < at_x d j)%Qc) -> c_prev c (Fin b) own None = Ok None;
  wk_asc : ascending (dots d);
  wk_dom : c_dom c = pts_domain (dots d)
}.

Section Windows.
Context (c : crv xq num) (d : list (Qc * Qc)) (own : option xq) (m h : Qc).
Context (WK : walks own m c d) (Hm : (0 < m)%Qc) (Hh : (m <= h)%Qc) (EV : even h d).
Notation X := (at_x d).
Notation len := (length d).

Lemma next_knot k : (k < len)%nat -> c_next c (Fin (X k)) own None = Ok (if (S k <? len)%nat then Some (Fin (X (S k))) else None).
Proof.
  intros L. destruct (Nat.ltb_spec (S k) len) as [K|K].
  - apply (wk_next _ _ _ _ WK); auto.
    + rewrite (proj2 EV k K). qc_lra.
    + intros j Lj. pose proof (even_le h d EV j k ltac:(lia) L). qc_lra.
  - apply (wk_no_next _ _ _ _ WK). intros j Lj. pose proof (even_le h d EV j k ltac:(lia) L). qc_lra.
Qed.
Lemma prev_knot k : (k < len)%nat -> c_prev c (Fin (X k)) own None = Ok (match k with O => None | S j => Some (Fin (X j)) end).
Proof.
  intros L. destruct k as [|k].
  - apply (wk_no_prev _ _ _ _ WK). intros j Lj. pose proof (even_le h d EV 0 j ltac:(lia) Lj). qc_lra.
  - apply (wk_prev _ _ _ _ WK); [lia| |].
    + rewrite (proj2 EV k L). qc_lra.
    + intros j J Lj. pose proof (even_le h d EV (S k) j ltac:(lia) Lj). qc_lra.
Qed.

Lemma walk_prev n : forall k, (k < len)%nat -> sma_walk (fun x => c_prev c x own None) n (Fin (X k)) = Ok (Fin (X (k - n))).
Proof.
  induction n as [|n IH]; intros k L; cbn [sma_walk]; [now rewrite Nat.sub_0_r|].
  rewrite prev_knot by auto. cbn [rbind]. destruct k as [|k]; [reflexivity|]. apply IH. lia.
Qed.
Lemma walk_next n : forall k, (k < len)%nat -> sma_walk (fun x => c_next c x own None) n (Fin (X k)) = Ok (Fin (X (Nat.min (k + n) (len - 1)))).
Proof.
  induction n as [|n IH]; intros k L; cbn [sma_walk].
  - rewrite Nat.add_0_r, Nat.min_l by lia. reflexivity.
  - rewrite next_knot by auto. cbn [rbind]. destruct (Nat.ltb_spec (S k) len) as [K|K].
    + rewrite IH by auto. do 4 f_equal. lia.
    + do 3 f_equal. lia.
Qed.
Lemma first_knot n : forall k, (k < len)%nat -> sma_first c own n (Fin (X k)) = Ok (if (k + n <? len)%nat then Some (Fin (X (k + n))) else None).
Proof.
  induction n as [|n IH]; intros k L; cbn [sma_first].
  - rewrite Nat.add_0_r. apply Nat.ltb_lt in L. now rewrite L.
  - cbn [c_next]. rewrite next_knot by auto. cbn [rbind]. destruct (Nat.ltb_spec (S k) len) as [K|K].
    + rewrite IH by auto. replace (S k + n)%nat with (k + S n)%nat by lia. reflexivity.
    + assert (N : (k + S n <? len)%nat = false) by (apply Nat.ltb_ge; lia). now rewrite N.
Qed.

(** [k0] is the first position of the average's domain, [lo k] the first
    position of the window ending at [k] *)
Record windows (deg : sma_degree xq) (k0 : nat) (lo : nat -> nat) : Prop := {
  w_start : forall k, (k < len)%nat -> sma_start c own deg (Fin (X k)) = Ok (Some (Fin (X (lo k))));
  w_le : forall k, (k < len)%nat -> (lo k <= k)%nat;
  w_mono : forall i k, (i <= k)%nat -> (k < len)%nat -> (lo i <= lo k)%nat;
  w_end : forall k, (k0 <= k)%nat -> (k < len)%nat -> sma_end c own deg (Fin (X (lo k))) = Ok (Some (Fin (X k)));
  w_dom : sma_get_domain c own deg = Ok (if (k0 <? len)%nat then i_closed (Fin (X k0)) (Fin (X (len - 1))) else i_empty);
  w_mid : forall q j, (k0 <= j)%nat -> (S j < len)%nat -> (X j < q)%Qc -> (q < X (S j))%Qc ->
    (sma_start c own deg (Fin q) = Ok (Some (Fin q)) /\ sma_end c own deg (Fin q) = Ok (Some (Fin q))) \/
    (exists i e, (i <= e)%nat /\ (e = j \/ e = S j) /\
       sma_start c own deg (Fin q) = Ok (Some (Fin (X i))) /\ sma_end c own deg (Fin (X i)) = Ok (Some (Fin (X e))))
}.

Lemma dom_eq : (0 < len)%nat -> c_dom c = i_closed (Fin (X 0)) (Fin (X (len - 1))).
Proof.
  intros L. rewrite (wk_dom _ _ _ _ WK).
  apply (ends_ok (dots d) (Fin (X 0), Some (Fin (at_y d 0))) (Fin (X (len - 1)), Some (Fin (at_y d (len - 1))))).
  - apply WK.
  - destruct d as [|[x y] r]; [cbn in L; lia|reflexivity].
  - rewrite last_opt_nth, dots_len. apply dots_at. lia.
Qed.
Lemma dom_nil : len = 0%nat -> c_dom c = i_empty.
Proof.
  intros L. rewrite (wk_dom _ _ _ _ WK). destruct d; [reflexivity|discriminate].
Qed.

Lemma degree_windows n : (1 <= n)%nat -> windows (SmaDegree n) (n - 1) (fun k => k - (n - 1))%nat.
Proof.
  intros Hn. split; cbn [sma_start sma_end c_prev c_next].
  - intros k L. rewrite walk_prev by auto. reflexivity.
  - intros; lia.
  - intros; lia.
  - intros k L1 L2. rewrite walk_next by lia. cbn [rbind]. do 4 f_equal. lia.
  - unfold sma_get_domain. cbn [c_dom].
    destruct (Nat.eq_dec len 0) as [L|L].
    { rewrite (dom_nil L), L. reflexivity. }
    rewrite dom_eq by lia.
    assert (NE : i_is_empty (i_closed (Fin (X 0)) (Fin (X (len - 1)))) = false).
    { rewrite <- dom_eq by lia. rewrite (wk_dom _ _ _ _ WK). destruct (i_is_empty _) eqn:Y; auto.
      apply pts_domain_empty_iff in Y; [|apply WK]. apply (f_equal (@length _)) in Y. rewrite dots_len in Y. cbn in Y. lia. }
    rewrite NE. cbn [i_start i_end i_closed]. rewrite first_knot by lia. cbn [rbind Nat.add].
    destruct (Nat.ltb_spec (n - 1) len) as [K|K]; [|reflexivity]. cbn [option_map n_add n_sub XQ xq_add xq_sub n_isnan orb].
    replace (X 0 + (X (n - 1) - X 0))%Qc with (X (n - 1)) by ring.
    assert (LE : n_gtb (Fin (X (n - 1))) (Fin (X (len - 1))) = false).
    { unfold n_gtb. cbn. apply Qcltb_false. apply even_le with h; auto; lia. }
    rewrite LE. reflexivity.
  - intros q j L1 L2 Q1 Q2. destruct n as [|[|n]]; [lia|left; split; reflexivity|].
    right. cbn [Nat.sub sma_walk].
    destruct (Qclt_le_dec (q - m) (X j)) as [Y|Y].
    + (* too close to point j *)
      assert (J : exists j', j = S j') by (exists (j - 1)%nat; lia). destruct J as [j' ->].
      assert (E : c_prev c (Fin q) own None = Ok (Some (Fin (X j')))).
      { apply (wk_prev _ _ _ _ WK); [lia| |].
        - pose proof (proj2 EV j' ltac:(lia)). qc_lra.
        - intros i I Li. pose proof (even_le h d EV (S j') i ltac:(lia) Li). qc_lra. }
      exists (j' - n)%nat, (S j'). split; [lia|]. split; [now left|]. rewrite E. cbn [rbind].
      rewrite walk_prev by lia. split; [reflexivity|].
      change ((let! r := sma_walk (fun x => c_next c x own None) (S n) (Fin (X (j' - n))) in Ok (Some r)) = Ok (Some (Fin (X (S j'))))).
      rewrite walk_next by lia. cbn [rbind]. do 4 f_equal. lia.
    + assert (E : c_prev c (Fin q) own None = Ok (Some (Fin (X j)))).
      { apply (wk_prev _ _ _ _ WK); [lia|exact Y|]. intros i I Li. pose proof (even_le h d EV (S j) i ltac:(lia) Li). qc_lra. }
      exists (j - n)%nat, (S j). split; [lia|]. split; [now right|]. rewrite E. cbn [rbind].
      rewrite walk_prev by lia. split; [reflexivity|].
      change ((let! r := sma_walk (fun x => c_next c x own None) (S n) (Fin (X (j - n))) in Ok (Some r)) = Ok (Some (Fin (X (S j))))).
      rewrite walk_next by lia. cbn [rbind]. do 4 f_equal. lia.
Qed.

Lemma ge_start P q : (m <= P)%Qc -> (0 < len)%nat -> (q <= X (len - 1))%Qc ->
  (first_ge (q - P + m) d < len)%nat.
Proof.
  intros HP L Q. pose proof (first_ge_len (q - P + m) d) as F. destruct (Nat.eq_dec (first_ge (q - P + m) d) len) as [E|E]; [|lia].
  pose proof (first_ge_lt (q - P + m) d (len - 1)%nat ltac:(lia)). exfalso. qc_lra.
Qed.
Lemma period_start P q : (m <= P)%Qc -> (0 < len)%nat -> (q <= X (len - 1))%Qc ->
  c_next c (Fin (q - P)) own None = Ok (Some (Fin (X (first_ge (q - P + m) d)))).
Proof.
  intros HP L Q. pose proof (ge_start P q HP L Q) as F. apply (wk_next _ _ _ _ WK); auto.
  - now apply first_ge_at.
  - apply first_ge_lt.
Qed.
(** the last point of the window that starts at position [i] *)
Lemma period_end P i e : (i < len)%nat -> (e < len)%nat -> (X e <= X i + P - m)%Qc ->
  (forall j, (e < j)%nat -> (j < len)%nat -> (X i + P - m < X j)%Qc) ->
  c_prev c (Fin (X i + P)) own None = Ok (Some (Fin (X e))).
Proof. intros Li Le H1 H2. apply (wk_prev _ _ _ _ WK); auto. Qed.

Lemma period_end_inv P i e : (m <= P)%Qc -> (i < len)%nat -> (e < len)%nat ->
  c_prev c (Fin (X i + P)) own None = Ok (Some (Fin (X e))) -> (i <= e)%nat.
Proof.
  intros HP Li Le E. set (B := (X i + P - m)%Qc). pose proof (first_gt_len B d) as F1. pose proof (first_gt_le B d) as F2.
  pose proof (first_gt_at B d) as F3.
  assert (G : (i < first_gt B d)%nat).
  { destruct (le_lt_dec (first_gt B d) i) as [C|C]; auto. specialize (F3 ltac:(lia)). pose proof (even_le h d EV _ i C Li). exfalso. unfold B in *. qc_lra. }
  assert (E' : c_prev c (Fin (X i + P)) own None = Ok (Some (Fin (X (first_gt B d - 1))))).
  { apply (wk_prev _ _ _ _ WK); [lia|apply F2; lia|]. intros j J Lj. specialize (F3 ltac:(lia)).
    pose proof (even_le h d EV (first_gt B d) j ltac:(lia) Lj). fold B. qc_lra. }
  rewrite E in E'. injection E' as EX. apply (even_inv h d EV); auto. rewrite EX. apply even_le with h; auto; lia.
Qed.

Lemma period_windows P : (m <= P)%Qc ->
  windows (SmaPeriod (Fin P)) (first_gt (X 0 + P - m) d - 1) (fun k => first_ge (X k - P + m) d).
Proof.
  intros HP.
  set (k0 := (first_gt (X 0 + P - m) d - 1)%nat).
  assert (K0 : (0 < len)%nat -> (k0 < len)%nat /\ (X k0 <= X 0 + P - m)%Qc /\ forall j, (k0 < j)%nat -> (j < len)%nat -> (X 0 + P - m < X j)%Qc).
  { intros L. pose proof (first_gt_len (X 0 + P - m) d) as F1. pose proof (first_gt_le (X 0 + P - m) d) as F2.
    pose proof (first_gt_at (X 0 + P - m) d) as F3. unfold k0.
    destruct (first_gt (X 0 + P - m) d) as [|g] eqn:E.
    - specialize (F3 ltac:(lia)). exfalso. qc_lra.
    - cbn [Nat.sub]. rewrite Nat.sub_0_r. split; [lia|]. split; [apply F2; lia|].
      intros j J Lj. specialize (F3 ltac:(lia)). pose proof (even_le h d EV (S g) j ltac:(lia) Lj). qc_lra. }
  assert (LO : forall k, (k < len)%nat -> (first_ge (X k - P + m) d <= k)%nat).
  { intros k L. destruct (le_lt_dec (first_ge (X k - P + m) d) k) as [E|E]; auto.
    pose proof (first_ge_lt (X k - P + m) d k E). exfalso. qc_lra. }
  assert (EN : forall q i e, (e < len)%nat -> (X k0 <= q)%Qc -> (X e <= q)%Qc -> ((S e < len)%nat -> (q < X (S e))%Qc) ->
    i = first_ge (q - P + m) d -> (i < len)%nat -> (X e < q)%Qc \/ X e = q ->
    (c_prev c (Fin (X i + P)) own None = Ok (Some (Fin (X e)))) \/
    ((S e < len)%nat /\ (X e < q)%Qc /\ c_prev c (Fin (X i + P)) own None = Ok (Some (Fin (X (S e)))))).
  { intros q i e Le Lk L1 L2 -> Li L3. pose proof (first_ge_at (q - P + m) d Li) as FA.
    pose proof (first_ge_lt (q - P + m) d) as FL. set (i := first_ge (q - P + m) d) in *.
    assert (UB : forall j, (S e < j)%nat -> (j < len)%nat -> (X i + P - m < X j)%Qc).
    { intros j J Lj. destruct (Nat.eq_dec i 0) as [Z|Z].
      - assert (B : (k0 < j)%nat).
        { destruct (le_lt_dec j k0) as [B|B]; auto. exfalso. destruct (K0 ltac:(lia)) as [K1 _].
          pose proof (even_lt h d EV (S e) j J Lj). pose proof (even_le h d EV j k0 B K1). specialize (L2 ltac:(lia)).
          pose proof (proj1 EV). qc_lra. }
        rewrite Z. apply K0; lia.
      - specialize (FL (i - 1)%nat ltac:(lia)). pose proof (proj2 EV (i - 1)%nat ltac:(lia)) as S1.
        replace (S (i - 1)) with i in S1 by lia. pose proof (even_lt h d EV (S e) j J Lj). specialize (L2 ltac:(lia)). qc_lra. }
    destruct (le_lt_dec len (S e)) as [N|N].
    { left. apply period_end; auto; [qc_lra|]. intros j J Lj. lia. }
    destruct (Qclt_le_dec (X i + P - m) (X (S e))) as [C|C].
    - left. apply period_end; auto; [qc_lra|]. intros j J Lj. destruct (Nat.eq_dec j (S e)) as [->|Nj]; auto. apply UB; lia.
    - destruct L3 as [L3|L3].
      + right. split; [exact N|]. split; [exact L3|]. apply period_end; auto.
      + exfalso. subst q. destruct (Nat.eq_dec i 0) as [Z|Z].
        * rewrite Z in C. destruct (K0 ltac:(lia)) as (K1 & K2 & K3).
          assert (B : (k0 < S e)%nat).
          { destruct (le_lt_dec (S e) k0) as [B|B]; auto. exfalso. pose proof (even_le h d EV (S e) k0 B K1). specialize (L2 N). qc_lra. }
          specialize (K3 (S e) B N). qc_lra.
        * specialize (FL (i - 1)%nat ltac:(lia)). pose proof (proj2 EV (i - 1)%nat ltac:(lia)) as S1.
          replace (S (i - 1)) with i in S1 by lia. pose proof (proj2 EV e N). qc_lra. }
  split; cbn [sma_start sma_end c_prev c_next n_sub n_add XQ xq_sub xq_add].
  - intros k L. apply period_start; auto; [lia|]. apply even_le with h; auto; lia.
  - exact LO.
  - intros i k L1 L2. pose proof (LO i ltac:(lia)) as Li. pose proof (LO k L2) as Lk.
    destruct (le_lt_dec (first_ge (X i - P + m) d) (first_ge (X k - P + m) d)) as [E|E]; auto.
    pose proof (first_ge_lt (X i - P + m) d _ E) as Y. pose proof (first_ge_at (X k - P + m) d ltac:(lia)).
    pose proof (even_le h d EV i k L1 L2). exfalso. qc_lra.
  - intros k L1 L2. pose proof (LO k L2) as Lk.
    destruct (EN (X k) (first_ge (X k - P + m) d) k) as [E|(E1 & E2 & _)]; auto; try lia.
    + apply even_le with h; auto.
    + apply Qcle_refl.
    + intros Sk. pose proof (proj2 EV k Sk). pose proof (proj1 EV). qc_lra.
    + exfalso. qc_lra.
  - unfold sma_get_domain. cbn [c_dom].
    destruct (Nat.eq_dec len 0) as [L|L].
    { rewrite (dom_nil L), L. cbn. destruct k0; reflexivity. }
    destruct (K0 ltac:(lia)) as (K1 & K2 & K3).
    rewrite dom_eq by lia.
    assert (NE : i_is_empty (i_closed (Fin (X 0)) (Fin (X (len - 1)))) = false).
    { rewrite <- dom_eq by lia. rewrite (wk_dom _ _ _ _ WK). destruct (i_is_empty _) eqn:Y; auto.
      apply pts_domain_empty_iff in Y; [|apply WK]. apply (f_equal (@length _)) in Y. rewrite dots_len in Y. cbn in Y. lia. }
    rewrite NE. cbn [i_start i_end i_closed c_prev n_add XQ xq_add].
    rewrite (wk_prev _ _ _ _ WK (X 0 + P)%Qc k0 K1 K2 K3). cbn [rbind n_sub XQ xq_sub xq_add n_isnan orb].
    replace (X 0 + (X k0 - X 0))%Qc with (X k0) by ring.
    assert (LE : n_gtb (Fin (X k0)) (Fin (X (len - 1))) = false).
    { unfold n_gtb. cbn. apply Qcltb_false. apply even_le with h; auto; lia. }
    rewrite LE. apply Nat.ltb_lt in K1. rewrite K1. reflexivity.
  - intros q j L1 L2 Q1 Q2. right.
    assert (QL : (q <= X (len - 1))%Qc).
    { pose proof (even_le h d EV (S j) (len - 1) ltac:(lia) ltac:(lia)). qc_lra. }
    pose proof (ge_start P q HP ltac:(lia) QL) as Li. set (i := first_ge (q - P + m) d) in *.
    assert (LQ : (X k0 <= q)%Qc).
    { pose proof (even_le h d EV k0 j L1 ltac:(lia)). qc_lra. }
    assert (IE : (i <= S j)%nat).
    { destruct (le_lt_dec i (S j)) as [B|B]; auto. pose proof (first_ge_lt (q - P + m) d (S j) B). exfalso. qc_lra. }
    destruct (EN q i j) as [E|(E1 & E2 & E)]; auto; try lia.
    + apply Qclt_le_weak; exact Q1.
    + exists i, j. split; [|split; [now left|split; [apply period_start; auto; lia|exact E]]].
      apply (period_end_inv P); auto. lia.
    + exists i, (S j). split; [exact IE|]. split; [now right|]. split; [apply period_start; auto; lia|exact E].
Qed.
End Windows.

Section PointsWalk.
Context {V : Type} {W : Val xq V} (s : pts xq V) (d : list (Qc * Qc)) (m h : Qc).
Context (GS : good s) (D : map fst (p_pts s) = map fst (dots d)) (EV : even h d).
Notation X := (at_x d).
Notation own := (Some (Fin m)).
Notation len := (length d).

Lemma pts_at k : (k < len)%nat -> exists v, In (Fin (X k), v) (p_pts s).
Proof.
  intros L. assert (I : In (Fin (X k)) (map fst (p_pts s))).
  { rewrite D. apply (in_map fst (dots d) (Fin (X k), Some (Fin (at_y d k)))). eapply nth_error_In. now apply dots_at. }
  apply in_map_iff in I as ((x & v) & E & I). cbn in E. subst x. eauto.
Qed.
Lemma pts_in x v : In (x, v) (p_pts s) -> exists k, (k < len)%nat /\ x = Fin (X k).
Proof.
  intros I. apply (in_map fst) in I. rewrite D in I. apply in_map_iff in I as ((y & w) & E & I). cbn in E. subst y.
  destruct (dots_in _ _ _ I) as (k & L & -> & _). eauto.
Qed.

Lemma next_to b k : (k < len)%nat -> (b + m <= X k)%Qc -> (forall j, (j < k)%nat -> (X j < b + m)%Qc) ->
  p_x_next s (Fin b) own None = Ok (Some (Fin (X k))).
Proof.
  intros L1 L2 L3. destruct (p_x_next_spec s (Fin b) m None GS ltac:(discriminate)) as (y & E & Q). rewrite E. f_equal.
  eapply least_unique; [apply GS| |exact Q|]; [discriminate|]. cbn. split.
  - now apply pts_at.
  - split; [now apply le_x_fin|]. intros x v I L. destruct (pts_in _ _ I) as (j & Lj & ->).
    apply le_x_fin in L. apply le_x_fin. destruct (le_lt_dec k j) as [K|K]; [now apply even_le with h|].
    specialize (L3 j K). exfalso. qc_lra.
Qed.
Lemma next_none b : (forall j, (j < len)%nat -> (X j < b + m)%Qc) -> p_x_next s (Fin b) own None = Ok None.
Proof.
  intros L3. destruct (p_x_next_spec s (Fin b) m None GS ltac:(discriminate)) as (y & E & Q). rewrite E. f_equal.
  eapply least_unique; [apply GS| |exact Q|]; [discriminate|]. cbn.
  intros x v I L. destruct (pts_in _ _ I) as (j & Lj & ->). apply le_x_fin in L. specialize (L3 j Lj). qc_lra.
Qed.
Lemma prev_to b k : (k < len)%nat -> (X k <= b - m)%Qc -> (forall j, (k < j)%nat -> (j < len)%nat -> (b - m < X j)%Qc) ->
  p_x_previous s (Fin b) own None = Ok (Some (Fin (X k))).
Proof.
  intros L1 L2 L3. destruct (p_x_previous_spec s (Fin b) m None GS ltac:(discriminate)) as (y & E & Q). rewrite E. f_equal.
  eapply greatest_unique; [apply GS| |exact Q|]; [discriminate|]. cbn. split.
  - now apply pts_at.
  - split; [now apply le_x_fin|]. intros x v I L. destruct (pts_in _ _ I) as (j & Lj & ->).
    apply le_x_fin in L. apply le_x_fin. destruct (le_lt_dec j k) as [K|K]; [now apply even_le with h|].
    specialize (L3 j K Lj). exfalso. qc_lra.
Qed.
Lemma prev_none b : (forall j, (j < len)%nat -> (b - m < X j)%Qc) -> p_x_previous s (Fin b) own None = Ok None.
Proof.
  intros L3. destruct (p_x_previous_spec s (Fin b) m None GS ltac:(discriminate)) as (y & E & Q). rewrite E. f_equal.
  eapply greatest_unique; [apply GS| |exact Q|]; [discriminate|]. cbn.
  intros x v I L. destruct (pts_in _ _ I) as (j & Lj & ->). apply le_x_fin in L. specialize (L3 j Lj). qc_lra.
Qed.
End PointsWalk.

Lemma points_walks (s : pts xq num) d m h : good s -> p_pts s = dots d -> even h d -> walks (Some (Fin m)) m (p_crv s) d.
Proof.
  intros GS D EV. assert (D' : map fst (p_pts s) = map fst (dots d)) by now rewrite D.
  split; cbn [c_next c_prev c_dom p_crv].
  - intros b k. now apply next_to with h.
  - intros b. now apply next_none.
  - intros b k. now apply prev_to with h.
  - intros b. now apply prev_none.
  - rewrite <- D. apply GS.
  - rewrite (calm_dom s) by apply good_calm, GS. now rewrite D.
Qed.
