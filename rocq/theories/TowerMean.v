(** What the layers of a chain compute, and bounds that go through a chain. *)
From Coq Require Import List ZArith QArith Qcanon Bool Sorting.Sorted Lia Arith.
From Verif Require Import Base Num NumFacts Interval IntervalFacts Curve BaseFacts.
From Verif Require Import Points PointsSpec PointsIdx PointsQuery PointsDom PointsOps PointsMut PointsHist PointsTop PointsDec.
From Verif Require Import BaseTop Combine CombineFacts CombineTop CombineLine Scan ScanFacts ScanSource ScanInv ScanTf SmaFacts SmaInv ScanTop ScanView ScanSample ScanSampleFacts ScanSampleAcc Tower TowerFacts TowerTop TowerHist.
Import ListNotations.

Lemma layer_len k d : length (layer_out k d) = length d.
Proof.
  destruct k as [h ip c|deg|n tfm]; cbn [layer_out].
  - assert (E : forall p s d, length (sums ip s p d) = length d) by (intros p s d0; revert p s; induction d0; intros; cbn; auto).
    assert (L : length (areas ip d) = length d) by (destruct d; cbn; auto). destruct c; rewrite ?map_length; auto.
  - destruct d; cbn; auto. now rewrite smooth_len.
  - generalize (@nil (Qc * Qc)). induction d as [|p d IH]; intros pre; cbn; auto.
Qed.
Lemma at_nth (r : list (Qc * Qc)) k : (k < length r)%nat -> nth_error r k = Some (at_x r k, at_y r k).
Proof.
  intros L. unfold at_x, at_y, pt. rewrite (nth_error_nth' r (0%Qc, 0%Qc) L). now destruct (nth k r _).
Qed.
Lemma at_eq (r : list (Qc * Qc)) k x y : nth_error r k = Some (x, y) -> at_x r k = x /\ at_y r k = y.
Proof. intros N. unfold at_x, at_y, pt. rewrite (nth_error_nth r k (0%Qc, 0%Qc) N). auto. Qed.

Lemma layer_int half ip c d k : (k < length d)%nat ->
  at_x (layer_out (LInt half ip (Fin c)) d) k = at_x d k /\ at_y (layer_out (LInt half ip (Fin c)) d) k = (area_sum ip d 0 k + c)%Qc.
Proof.
  intros L. cbn [layer_out]. apply at_eq. rewrite nth_error_map, (areas_nth ip d k L). reflexivity.
Qed.
Lemma layer_ema deg d : let r := layer_out (LEma deg) d in
  (forall k, (k < length d)%nat -> at_x r k = at_x d k) /\
  ((0 < length d)%nat -> at_y r 0 = at_y d 0) /\
  (forall k, (S k < length d)%nat -> at_y r (S k) = (at_y r k + wt_of deg (at_x d k) (at_x d (S k)) * (at_y d (S k) - at_y r k))%Qc).
Proof.
  cbn zeta. cbn [layer_out]. destruct d as [|p d]; [repeat split; cbn; intros; lia|]. split; [|split].
  - assert (X : forall d x e k, at_x (smooth (wt_of deg) x e d) k = at_x d k).
    { clear. induction d as [|p d IH]; intros x e k; [reflexivity|]. destruct k as [|k]; [reflexivity|]. apply (IH (fst p) _ k). }
    intros [|k] _; [reflexivity|]. apply (X d _ _ k).
  - reflexivity.
  - intros k L. cbn [length] in L. cbn [smoothed].
    pose proof (smooth_nth (wt_of deg) d (fst p) (snd p) k ltac:(lia)) as N. cbn zeta in N. destruct k; exact N.
Qed.
(** the transform of the last [n] values, newest first *)
Lemma layer_map n tfm d k : sound_layer (LMap n tfm) -> (k < length d)%nat ->
  at_x (layer_out (LMap n tfm) d) k = at_x d k /\
  tfm (Fin (at_x d k)) (map (fun v => Some (Fin v)) (firstn (Z.to_nat n) (rev (map snd (firstn (S k) d))))) =
    Ok (Some (Fin (at_y (layer_out (LMap n tfm) d) k))).
Proof.
  intros [N1 T] L. cbn [layer_out].
  pose proof (mapped_nth (win_degree (Z.to_nat n)) (g_of tfm) d [] k _ (at_nth d k L)) as M. cbn [fst app] in M.
  destruct (at_eq _ _ _ _ M) as [-> ->]. split; [reflexivity|].
  assert (W : win_degree (Z.to_nat n) (firstn k d) (at_x d k, at_y d k) = firstn (Z.to_nat n) (rev (map snd (firstn (S k) d)))).
  { unfold win_degree. do 3 f_equal. pose proof (at_nth d k L) as X. clear -X. revert d X. induction k as [|k IH]; intros [|p d] X; try discriminate; cbn in *; [congruence|].
    f_equal. now apply IH. }
  rewrite W. unfold g_of.
  destruct (firstn (Z.to_nat n) (rev (map snd (firstn (S k) d)))) as [|y ys] eqn:E.
  - exfalso. apply (f_equal (@length _)) in E. rewrite firstn_length, rev_length, map_length, firstn_length in E. cbn [length] in E. lia.
  - destruct (T (at_x d k) y ys) as (v & V). rewrite V. reflexivity.
Qed.

(** ** The next point of a chain *)
Theorem chained_next fuel ks s t d q M lim : chained ks s t -> spread ks s d -> (length d < fuel)%nat -> (floor ks <= M)%Qc ->
  exists y, sc_next (tower fuel (p_crv s) ks) (Fin q) (Some (Fin M)) lim t = (t, Ok y) /\ least_from (dots d) (Fin (q + M)%Qc) y.
Proof.
  intros H (D & ES & CS & CO) Lf HM. destruct (chained_inv ks s t H) as [GS HI]. rewrite D in HI.
  eexists. split; [apply (rd_follow _ _ _ _ _ _ _ (tower_ready fuel s d ks GS D ES CS CO Lf) t q M lim HI HM)|].
  unfold following. rewrite (imgs_xs ks (dots d)). apply find_least. rewrite <- D. apply GS.
Qed.

(** ** Smoothing and choosing stay within the range *)
Definition mild (k : layer xq) : Prop :=
  match k with
  | LEma (EmaAlpha (Fin q)) => (0 <= q)%Qc /\ (q <= 1)%Qc
  | LMap _ tfm => forall x y ys v, tfm (Fin x) (map (fun v => Some (Fin v)) (y :: ys)) = Ok (Some (Fin v)) -> In v (y :: ys)
  | _ => False
  end.
Lemma within_at lo hi d : (forall k, (k < length d)%nat -> (lo <= at_y d k <= hi)%Qc) -> within lo hi d.
Proof.
  intros H p J. apply In_nth_error in J as (k & N). assert (L : (k < length d)%nat) by (apply nth_error_Some; congruence).
  destruct p as [x y]. destruct (at_eq _ _ _ _ N) as [_ E]. cbn [snd]. rewrite <- E. auto.
Qed.
Lemma mild_within k d lo hi : sound_layer k -> mild k -> within lo hi d -> within lo hi (layer_out k d).
Proof.
  intros SL ML W. apply within_at. rewrite layer_len. intros j L.
  assert (P : forall j, (j < length d)%nat -> (lo <= at_y d j <= hi)%Qc) by (intros i Li; apply (within_pt lo hi d i W Li)).
  destruct k as [h ip c|[q|q]|n tfm]; cbn [mild] in ML; try contradiction.
  - destruct q as [q| | |]; try contradiction. destruct (layer_ema (EmaAlpha (Fin q)) d) as (_ & E0 & E1). cbn zeta in *.
    apply recurrence_within with (d := d) (wt := fun _ => q); auto.
    + intros i Li. apply P. lia.
    + rewrite E0 by lia. apply P. lia.
  - destruct (layer_map n tfm d j SL L) as [_ E].
    destruct (firstn (Z.to_nat n) (rev (map snd (firstn (S j) d)))) as [|y ys] eqn:EW.
    + exfalso. destruct SL as [N1 _]. apply (f_equal (@length _)) in EW. rewrite firstn_length, rev_length, map_length, firstn_length in EW. cbn [length] in EW. lia.
    + apply ML in E. rewrite <- EW in E. clear -E W.
      assert (I1 : In (at_y (layer_out (LMap n tfm) d) j) (map snd d)).
      { set (v := at_y _ _) in *. clearbody v.
        assert (FI : forall A m (l : list A) a, In a (firstn m l) -> In a l).
        { intros A m l a X. rewrite <- (firstn_skipn m l). apply in_or_app. now left. }
        apply FI in E. apply in_rev in E. rewrite <- firstn_map in E. now apply FI in E. }
      apply in_map_iff in I1 as (p & <- & J). now apply W.
Qed.
Lemma chain_within ks d lo hi : chain_ok ks d -> Forall (fun k => mild (fst k)) ks -> within lo hi d -> within lo hi (chain_out ks d).
Proof.
  induction ks as [|[k own] ks IH]; intros C F W; [exact W|]. destruct C as (SL & _ & _ & C). inversion F; subst.
  cbn [chain_out]. apply mild_within; auto.
Qed.
Theorem chained_within fuel ks s t d lo hi q y : ks <> [] -> chained ks s t -> spread ks s d -> (length d < fuel)%nat ->
  Forall (fun k => mild (fst k)) ks -> within lo hi d ->
  snd (sc_y (tower fuel (p_crv s) ks) (Fin q) t) = Ok (Some (Fin y)) -> (lo <= y <= hi)%Qc.
Proof.
  intros NE H SP Lf F W Y. pose proof SP as (D & ES & CS & CO). destruct (chained_inv ks s t H) as [GS _].
  pose proof (chained_traces fuel ks s t d NE H SP Lf) as T.
  assert (A : ascending (dots d)) by (rewrite <- D; apply GS).
  pose proof (imgs_xs ks (dots d)) as XS. rewrite (imgs_dots ks d CO) in XS.
  destruct (even_of (chain_out ks d)) as [h HE].
  { eapply equally_xs2; [symmetry; exact XS|exact ES]. }
  eapply traces_within; [exact T|exact HE| |exact Y]. intros k L. apply (within_pt lo hi _ k); auto. now apply chain_within.
Qed.
(** the answers depend on the points only *)
Lemma traces_same h ip r f g q : even h r -> traces ip r f -> traces ip r g -> f (Fin q) = g (Fin q).
Proof.
  intros EV (T1 & T2 & T3) (U1 & U2 & U3).
  destruct (Nat.eq_0_gt_0_cases (length r)) as [L|L]; [rewrite T3, U3; auto; left; lia|].
  destruct (Qclt_le_dec q (at_x r 0)) as [C|C].
  { assert (O : forall k, (k < length r)%nat -> (q < at_x r k)%Qc) by (intros k Lk; pose proof (even_le h r EV 0 k ltac:(lia) Lk); qc_lra).
    rewrite T3, U3; auto. }
  destruct (Qclt_le_dec (at_x r (length r - 1)) q) as [C'|C'].
  { assert (O : forall k, (k < length r)%nat -> (at_x r k < q)%Qc) by (intros k Lk; pose proof (even_le h r EV k (length r - 1) ltac:(lia) ltac:(lia)); qc_lra).
    rewrite T3, U3; auto. }
  destruct (between h r q EV ltac:(lia) C C') as [(k & Lk & ->)|(j & Lj & Q1 & Q2)].
  - rewrite T1, U1; auto.
  - rewrite (T2 j q), (U2 j q); auto.
Qed.
Theorem chained_same fuel fuel' ks s t s' t' d q : ks <> [] -> chained ks s t -> chained ks s' t' -> spread ks s d -> spread ks s' d ->
  (length d < fuel)%nat -> (length d < fuel')%nat ->
  snd (sc_y (tower fuel (p_crv s) ks) (Fin q) t) = snd (sc_y (tower fuel' (p_crv s') ks) (Fin q) t').
Proof.
  intros NE H H' SP SP' L L'. pose proof SP as (D & ES & CS & CO).
  pose proof (imgs_xs ks (dots d)) as XS. rewrite (imgs_dots ks d CO) in XS.
  destruct (even_of (chain_out ks d)) as [h HE].
  { eapply equally_xs2; [symmetry; exact XS|exact ES]. }
  exact (traces_same h ILinear _ _ _ q HE (chained_traces fuel ks s t d NE H SP L) (chained_traces fuel' ks s' t' d NE H' SP' L')).
Qed.
Theorem chained_notifies ks s t o s' evs : chained ks s t -> op_ok o -> run_op s o = (s', evs, Ok tt) ->
  (p_uniform s' = true -> equally_spaced (p_pts s')) ->
  exists t' out, tower_events ks t evs = (t', out, Ok tt) /\ chained ks s' t' /\ announces out (imgs ks (p_pts s)) (imgs ks (p_pts s')).
Proof.
  intros H O R T. destruct (chained_inv ks s t H) as [GS HI].
  assert (GS' : good s') by (apply good_calm; split; [eapply step_calm; eauto; apply good_calm, GS|exact T]).
  destruct (tower_events_ok ks (p_pts s) (p_pts s') t evs (proj1 GS) (proj1 GS') HI (op_announces s o s' evs GS O R)) as (t1 & out1 & E1 & _ & A1).
  exists t1, out1. split; [exact E1|]. split; [|exact A1]. eapply ch_op; eauto.
Qed.
