(** What the oscillator and the lines of the alligator are. *)
From Coq Require Import List ZArith QArith Qcanon Bool Sorting.Sorted Lia Arith Field.
From Verif Require Import Base Num NumFacts Interval IntervalFacts Curve BaseFacts.
From Verif Require Import Points PointsSpec PointsIdx PointsQuery PointsDom PointsOps PointsMut PointsReset PointsReplace PointsCover PointsHist PointsTop PointsDec.
From Verif Require Import Combine CombineFacts CombineTop Scan ScanFacts ScanSource ScanInv ScanTf SmaFacts SmaInv ScanTop ScanView Quotes QuotesFacts QuotesTop QuotesScan.
From Verif Require Import OffsetDur OffsetDurFacts OffsetDurTop Rsi Indicator IndicatorFacts.
Import ListNotations.

(** the average of the last [n] values of [d] with half weight on the two
    outermost ones *)
Definition smoothed (d : list (Qc * Qc)) (n k : nat) (y : Qc) : Prop :=
  (y * QcofZ (Z.of_nat (n - 1)) = total d (k - (n - 1)) n - (at_y d (k - (n - 1)) + at_y d k) / (1 + 1))%Qc.
Lemma average_smoothed m h d n k : even h d -> (2 <= n)%nat -> (n - 1 <= k)%nat -> (k < length d)%nat ->
  smoothed d n k (average m (SmaDegree n) d k).
Proof.
  intros HE Hn L0 L. unfold smoothed, average. cbn [window].
  replace (k - (n - 1) =? k)%nat with false by (symmetry; apply Nat.eqb_neq; lia).
  replace (k - (k - (n - 1)))%nat with (n - 1)%nat by lia.
  set (i := (k - (n - 1))%nat). assert (K : k = (i + (n - 1))%nat) by lia. assert (N : n = S (n - 1)) by lia.
  rewrite (area_total h d i (n - 1) HE) by lia. rewrite <- N, <- K.
  assert (W : (at_x d k - at_x d i = h * QcofZ (Z.of_nat (n - 1)))%Qc).
  { assert (G : forall j, (i + j < length d)%nat -> (at_x d (i + j) - at_x d i = h * QcofZ (Z.of_nat j))%Qc).
    { induction j as [|j IH]; intros Lj; [rewrite Nat.add_0_r; change (Z.of_nat 0) with 0%Z; rewrite QcofZ_0; ring|].
      rewrite Nat.add_succ_r, (proj2 HE) by lia. rewrite Nat2Z.inj_succ, <- Z.add_1_r, QcofZ_add, QcofZ_1.
      specialize (IH ltac:(lia)). rewrite Qcmult_plus_distr_r, <- IH. ring. }
    rewrite K. apply G. lia. }
  rewrite W. assert (NZ : QcofZ (Z.of_nat (n - 1)) <> 0%Qc) by (apply QcofZ_nz; lia).
  pose proof (proj1 HE) as H0. field. split; [discriminate|]. split; auto. intros C. clear -C H0. subst h. qc_lra.
Qed.
Lemma smoothed_unique d n k y y' : (2 <= n)%nat -> smoothed d n k y -> smoothed d n k y' -> y = y'.
Proof.
  unfold smoothed. intros Hn A B. rewrite <- B in A. assert (NZ : QcofZ (Z.of_nat (n - 1)) <> 0%Qc) by (apply QcofZ_nz; lia).
  replace y with (y * QcofZ (Z.of_nat (n - 1)) / QcofZ (Z.of_nat (n - 1)))%Qc by (now field). rewrite A. now field.
Qed.

(** [q] is between the n-th and the last of the points *)
Definition settled (n : nat) (d : list (Qc * Qc)) (q : Qc) : Prop :=
  (n <= length d)%nat /\ (at_x d (n - 1) <= q)%Qc /\ (q <= at_x d (length d - 1))%Qc.

Section Top.
Context {O : Type} (point : O -> res (xq * cnd)) (encoder : option (O -> res O)).
Context (half : Qc) (Hh : (half + half = 1)%Qc) (D : duration xq) (UD : d_uniform D = true).
Notation m := (own_step D).

Lemma sma_domain_ok n (d : list (Qc * Qc)) : iok (sma_domain m (SmaDegree n) d).
Proof. unfold sma_domain. destruct (_ <? _)%nat; [split; discriminate|apply iok_empty]. Qed.

Section At.
Context (s : quotes xq) (d : list (Qc * Qc)) (H : qinv D s) (C : mids (candles s) d) (AP : apart D (candles s)).
Let EV : exists h, even h d := even_of d (proj1 (sh_fine _ _ _ _ (hl2_shows D s d H UD C AP))).

Lemma settled_le n n' q : (1 <= n)%nat -> (n <= n')%nat -> settled n' d q -> settled n d q.
Proof.
  intros L0 L (A & B & X). destruct EV as (h & E). split; [lia|]. split; [|exact X].
  eapply Qcle_trans; [|exact B]. apply (even_le h d E); lia.
Qed.
Lemma ao_contains x : notnan x -> i_contains (ao_domain D d) x = true <-> exists q, x = Fin q /\ settled SLOW d q.
Proof.
  intros Hx. set (fs := [shown (sma_domain m (SmaDegree FAST) d) (Ok None); shown (sma_domain m (SmaDegree SLOW) d) (Ok None)]).
  assert (DK : doms_ok fs) by (repeat constructor; try apply (sma_domain_ok FAST d); try apply (sma_domain_ok SLOW d)).
  unfold ao_domain. fold fs. cbn [subtract_many aggregate c_dom].
  rewrite (contains_iff _ x (agg_dom_ok false fs DK) Hx), (agg_inter_iff fs x ltac:(discriminate) DK Hx).
  split.
  - intros A. inversion A as [|? ? A1 A2]; subst. inversion A2 as [|? ? A3 _]; subst. cbn [shown c_dom] in *.
    apply (contains_iff _ _ (sma_domain_ok SLOW d) Hx) in A3. destruct (sma_domain_fin m (SmaDegree SLOW) d x A3) as (q & ->).
    exists q. split; [reflexivity|]. apply (mid_dom_in D SLOW ltac:(unfold SLOW; lia) UD s d H C AP q). exact A3.
  - intros (q & -> & S). assert (F : settled FAST d q) by (apply (settled_le FAST SLOW q); auto; unfold FAST, SLOW; lia).
    apply Forall_cons; [|apply Forall_cons; [|apply Forall_nil]]; cbn [shown c_dom].
    + apply (contains_iff _ _ (sma_domain_ok FAST d) Hx). now apply (mid_dom_in D FAST ltac:(unfold FAST; lia) UD s d H C AP q).
    + apply (contains_iff _ _ (sma_domain_ok SLOW d) Hx). now apply (mid_dom_in D SLOW ltac:(unfold SLOW; lia) UD s d H C AP q).
Qed.

Lemma ao_diff fuel o q y z : aok D d o -> (length d < fuel)%nat -> settled SLOW d q ->
  (forall fuel a, mok D FAST d a -> (length d < fuel)%nat -> snd (mid_y FAST (Fin half) fuel D s a (Fin q)) = Ok (Some (Fin y))) ->
  (forall fuel a, mok D SLOW d a -> (length d < fuel)%nat -> snd (mid_y SLOW (Fin half) fuel D s a (Fin q)) = Ok (Some (Fin z))) ->
  snd (ao_y (Fin half) fuel D s o (Fin q)) = Ok (Some (Fin (y - z)%Qc)).
Proof.
  intros A L S Y Z. unfold ao_y. destruct (ao_dom_ok D s d o UD H C AP A) as (o1 & E1 & (J1 & J2) & _). rewrite E1.
  rewrite (proj2 (ao_contains (Fin q) ltac:(discriminate))) by eauto. cbn [negb].
  specialize (Y fuel _ J1 L). specialize (Z fuel _ J2 L).
  destruct (mid_y FAST (Fin half) fuel D s (o_fast o1) (Fin q)) as [f y']. cbn [snd] in Y. subst y'.
  destruct (mid_y SLOW (Fin half) fuel D s (o_slow o1) (Fin q)) as [w z']. cbn [snd] in Z. subst z'.
  cbn [snd rbind]. rewrite sub_f_two. reflexivity.
Qed.
Lemma ao_none fuel o x : aok D d o -> notnan x -> ~ (exists q, x = Fin q /\ settled SLOW d q) -> snd (ao_y (Fin half) fuel D s o x) = Ok None.
Proof.
  intros A Hx S. unfold ao_y. destruct (ao_dom_ok D s d o UD H C AP A) as (o1 & E1 & _ & _). rewrite E1.
  destruct (i_contains (ao_domain D d) x) eqn:E; [|reflexivity]. exfalso. apply S. now apply (ao_contains x Hx).
Qed.

(** a line of the alligator is the moving average seen through Offset *)
Section Line.
Context (K : calendar xq) (n : Z) (deg : nat) (Hd : (1 <= deg)%nat).
Definition seen_mid fuel a : crv xq num :=
  mkC (sma_domain m (SmaDegree deg) d) (fun x => snd (mid_y deg (Fin half) fuel D s a x)) (fun _ _ _ => Ok None) (fun _ _ _ => Ok None) None.
Lemma line_eval fuel a x : mok D deg d a -> (length d < fuel)%nat ->
  snd (line_y K n deg (Fin half) fuel D s a x) = c_y (d_offset_curve K n (seen_mid fuel a)) x.
Proof.
  intros A L. cbn [d_offset_curve c_y]. unfold line_y, d_offset_eval. cbn [seen_mid c_y c_dom].
  destruct (mid_dom_ok D deg Hd UD s d H C AP a A) as (a1 & E1 & A1). rewrite E1.
  set (x0 := d_unoffset_x K n x true). set (x1 := d_unoffset_x K n x false).
  destruct (i_contains (sma_domain m (SmaDegree deg) d) x0) eqn:C0; cbn [negb orb]; [|reflexivity].
  destruct (i_contains (sma_domain m (SmaDegree deg) d) x1) eqn:C1; cbn [negb orb]; [|reflexivity].
  destruct (sma_domain_fin m (SmaDegree deg) d x0 C0) as (q0 & Q0). destruct (sma_domain_fin m (SmaDegree deg) d x1 C1) as (q1 & Q1).
  destruct (mid_value D half Hh deg Hd UD s d H C AP q0) as (v0 & V0 & _).
  destruct (mid_value D half Hh deg Hd UD s d H C AP q1) as (v1 & V1 & _).
  rewrite <- Q0 in V0. rewrite <- Q1 in V1.
  destruct (n_eqb x0 x1); [now rewrite (V0 fuel a1 A1 L), (V0 fuel a A L)|].
  destruct (mid_y deg (Fin half) fuel D s a1 x0) as [a2 y0] eqn:E2.
  pose proof (V0 fuel a1 A1 L) as Y0. rewrite E2 in Y0. cbn [snd] in Y0. subst y0.
  pose proof (mid_y_ok D half Hh deg Hd UD s d H C AP fuel a1 x0 a2 _ A1 L E2) as A2.
  destruct (mid_y deg (Fin half) fuel D s a2 x1) as [a3 y1] eqn:E3.
  pose proof (V1 fuel a2 A2 L) as Y1. rewrite E3 in Y1. cbn [snd] in Y1. subst y1.
  rewrite (V0 fuel a A L), (V1 fuel a A L). reflexivity.
Qed.
Lemma placed_shift g a v p len : placed g (a + Z.of_nat p)%Z (fun k => v (p + k)%nat) 0 (len - p) = placed g a v p len.
Proof.
  unfold placed. rewrite Nat.sub_0_r. assert (G : forall c j, map (fun k => (g (a + Z.of_nat p + Z.of_nat k)%Z, v (p + k)%nat)) (seq j c)
    = map (fun k => (g (a + Z.of_nat k)%Z, v k)) (seq (p + j) c)).
  { induction c as [|c IH]; intros j; [reflexivity|]. cbn [seq map]. rewrite IH, Nat.add_succ_r.
    replace (a + Z.of_nat p + Z.of_nat j)%Z with (a + Z.of_nat (p + j))%Z by lia. reflexivity. }
  rewrite G, Nat.add_0_r. reflexivity.
Qed.
Lemma line_traces g a0 fuel a : ticks K g -> n <> 0%Z -> mok D deg d a -> (length d < fuel)%nat ->
  (forall k, (k < length d)%nat -> at_x d k = g (a0 + Z.of_nat k)%Z) ->
  traces ILinear (placed g (a0 + n) (average m (SmaDegree deg) d) (deg - 1) (length d)) (fun x => snd (line_y K n deg (Fin half) fuel D s a x)).
Proof.
  intros TK Hn A L X. assert (TR : traces ILinear (placed g (a0 + n) (average m (SmaDegree deg) d) (deg - 1) (length d)) (c_y (d_offset_curve K n (seen_mid fuel a)))).
  { destruct (le_lt_dec deg (length d)) as [B|B].
    - rewrite <- placed_shift. replace (a0 + n + Z.of_nat (deg - 1))%Z with (a0 + Z.of_nat (deg - 1) + n)%Z by lia.
      apply (off_traces K g TK n Hn); try lia.
      + cbn [seen_mid c_dom]. unfold sma_domain. cbn [first_pos].
        replace (deg - 1 <? length d)%nat with true by (symmetry; apply Nat.ltb_lt; lia). unfold i_closed.
        rewrite !X by lia. do 2 f_equal. f_equal. lia.
      + intros k Lk. cbn [seen_mid c_y]. replace (a0 + Z.of_nat (deg - 1) + Z.of_nat k)%Z with (a0 + Z.of_nat (deg - 1 + k))%Z by lia.
        rewrite <- X by lia. apply (mid_knot D half Hh deg Hd UD s d H C AP); auto; lia.
    - assert (Z : (length d - (deg - 1) = 0)%nat) by lia. unfold placed. rewrite Z. cbn [seq map].
      split; [intros k Lk; cbn in Lk; lia|]. split; [intros j q Lj; cbn in Lj; lia|]. intros q _.
      cbn [d_offset_curve c_y]. unfold d_offset_eval. cbn [seen_mid c_dom]. unfold sma_domain. cbn [first_pos].
      replace (deg - 1 <? length d)%nat with false by (symmetry; apply Nat.ltb_ge; lia).
      destruct (i_contains i_empty (d_unoffset_x K n (Fin q) true)) eqn:E; [|reflexivity].
      exfalso. revert E. generalize (d_unoffset_x K n (Fin q) true). intros [z| | |]; cbn; try discriminate. }
  destruct TR as (T1 & T2 & T3). split; [|split].
  - intros k Lk. rewrite line_eval by auto. now apply T1.
  - intros j q Lj B1 B2. rewrite line_eval by auto. now apply T2.
  - intros q B. rewrite line_eval by auto. now apply T3.
Qed.
End Line.
End At.

(** ** The statements over histories *)
Lemma ao_same s o d : ao_hist point encoder D half s o -> mids (candles s) d -> qinv D s /\ aok D d o.
Proof.
  intros HO C. destruct (ao_inv point encoder D half s o Hh UD HO) as (H & _ & d' & C' & A).
  rewrite <- (rows_unique midpoint midpoint_fun _ _ _ C' C). auto.
Qed.
Lemma ao_knot fuel s o d k : ao_hist point encoder D half s o -> mids (candles s) d -> apart D (candles s) -> (length d < fuel)%nat ->
  (33 <= k)%nat -> (k < length d)%nat ->
  exists f w, snd (ao_y (Fin half) fuel D s o (Fin (at_x d k))) = Ok (Some (Fin (f - w)%Qc)) /\ smoothed d 5 k f /\ smoothed d 34 k w.
Proof.
  intros HO C AP L L1 L2. destruct (ao_same s o d HO C) as (H & A).
  pose proof (hl2_shows D s d H UD C AP) as SH. destruct (even_of d (proj1 (sh_fine _ _ _ _ SH))) as (h & EV).
  exists (average m (SmaDegree FAST) d k), (average m (SmaDegree SLOW) d k). split.
  - apply (ao_diff s d H C AP); auto.
    + split; [unfold SLOW; lia|]. split; apply (even_le h d EV); unfold SLOW; lia.
    + intros f a I Lf. apply (mid_knot D half Hh FAST); auto; unfold FAST; lia.
    + intros f a I Lf. apply (mid_knot D half Hh SLOW); auto; unfold SLOW; lia.
  - split; apply (average_smoothed m h); auto; unfold FAST, SLOW; lia.
Qed.
Lemma ao_range s o0 d q : ao_hist point encoder D half s o0 -> mids (candles s) d -> apart D (candles s) ->
  exists v, (forall fuel o, ao_hist point encoder D half s o -> (length d < fuel)%nat -> snd (ao_y (Fin half) fuel D s o (Fin q)) = Ok v) /\
    (settled 34 d q -> exists r, v = Some (Fin r) /\ forall lo hi, within lo hi d -> (lo - hi <= r <= hi - lo)%Qc) /\
    (~ settled 34 d q -> v = None).
Proof.
  intros HO0 C AP. destruct (ao_same s o0 d HO0 C) as (H & _).
  destruct (mid_value D half Hh FAST ltac:(unfold FAST; lia) UD s d H C AP q) as (y & Y & YI & YO).
  destruct (mid_value D half Hh SLOW ltac:(unfold SLOW; lia) UD s d H C AP q) as (z & Z & ZI & ZO).
  assert (DEC : settled SLOW d q \/ ~ settled SLOW d q).
  { unfold settled. destruct (le_lt_dec SLOW (length d)) as [B|B]; [|right; intros (X & _); lia].
    destruct (Qclt_le_dec q (at_x d (SLOW - 1))) as [B1|B1]; [right; intros (_ & X & _); clear -X B1; qc_lra|].
    destruct (Qclt_le_dec (at_x d (length d - 1)) q) as [B2|B2]; [right; intros (_ & _ & X); clear -X B2; qc_lra|]. left. auto. }
  destruct DEC as [S|S].
  - destruct (YI (settled_le s d H C AP FAST SLOW q ltac:(unfold FAST; lia) ltac:(unfold FAST, SLOW; lia) S)) as (a & -> & BA).
    destruct (ZI S) as (b & -> & BB). exists (Some (Fin (a - b)%Qc)). split.
    + intros fuel o HO L. destruct (ao_same s o d HO C) as (_ & A). now apply (ao_diff s d H C AP).
    + split; [|intros N; now elim N]. intros _. exists (a - b)%Qc. split; [reflexivity|]. intros lo hi W.
      specialize (BA lo hi W). specialize (BB lo hi W). clear -BA BB. destruct BA, BB. split; qc_lra.
  - exists None. split; [|split; [intros X; now elim S|auto]].
    intros fuel o HO L. destruct (ao_same s o d HO C) as (_ & A). apply (ao_none s d H C AP); [exact A|discriminate|].
    intros (q' & E & S'). injection E as <-. now elim S.
Qed.
Lemma ao_infinite fuel s o d x : ao_hist point encoder D half s o -> mids (candles s) d -> apart D (candles s) ->
  notnan x -> ~ xfin x -> snd (ao_y (Fin half) fuel D s o x) = Ok None.
Proof.
  intros HO C AP Hx F. destruct (ao_same s o d HO C) as (H & A). apply (ao_none s d H C AP); auto.
  intros (q & -> & _). apply F. now exists q.
Qed.
Lemma alligator_traces K g n deg fuel s u a d a0 : ticks K g -> n <> 0%Z -> (2 <= deg)%nat ->
  mid_hist point encoder D half deg s u a -> mids (candles s) d -> apart D (candles s) -> (length d < fuel)%nat ->
  (forall k, (k < length d)%nat -> at_x d k = g (a0 + Z.of_nat k)%Z) ->
  exists v, traces ILinear (placed g (a0 + n) v (deg - 1) (length d)) (fun x => snd (line_y K n deg (Fin half) fuel D s a x)) /\
    forall k, (deg - 1 <= k < length d)%nat -> smoothed d deg k (v k).
Proof.
  intros TK Hn Hd HM C AP L X. destruct (mid_inv point encoder D half deg s u a Hh ltac:(lia) UD HM) as (H & _ & d' & C' & A).
  rewrite (rows_unique midpoint midpoint_fun _ _ _ C' C) in A. clear d' C'.
  pose proof (hl2_shows D s d H UD C AP) as SH. destruct (even_of d (proj1 (sh_fine _ _ _ _ SH))) as (h & EV).
  exists (average m (SmaDegree deg) d). split.
  - apply (line_traces s d H C AP K n deg ltac:(lia) g a0 fuel a TK Hn A L X).
  - intros k Lk. apply (average_smoothed m h); auto; lia.
Qed.
Lemma alligator_lines K g line deg n fuel s u a d a0 : ticks K g ->
  In (line, (deg, n)) [(JAW, (13%nat, 8%Z)); (TEETH, (8%nat, 5%Z)); (LIPS, (5%nat, 3%Z))] ->
  mid_hist point encoder D half (fst line) s u a -> mids (candles s) d -> apart D (candles s) -> (length d < fuel)%nat ->
  (forall k, (k < length d)%nat -> at_x d k = g (a0 + Z.of_nat k)%Z) ->
  exists v, traces ILinear (placed g (a0 + n) v (deg - 1) (length d)) (fun x => snd (alligator_y K (Fin half) fuel D s line a x)) /\
    forall k, (deg - 1 <= k < length d)%nat -> smoothed d deg k (v k).
Proof.
  intros TK IL HM C AP L X. assert (B : line = (deg, n) /\ (2 <= deg)%nat /\ n <> 0%Z).
  { destruct IL as [E|[E|[E|[]]]]; injection E as <- <- <-; (split; [reflexivity|lia]). }
  destruct B as (-> & B1 & B2). exact (alligator_traces K g n deg fuel s u a d a0 TK B2 B1 HM C AP L X).
Qed.
End Top.
