(** C61: the indicators ao and alligator of Quotes (quotes.py).

    [ao_hist point encoder D half s o]: the Quotes [s] and the oscillator [o]
    after any sequence of operations on the Quotes, each announced to [o], of
    queries and of reads; [mid_hist] the same for one moving average of the
    midpoints.  [mids l d]: [d] are the timestamps and the midpoints
    (high + low) / 2 of the candles [l].  [smoothed d n k y]: [y] is the
    average of the n values up to the k-th with half weight on the first and
    the last.  [settled n d q]: [q] lies between the n-th and the last point. *)
From Coq Require Import List ZArith QArith Qcanon Bool Arith Lia.
From Verif Require Import Base Num NumFacts Interval IntervalFacts Curve Points PointsSpec PointsQuery PointsDom PointsOps PointsCover PointsDec PointsHist PointsRefute PointsTop PointsEx.
From Verif Require Import BaseEx Combine CombineEx Scan ScanFacts ScanSource ScanInv ScanTf SmaFacts SmaInv ScanTop ScanView ScanEx TrendEx Quotes QuotesFacts QuotesTop QuotesScan QuotesEx.
From Verif Require Import OffsetDur OffsetDurFacts OffsetDurTop OffsetDurEx Rsi Indicator IndicatorFacts IndicatorTop IndicatorEx.
Import ListNotations.

(** at a candle: the difference of the two averages *)
Theorem C61_ao : forall {O} (point : O -> res (xq * cnd)) encoder half, (half + half = 1)%Qc -> forall D, d_uniform D = true ->
  forall fuel s o d k, ao_hist point encoder D half s o -> mids (candles s) d -> apart D (candles s) -> (length d < fuel)%nat ->
  (33 <= k)%nat -> (k < length d)%nat ->
  exists f w, snd (ao_y (Fin half) fuel D s o (Fin (at_x d k))) = Ok (Some (Fin (f - w)%Qc)) /\ smoothed d 5 k f /\ smoothed d 34 k w.
Proof. exact @ao_knot. Qed.
Print Assumptions C61_ao.
(** everywhere: a value exactly from the 34th to the last candle, no larger
    than the spread of the midpoints, the same after every history *)
Theorem C61_ao_range : forall {O} (point : O -> res (xq * cnd)) encoder half, (half + half = 1)%Qc -> forall D, d_uniform D = true ->
  forall s o0 d q, ao_hist point encoder D half s o0 -> mids (candles s) d -> apart D (candles s) ->
  exists v, (forall fuel o, ao_hist point encoder D half s o -> (length d < fuel)%nat -> snd (ao_y (Fin half) fuel D s o (Fin q)) = Ok v) /\
    (settled 34 d q -> exists r, v = Some (Fin r) /\ forall lo hi, within lo hi d -> (lo - hi <= r <= hi - lo)%Qc) /\
    (~ settled 34 d q -> v = None).
Proof. exact @ao_range. Qed.
Print Assumptions C61_ao_range.
Theorem C61_ao_infinite : forall {O} (point : O -> res (xq * cnd)) encoder half, (half + half = 1)%Qc -> forall D, d_uniform D = true ->
  forall fuel s o d x, ao_hist point encoder D half s o -> mids (candles s) d -> apart D (candles s) ->
  notnan x -> ~ xfin x -> snd (ao_y (Fin half) fuel D s o x) = Ok None.
Proof. exact @ao_infinite. Qed.
Print Assumptions C61_ao_infinite.
(** the averages are not the arithmetic means of the documentation *)
Theorem C61_ao_means_refuted : exists s o d k, ao_hist bare None (D1 true) hf s o /\ mids (candles s) d /\ apart (D1 true) (candles s) /\
  (33 <= k < length d)%nat /\
  snd (ao_y (Fin hf) 99 (D1 true) s o (Fin (at_x d k))) = Ok (Some (fr 145 132)) /\
  (total d (k - 4) 5 / QcofZ 5 - total d (k - 33) 34 / QcofZ 34)%Qc = (QcofZ 203 / QcofZ 170)%Qc.
Proof. exact ao_not_means. Qed.
Print Assumptions C61_ao_means_refuted.
(** jaw, teeth and lips: the averages of the last 13, 8 and 5 midpoints, moved
    8, 5 and 3 boundaries of the duration, with straight lines between them *)
Theorem C61_alligator : forall {O} (point : O -> res (xq * cnd)) encoder half, (half + half = 1)%Qc -> forall D, d_uniform D = true ->
  forall K g line deg n fuel s u a d a0, ticks K g ->
  In (line, (deg, n)) [(JAW, (13%nat, 8%Z)); (TEETH, (8%nat, 5%Z)); (LIPS, (5%nat, 3%Z))] ->
  mid_hist point encoder D half (fst line) s u a -> mids (candles s) d -> apart D (candles s) -> (length d < fuel)%nat ->
  (forall k, (k < length d)%nat -> at_x d k = g (a0 + Z.of_nat k)%Z) ->
  exists v, traces ILinear (map (fun k => (g (a0 + n + Z.of_nat k)%Z, v k)) (seq (deg - 1) (length d - (deg - 1))))
      (fun x => snd (alligator_y K (Fin half) fuel D s line a x)) /\
    forall k, (deg - 1 <= k < length d)%nat -> smoothed d deg k (v k).
Proof. exact @alligator_lines. Qed.
Print Assumptions C61_alligator.

Example C61_ex : ao_hist bare None (D1 true) hf b35 ao35 /\ mids (candles b35) (mid_list 35) /\ apart (D1 true) (candles b35) /\
  settled 34 (mid_list 35) (QcofZ 34) /\
  snd (ao_y (Fin hf) 99 (D1 true) b35 ao35 (fz 34)) = Ok (Some (fr 551 264)) /\
  snd (ao_y (Fin hf) 99 (D1 true) b35 ao35 (fr 67 2)) = Ok (Some (fr 841 528)) /\
  snd (ao_y (Fin hf) 99 (D1 true) b35 ao35 (fz 32)) = Ok None /\
  mid_hist bare None (D1 true) hf 5 b35 lip_upd lip35 /\ ticks sec sec_g /\
  (forall k, (k < length (mid_list 35))%nat -> at_x (mid_list 35) k = sec_g (0 + Z.of_nat k)) /\
  snd (alligator_y sec (Fin hf) 99 (D1 true) b35 LIPS lip35 (fz 36)) = Ok (Some (fr 5 4)) /\
  snd (alligator_y sec (Fin hf) 99 (D1 true) b35 LIPS lip35 (fz 37)) = Ok (Some (fr 19 8)) /\
  snd (alligator_y sec (Fin hf) 99 (D1 true) b35 LIPS lip35 (fz 38)) = Ok None /\
  smoothed (mid_list 35) 5 33 (QcofZ 5 / QcofZ 4)%Qc.
Proof.
  split; [exact ao35_hist|]. split; [exact b35_mids|]. split; [exact b35_apart|].
  split; [split; [cbn; lia|split; vm_compute; discriminate]|]. split; [num|]. split; [num|]. split; [num|].
  split; [exact lip35_hist|]. split; [exact sec_ticks|]. split; [exact (mid_list_x 35)|].
  split; [num|]. split; [num|]. split; [num|]. apply Qc_is_canon. vm_compute. reflexivity.
Qed.
