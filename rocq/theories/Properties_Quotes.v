(** C48: quotes expose the stored candles. *)
From Coq Require Import List ZArith QArith Qcanon Bool Lia.
From Verif Require Import Base Num NumFacts Interval IntervalFacts Curve Points PointsSpec PointsOps PointsDom PointsCover PointsDec PointsHist PointsTop.
From Verif Require Import BaseEx Combine Scan ScanTf SmaFacts ScanTop ScanEx TrendEx Quotes QuotesFacts QuotesTop QuotesScan QuotesEx.
Import ListNotations.

(** A component at x is that of the candle covering x: the last one not after
    x, up to the last timestamp; None where that candle is None or there is none. *)
Theorem C48_components : forall O (point : O -> res (xq * cnd)) encoder D s, quoted point encoder D s ->
  forall k q, exists v, value IPrevious (candles s) q v /\ (forall v', value IPrevious (candles s) q v' -> v' = v) /\
    c_y (component k D s) (Fin q) =
      match v with
      | None => Ok None
      | Some cd => match nth_error cd k with Some y => Ok (Some y) | None => Err EIndex end
      end.
Proof.
  exact (fun O point encoder D s H k q =>
    let I := quoted_inv point encoder D s H in
    match quotes_y D s q I with
    | ex_intro _ v (conj _ (conj V U)) => ex_intro _ v (conj V (conj U (component_value D s k q v I V)))
    end).
Qed.
Print Assumptions C48_components.
Example C48_components_ex : quoted bare None (D1 true) q4 /\
  c_y (component OPEN (D1 true) q4) (fr 3 2) = Ok (nv 12) /\ c_y (component HIGH (D1 true) q4) (fr 3 2) = Ok (nv 14) /\
  c_y (component LOW (D1 true) q4) (fz 2) = Ok (nv 7) /\ c_y (component CLOSE (D1 true) q4) (fz 3) = Ok (nv 6) /\
  c_y (component VOLUME (D1 true) q4) (fz 3) = Ok (nv 100) /\ c_y (component VOLUME (D1 true) q4) (fz 2) = Err EIndex.
Proof.
  split; [exact q4_quoted|]. split; [num|]. split; [num|]. split; [num|]. split; [num|]. split; [num|]. vm_compute. reflexivity.
Qed.

(** None outside the span of the timestamps, and at values that are no numbers. *)
Theorem C48_outside : forall O (point : O -> res (xq * cnd)) encoder D s, quoted point encoder D s ->
  (forall k q, ~ span (candles s) q -> c_y (component k D s) (Fin q) = Ok None) /\
  (forall k x, ~ xfin x -> c_y (component k D s) x = Ok None).
Proof.
  exact (fun O point encoder D s H =>
    let I := quoted_inv point encoder D s H in
    conj (fun k q N => component_value D s k q None I (outside_value (candles s) q (proj1 (qi_good D s I)) N))
         (fun k x => component_nonfinite D s k x I)).
Qed.
Print Assumptions C48_outside.
Example C48_outside_ex : quoted bare None (D1 true) q4 /\ ~ span (candles q4) (QcofZ (-1)) /\
  c_y (component HIGH (D1 true) q4) (fz (-1)) = Ok None /\ c_y (component HIGH (D1 true) q4) PInf = Ok None.
Proof. exact outside_ex. Qed.

(** hl2 is half the sum of the high and the low of that candle. *)
Theorem C48_hl2 : forall O (point : O -> res (xq * cnd)) encoder D s, quoted point encoder D s ->
  (forall q cd h w, value IPrevious (candles s) q (Some cd) -> nth_error cd 1 = Some (Fin h) -> nth_error cd 2 = Some (Fin w) ->
    exists m, c_y (hl2 D s) (Fin q) = Ok (Some (Fin m)) /\ (m + m = h + w)%Qc) /\
  (forall q, value IPrevious (candles s) q None -> c_y (hl2 D s) (Fin q) = Ok None).
Proof. exact @hl2_spec. Qed.
Print Assumptions C48_hl2.
Example C48_hl2_ex : quoted bare None (D1 true) q4 /\ c_y (hl2 (D1 true) q4) (fr 3 2) = Ok (Some (fr 23 2)).
Proof. split; [exact q4_quoted|num]. Qed.

(** first_quote and last_quote are the first and the last candle. *)
Theorem C48_ends : forall O (point : O -> res (xq * cnd)) encoder D s, quoted point encoder D s ->
  (forall x v, head_opt (candles s) = Some (Fin x, v) -> first_quote D s = Ok v) /\
  (forall x v, last_opt (candles s) = Some (Fin x, v) -> last_quote D s = Ok v).
Proof.
  exact (fun O point encoder D s H => let I := quoted_inv point encoder D s H in
    conj (fun x v => first_quote_value D s x v I) (fun x v => last_quote_value D s x v I)).
Qed.
Print Assumptions C48_ends.
Example C48_ends_ex : quoted bare None (D1 true) q4 /\ first_quote (D1 true) q4 = Ok (cd [10; 15; 8; 12]%Z) /\
  last_quote (D1 true) q4 = Ok (cd [19; 19; 5; 6; 100]%Z).
Proof. split; [exact q4_quoted|]. split; apply is_cnd_eq; vm_compute; reflexivity. Qed.

(** The domain: from the first timestamp to the last. *)
Theorem C48_domain : forall O (point : O -> res (xq * cnd)) encoder D s, quoted point encoder D s ->
  (i_is_empty (q_domain s) = true <-> candles s = []) /\
  (forall a z, head_opt (candles s) = Some a -> last_opt (candles s) = Some z -> q_domain s = i_closed (fst a) (fst z)) /\
  (forall q, i_contains (q_domain s) (Fin q) = true <-> span (candles s) q).
Proof. exact (fun O point encoder D s H => proj2 (quotes_domain D s (quoted_inv point encoder D s H))). Qed.
Print Assumptions C48_domain.
Example C48_domain_ex : quoted bare None (D1 true) q4 /\ i_contains (q_domain q4) (fz 3) = true /\
  i_contains (q_domain q4) (fr 7 2) = false.
Proof. split; [exact q4_quoted|]. vm_compute. auto. Qed.

Theorem C48_quote_domain : forall O (point : O -> res (xq * cnd)) encoder D s, quoted point encoder D s ->
  (candles s = [] -> i_is_empty (quote_domain D s) = true) /\
  (forall a z, head_opt (candles s) = Some a -> last_opt (candles s) = Some z -> quote_domain D s = d_span D (i_closed (fst a) (fst z))).
Proof. exact (fun O point encoder D s H => quotes_quote_domain D s (quoted_inv point encoder D s H)). Qed.
Print Assumptions C48_quote_domain.
Example C48_quote_domain_ex : quoted bare None (D1 true) q4 /\ i_contains (quote_domain (D1 true) q4) (fr 7 2) = true /\ i_contains (quote_domain (D1 true) q4) (fz 4) = false.
Proof. split; [exact q4_quoted|]. vm_compute. auto. Qed.

(** After the last timestamp every component is None ... *)
Theorem C48_after_last : forall O (point : O -> res (xq * cnd)) encoder D s, quoted point encoder D s ->
  forall k z v q, last_opt (candles s) = Some (Fin z, v) -> (z < q)%Qc -> c_y (component k D s) (Fin q) = Ok None.
Proof. exact (fun O point encoder D s H k z v q => after_last D s k z v q (quoted_inv point encoder D s H)). Qed.
Print Assumptions C48_after_last.
Example C48_after_last_ex : quoted bare None (D1 true) q4 /\ c_y (component CLOSE (D1 true) q4) (fr 7 2) = Ok None.
Proof. split; [exact q4_quoted|num]. Qed.
(** ... even where quote_domain says that the last candle covers x. *)
Theorem C48_after_last_refuted : exists D s q, quoted bare None D s /\ i_contains (quote_domain D s) (Fin q) = true /\
  forall k, c_y (component k D s) (Fin q) = Ok None.
Proof. exact (ex_intro _ _ (ex_intro _ _ (ex_intro _ _ after_last_ex))). Qed.
Print Assumptions C48_after_last_refuted.

(** Appending candle by candle and setting the whole list, on quotes without
    candles: the same candles, domain and components. *)
Theorem C48_append : forall O (point : O -> res (xq * cnd)) encoder D s lo m s1 s2 evs,
  quoted point encoder D s -> candles s = [] -> (forall o, In o lo -> encodes_once point encoder o) ->
  reads point encoder (QSet lo) = Ok m -> ascending m ->
  appending point encoder s lo s1 -> q_set point encoder s lo = (s2, evs, Ok tt) ->
  (p_uniform (q_pts s2) = true -> equally_spaced (candles s2)) ->
  candles s1 = m /\ candles s2 = m /\ q_domain s1 = q_domain s2 /\
  forall k x, c_y (component k D s1) x = c_y (component k D s2) x.
Proof. exact (fun O => @append_is_set O). Qed.
Print Assumptions C48_append.
(** Both succeed on equally spaced candles. *)
Theorem C48_append_accepted : forall O (point : O -> res (xq * cnd)) encoder D s lo m,
  quoted point encoder D s -> candles s = [] -> (forall o, In o lo -> encodes_once point encoder o) ->
  reads point encoder (QSet lo) = Ok m -> ascending m -> equally_spaced m ->
  exists s1 s2 evs, appending point encoder s lo s1 /\ q_set point encoder s lo = (s2, evs, Ok tt) /\
    candles s1 = m /\ candles s2 = m /\ forall k x, c_y (component k D s1) x = c_y (component k D s2) x.
Proof. exact (fun O => @append_set_accepted O). Qed.
Print Assumptions C48_append_accepted.
Example C48_append_ex : exists m, quoted raw_point (Some kind_encoder) (D1 true) (q_empty (D1 true)) /\
  candles (q_empty (D1 true)) = [] /\ (forall o, In o rows -> encodes_once raw_point (Some kind_encoder) o) /\
  reads raw_point (Some kind_encoder) (QSet rows) = Ok m /\ length m = 2%nat /\ ascending m /\ equally_spaced m.
Proof. exact rows_kind. Qed.
(** append encodes what it is given twice: with an encoder that does not accept
    its own output, set takes the list and append raises on each element. *)
Theorem C48_append_refuted : exists O (point : O -> res (xq * cnd)) encoder D lo,
  (exists s' evs, q_set point encoder (q_empty D) lo = (s', evs, Ok tt) /\ length (candles s') = 2%nat) /\
  forall s r, In r lo -> exists s' e, q_append point encoder s r = (s', [], Err e) /\ candles s' = candles s.
Proof. exact (ex_intro _ _ (ex_intro _ _ (ex_intro _ _ (ex_intro _ _ (ex_intro _ _ row_refused))))). Qed.
Print Assumptions C48_append_refuted.
Theorem C48_append_twice : forall O (point : O -> res (xq * cnd)) encoder s o,
  (forall o', enc encoder o = Ok o' -> exists e, enc encoder o' = Err e) ->
  exists s' e, q_append point encoder s o = (s', [], Err e) /\ candles s' = candles s.
Proof. exact (fun O => @append_never O). Qed.
Print Assumptions C48_append_twice.
Example C48_append_twice_ex : forall o', enc (Some row_encoder) (Row 0 10 15 8 12) = Ok o' -> exists e, enc (Some row_encoder) o' = Err e.
Proof. exact row_twice. Qed.

(** sample_points: the candles whose timestamps lie in the span of the domain. *)
Theorem C48_sample : forall O (point : O -> res (xq * cnd)) encoder D s, quoted point encoder D s ->
  forall fuel d ms step, i_is_empty d = false -> iok (d_span D d) -> regular (q_pts s) ms step ->
  q_sample_points fuel D s (Some d) ms step = Ok (filter (fun p => i_contains (d_span D d) (fst p)) (candles s)).
Proof. exact (fun O point encoder D s H fuel d ms step => q_sample_value D s fuel d ms step (quoted_inv point encoder D s H)). Qed.
Print Assumptions C48_sample.
Example C48_sample_ex : quoted bare None (D1 true) q4 /\ i_is_empty (i_closed (fz 1) (fz 2)) = false /\
  iok (d_span (D1 true) (i_closed (fz 1) (fz 2))) /\ regular (q_pts q4) None None /\
  filter (fun p => i_contains (d_span (D1 true) (i_closed (fz 1) (fz 2))) (fst p)) (candles q4) = firstn 2 (skipn 1 three).
Proof. exact sample_ex. Qed.

(** get_range raises as soon as there is a candle to look at. *)
Theorem C48_range_raises : forall (D : duration xq) s fuel d ms step l,
  q_sample fuel D s d ms step = Ok l -> l <> [] -> Quotes.get_range fuel D s d ms step = Err EAttr.
Proof. exact get_range_attr. Qed.
Print Assumptions C48_range_raises.
Theorem C48_range_refuted : exists D s d, quoted bare None D s /\ Quotes.get_range 9 D s d None None = Err EAttr.
Proof. exact (ex_intro _ _ (ex_intro _ _ (ex_intro _ _ range_raises))). Qed.
Print Assumptions C48_range_refuted.

(** What changes is announced. *)
Theorem C48_announced : forall O (point : O -> res (xq * cnd)) encoder D s, quoted point encoder D s ->
  forall o m s' evs k q, reads point encoder o = Ok m -> ascending m -> run_q point encoder s o = (s', evs, Ok tt) ->
  (p_uniform (q_pts s') = true -> equally_spaced (candles s')) ->
  c_y (component k D s') (Fin q) <> c_y (component k D s) (Fin q) ->
  exists E, evs = [EvBegin E; EvEnd E] /\ imem E (Fin q).
Proof. exact (fun O point encoder D s H o m s' evs k q => quotes_covers point encoder D s o m s' evs k q (quoted_inv point encoder D s H)). Qed.
Print Assumptions C48_announced.
Example C48_announced_ex : quoted bare None (D1 true) q3 /\ (exists evs, run_q bare None q3 (QAppend fourth) = (q4, evs, Ok tt)) /\
  c_y (component HIGH (D1 true) q3) (fr 5 2) = Ok None /\ c_y (component HIGH (D1 true) q4) (fr 5 2) = Ok (nv 20).
Proof. split; [exact q3_quoted|]. split; [eexists; exact q4_run|]. split; num. Qed.

(** trailing_high(n), after any history of queries and changes: between the
    timestamps constant, at each one the greatest of the last n highs. *)
Theorem C48_trailing_high : forall O (point : O -> res (xq * cnd)) encoder n fuel0 D s u a d fuel,
  d_uniform D = true -> (1 <= n)%Z -> trailed point encoder HIGH n fuel0 D s u a ->
  column HIGH (candles s) d -> apart D (candles s) -> (length d < fuel)%nat ->
  exists M, traces IPrevious (table d M) (fun x => snd (trailing_high (MapDegree n) fuel0 D fuel s a x)) /\
    forall i, (i < length d)%nat -> greatest (in_window (MapDegree n) d i) (M i).
Proof. exact (fun O point encoder => @trailed_traces O point encoder HIGH). Qed.
Print Assumptions C48_trailing_high.
Example C48_trailing_high_ex : trailed bare None HIGH 2 0 (D1 true) q4 t_upd (t_seen HIGH) /\
  column HIGH (candles q4) highs /\ apart (D1 true) (candles q4) /\
  snd (trailing_high (MapDegree 2) 0 (D1 true) 9 q4 (t_seen HIGH) (fz 1)) = Ok (nv 15) /\
  snd (trailing_high (MapDegree 2) 0 (D1 true) 9 q4 (t_seen HIGH) (fr 5 2)) = Ok (nv 20) /\
  snd (trailing_high (MapDegree 2) 0 (D1 true) 9 q4 (t_seen HIGH) (fz 3)) = Ok (nv 20).
Proof.
  split; [exact (seen_trailed HIGH highs ltac:(unfold HIGH; lia) q4_highs)|]. split; [exact q4_highs|]. split; [exact q4_apart|].
  split; [num|]. split; num.
Qed.
(** trailing_low(n) is the greatest, not the least, of the last n lows. *)
Theorem C48_trailing_low : forall O (point : O -> res (xq * cnd)) encoder n fuel0 D s u a d fuel,
  d_uniform D = true -> (1 <= n)%Z -> trailed point encoder LOW n fuel0 D s u a ->
  column LOW (candles s) d -> apart D (candles s) -> (length d < fuel)%nat ->
  exists M, traces IPrevious (table d M) (fun x => snd (trailing_low (MapDegree n) fuel0 D fuel s a x)) /\
    forall i, (i < length d)%nat -> greatest (in_window (MapDegree n) d i) (M i).
Proof. exact (fun O point encoder => @trailed_traces O point encoder LOW). Qed.
Print Assumptions C48_trailing_low.
Example C48_trailing_low_ex : trailed bare None LOW 2 0 (D1 true) q4 t_upd (t_seen LOW) /\
  column LOW (candles q4) lows /\ apart (D1 true) (candles q4).
Proof. exact (conj (seen_trailed LOW lows ltac:(unfold LOW; lia) q4_lows) (conj q4_lows q4_apart)). Qed.
Theorem C48_trailing_low_refuted : exists D s, quoted bare None D s /\
  least (in_window (MapDegree 2) lows 1) (QcofZ 8) /\ column LOW (candles s) lows /\
  snd (trailing_low (MapDegree 2) 0 D 9 s (trailing_init D) (fz 1)) = Ok (nv 9).
Proof. exact (ex_intro _ _ (ex_intro _ _ low_is_max)). Qed.
Print Assumptions C48_trailing_low_refuted.
(** trailing_high over a period also counts the candle covering the start of
    the period, whose timestamp is before it. *)
Theorem C48_trailing_period_refuted : exists D s, quoted bare None D s /\
  greatest (in_window (MapPeriod (fr 1 2)) highs 1) (QcofZ 14) /\ column HIGH (candles s) highs /\
  snd (trailing_high (MapPeriod (fr 1 2)) 9 D 9 s (trailing_init D) (fz 1)) = Ok (nv 15).
Proof. exact (ex_intro _ _ (ex_intro _ _ period_reaches_back)). Qed.
Print Assumptions C48_trailing_period_refuted.
