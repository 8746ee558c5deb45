(** C62: sampling an accumulating curve (scan.py:69-81, curve.py:168-210).

    [integral_of], [ema_of], [trailing_of]: a Points object and a curve over it
    after any history of queries, reads and announced changes (C36-C38).
    [evenly m s d]: the source holds the points [d], equally spaced by at least
    [m]; [spaced M d]: neighbours are more than the minimum step [M] of the
    request apart.  [sampled_along qry a M fuel ks smp]: without a domain the
    rows are at [ks]; in a window at its ends and at the [ks] in it that are at
    least [M] after its start; with a step at its multiples; in a domain that
    misses the curve there are none.  Each row has the value the query answers,
    and afterwards all queries answer as before. *)
From Coq Require Import List ZArith QArith Qcanon Bool Lia.
From Verif Require Import Base Num NumFacts Interval IntervalFacts Curve BaseFacts Points PointsSpec PointsOps PointsDec PointsHist PointsRefute PointsTop PointsEx.
From Verif Require Import BaseEx Combine CombineEx Scan ScanFacts ScanSource ScanInv ScanTf SmaFacts SmaInv ScanTop ScanEx ScanView ScanSample ScanSampleFacts ScanSampleAcc ScanSampleTop ScanSampleEx.
Import ListNotations.

Theorem C62_integral : forall half ip const m fuel s a d ms M, (half + half = 1)%Qc -> (min_step <= m)%Qc ->
  integral_of half ip const m s a -> evenly m s d -> (length d < fuel)%nat ->
  resolve_min_step (Some (Fin m)) ms = Some (Fin M) -> spaced M d ->
  sampled_along (fun a x => snd (integral_y half ip const m fuel s a x)) a M fuel (map fst d)
    (fun D h => integral_sample half ip const m fuel s a D ms h).
Proof. exact integral_sampled. Qed.
Print Assumptions C62_integral.
Theorem C62_ema : forall deg init wt first m fuel s a d ms M, (0 < m)%Qc -> weight_of deg wt -> first_of init first ->
  ema_of deg init m s a -> evenly m s d -> (length d < fuel)%nat ->
  resolve_min_step (Some (Fin m)) ms = Some (Fin M) -> spaced M d ->
  sampled_along (fun a x => snd (ema_y deg init m fuel s a x)) a M fuel (map fst d)
    (fun D h => ema_sample deg init m fuel s a D ms h).
Proof. exact ema_sampled. Qed.
Print Assumptions C62_ema.
Theorem C62_trailing : forall deg tfm win g ip n m fuel s a d ms M, (0 < m)%Qc -> window_of deg win -> computes tfm g ->
  trailing_of deg tfm ip n m s a -> evenly m s d -> (length d < fuel)%nat ->
  resolve_min_step (Some (Fin m)) ms = Some (Fin M) -> spaced M d ->
  sampled_along (fun a x => snd (trailing_y deg tfm n m fuel s a x)) a M fuel (map fst d)
    (fun D h => trailing_sample deg tfm n m fuel s a D ms h).
Proof. exact trailing_sampled. Qed.
Print Assumptions C62_trailing.
(** all of an integral: the running areas *)
Theorem C62_whole : forall half ip const m fuel s a d ms M, (half + half = 1)%Qc -> (min_step <= m)%Qc ->
  integral_of half ip const m s a -> evenly m s d -> (length d < fuel)%nat ->
  resolve_min_step (Some (Fin m)) ms = Some (Fin M) -> spaced M d ->
  snd (integral_sample half ip const m fuel s a None ms None) = Ok (dots (table d (fun k => area_sum ip d 0 k + const)%Qc)).
Proof. exact integral_whole. Qed.
Print Assumptions C62_whole.
(** any curve that steps along points: the rows of the default sampling *)
Theorem C62_along : forall (V U : Type) (UV : Val xq U) (c : crv xq V) (l : list (xq * U)) M a b f, (0 < M)%Qc -> ascending l -> strides M c l ->
  (forall q, (a <= q)%Qc -> (q <= b)%Qc -> c_y c (Fin q) = Ok (f q)) ->
  forall fuel domain ms r, (a <= b)%Qc -> i_is_empty (sampled_domain c domain) = false ->
  i_start (sampled_domain c domain) = Fin a -> i_end (sampled_domain c domain) = Fin b -> i_so (sampled_domain c domain) = false ->
  resolve_min_step (c_ms c) ms = Some (Fin M) -> strided l M b a r -> spread M r -> (length r < fuel)%nat ->
  sample_points fuel c domain ms None =
    Ok (map (fun x => (Fin x, f x)) (a :: r ++ (if i_eo (sampled_domain c domain) || Qceqb (last r a) b then [] else [b]))).
Proof. exact @sample_strided. Qed.
Print Assumptions C62_along.
Theorem C62_points_stride : forall (V : Type) (WV : Val xq V) (s : pts xq V) M, good s -> strides M (p_crv s) (p_pts s).
Proof. exact @points_strides. Qed.
Print Assumptions C62_points_stride.

(** The code departs from "the samples lie in the domain, and sampling a finite
    domain succeeds" in three ways: *)
(** a left-open window without a point far enough inside raises IndexError *)
Theorem C62_open_refuted : exists s a D ms, integral_of hf IPrevious c5 min_step s a /\ evenly min_step s ex_d /\ iok D /\ i_is_finite D = true /\
  snd (integral_sample hf IPrevious c5 min_step 9 s a (Some D) (Some ms) None) = Err EIndex.
Proof.
  exact (ex_intro _ ex_u (ex_intro _ a_int (ex_intro _ (iv (fr 1 2) (fr 5 2) true false) (ex_intro _ (fz 3)
    (conj ex_int (conj ex_u_even (conj (conj (notnan_fin _) (notnan_fin _)) (conj eq_refl isample_open)))))))).
Qed.
Print Assumptions C62_open_refuted.
(** a point at the open end of a window is returned *)
Theorem C62_open_end_refuted : exists s a D x y L, integral_of hf IPrevious c5 min_step s a /\ evenly min_step s ex_d /\ iok D /\
  snd (integral_sample hf IPrevious c5 min_step 9 s a (Some D) None None) = Ok L /\ In (x, y) L /\ ~ imem D x.
Proof. exact open_end_sampled. Qed.
Print Assumptions C62_open_end_refuted.
(** points exactly the minimum step apart, half way between its multiples, raise *)
Theorem C62_tie_refuted : exists s a d, integral_of hf ILinear c5 (QcofZ 1) s a /\ evenly (QcofZ 1) s d /\
  snd (integral_sample hf ILinear c5 (QcofZ 1) 9 s a None None None) = Err EExc.
Proof. exact (ex_intro _ half_s (ex_intro _ (acc_init ILinear true) (ex_intro _ half_d (conj half_integral (conj half_even half_raises))))). Qed.
Print Assumptions C62_tie_refuted.

Example C62_ex : integral_of hf IPrevious c5 min_step ex_u a_int /\ ema_of al4 None min_step ex_u a_ema /\
  trailing_of w2 (fun _ => py_max) ILinear 9 min_step ex_u a_max /\ evenly min_step ex_u ex_d /\
  spaced min_step ex_d /\ spaced (QcofZ 3 / QcofZ 4) ex_d /\
  resolve_min_step (Some (Fin min_step)) None = Some (Fin min_step) /\
  resolve_min_step (Some (Fin min_step)) (Some (fr 3 4)) = Some (Fin (QcofZ 3 / QcofZ 4)) /\
  snd (integral_sample hf IPrevious c5 min_step 9 ex_u a_int None None None) = Ok [(fz 0, nv 5); (fz 1, nv 5); (fz 2, nv 6); (fz 3, nv 8)] /\
  snd (integral_sample hf IPrevious c5 min_step 9 ex_u a_int (Some (iv (fr 1 2) (fr 5 2) false false)) None None) =
    Ok [(fr 1 2, nv 5); (fz 1, nv 5); (fz 2, nv 6); (fr 5 2, nv 7)] /\
  snd (integral_sample hf IPrevious c5 min_step 9 ex_u a_int (Some (iv (fr 1 2) (fz 2) false false)) (Some (fr 3 4)) None) =
    Ok [(fr 1 2, nv 5); (fz 2, nv 6)] /\
  snd (trailing_sample w2 (fun _ => py_max) 9 min_step 9 ex_u a_max (Some (iv (fz 1) (fz 3) false false)) None (Some (fz 2))) = Ok [(fz 1, nv 1); (fz 3, nv 9)] /\
  snd (ema_sample al4 None min_step 9 ex_u a_ema (Some (iv (fz 4) (fz 7) false false)) None None) = Ok [].
Proof.
  split; [exact ex_int|]. split; [exact ex_ema|]. split; [exact ex_max|]. split; [exact ex_u_even|].
  split; [exact ex_spaced|]. split; [exact ex_spaced3|]. split; [exact ex_resolve|]. split; [exact ex_resolve3|].
  split; [pts|]. split; [pts|]. split; [pts|]. split; pts.
Qed.
