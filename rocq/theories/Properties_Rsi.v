(** C55: the relative strength index. *)
From Coq Require Import List ZArith QArith Qcanon Bool Lia.
From Verif Require Import Base Num NumFacts Interval Curve Points PointsSpec PointsDec PointsEx BaseEx CombineEx Scan ScanTf SmaFacts ScanTop ScanEx Quotes Rsi RsiFacts RsiEx.
Import ListNotations.
Open Scope Qc_scope.

(** After any history of the source and of queries at its points, the index at
    the k-th point is 100 U / (U + D), where U and D are the exponential averages
    of the rises and falls per unit of x, with weight 1 / degree and starting
    from 0.  It is 100 where nothing was lost. *)
Theorem C55_value : forall degree s st d fuel, 1 <= degree -> rated degree s st -> evenly min_step s d -> (length d < fuel)%nat ->
  exists U D : nat -> Qc,
    (U 0%nat = 0 /\ D 0%nat = 0 /\
     forall k, let g := (at_y d (S k) - at_y d k) / (at_x d (S k) - at_x d k) in
       (0 <= g -> U (S k) = U k + (g - U k) / degree /\ D (S k) = D k + (0 - D k) / degree) /\
       (g <= 0 -> U (S k) = U k + (0 - U k) / degree /\ D (S k) = D k + (- g - D k) / degree)) /\
    forall k, (k < length d)%nat ->
      exists v, snd (rsi_y (Fin (QcofZ 100)) fuel (p_crv s) st (Fin (at_x d k))) = Ok (Some (Fin v)) /\
        0 <= v /\ v <= QcofZ 100 /\ v * (U k + D k) = QcofZ 100 * U k /\ (D k = 0 -> v = QcofZ 100).
Proof. exact rsi_value. Qed.
Print Assumptions C55_value.
Example C55_value_ex : 1 <= QcofZ 2 /\ rated (QcofZ 2) r_s1 r_seen /\ evenly min_step r_s1 r_d1 /\
  (is_v (snd (rsi_at r_s1 r_seen (fz 0))) (nv 100) && is_v (snd (rsi_at r_s1 r_seen (fz 1))) (nv 100) &&
   is_v (snd (rsi_at r_s1 r_seen (fz 2))) (Some (fr 100 3)) && is_v (snd (rsi_at r_s1 r_seen (fz 3))) (Some (fr 900 11)) &&
   is_v (snd (rsi_at r_s1 r_seen (fz 4))) None = true)%bool.
Proof. split; [discriminate|]. split; [exact r_rated|]. split; [exact r_s1_even|exact r_values]. Qed.

(** 100 while the source has never fallen, 0 when it has only fallen. *)
Theorem C55_rises : forall degree s st d fuel, 1 <= degree -> rated degree s st -> evenly min_step s d -> (length d < fuel)%nat ->
  forall k, (k < length d)%nat -> (forall j, (S j <= k)%nat -> at_y d j <= at_y d (S j)) ->
  snd (rsi_y (Fin (QcofZ 100)) fuel (p_crv s) st (Fin (at_x d k))) = Ok (Some (Fin (QcofZ 100))).
Proof. exact rsi_rises. Qed.
Print Assumptions C55_rises.
Theorem C55_falls : forall degree s st d fuel, 1 <= degree -> rated degree s st -> evenly min_step s d -> (length d < fuel)%nat ->
  forall k, (k < length d)%nat -> (0 < k)%nat -> (forall j, (S j <= k)%nat -> at_y d (S j) < at_y d j) ->
  snd (rsi_y (Fin (QcofZ 100)) fuel (p_crv s) st (Fin (at_x d k))) = Ok (Some (Fin 0)).
Proof. exact rsi_falls. Qed.
Print Assumptions C55_falls.
Example C55_falls_ex : rated (QcofZ 2) f_s (blank true) /\ evenly min_step f_s f_d /\
  at_y f_d 1 < at_y f_d 0 /\ at_y f_d 2 < at_y f_d 1 /\
  (is_v (snd (rsi_at f_s (blank true) (fz 0))) (nv 100) && is_v (snd (rsi_at f_s (blank true) (fz 2))) (nv 0) = true)%bool.
Proof. split; [exact f_rated|]. split; [exact f_even|]. split; [reflexivity|]. split; [reflexivity|exact f_values]. Qed.

(** None outside of the source's domain; such a query changes nothing. *)
Theorem C55_outside : forall degree s st d fuel, 1 <= degree -> rated degree s st -> evenly min_step s d -> (length d < fuel)%nat ->
  forall x, i_contains (p_dom s) x = false -> rsi_y (Fin (QcofZ 100)) fuel (p_crv s) st x = (st, Ok None).
Proof. exact rsi_outside. Qed.
Print Assumptions C55_outside.
Example C55_outside_ex : i_contains (p_dom r_s1) (fz 4) = false /\ i_contains (p_dom r_s1) XNaN = false.
Proof. split; vm_compute; reflexivity. Qed.

(** Between two points the query itself raises ... *)
Theorem C55_between_refuted : exists s d st q, evenly min_step s d /\ honest_history s /\ rsi_init (fz 2) true = Ok st /\
  at_x d 1 < q /\ q < at_x d 2 /\ i_contains (p_dom s) (Fin q) = true /\
  snd (rsi_y (Fin (QcofZ 100)) 9 (p_crv s) st (Fin q)) = Err EExc.
Proof. exact rsi_between. Qed.
Print Assumptions C55_between_refuted.
(** ... or is answered and makes a later query at a point raise ... *)
Theorem C55_spoilt_refuted : exists s d st q v w, evenly min_step s d /\ honest_history s /\ rsi_init (fz 2) true = Ok st /\
  at_x d 0 < q /\ q < at_x d 1 /\
  snd (rsi_y (Fin (QcofZ 100)) 9 (p_crv s) st (Fin q)) = Ok (Some (Fin v)) /\
  snd (rsi_y (Fin (QcofZ 100)) 9 (p_crv s) st (Fin (at_x d 2))) = Ok (Some (Fin w)) /\
  snd (rsi_y (Fin (QcofZ 100)) 9 (p_crv s) (fst (rsi_y (Fin (QcofZ 100)) 9 (p_crv s) st (Fin q))) (Fin (at_x d 2))) = Err EExc.
Proof. exact rsi_spoilt. Qed.
Print Assumptions C55_spoilt_refuted.
(** ... or, with uniform=False, silently changes the later values at points. *)
Theorem C55_shifted_refuted : exists s d st q v w, evenly min_step s d /\ honest_history s /\ rsi_init (fz 2) false = Ok st /\
  at_x d 1 < q /\ q < at_x d 2 /\
  snd (rsi_y (Fin (QcofZ 100)) 9 (p_crv s) st (Fin (at_x d 3))) = Ok (Some (Fin v)) /\
  snd (rsi_y (Fin (QcofZ 100)) 9 (p_crv s) (fst (rsi_y (Fin (QcofZ 100)) 9 (p_crv s) st (Fin q))) (Fin (at_x d 3))) = Ok (Some (Fin w)) /\ v <> w.
Proof. exact rsi_shifted. Qed.
Print Assumptions C55_shifted_refuted.
