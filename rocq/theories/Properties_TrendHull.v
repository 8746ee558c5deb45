(** C78: an upper trend line runs above the boundary points, a lower one
    below. *)
From Coq Require Import List ZArith QArith Qcanon Bool Sorting.Sorted.
From Verif Require Import Base Num NumFacts Interval Points PointsDec Trend TrendGeo TrendPred TrendCol TrendEx TrendHull TrendHullTop TrendHullEx.
Import ListNotations.
Open Scope Qc_scope.

(** Without a tolerance no boundary point is beyond the line. *)
Theorem C78_supports : forall eps wd ln up mp p0 mid z, 0 <= eps -> StronglySorted by_xs (p0 :: mid ++ [z]) -> exists u v w bnd,
  set_trend (Fin eps) (mkG wd up mp (Fin 0) ln None (Some (Fin 0))) (map fp (p0 :: mid ++ [z])) = Ok (fp u :: w ++ [fp v], bnd) /\
  In u (p0 :: mid ++ [z]) /\ In v (p0 :: mid ++ [z]) /\ fst u < fst v /\
  forall p, In p (p0 :: mid ++ [z]) -> ~ outer up (snd p) (at_x u v (fst p)).
Proof. exact chosen_zero. Qed.
Print Assumptions C78_supports.
Example C78_supports_ex : StronglySorted by_xs (zq hill) /\
  set_trend ceps (g_tol true None (Some (Q2Qc 0))) (zp hill) = Ok (zp [(1,5);(2,5)]%Z, zp [(0,1);(1,5);(2,5);(5,3)]%Z) /\
  set_trend ceps (g_tol false None (Some (Q2Qc 0))) (zp hill) = Ok (zp [(0,1);(3,1)]%Z, zp [(0,1);(3,1);(5,3)]%Z).
Proof. exact (conj hill_asc hill_zero). Qed.

(** With an absolute tolerance: what is not removed is a chain from the first
    point to the last that turns one way only; the line is that of its segments
    which has the least sum of squares over the boundary kept; and no point is
    beyond it by more than the tolerance for each point removed. *)
Theorem C78_absolute : forall eps wd ln up mp p0 mid z, 0 <= eps -> StronglySorted by_xs (p0 :: mid ++ [z]) -> forall q, 0 <= q ->
  exists u v w hull bnd,
    set_trend (Fin eps) (mkG wd up mp (Fin 0) ln None (Some (Fin q))) (map fp (p0 :: mid ++ [z])) = Ok (fp u :: w ++ [fp v], map fp bnd) /\
    sub hull (p0 :: mid ++ [z]) /\ hd_error hull = Some p0 /\ last_opt hull = Some z /\ turns up hull /\ sub bnd (p0 :: mid ++ [z]) /\
    In (u, v) (edges hull) /\
    (forall u' v', In (u', v') (edges hull) -> sq_err u v bnd <= sq_err u' v' bnd) /\
    (forall p, In p (p0 :: mid ++ [z]) ->
       let n := QcofZ (Z.of_nat (length (p0 :: mid ++ [z]) - length hull)) in
       if up then snd p <= at_x u v (fst p) + n * q else at_x u v (fst p) - n * q <= snd p).
Proof. exact chosen_abs. Qed.
Print Assumptions C78_absolute.
Example C78_absolute_ex : StronglySorted by_xs (zq hill) /\
  set_trend ceps (g_tol true None (Some cent)) (zp hill) = Ok (zp [(1,5);(2,5)]%Z, zp [(0,1);(1,5);(2,5);(5,3)]%Z) /\
  set_trend ceps (g_tol false None (Some cent)) (zp hill) = Ok (zp [(0,1);(3,1)]%Z, zp [(0,1);(3,1);(5,3)]%Z).
Proof. exact (conj hill_asc hill_abs). Qed.

(** With a relative tolerance and values above EPSILON_ZERO. *)
Theorem C78_relative : forall eps wd ln up mp p0 mid z, 0 <= eps -> StronglySorted by_xs (p0 :: mid ++ [z]) -> forall r, 0 <= r -> (up = false -> r <= 1) ->
  Forall (fun p => eps < snd p) (p0 :: mid ++ [z]) ->
  exists u v w hull bnd,
    set_trend (Fin eps) (mkG wd up mp (Fin 0) ln (Some (Fin r)) None) (map fp (p0 :: mid ++ [z])) = Ok (fp u :: w ++ [fp v], map fp bnd) /\
    sub hull (p0 :: mid ++ [z]) /\ hd_error hull = Some p0 /\ last_opt hull = Some z /\ turns up hull /\ sub bnd (p0 :: mid ++ [z]) /\
    In (u, v) (edges hull) /\
    (forall u' v', In (u', v') (edges hull) -> sq_err u v bnd <= sq_err u' v' bnd) /\
    (forall p, In p (p0 :: mid ++ [z]) ->
       let n := (length (p0 :: mid ++ [z]) - length hull)%nat in
       if up then snd p <= qpow (1 + r) n * at_x u v (fst p) else qpow (1 - r) n * at_x u v (fst p) <= snd p).
Proof. exact chosen_rel. Qed.
Print Assumptions C78_relative.
Example C78_relative_ex : StronglySorted by_xs (zq hill) /\ Forall (fun p => eps0 < snd p) (zq hill) /\
  set_trend ceps (g_tol true (Some cent) None) (zp hill) = Ok (zp [(1,5);(2,5)]%Z, zp [(0,1);(1,5);(2,5);(5,3)]%Z) /\
  set_trend ceps (g_tol false (Some cent) None) (zp hill) = Ok (zp [(0,1);(3,1)]%Z, zp [(0,1);(3,1);(5,3)]%Z).
Proof. exact (conj hill_asc (conj hill_above hill_rel)). Qed.

(** With values below zero the relative test has the wrong sign: the upper line
    through (0,-1) and (1,-100) is chosen though (2,-1) is 198 above it. *)
Theorem C78_negative_refuted : set_trend ceps (g_tol true (Some cent) None) (zp deep) = Ok (zp [(0,-1);(1,-100)]%Z, zp deep) /\
  at_x (QcofZ 0, QcofZ (-1)) (QcofZ 1, QcofZ (-100)) (QcofZ 2) = QcofZ (-199).
Proof. exact deep_ex. Qed.
Print Assumptions C78_negative_refuted.
(** With both tolerances points remain that are on the inner side: nothing is
    removed, and the upper line has (0,20) and (101,20) 9 above it. *)
Theorem C78_both_refuted : set_trend ceps (g_tol true (Some cent) (Some (QcofZ 10))) (zp dish) = Ok (zp [(1,11);(100,11)]%Z, zp dish) /\
  at_x (QcofZ 1, QcofZ 11) (QcofZ 100, QcofZ 11) (QcofZ 0) = QcofZ 11.
Proof. exact dish_ex. Qed.
Print Assumptions C78_both_refuted.
