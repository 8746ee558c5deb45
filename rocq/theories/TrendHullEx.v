(** Examples for the chain of boundary points. *)
From Coq Require Import List ZArith QArith Qcanon Bool Lia Sorting.Sorted.
From Verif Require Import Base Num NumFacts Interval Points Trend TrendGeo TrendPred TrendLineInv TrendCol TrendSet PointsDec TrendEx TrendHull TrendHullSet TrendHullTop.
Import ListNotations.
Open Scope Qc_scope.

Definition hill : list (Z * Z) := [(0,1);(1,5);(2,5);(3,1);(5,3)]%Z.
Definition g_tol (up : bool) (r a : option Qc) : cfg xq := mkG (fz 1) up 2 (Fin 0) (fz 10) (fo r) (fo a).
Definition cent : Qc := QcofZ 1 / QcofZ 100.
Ltac asc := unfold zq; cbn [map fst snd]; repeat (first [ apply SSorted_nil | apply SSorted_cons | apply Forall_nil | apply Forall_cons | reflexivity ]).
Lemma hill_asc : StronglySorted by_xs (zq hill).
Proof. unfold hill. asc. Qed.
Lemma hill_above : Forall (fun p => eps0 < snd p) (zq hill).
Proof. unfold hill, zq. cbn [map fst snd]. repeat constructor. Qed.
Lemma hill_abs : set_trend ceps (g_tol true None (Some cent)) (zp hill) = Ok (zp [(1,5);(2,5)]%Z, zp [(0,1);(1,5);(2,5);(5,3)]%Z) /\
  set_trend ceps (g_tol false None (Some cent)) (zp hill) = Ok (zp [(0,1);(3,1)]%Z, zp [(0,1);(3,1);(5,3)]%Z).
Proof. chk. Qed.
Lemma hill_rel : set_trend ceps (g_tol true (Some cent) None) (zp hill) = Ok (zp [(1,5);(2,5)]%Z, zp [(0,1);(1,5);(2,5);(5,3)]%Z) /\
  set_trend ceps (g_tol false (Some cent) None) (zp hill) = Ok (zp [(0,1);(3,1)]%Z, zp [(0,1);(3,1);(5,3)]%Z).
Proof. chk. Qed.
Lemma hill_zero : set_trend ceps (g_tol true None (Some (Q2Qc 0))) (zp hill) = Ok (zp [(1,5);(2,5)]%Z, zp [(0,1);(1,5);(2,5);(5,3)]%Z) /\
  set_trend ceps (g_tol false None (Some (Q2Qc 0))) (zp hill) = Ok (zp [(0,1);(3,1)]%Z, zp [(0,1);(3,1);(5,3)]%Z).
Proof. chk. Qed.
(** Values below zero. *)
Definition deep : list (Z * Z) := [(0,-1);(1,-100);(2,-1)]%Z.
Lemma deep_ex : set_trend ceps (g_tol true (Some cent) None) (zp deep) = Ok (zp [(0,-1);(1,-100)]%Z, zp deep) /\
  at_x (QcofZ 0, QcofZ (-1)) (QcofZ 1, QcofZ (-100)) (QcofZ 2) = QcofZ (-199).
Proof. split; [ chk | apply Qc_is_canon; reflexivity ]. Qed.
(** Both tolerances. *)
Definition dish : list (Z * Z) := [(0,20);(1,11);(100,11);(101,20)]%Z.
Lemma dish_ex : set_trend ceps (g_tol true (Some cent) (Some (QcofZ 10))) (zp dish) = Ok (zp [(1,11);(100,11)]%Z, zp dish) /\
  at_x (QcofZ 1, QcofZ 11) (QcofZ 100, QcofZ 11) (QcofZ 0) = QcofZ 11.
Proof. split; [ chk | apply Qc_is_canon; reflexivity ]. Qed.
