(** Model of Curve.harmonic_smas and Curve.centered_macs
    (/repo/curvepy/curve.py:604-640): the arguments of the SMAs they build.

    Simplifications.
    - Numbers are real: GOLD is the golden ratio, GOLD ** k is exact and does
      not overflow.  round() goes to the nearest integer, ties to even.
    - An SMA is given by its period or its number of points (sma.py:40-52);
      the curve and the keyword arguments are passed on unchanged. *)
From Coq Require Import List ZArith Reals.
From Flocq Require Import Core.
From Verif Require Import Base.
Import ListNotations.
Open Scope R_scope.

(* const.py:3 GOLD *)
Definition golden : R := (sqrt 5 + 1) / 2.

(* curve.py:614-615, 631-632: the period of one SMA; [k] is i * step *)
Definition period_of (base : R) (k : Z) : res R :=
  let period := base * powerRZ golden k in
  if Req_EM_T base 0 then Err EZeroDiv else Ok (IZR (ZnearestE (period / base)) * base).

(** The argument of an SMA. *)
Inductive sma_arg := Period (p : R) | Points (n : Z).
(* sma.py:40-52 __init__; curve.py:589-591 sma *)
Definition new_sma (is_period : bool) (degree : R) : res sma_arg :=
  if is_period then if Rle_dec degree 0 then Err EExc else Ok (Period degree)
  else let n := Ztrunc degree in if (n <=? 0)%Z then Err EExc else Ok (Points n).

(* curve.py:604-623 harmonic_smas *)
Definition harmonic_smas (base : R) (count : nat) (stride : Z) (is_period : bool) : res (list sma_arg) :=
  let step := (stride + 1)%Z in
  let! periods := rmapM (fun i => period_of base (Z.of_nat i * step)) (seq 0 count) in
  rmapM (new_sma is_period) periods.

(* curve.py:625-640 centered_macs: the periods are inserted at the front *)
Fixpoint inserted (base : R) (step : Z) (acc : list R) (is : list nat) : res (list R) :=
  match is with
  | [] => Ok acc
  | i :: is => let! p := period_of base (Z.of_nat i * step) in inserted base step (p :: acc) is
  end.
Definition centered_macs (base : R) (count : nat) (stride : Z) (is_period : bool) : res (list sma_arg) :=
  let step := (stride + 1)%Z in
  let! periods := inserted base step [] (seq 0 count) in
  rmapM (new_sma is_period) periods.
