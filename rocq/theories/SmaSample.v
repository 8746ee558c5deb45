(** Model of sampling a simple moving average: SMA inherits sample_points from
    Scan (/repo/curvepy/scan.py:69-81), with its own domain (sma.py:13-38),
    init_scan, offset_scan (sma.py:60-70) and y (sma.py:72-112), and x_next of
    Accumulator (accumulator.py:32-34). *)
From Coq Require Import List ZArith Bool.
From Verif Require Import Base Num Interval Curve Points Scan ScanSample.
Import ListNotations.
Open Scope num_scope.

Section SmaSample.
Context {T : Type} {N : Num T}.
Notation V := (option T).

(* scan.py:52-67 scan with the init_scan and offset_scan of sma.py *)
Definition sma_scan (fuel : nat) (half : T) (c : crv T V) (own : option T) (deg : sma_degree T) (x : T) (a : acc T V) :=
  scan fuel c own (fun a x => (a, Ok x)) (sma_start c own deg) (integral_scan half ILinear (c_y c)) x a.

(* curve.py:36-40: reading the domain again inside Curve.sample_points; it was
   read just before, so that it cannot raise there *)
Definition sma_dom_again (c : crv T V) (own : option T) (deg : sma_degree T) (a : acc T V) : acc T V * ival T :=
  let '(a, d) := sma_dom c own deg a in (a, match d with Ok d => d | Err _ => i_empty end).

(* scan.py:69-81 sample_points; [depth] bounds the calls of SMA.y to itself *)
Definition sma_sample (depth fuel : nat) (half : T) (c : crv T V) (own : option T) (deg : sma_degree T) (a : acc T V)
    (domain : option (ival T)) (ms step : option T) : acc T V * res (list (T * V)) :=
  let ms := resolve_min_step own ms in
  match sma_dom c own deg a with
  | (a, Err e) => (a, Err e)
  | (a, Ok d0) =>
      let dom := match domain with None => d0 | Some d => i_inter2 d0 d end in
      if i_is_empty dom then (a, Ok [])
      else if i_is_infinite dom then (a, Err EExc)
      else
        match sma_scan fuel half c own deg (i_start dom) a with
        | (a, Err e) => (a, Err e)
        | (a, Ok _) =>
            match sma_scan fuel half c own deg (i_end dom) a with
            | (a, Err e) => (a, Err e)
            | (a, Ok _) =>
                st_sample own (sma_dom_again c own deg) (sma_y depth fuel half c own deg) (acc_next c own) fuel a (Some dom) ms step
            end
        end
  end.
End SmaSample.
