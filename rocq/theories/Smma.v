(** Smoothed moving averages: an EMA whose first value is an SMA. *)
From Coq Require Import List ZArith Bool.
From Verif Require Import Base Num Interval Curve Points Scan.
Import ListNotations.

Section Smma.
Context {T : Type} {N : Num T}.
Notation V := (option T).

(* curve.py:597-602 smma: the weight given to EMA.  A degree that is not
   positive is refused by SMA.__init__ (sma.py:45-48) before the division. *)
Definition smma_alpha (n : nat) : res T :=
  match n with
  | O => Err EExc
  | S _ => n_div n_one (n_ofZ (Z.of_nat n))
  end.

(* curve.py:597-602 smma, ema.py:39-53 _ema_scan with init_func = the SMA.
   The SMA is an object of its own with its own scan; [sm x] is its state when
   its value at [x] is asked for.  It is only read here: its own scan is the one
   of Scan.v. *)
Definition smma_scan (fuel : nat) (half : T) (c : crv T V) (own : option T) (n : nat) (alpha : T)
    (sm : T -> acc T V) : T -> V -> V -> res V :=
  ema_scan (EmaAlpha alpha) (Some (fun x => snd (sma_y 2 fuel half c own (SmaDegree n) (sm x) x)))
    (fun x => c_prev c x own None).
End Smma.
