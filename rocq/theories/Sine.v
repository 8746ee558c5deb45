(** curvepy/sin.py and curvepy/extension/sin.py over the real numbers of the
    standard library: math.pi, math.sin, math.cos and math.atan2 are the exact
    functions.  Rounding is not modelled, and neither is the notification of
    observers around Sin.set (begin_update and end_update of the whole line). *)
From Coq Require Import Reals ZArith.
From Verif Require Import Base.
Open Scope res_scope.
Open Scope R_scope.

(** Float division raises on a zero divisor. *)
Definition r_div (a b : R) : res R := if Req_EM_T b 0 then Err EZeroDiv else Ok (a / b).

Record sine := mkSin { s_amp : R; s_coef : R; s_phase : R }.

(* sin.py:24-38 set (and 20-22 __init__): the last assignment of each field.
   phase_x times an unknown x_coef is None * float: TypeError. *)
Definition sin_set (amplitude frequency period phase phase_x : option R) : res sine :=
  let! frequency :=
    match period with Some p => let! f := r_div 1 p in Ok (Some f) | None => Ok frequency end in
  let x_coef := match frequency with Some f => Some (f * PI * 2) | None => None end in
  let! phase :=
    match phase_x with
    | Some px => match x_coef with Some k => Ok (Some (px * k)) | None => Err EType end
    | None => Ok phase
    end in
  match amplitude, x_coef, phase with
  | Some a, Some k, Some ph => Ok (mkSin a k ph)
  | _, _, _ => Err EExc
  end.
(* sin.py:7-9 frequency *)
Definition sin_frequency (s : sine) : R := s_coef s / PI * (1 / 2).
(* sin.py:11-13 period *)
Definition sin_period (s : sine) : res R := r_div (PI * 2) (s_coef s).
(* sin.py:40-41 y *)
Definition sin_y (s : sine) (x : R) : R := s_amp s * sin (s_coef s * x + s_phase s).
(* sin.py:43-44 d_y *)
Definition sin_dy (s : sine) (x : R) : R := s_amp s * cos (s_coef s * x + s_phase s).

(** math.atan2 *)
Definition atan2 (y x : R) : R :=
  if Rlt_dec 0 x then atan (y / x)
  else if Rlt_dec x 0 then if Rle_dec 0 y then atan (y / x) + PI else atan (y / x) - PI
  else if Rlt_dec 0 y then PI / 2
  else if Rlt_dec y 0 then - (PI / 2)
  else 0.
(** Python's a % b for b > 0 *)
Definition r_mod (a b : R) : R := a - b * IZR (Int_part (a / b)).

(* extension/sin.py:14-17 __init__: period as a float, asserted positive *)
Definition sin_ext_period (p : R) : res R := if Rlt_dec 0 p then Ok p else Err EAssert.
(* extension/sin.py:19-20 create_extension_func; phase=0 is the default *)
Definition sin_create (p : R) : res sine := sin_set (Some 0) None (Some p) (Some 0) None.
(* extension/sin.py:22-39 update_extension_func *)
Definition sin_update (period x y dy : R) : res sine :=
  let! x_coef := r_div (2 * PI) period in
  let angle := x_coef * x in
  let num := x_coef * y * cos angle - dy * sin angle in
  let den := x_coef * y * sin angle + dy * cos angle in
  let phase := atan2 num den in
  let! amplitude :=
    if Req_EM_T (r_mod (angle + phase) PI) 0 then r_div dy (x_coef * cos (angle + phase))
    else r_div y (sin (angle + phase)) in
  sin_set (Some amplitude) None (Some period) (Some phase) None.
