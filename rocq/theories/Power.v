(** Powers and logarithms of curves: curve.py's pow_many, log_many, pow, raised,
    log, __pow__ and __rpow__.  The positions are any numbers, the values are real
    numbers of the standard library: rounding and overflow are not modelled. *)
From Coq Require Import List Reals ZArith Bool.
From Verif Require Import Base Num Interval Curve Combine.
Import ListNotations.
Open Scope res_scope.
Open Scope R_scope.

(** Python's a ** b of two floats.  A negative number to a power that is not
    whole is a complex number; [complex] stands for it and for whatever the
    caller does with it. *)
Definition whole (b : R) : bool := if Req_EM_T b (IZR (Int_part b)) then true else false.
Definition py_pow (complex : R -> R -> res R) (a b : R) : res R :=
  if Req_EM_T a 0 then
    (if Req_EM_T b 0 then Ok 1 else if Rlt_dec b 0 then Err EZeroDiv else Ok 0)
  else if whole b then Ok (powerRZ a (Int_part b))
  else if Rlt_dec 0 a then Ok (Rpower a b)
  else complex a b.
(** math.log(a, b): ln a / ln b; ValueError on an argument that is not positive *)
Definition py_log (a b : R) : res R :=
  if Rlt_dec 0 a then
    if Rlt_dec 0 b then (if Req_EM_T (ln b) 0 then Err EZeroDiv else Ok (ln a / ln b)) else Err EValue
  else Err EValue.

Section Power.
Context {T : Type} {N : Num T}.
Variable complex : R -> R -> res R.
Notation rcrv := (crv T (option R)).

(* curve.py:812-820 and 830-838: both loops, over the operation [op] *)
Fixpoint op_loop (op : R -> R -> res R) (first : bool) (result : R) (ys : list (option R)) : res (option R) :=
  match ys with
  | [] => Ok (Some result)
  | None :: _ => Ok None
  | Some y :: l => if first then op_loop op false y l else let! r := op result y in op_loop op false r l
  end.
(* curve.py:805-821 *)
Definition pow_many (funcs : list rcrv) : rcrv :=
  aggregate false None (fun _ ys => op_loop (py_pow complex) true 0 ys) funcs.
(* curve.py:823-839 *)
Definition log_many (funcs : list rcrv) : rcrv :=
  aggregate false None (fun _ ys => op_loop py_log true 0 ys) funcs.

(* constant.py:24-44, a number as an operand (Curve.parse, curve.py:863-864) *)
Definition number (v : R) : rcrv :=
  mkC i_infinite (fun _ => Ok (Some v)) (base_x_next i_infinite (Some n_inf)) (base_x_previous i_infinite (Some n_inf)) (Some n_inf).
(* curve.py:507-508, 1087-1088 *)
Definition pow (f g : rcrv) : rcrv := pow_many [f; g].
(* curve.py:510-511, 1102-1103 *)
Definition raised (f : rcrv) (base : R) : rcrv := pow_many [number base; f].
(* curve.py:513-514 *)
Definition log (f : rcrv) (base : R) : rcrv := log_many [f; number base].
End Power.
