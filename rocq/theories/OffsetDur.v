(** curvepy/offset.py with a duration: the x axis is moved by a number of
    steps of a calendar.

    pyduration is not part of the repository; what Offset asks of a duration
    is the record [calendar].  Not modelled: Duration.parse, __del__, __repr__. *)
From Coq Require Import List ZArith Bool.
From Verif Require Import Base Num Interval Curve Combine.
Import ListNotations.
Open Scope num_scope.
Open Scope bool_scope.

Section OffsetDur.
Context {T : Type} {N : Num T}.
Notation ncrv := (crv T (option T)).

(* offset.py:66, 77, 111-115: floor, ceil, step(x, count), next and previous *)
Record calendar := mkCal {
  k_floor : T -> T; k_ceil : T -> T; k_step : T -> Z -> T; k_next : T -> T; k_prev : T -> T
}.

(* offset.py:16-26 __init__: with a duration the offset has to be an int;
   [inl] is any other number *)
Definition offset_count (o : T + Z) : res Z := match o with inl _ => Err EExc | inr n => Ok n end.

(* offset.py:108-115 _res_step *)
Definition res_step (K : calendar) (x : T) (count : Z) (floor : bool) : T :=
  if (count =? 0)%Z then x else k_step K (if floor then k_floor K x else k_ceil K x) count.
(* offset.py:92-106 _offset_x, _unoffset_x *)
Definition d_offset_x (K : calendar) (n : Z) (x : T) (floor : bool) : T :=
  if n_isinf x then x else res_step K x n floor.
Definition d_unoffset_x (K : calendar) (n : Z) (x : T) (floor : bool) : T :=
  if n_isinf x then x else res_step K x (- n) floor.

(* offset.py:117-127 _offset_interval; both ends with floor=False *)
Definition d_offset_interval (K : calendar) (n : Z) (d : ival T) : ival T :=
  mkI (d_offset_x K n (i_start d) false) (d_offset_x K n (i_end d) false) (i_so d) (i_eo d).

(* offset.py:43-60 _interpolated_func *)
Definition d_offset_eval (K : calendar) (n : Z) (c : ncrv) (f : T -> res (option T)) (x : T) : res (option T) :=
  let x0 := d_unoffset_x K n x true in
  let x1 := d_unoffset_x K n x false in
  if negb (i_contains (c_dom c) x0) || negb (i_contains (c_dom c) x1) then Ok None
  else if x0 =? x1 then f x0
  else
    let! y0 := f x0 in
    let! y1 := f x1 in
    match y0, y1 with
    | Some y0, Some y1 =>
        let a := d_offset_x K n x0 true in
        let b := d_offset_x K n x1 false in
        let! u := n_div (x - a) (b - a) in
        Ok (Some (y0 * (n_one - u) + y1 * u))
    | _, _ => Ok None
    end.

(* offset.py:13-14, 37-38, 62-84 *)
Definition d_offset_curve (K : calendar) (n : Z) (c : ncrv) : ncrv :=
  mkC (d_offset_interval K n (c_dom c))
    (fun x => d_offset_eval K n c (c_y c) x)
    (fun x _ _ =>
       let x1 := k_next K (d_unoffset_x K n x true) in
       if i_contains (c_dom c) x1 then Ok (Some (d_offset_x K n x1 true)) else Ok None)
    (fun x _ _ =>
       let x1 := k_prev K (d_unoffset_x K n x false) in
       if i_contains (c_dom c) x1 then Ok (Some (d_offset_x K n x1 false)) else Ok None)
    None.

(* offset.py:40-41 d_y *)
Definition d_offset_d_y (K : calendar) (n : Z) (c : ncrv) (x : T) (forward : bool) (ms limit : option T) :=
  d_offset_eval K n c (fun x0 => d_y c x0 forward ms limit) x.

(* offset.py:86-90 begin_offset_update, end_offset_update *)
Definition d_offset_begin (K : calendar) (n : Z) (u : upd T) (d : ival T) := begin_update u (d_offset_interval K n d).
Definition d_offset_end (K : calendar) (n : Z) (u : upd T) (d : ival T) := end_update u (d_offset_interval K n d).
End OffsetDur.
Arguments calendar T : clear implicits.
