(** Model of /repo/curvepy/curve.py, class Curve: the base-class algorithms.

    A curve is seen by these algorithms through an interface record [crv]
    (what a subclass provides: domain, y, x_next, x_previous, min_step).
    [y] and the stepping functions return [res]: they may raise.
    Python's [None] among the values is represented inside the value type [V]
    (for numeric curves [V = option T]). *)
From Coq Require Import List ZArith Bool.
From Verif Require Import Base Num Interval.
Import ListNotations.
Open Scope num_scope.
Open Scope bool_scope.

Section Curve.
Context {T : Type} {N : Num T}.

Record crv (V : Type) := mkC {
  c_dom : ival T;
  c_y : T -> res V;
  c_next : T -> option T -> option T -> res (option T);  (* x, min_step, limit *)
  c_prev : T -> option T -> option T -> res (option T);
  c_ms : option T
}.
Arguments mkC {V}.
Arguments c_dom {V}. Arguments c_y {V}. Arguments c_next {V}.
Arguments c_prev {V}. Arguments c_ms {V}.

(* curve.py:158-166 resolve_min_step *)
Definition resolve_min_step (self_ms ms : option T) : option T :=
  match ms, self_ms with
  | None, None => None
  | None, Some s => Some s
  | Some m, None => Some m
  | Some m, Some s => Some (n_max m s)
  end.

Definition clip_up (limit : option T) (x1 : T) : T :=
  match limit with Some l => if x1 >? l then l else x1 | None => x1 end.
Definition clip_down (limit : option T) (x1 : T) : T :=
  match limit with Some l => if x1 <? l then l else x1 | None => x1 end.

(* curve.py:117-127 x_next.  [None] as resolved step makes math.isinf raise TypeError. *)
Definition base_x_next (dom : ival T) (self_ms : option T)
    (x : T) (ms limit : option T) : res (option T) :=
  match resolve_min_step self_ms ms with
  | None => Err EType
  | Some s =>
      let x1 := if n_isinf s then i_end dom else x + s in
      let x1 := clip_up limit x1 in
      if i_contains_gen false true dom x1 then Ok (Some x1) else Ok None
  end.

(* curve.py:129-139 x_previous *)
Definition base_x_previous (dom : ival T) (self_ms : option T)
    (x : T) (ms limit : option T) : res (option T) :=
  match resolve_min_step self_ms ms with
  | None => Err EType
  | Some s =>
      let x1 := if n_isinf s then i_start dom else x - s in
      let x1 := clip_down limit x1 in
      if i_contains_gen true false dom x1 then Ok (Some x1) else Ok None
  end.

Section Generic.
Context {V : Type}.
Implicit Type c : crv V.

(* curve.py:73-77 y_start, y_end (overridden by Points with the same meaning) *)
Definition y_start c : res V := c_y c (i_start (c_dom c)).
Definition y_end c : res V := c_y c (i_end (c_dom c)).

(* curve.py:79-89 first_point, last_point *)
Definition first_point c : res (option (T * V)) :=
  if i_is_empty (c_dom c) then Ok None
  else let! y := c_y c (i_start (c_dom c)) in Ok (Some (i_start (c_dom c), y)).
Definition last_point c : res (option (T * V)) :=
  if i_is_empty (c_dom c) then Ok None
  else let! y := c_y c (i_end (c_dom c)) in Ok (Some (i_end (c_dom c), y)).

(* curve.py:141-153 previous_point, next_point *)
Definition previous_point c (x : T) (ms : option T) : res (option (T * V)) :=
  let! x1 := c_prev c x ms None in
  match x1 with
  | None => Ok None
  | Some x1 => let! y1 := c_y c x1 in Ok (Some (x1, y1))
  end.
Definition next_point c (x : T) (ms : option T) : res (option (T * V)) :=
  let! x1 := c_next c x ms None in
  match x1 with
  | None => Ok None
  | Some x1 => let! y1 := c_y c x1 in Ok (Some (x1, y1))
  end.

(* curve.py:185-189: the [step] loop of sample_points.
   Fuel stands for the unbounded while loop. *)
Fixpoint sp_step_loop (fuel : nat) c (x_end step x : T) : res (list (T * V)) :=
  match fuel with
  | O => Err EFuel
  | S f =>
      if x <=? x_end then
        let! y := c_y c x in
        let! r := sp_step_loop f c x_end step (x + step) in
        Ok ((x, y) :: r)
      else Ok []
  end.

(* curve.py:191-203: the [min_step] loop of sample_points *)
Fixpoint sp_ms_loop (fuel : nat) c (x_end ms : T) (x_end_bin : Z) (x : option T)
    : res (list (T * V)) :=
  match fuel with
  | O => Err EFuel
  | S f =>
      match x with
      | None => Ok []
      | Some x =>
          if negb (x <=? x_end) then Ok [] else
          let! y := c_y c x in
          let! q := n_div x ms in
          let! x_bin := n_round q in
          if (x_bin =? x_end_bin)%Z then Ok [(x, y)] else
          let! x1 := c_next c x (Some ms) (Some x_end) in
          let! ok :=
            match x1 with
            | None => Ok tt
            | Some x1v =>
                let! q1 := n_div x1v ms in
                let! x1_bin := n_round q1 in
                if (x1_bin <=? x_bin)%Z then Err EExc else Ok tt
            end in
          let! r := sp_ms_loop f c x_end ms x_end_bin x1 in
          Ok ((x, y) :: r)
      end
  end.

(* curve.py:168-210 sample_points.  [ms] is the argument (default MIN_STEP),
   [None] for an explicit None. *)
Definition sample_points (fuel : nat) c (domain : option (ival T)) (ms step : option T)
    : res (list (T * V)) :=
  let ms := resolve_min_step (c_ms c) ms in
  let dom := match domain with
             | None => c_dom c
             | Some d => i_inter2 (c_dom c) d
             end in
  if i_is_empty dom then Ok []
  else if negb (i_is_finite dom) then Err EExc
  else
    let x_start := i_start dom in
    let x_end := i_end dom in
    let! x_end_bin :=
      match ms with
      | Some m => let! q := n_div x_end m in n_round q
      | None => Ok 0%Z   (* never used: the loop below needs a min_step *)
      end in
    let! points :=
      if i_so dom then Ok []
      else let! y := c_y c x_start in Ok [(x_start, y)] in
    match step with
    | Some h =>
        let! r := sp_step_loop fuel c x_end h (x_start + h) in
        Ok (points ++ r)
    | None =>
        match ms with
        | Some m =>
            if m >? n_zero then
              let! x := c_next c x_start (Some m) (Some x_end) in
              let! r := sp_ms_loop fuel c x_end m x_end_bin x in
              let pts := points ++ r in
              if i_eo dom then Ok pts
              else match last_opt pts with
                   | None => Err EIndex
                   | Some (xl, _) =>
                       if negb (xl =? x_end) then
                         let! y := c_y c x_end in Ok (pts ++ [(x_end, y)])
                       else Ok pts
                   end
            else Err EExc
        | None => Err EExc
        end
    end.

(* curve.py:212-243 sample_points_from_x.  [limit] is an integer; the Python
   loop makes at most [limit] iterations, so it is its own fuel.
   [isnone] recognises Python's None among the values. *)
Fixpoint spfx_loop (isnone : V -> bool) c (backward : bool) (ms : option T)
    (n : nat) (x1 : T) : res (list (T * V)) :=
  match n with
  | O => Ok []
  | S n' =>
      let! x1 := (if backward then c_prev c x1 ms None else c_next c x1 ms None) in
      match x1 with
      | None => Ok []
      | Some x1 =>
          let! y1 := c_y c x1 in
          if isnone y1 then Ok []
          else let! r := spfx_loop isnone c backward ms n' x1 in
               Ok ((x1, y1) :: r)
      end
  end.

Definition sample_points_from_x (isnone : V -> bool) c (x : T) (limit : Z)
    (backward open : bool) (ms : option T) : res (list (T * V)) :=
  let neg := (limit <? 0)%Z in
  let limit := if neg then (- limit)%Z else limit in
  let backward := if neg then negb backward else backward in
  let ms := resolve_min_step (c_ms c) ms in
  if negb open then
    let! y := c_y c x in
    if isnone y then Ok []
    else spfx_loop isnone c backward ms (Z.to_nat (limit - 1)) x
  else spfx_loop isnone c backward ms (Z.to_nat limit) x.

End Generic.

(** ** Numeric curves: values are [option T], [None] being Python's None *)

Notation ncrv := (crv (option T)).

(* curve.py:91-112 d_y *)
Definition d_y (c : ncrv) (x : T) (forward : bool) (ms limit : option T) : res (option T) :=
  let ms := resolve_min_step (c_ms c) ms in
  let! x1 := (if forward then c_next c x ms limit else c_prev c x ms limit) in
  match x1 with
  | None => Ok None
  | Some x1 =>
      let! y1 := c_y c x1 in
      match y1 with
      | None => Ok None
      | Some y1 =>
          let! y := c_y c x in
          match y with
          | None => Ok None
          | Some y =>
              if x1 =? x then
                let dy := if y1 >=? y then n_inf else n_ninf in
                Ok (Some (if negb forward then - dy else dy))
              else
                let! q := n_div (y1 - y) (x1 - x) in Ok (Some q)
          end
      end
  end.

(* curve.py:245-256 get_range: the fold over the sampled points.
   Comparing None with a number raises TypeError. *)
Fixpoint range_loop (low high : option T) (l : list (T * option T))
    : res (option T * option T) :=
  match l with
  | [] => Ok (low, high)
  | (_, v) :: l' =>
      let! low' :=
        match low with
        | None => Ok v
        | Some lo => match v with
                     | None => Err EType
                     | Some w => Ok (if w <? lo then v else low)
                     end
        end in
      let! high' :=
        match high with
        | None => Ok v
        | Some hi => match v with
                     | None => Err EType
                     | Some w => Ok (if w >? hi then v else high)
                     end
        end in
      range_loop low' high' l'
  end.

Definition range_of_points (l : list (T * option T)) : res (ival T) :=
  let! (low, high) := range_loop None None l in
  match low, high with
  | Some lo, Some hi => Ok (i_closed lo hi)
  | _, _ => Ok i_empty
  end.

Definition get_range (fuel : nat) (c : ncrv) (domain : option (ival T)) (ms step : option T)
    : res (ival T) :=
  let! l := sample_points fuel c domain ms step in range_of_points l.

(* curve.py:258-307 minimise.  The for-loop counter is the structural
   argument.  [x_min] may become None after a step (y(None) then raises). *)
Fixpoint minimise_loop (n : nat) (c : ncrv) (ms step : option T)
    (x_min : option T) (x_prev : option T) : res (option T) :=
  match n with
  | O => Ok x_min
  | S n' =>
      match x_min with
      | None => Err EType
      | Some x =>
          let! y := c_y c x in
          match y with
          | None => Ok x_prev
          | Some _ =>
              let! dy0 := d_y c x false (Some MIN_STEP) None in
              let! dy1 := d_y c x true (Some MIN_STEP) None in
              let go (forward : bool) : res (option T) :=
                let! x' :=
                  match step with
                  | Some h => Ok (Some (if forward then x + h else x - h))
                  | None => if forward then c_next c x ms None else c_prev c x ms None
                  end in
                minimise_loop n' c ms step x' (Some x) in
              match dy0, dy1 with
              | None, None => Ok (Some x)
              | None, Some d1 => if d1 <=? n_zero then go true else Ok None
              | Some d0, None => if d0 >=? n_zero then go false else Ok None
              | Some d0, Some d1 =>
                  if (d0 * d1 <? n_zero) && (d0 <=? n_zero) && (d1 >=? n_zero) then Ok (Some x)
                  else if d0 * d1 <? n_zero then go (n_abs d0 <? n_abs d1)
                  else go (d1 <? n_zero)
              end
          end
      end
  end.
Definition minimise (max_iterations : nat) (c : ncrv) (x : T) (ms step : option T) :=
  minimise_loop max_iterations c ms step (Some x) None.

(* curve.py:309-358 maximise *)
Fixpoint maximise_loop (n : nat) (c : ncrv) (ms step : option T)
    (x_max : option T) (x_prev : option T) : res (option T) :=
  match n with
  | O => Ok x_max
  | S n' =>
      match x_max with
      | None => Err EType
      | Some x =>
          let! y := c_y c x in
          match y with
          | None => Ok x_prev
          | Some _ =>
              let! dy0 := d_y c x false (Some MIN_STEP) None in
              let! dy1 := d_y c x true (Some MIN_STEP) None in
              let go (forward : bool) : res (option T) :=
                let! x' :=
                  match step with
                  | Some h => Ok (Some (if forward then x + h else x - h))
                  | None => if forward then c_next c x ms None else c_prev c x ms None
                  end in
                maximise_loop n' c ms step x' (Some x) in
              match dy0, dy1 with
              | None, None => Ok (Some x)
              | None, Some d1 => if d1 >=? n_zero then go true else Ok None
              | Some d0, None => if d0 <=? n_zero then go false else Ok None
              | Some d0, Some d1 =>
                  if (d0 * d1 <? n_zero) && (d0 >=? n_zero) && (d1 <=? n_zero) then Ok (Some x)
                  else if d0 * d1 <? n_zero then go (n_abs d0 <? n_abs d1)
                  else go (d1 >? n_zero)
              end
          end
      end
  end.
Definition maximise (max_iterations : nat) (c : ncrv) (x : T) (ms step : option T) :=
  maximise_loop max_iterations c ms step (Some x) None.

(** ** The update protocol of one curve (without its observers)

    curve.py:54-56, 433-473.  The state is the pair of pending intervals and
    the cached domain.  [begin_update] / [end_update] return the interval with
    which observers are notified, if they are. *)
Record upd := mkU { u_begin : ival T; u_end : ival T; u_dom : option (ival T) }.

(* curve.py:50-57 __init__ *)
Definition upd_init : upd := mkU i_empty i_empty None.

(* curve.py:433-436 *)
Definition begin_update (u : upd) (d : ival T) : upd * option (ival T) :=
  if i_is_empty d || i_superset (u_begin u) d then (u, None)
  else (mkU (i_union2 (u_begin u) d) (u_end u) (u_dom u), Some d).

(* curve.py:446-458 *)
Definition end_update (u : upd) (d : ival T) : upd * option (ival T) :=
  if i_is_empty d || i_superset (u_end u) d then (u, None)
  else
    let e := i_union2 (u_end u) d in
    if negb (i_superset e (u_begin u)) then (mkU (u_begin u) e (u_dom u), None)
    else (mkU i_empty i_empty None, Some e).

(* curve.py:46-48 is_updating *)
Definition is_updating (u : upd) : bool := negb (i_is_empty (u_begin u)).

(** Events sent to the observers of a curve. *)
Inductive ev := EvBegin (d : ival T) | EvEnd (d : ival T).

Definition ev_begin (o : option (ival T)) : list ev :=
  match o with Some d => [EvBegin d] | None => [] end.
Definition ev_end (o : option (ival T)) : list ev :=
  match o with Some d => [EvEnd d] | None => [] end.

End Curve.
Arguments crv T V : clear implicits.
Arguments mkC {T V} c_dom c_y c_next c_prev c_ms.
Arguments c_dom {T V}. Arguments c_y {T V}. Arguments c_next {T V}.
Arguments c_prev {T V}. Arguments c_ms {T V}.
Arguments upd T : clear implicits.
Arguments ev T : clear implicits.
