(** curvepy/quotes.py: Quotes, candles over the Points of points.py.

    A candle is a list of numbers [open, high, low, close] or
    [open, high, low, close, volume]; a value may also be None.  The package
    pyduration is not part of the repository: what Quotes asks of its duration
    is the record [duration].  Objects handed to set and append are of any type
    [O]; [point] is how Points reads x and y from one (it may raise, and is
    taken to do so before the points are changed).  ao and alligator are in
    Indicator.v.  Not modelled: the caches of the component curves (each is
    created once), and __repr__. *)
From Coq Require Import List ZArith Bool.
From Verif Require Import Base Num Interval Curve Points Combine Scan.
Import ListNotations.
Open Scope num_scope.
Open Scope bool_scope.

Section Quotes.
Context {T : Type} {N : Num T}.

Definition candle : Type := list T.
Notation V := (option candle).

(** Blending two lists multiplies a list by a float, which raises (points.py:236-240). *)
#[local] Instance CandleVal : Val T V := {|
  v_none := None;
  v_lerp := fun _ y1 y2 => match y1, y2 with Some _, Some _ => Err EType | _, _ => Ok None end
|}.

(* quotes.py:101-105: is_uniform, min_seconds * 0.01 and span(domain, start_open=False) *)
Record duration := mkDur { d_uniform : bool; d_step : T; d_span : ival T -> ival T }.

(** The points, and the update state (with the cached domain) of the Quotes itself. *)
Record quotes := mkQt { q_pts : pts T V; q_upd : upd T }.
Definition qset_pts (s : quotes) (p : pts T V) : quotes := mkQt p (q_upd s).
Definition qset_upd (s : quotes) (u : upd T) : quotes := mkQt (q_pts s) u.

(** An observer whose callbacks are begin_update and end_update: its update
    state and what it tells its own observers. *)
Fixpoint forward (u : upd T) (evs : list (ev T)) : upd T * list (ev T) :=
  match evs with
  | [] => (u, [])
  | EvBegin d :: evs' => let '(u, o) := begin_update u d in let '(u, r) := forward u evs' in (u, ev_begin o ++ r)
  | EvEnd d :: evs' => let '(u, o) := end_update u d in let '(u, r) := forward u evs' in (u, ev_end o ++ r)
  end.
(* quotes.py:108: the Quotes observes its points *)
Definition from_points (s : quotes) (o : out T V unit) : quotes * list (ev T) * res unit :=
  let '(p, evs, r) := o in
  let '(u, evs) := forward (q_upd s) evs in (mkQt p u, evs, r).

(* quotes.py:87-88 get_domain through the cache of curve.py:36-40 *)
Definition q_domain (s : quotes) : ival T :=
  match u_dom (q_upd s) with Some d => d | None => p_dom (q_pts s) end.
Definition q_touch (s : quotes) : quotes :=
  match u_dom (q_upd s) with
  | Some _ => s
  | None => mkQt (p_touch (q_pts s)) (mkU (u_begin (q_upd s)) (u_end (q_upd s)) (Some (p_dom (q_pts s))))
  end.
(* quotes.py:90-94 get_quote_domain *)
Definition quote_domain (D : duration) (s : quotes) : ival T :=
  if i_is_empty (p_dom (q_pts s)) then p_dom (q_pts s) else d_span D (p_dom (q_pts s)).

Section Encode.
Context {O : Type} (point : O -> res (T * V)) (encoder : option (O -> res O)).

(* quotes.py:201-209 encode_one, encode_many *)
Definition encode_one (o : O) : res O := match encoder with Some f => f o | None => Ok o end.
Definition encode_many (l : list O) : res (list O) := match encoder with Some f => rmapM f l | None => Ok l end.

(* quotes.py:193-199 set *)
Definition q_set (s : quotes) (l : list O) : quotes * list (ev T) * res unit :=
  match (let! l := encode_many l in rmapM point l) with
  | Err e => (s, [], Err e)
  | Ok l => from_points s (p_set (q_pts s) l None)
  end.

(* quotes.py:183-191 append_list *)
Definition q_append_list (s : quotes) (l : list O) : quotes * list (ev T) * res unit :=
  let s := q_touch s in
  if i_is_empty (q_domain s) then q_set s l
  else
    match (let! l := encode_many l in rmapM point l) with
    | Err e => (s, [], Err e)
    | Ok l => from_points s (p_append_list (q_pts s) l)
    end.

(* quotes.py:175-181 append *)
Definition q_append (s : quotes) (o : O) : quotes * list (ev T) * res unit :=
  match encode_one o with
  | Err e => (s, [], Err e)
  | Ok o => q_append_list s [o]
  end.

(* quotes.py:96-118 __init__ *)
Definition q_empty (D : duration) : quotes :=
  mkQt (fst (fst (p_init [] IPrevious (d_uniform D)))) upd_init.
Definition q_init (D : duration) (l : option (list O)) : quotes * list (ev T) * res unit :=
  match l with None => (q_empty D, [], Ok tt) | Some l => q_set (q_empty D) l end.
End Encode.

(* quotes.py:227-236 y, x_next, x_previous; the Quotes' own min_step is not
   used for stepping, but Map asks for it *)
Definition q_crv (D : duration) (s : quotes) : crv T V :=
  mkC (q_domain s) (p_y (q_pts s)) (p_x_next (q_pts s)) (p_x_previous (q_pts s)) (Some (d_step D)).

(* quotes.py:10-17 *)
Definition OPEN := 0%nat.
Definition HIGH := 1%nat.
Definition LOW := 2%nat.
Definition CLOSE := 3%nat.
Definition VOLUME := 4%nat.
(* q[k]; None is not subscriptable *)
Definition item (k : nat) (q : V) : res T :=
  match q with
  | None => Err EType
  | Some cd => match nth_error cd k with Some v => Ok v | None => Err EIndex end
  end.
(* quotes.py:24-55, 75-85 close, open, high, low, volume *)
Definition component (k : nat) (D : duration) (s : quotes) : crv T (option T) :=
  map_curve true MIN_STEP (fun _ q => let! v := item k q in Ok (Some v)) (q_crv D s).
(* quotes.py:64-73 hl2 *)
Definition hl2 (D : duration) (s : quotes) : crv T (option T) :=
  map_curve true MIN_STEP
    (fun _ q => let! h := item HIGH q in
                let! l := item LOW q in
                let! v := n_div (h + l) (n_ofZ 2) in Ok (Some v)) (q_crv D s).

(* quotes.py:127-131 last_quote, first_quote: curve.py:73-77 *)
Definition last_quote (D : duration) (s : quotes) : res V := y_end (q_crv D s).
Definition first_quote (D : duration) (s : quotes) : res V := y_start (q_crv D s).

(* quotes.py:211-225 sample, sample_points *)
Definition q_sample_points (fuel : nat) (D : duration) (s : quotes) (domain : option (ival T)) (ms step : option T)
    : res (list (T * V)) :=
  let domain := i_parse domain in
  if i_is_empty domain then Ok []
  else p_sample_points fuel (q_pts s) (Some (d_span D domain)) ms step.
Definition q_sample (fuel : nat) (D : duration) (s : quotes) (domain : option (ival T)) (ms step : option T) : res (list V) :=
  let! l := q_sample_points fuel D s domain ms step in Ok (map snd l).

(* quotes.py:133-144 get_range: a list (and None) has no attribute low *)
Definition get_range (fuel : nat) (D : duration) (s : quotes) (domain : option (ival T)) (ms step : option T) : res (ival T) :=
  let! l := q_sample fuel D s domain ms step in
  match l with [] => Ok i_empty | _ :: _ => Err EAttr end.

(* quotes.py:169-173 trailing_high, trailing_low: curve.py:661-669 trailing_max
   over the component, interpolation previous, own min_step MIN_STEP.
   accumulator_map.py:42-68; the component is a Map, whose sample_points is
   the one of Curve.  [n] bounds its loop. *)
Definition trailing_tf (k : nat) (deg : map_degree T) (n : nat) (D : duration) (s : quotes)
    (_ : pts T (option T)) (x : T) (y _ : option T) : res (option T) :=
  map_scan deg (map_from_x (component k D s) (Some MIN_STEP))
    (fun d => sample_points n (component k D s) (Some d) (Some MIN_STEP) None) (fun _ => py_max) x y.
Definition trailing_init (D : duration) : acc T (option T) := acc_init IPrevious (d_uniform D).
Definition trailing_y (k : nat) (deg : map_degree T) (n : nat) (D : duration) (fuel : nat) (s : quotes)
    (a : acc T (option T)) (x : T) : acc T (option T) * res (option T) :=
  acc_y fuel (component k D s) (Some MIN_STEP) (trailing_tf k deg n D s) (fun v => v) a x.
Definition trailing_high := trailing_y HIGH.
Definition trailing_low := trailing_y LOW.
End Quotes.
Arguments candle T : clear implicits.
Arguments duration T : clear implicits.
Arguments quotes T : clear implicits.
#[export] Existing Instance CandleVal.
