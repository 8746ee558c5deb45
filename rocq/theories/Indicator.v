(** Model of Quotes.ao and Quotes.alligator, /repo/curvepy/quotes.py:150-174.

    Both are built on simple moving averages of the midpoints hl2.  The moving
    averages are the objects with state; [self.hl2] is created once
    (quotes.py:64-73), so all of them observe the same Map.

    The half of Integral is a parameter, and [fuel] bounds the scans.  The
    cached domains of Aggregate and Offset are their get_domain (the caches
    between updates are Graph.v); the duration of alligator is the pair of
    what Quotes asks of it ([duration], Quotes.v) and what Offset asks of it
    ([calendar], OffsetDur.v). *)
From Coq Require Import List ZArith Bool.
From Verif Require Import Base Num Interval Curve Points Combine Scan Quotes OffsetDur Rsi.
Import ListNotations.
Open Scope num_scope.
Open Scope bool_scope.

Section Indicator.
Context {T : Type} {N : Num T}.
Notation V := (option T).

(* quotes.py:158-159, 168-171: self.hl2.sma(degree, uniform=uniform), with
   curve.py:589-591 and sma.py:40-52 *)
Definition mid_init (D : duration T) : acc T V := acc_init ILinear (d_uniform D).
Definition mid_dom (deg : nat) (D : duration T) (s : quotes T) (a : acc T V) : acc T V * res (ival T) :=
  sma_dom (hl2 D s) (Some MIN_STEP) (SmaDegree deg) a.
Definition mid_y (deg : nat) (half : T) (fuel : nat) (D : duration T) (s : quotes T) (a : acc T V) (x : T) : acc T V * res V :=
  sma_y 2 fuel half (hl2 D s) (Some MIN_STEP) (SmaDegree deg) a x.

(** the Awesome Oscillator: the update state of hl2, the two moving averages *)
Record ao := mkAo { o_mid : upd T; o_fast : acc T V; o_slow : acc T V }.
Definition ao_init (D : duration T) : ao := mkAo upd_init (mid_init D) (mid_init D).
Definition FAST := 5%nat.
Definition SLOW := 34%nat.
(* aggregate.py:8-13, 50-57: domain and y of the difference *)
Definition ao_dom (D : duration T) (s : quotes T) (o : ao) : ao * res (ival T) :=
  let '(f, df) := mid_dom FAST D s (o_fast o) in
  match df with
  | Err e => (mkAo (o_mid o) f (o_slow o), Err e)
  | Ok df =>
      let '(w, dw) := mid_dom SLOW D s (o_slow o) in
      (mkAo (o_mid o) f w, let! dw := dw in Ok (c_dom (subtract_many [shown df (Ok None); shown dw (Ok None)])))
  end.
Definition ao_y (half : T) (fuel : nat) (D : duration T) (s : quotes T) (o : ao) (x : T) : ao * res V :=
  let '(o, d) := ao_dom D s o in
  match d with
  | Err e => (o, Err e)
  | Ok d =>
      if negb (i_contains d x) then (o, Ok None)
      else
        let '(f, y) := mid_y FAST half fuel D s (o_fast o) x in
        match y with
        | Err e => (mkAo (o_mid o) f (o_slow o), Err e)
        | Ok y =>
            let '(w, z) := mid_y SLOW half fuel D s (o_slow o) x in
            (mkAo (o_mid o) f w, let! z := z in sub_f x [y; z])
        end
  end.
(* map.py:23, scan.py:98-111: a notification of the Quotes reaches the moving
   averages through hl2 *)
Definition ao_events (o : ao) (evs : list (ev T)) : ao * res unit :=
  let '(u, evs) := forward (o_mid o) evs in
  let '(f, _, r1) := acc_events (o_fast o) evs in
  let '(w, _, r2) := acc_events (o_slow o) evs in
  (mkAo u f w, let! _ := r1 in r2).

(* offset.py:43-60 _interpolated_func over a moving average *)
Definition line_y (K : calendar T) (n : Z) (deg : nat) (half : T) (fuel : nat) (D : duration T) (s : quotes T)
    (a : acc T V) (x : T) : acc T V * res V :=
  let x0 := d_unoffset_x K n x true in
  let x1 := d_unoffset_x K n x false in
  let '(a, d) := mid_dom deg D s a in
  match d with
  | Err e => (a, Err e)
  | Ok d =>
      if negb (i_contains d x0) || negb (i_contains d x1) then (a, Ok None)
      else if x0 =? x1 then mid_y deg half fuel D s a x0
      else
        let '(a, y0) := mid_y deg half fuel D s a x0 in
        match y0 with
        | Err e => (a, Err e)
        | Ok y0 =>
            let '(a, y1) := mid_y deg half fuel D s a x1 in
            (a, let! y1 := y1 in
                match y0, y1 with
                | Some y0, Some y1 =>
                    let p := d_offset_x K n x0 true in
                    let q := d_offset_x K n x1 false in
                    let! u := n_div (x - p) (q - p) in
                    Ok (Some (y0 * (n_one - u) + y1 * u))
                | _, _ => Ok None
                end)
        end
  end.
(* offset.py:37-38 *)
Definition line_dom (K : calendar T) (n : Z) (deg : nat) (D : duration T) (s : quotes T) (a : acc T V) : acc T V * res (ival T) :=
  let '(a, d) := mid_dom deg D s a in (a, let! d := d in Ok (d_offset_interval K n d)).
(* quotes.py:168-171: degree and offset of jaw, teeth and lips *)
Definition JAW := (13%nat, 8%Z).
Definition TEETH := (8%nat, 5%Z).
Definition LIPS := (5%nat, 3%Z).
Definition alligator_y (K : calendar T) (half : T) (fuel : nat) (D : duration T) (s : quotes T) (line : nat * Z)
    (a : acc T V) (x : T) : acc T V * res V := line_y K (snd line) (fst line) half fuel D s a x.
End Indicator.
Arguments ao T : clear implicits.
