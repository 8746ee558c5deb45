(** Model of the relative strength index, /repo/curvepy/curve.py:642-649:

      d = self.differential()
      du = Curve.max([d, 0], ignore_empty=False)
      dd = Curve.max([-d, 0], ignore_empty=False)
      rs = du.ema(1 / degree) / dd.ema(1 / degree)
      rsi = 100 - 100 / (1 + rs)

    The two EMAs are the only objects with state that [y] changes; the other
    curves of the expression are snapshots of the source (Combine.v) with the
    update bookkeeping of their constructors.  Simplified: [name], and the
    cached domain of the stateless intermediates, which is their get_domain
    (the caches between updates are Graph.v). *)
From Coq Require Import List ZArith Bool.
From Verif Require Import Base Num Interval Curve Points Combine Scan Quotes.
Import ListNotations.
Open Scope num_scope.
Open Scope bool_scope.

Section Rsi.
Context {T : Type} {N : Num T}.
Notation V := (option T).
Notation ncrv := (crv T V).

(* curve.py:643-645; parse_many turns the number 0 into a Constant
   (curve.py:1056-1059) *)
Definition rsi_gains (c : ncrv) : ncrv := curve_max false [differential false c; constant_curve n_zero None].
Definition rsi_losses (c : ncrv) : ncrv :=
  curve_max false [additive_inverse (differential false c); constant_curve n_zero None].

(* curve.py:593-595 ema(alpha) of a curve, ema.py:13-21: no init, the default
   minimum step *)
Definition ema_alpha_y (al : T) (fuel : nat) (c : ncrv) (a : acc T V) (x : T) : acc T V * res V :=
  acc_y fuel c (Some MIN_STEP)
    (fun _ => ema_scan (EmaAlpha al) None (fun x => c_prev c x (Some MIN_STEP) None)) (fun v => v) a x.

(** the object graph: the alpha, the update state of d, -d, du and dd, and the
    two EMAs *)
Record rsi := mkRsi {
  r_alpha : T;
  r_d : upd T;
  r_n : upd T;
  r_up : upd T;
  r_down : upd T;
  r_gain : acc T V;
  r_loss : acc T V
}.
(* curve.py:642-646: the construction; [uniform] is the keyword argument of the
   EMAs (True by default) *)
Definition rsi_init (degree : T) (uniform : bool) : res rsi :=
  let! al := n_div n_one degree in
  Ok (mkRsi al upd_init upd_init upd_init upd_init (acc_init ILinear uniform) (acc_init ILinear uniform)).

(* curve.py:646-647 as a curve of its two stateful parts; [hundred] is the
   literal 100 *)
Definition rsi_curve (hundred : T) (up down : ncrv) : ncrv :=
  subtract_many [constant_curve hundred None;
    divide_many [constant_curve hundred None;
      add_many [constant_curve n_one None; divide_many [up; down]]]].
(** a curve of which only the domain and one value are asked *)
Definition shown (d : ival T) (y : res V) : ncrv := mkC d (fun _ => y) (fun _ _ _ => Ok None) (fun _ _ _ => Ok None) None.

(* aggregate.py:50-54 y of the nested aggregates: outside the domain nothing is
   evaluated; inside, the EMA of the gains, then the EMA of the losses (not
   reached if the first raises), then the arithmetic *)
Definition rsi_y (hundred : T) (fuel : nat) (c : ncrv) (st : rsi) (x : T) : rsi * res V :=
  let d := c_dom (rsi_curve hundred (shown (c_dom (rsi_gains c)) (Ok None)) (shown (c_dom (rsi_losses c)) (Ok None))) in
  if negb (i_contains d x) then (st, Ok None)
  else
    let '(g, u) := ema_alpha_y (r_alpha st) fuel (rsi_gains c) (r_gain st) x in
    let st := mkRsi (r_alpha st) (r_d st) (r_n st) (r_up st) (r_down st) g (r_loss st) in
    match u with
    | Err e => (st, Err e)
    | Ok _ =>
        let '(l, v) := ema_alpha_y (r_alpha st) fuel (rsi_losses c) (r_loss st) x in
        let st := mkRsi (r_alpha st) (r_d st) (r_n st) (r_up st) (r_down st) (r_gain st) l in
        (st, c_y (rsi_curve hundred (shown (c_dom (rsi_gains c)) u) (shown (c_dom (rsi_losses c)) v)) x)
    end.

(* map.py:23, aggregate.py:26-27, scan.py:98-111: a notification of the
   source reaches the EMAs through the intermediate curves.  The order in which
   the branches are told does not matter: they share no state. *)
Definition rsi_events (st : rsi) (evs : list (ev T)) : rsi * res unit :=
  let '(ud, e1) := forward (r_d st) evs in
  let '(uu, e2) := forward (r_up st) e1 in
  let '(g, _, r1) := acc_events (r_gain st) e2 in
  let '(un, e3) := forward (r_n st) e1 in
  let '(ul, e4) := forward (r_down st) e3 in
  let '(l, _, r2) := acc_events (r_loss st) e4 in
  (mkRsi (r_alpha st) ud un uu ul g l, let! _ := r1 in r2).
End Rsi.
Arguments rsi T : clear implicits.
