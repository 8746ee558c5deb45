(** Model of a Trend as a curve (/repo/curvepy/trend.py:17-91 over scan.py): the
    scan that its questions start, the questions, and the notifications of its
    source.  The lines themselves are in Trend.v.

    - When scanning a point raises, what the point changed before is not kept:
      the statements are about questions that return.
    - Interval.extended_to_positive_infinity, of intervalpy, keeps the start and
      makes the end infinite; of the empty interval it is taken to be empty. *)
From Coq Require Import List ZArith Bool.
From Verif Require Import Base Num Interval Curve Points Graph Scan Trend.
Import ListNotations.
Open Scope num_scope.
Open Scope bool_scope.

Section TrendScan.
Context {T : Type} {N : Num T}.
Variables (eps gold gold2 : T) (polyfit : list (pt T) -> T * T) (g : cfg T).
Notation V := (option T).

(* scan.py:11-17 and trend.py:43-47: the attributes *)
Record tscan := mkTS { ts_cur : option T; ts_start : option T; ts_tr : trend T; ts_upd : upd T }.
Definition ts_new : tscan := mkTS None None trend0 upd_init.
Definition ts_set_cur (t : tscan) o := mkTS o (ts_start t) (ts_tr t) (ts_upd t).
Definition ts_set_start (t : tscan) o := mkTS (ts_cur t) o (ts_tr t) (ts_upd t).
Definition ts_set_tr (t : tscan) r := mkTS (ts_cur t) (ts_start t) r (ts_upd t).
Definition ts_set_upd (t : tscan) u := mkTS (ts_cur t) (ts_start t) (ts_tr t) u.

Definition onwards (d : ival T) : ival T := if i_is_empty d then d else mkI (i_start d) n_inf (i_so d) true.

(* curve.py:36-40 the cached domain, trend.py:23-24 get_domain *)
Definition ts_dom (gd : ival T) (t : tscan) : tscan * ival T :=
  match u_dom (ts_upd t) with
  | Some d => (t, d)
  | None => (ts_set_upd t (mkU (u_begin (ts_upd t)) (u_end (ts_upd t)) (Some (onwards gd))), onwards gd)
  end.

(* scan.py:48-50 reset_scan, which trend.py does not extend: the points and the
   lines stay *)
Definition ts_reset (t : tscan) : tscan := ts_set_cur (ts_set_start t None) None.

(* scan.py:37-43 init_scan *)
Definition ts_init_scan (c : crv T V) (own : option T) (t : tscan) (x : T) : tscan * res (option T) :=
  if i_is_empty (c_dom c) || i_is_negative_infinite (c_dom c) then (t, Ok (Some x))
  else
    let x0 := i_start (c_dom c) in
    let '(t, d) := ts_dom (c_dom c) t in
    if negb (i_contains d x0) then (t, c_next c x0 own None) else (t, Ok (Some x0)).

(* trend.py:66-91 continue_scan, with scan.py:34-35; [cur] is self.current *)
Definition ts_continue (gd : ival T) (t : tscan) (cur x : T) : tscan * bool :=
  if cur <? x then (t, true)
  else
    let '(t, d) := ts_dom gd t in
    if negb (i_contains d cur) then (t, false) else (t, wants_more (ts_tr t) x).

(* scan.py:87-89 x_next *)
Definition ts_next (c : crv T V) (own : option T) (x : T) (ms limit : option T) : res (option T) :=
  match resolve_min_step own ms with None => Err EType | Some m => c_next c x (Some m) limit end.

(* scan.py:56-67: the loop of scan; [lf] is the fuel for the levels *)
Fixpoint ts_loop (fuel lf : nat) (c : crv T V) (own : option T) (x0 : T) (t : tscan) : tscan * res unit :=
  match fuel with
  | O => (t, Err EFuel)
  | S f =>
      let '(t, go) := match ts_cur t with None => (t, true) | Some cur => ts_continue (c_dom c) t cur x0 end in
      if go then
        let '(t, n) :=
          match ts_cur t with
          | None => let '(t, n) := ts_init_scan c own t x0 in
                    match n with Ok o => (ts_set_start t o, n) | Err _ => (t, n) end
          | Some cur => (t, ts_next c own cur own (Some x0))
          end in
        match n with
        | Err er => (t, Err er)
        | Ok None => (t, Ok tt)
        | Ok (Some current) =>
            if negb (i_contains (c_dom c) current) then (t, Ok tt)
            else if (match ts_cur t with Some cur => current <=? cur | None => false end) then (t, Err EExc)
            else
              match c_y c current with
              | Err er => (t, Err er)
              | Ok y =>
                  match trend_scan eps gold gold2 polyfit g lf (ts_tr t) current y with
                  | Err er => (t, Err er)
                  | Ok r => ts_loop f lf c own x0 (ts_set_cur (ts_set_tr t r) (Some current))
                  end
              end
        end
      else (t, Ok tt)
  end.

(* scan.py:52-55 scan *)
Definition ts_scan (fuel lf : nat) (c : crv T V) (own : option T) (x0 : T) (t : tscan) : tscan * res unit :=
  let t := match ts_start t with Some s => if x0 <? s then ts_reset t else t | None => t end in
  ts_loop fuel lf c own x0 t.

(* scan.py:25-29 y, trend.py:63-64 scanned_y; None outside both domains *)
Definition ts_y (fuel lf : nat) (c : crv T V) (own : option T) (t : tscan) (x : T) : tscan * res (option (list (tl T))) :=
  let '(t, out) :=
    if negb (i_contains (c_dom c) x) then let '(t, d) := ts_dom (c_dom c) t in (t, negb (i_contains d x))
    else (t, false) in
  if out then (t, Ok None)
  else
    let '(t, r) := ts_scan fuel lf c own x t in
    match r with
    | Err er => (t, Err er)
    | Ok _ => (t, Ok (Some (scanned_lines g (ts_tr t) (Some x))))
    end.

(* trend.py:49-51 lines, 53-56 upper, 58-61 lower *)
Definition ts_lines (t : tscan) : list (tl T) := scanned_lower g (ts_tr t) None ++ scanned_upper g (ts_tr t) None.
Definition ts_side (upper : bool) (fuel lf : nat) (c : crv T V) (own : option T) (t : tscan) (x : option T) : tscan * res (list (tl T)) :=
  let '(t, r) := match x with Some x => ts_scan fuel lf c own x t | None => (t, Ok tt) end in
  match r with
  | Err er => (t, Err er)
  | Ok _ => (t, Ok (if upper then scanned_upper g (ts_tr t) x else scanned_lower g (ts_tr t) x))
  end.

(* trend.py:93-120 begin_update; curve.py:446-462 end_update *)
Definition ts_begin (t : tscan) (d : ival T) : tscan * list (ev T) * res unit :=
  let '(u, o) := begin_update (ts_upd t) d in
  let t := ts_set_upd t u in
  match trend_begin eps gold gold2 polyfit g (ts_tr t) d with
  | Err er => (t, ev_begin o, Err er)
  | Ok r => (ts_set_tr t r, ev_begin o, Ok tt)
  end.
Definition ts_end (t : tscan) (d : ival T) : tscan * list (ev T) * res unit :=
  let '(u, o) := end_update (ts_upd t) d in (ts_set_upd t u, ev_end o, Ok tt).

(* scan.py:98-107 begin_scan_update, 109-111 end_scan_update *)
Definition ts_begin_scan (t : tscan) (d : ival T) : tscan * list (ev T) * res unit :=
  let d := Scan.update_interval d in
  let t := match ts_cur t with
           | Some cur => if (i_start d <? cur) || ((i_start d =? cur) && negb (i_so d)) then ts_reset t else t
           | None => t
           end in
  let t := match ts_cur t, ts_start t with
           | Some cur, Some s => if cur <? s then ts_reset t else t
           | _, _ => t
           end in
  ts_begin t d.
Definition ts_end_scan (t : tscan) (d : ival T) : tscan * list (ev T) * res unit := ts_end t (Scan.update_interval d).
Fixpoint ts_events (t : tscan) (evs : list (ev T)) : tscan * list (ev T) * res unit :=
  match evs with
  | [] => (t, [], Ok tt)
  | v :: evs' =>
      let '(t, o, r) := match v with EvBegin d => ts_begin_scan t d | EvEnd d => ts_end_scan t d end in
      match r with
      | Err er => (t, o, Err er)
      | Ok _ => let '(t, o', r) := ts_events t evs' in (t, o ++ o', r)
      end
  end.
End TrendScan.
Arguments tscan T : clear implicits.
