(** Model of the accumulating curves: /repo/curvepy/scan.py, accumulator.py,
    integral.py, ema.py, accumulator_map.py and sma.py.

    A scanning curve is an object with mutable state, and [y] mutates it.  Its
    source is seen through the snapshot [crv] of its current state; when the
    source changes, the scanning curve receives the source's begin and end
    notifications (the observer of scan.py:17) as events. *)
From Coq Require Import List ZArith Bool.
From Verif Require Import Base Num Interval Curve Points Combine.
Import ListNotations.
Open Scope num_scope.
Open Scope bool_scope.

Section Scan.
Context {T : Type} {N : Num T} {V W : Type} {VW : Val T W}.

(* scan.py:11-17, accumulator.py:9-19: scan_start, current, accumulated_points
   and the update bookkeeping of the curve itself *)
Record acc := mkA {
  a_start : option T;
  a_cur : option T;
  a_pts : pts T W;
  a_upd : upd T
}.
Definition set_start (a : acc) (o : option T) : acc := mkA o (a_cur a) (a_pts a) (a_upd a).
Definition set_cur (a : acc) (o : option T) : acc := mkA (a_start a) o (a_pts a) (a_upd a).
Definition set_apts (a : acc) (p : pts T W) : acc := mkA (a_start a) (a_cur a) p (a_upd a).
Definition set_aupd (a : acc) (u : upd T) : acc := mkA (a_start a) (a_cur a) (a_pts a) u.

(* accumulator.py:9-19 __init__; interpolation None is linear (points.py:44-45) *)
Definition acc_init (ip : interp) (uniform : bool) : acc :=
  mkA None None (fst (fst (p_init [] ip uniform))) upd_init.

(* curve.py:36-40 the cached domain; [gd] is get_domain *)
Definition acc_dom (gd : ival T) (a : acc) : acc * ival T :=
  match u_dom (a_upd a) with
  | Some d => (a, d)
  | None => (set_aupd a (mkU (u_begin (a_upd a)) (u_end (a_upd a)) (Some gd)), gd)
  end.

(* scan.py:48-50, accumulator.py:24-26 reset_scan; nobody observes the
   accumulated points, so their events are dropped *)
Definition reset_scan (a : acc) : acc * res unit :=
  let '(p, _, r) := p_reset (a_pts a) None in (mkA None None p (a_upd a), r).

(** Python's [a or b] on numbers and None: zero is false. *)
Definition py_or (r : option T) (k : res (option T)) : res (option T) :=
  match r with
  | Some v => if v =? n_zero then k else Ok (Some v)
  | None => k
  end.

(* accumulator.py:28-34 x_previous, x_next; [own] is self.min_step *)
Definition acc_prev (c : crv T V) (own : option T) (a : acc) (x : T) (ms limit : option T) : res (option T) :=
  let ms := resolve_min_step own ms in
  let! r := p_x_previous (a_pts a) x ms limit in py_or r (c_prev c x ms limit).
Definition acc_next (c : crv T V) (own : option T) (a : acc) (x : T) (ms limit : option T) : res (option T) :=
  let ms := resolve_min_step own ms in
  let! r := p_x_next (a_pts a) x ms limit in py_or r (c_next c x ms limit).

(* accumulator.py:40-48 _accumulate; [tf] is accumulator_transform *)
Definition accumulate (tf : pts T W -> T -> V -> W -> res W) (a : acc) (x : T) (y : V) : acc * res unit :=
  let p := p_touch (a_pts a) in
  let a := set_apts a p in
  match (if i_is_empty (p_dom p) then Ok v_none
         else if negb (i_end (p_dom p) <? x) then Err EAssert
         else p_y p (i_end (p_dom p))) with
  | Err e => (a, Err e)
  | Ok last_y =>
      match tf p x y last_y with
      | Err e => (a, Err e)
      | Ok new_y => let '(p', _, r) := p_append p (x, new_y) in (set_apts a p', r)
      end
  end.

(* scan.py:37-43 init_scan *)
Definition init_scan (c : crv T V) (own : option T) (a : acc) (x : option T) : acc * res (option T) :=
  if i_is_empty (c_dom c) || i_is_negative_infinite (c_dom c) then (a, Ok x)
  else
    let x0 := i_start (c_dom c) in
    let '(a, d) := acc_dom (c_dom c) a in
    if negb (i_contains d x0) then (a, c_next c x0 own None) else (a, Ok (Some x0)).

(* scan.py:56-67: the loop of scan.  Fuel stands for the unbounded while. *)
Fixpoint scan_loop (fuel : nat) (c : crv T V) (own : option T)
    (init : acc -> option T -> acc * res (option T)) (tf : pts T W -> T -> V -> W -> res W)
    (x0 : T) (x : option T) (a : acc) : acc * res unit :=
  match fuel with
  | O => (a, Err EFuel)
  | S f =>
      if (match a_cur a with None => true | Some cur => cur <? x0 end) then
        let '(a, r) :=
          match a_cur a with
          | None => let '(a, r) := init a x in
                    match r with Ok o => (set_start a o, r) | Err _ => (a, r) end
          | Some cur => (a, acc_next c own a cur own (Some x0))
          end in
        match r with
        | Err e => (a, Err e)
        | Ok None => (a, Ok tt)
        | Ok (Some current) =>
            if negb (i_contains (c_dom c) current) then (a, Ok tt)
            else if (match a_cur a with Some cur => current <=? cur | None => false end) then (a, Err EExc)
            else
              match c_y c current with
              | Err e => (a, Err e)
              | Ok y =>
                  let '(a, r) := accumulate tf a current y in
                  match r with
                  | Err e => (a, Err e)
                  | Ok _ => scan_loop f c own init tf x0 x (set_cur a (Some current))
                  end
              end
        end
      else (a, Ok tt)
  end.

(* scan.py:52-55 scan; [offset] is offset_scan, whose None makes the comparison
   with scan_start raise *)
Definition scan (fuel : nat) (c : crv T V) (own : option T)
    (init : acc -> option T -> acc * res (option T)) (offset : T -> res (option T))
    (tf : pts T W -> T -> V -> W -> res W) (x0 : T) (a : acc) : acc * res unit :=
  match offset x0 with
  | Err e => (a, Err e)
  | Ok x =>
      let '(a, r) :=
        match a_start a, x with
        | Some s, Some x => if x <? s then reset_scan a else (a, Ok tt)
        | Some _, None => (a, Err EType)
        | None, _ => (a, Ok tt)
        end in
      match r with
      | Err e => (a, Err e)
      | Ok _ => scan_loop fuel c own init tf x0 x a
      end
  end.

Definition no_offset (x : T) : res (option T) := Ok (Some x).

(* scan.py:25-29 y, accumulator.py:21-22 scanned_y; [post] is what subclasses do
   with the scanned value *)
Definition acc_y (fuel : nat) (c : crv T V) (own : option T)
    (tf : pts T W -> T -> V -> W -> res W) (post : W -> W) (a : acc) (x : T) : acc * res W :=
  let '(a, out) :=
    if negb (i_contains (c_dom c) x) then
      let '(a, d) := acc_dom (c_dom c) a in (a, negb (i_contains d x))
    else (a, false) in
  if out then (a, Ok v_none)
  else
    let '(a, r) := scan fuel c own (init_scan c own) no_offset tf x a in
    match r with
    | Err e => (a, Err e)
    | Ok _ => (a, let! y := p_y (a_pts a) x in Ok (post y))
    end.

(* scan.py:113-114 _update_interval *)
Definition update_interval (d : ival T) : ival T := mkI (i_start d) n_inf (i_so d) true.

(* scan.py:98-107 begin_scan_update, accumulator.py:36-38 begin_update *)
Definition begin_scan_update (a : acc) (d : ival T) : acc * list (ev T) * res unit :=
  let d := update_interval d in
  let '(a, r) :=
    match a_cur a with
    | Some cur =>
        if (i_start d <? cur) || ((i_start d =? cur) && negb (i_so d)) then reset_scan a else (a, Ok tt)
    | None => (a, Ok tt)
    end in
  match r with
  | Err e => (a, [], Err e)
  | Ok _ =>
      let '(a, r) :=
        match a_cur a, a_start a with
        | Some cur, Some st => if cur <? st then reset_scan a else (a, Ok tt)
        | _, _ => (a, Ok tt)
        end in
      match r with
      | Err e => (a, [], Err e)
      | Ok _ =>
          let '(p, _, r) := p_reset (a_pts a) (Some d) in
          let a := set_apts a p in
          match r with
          | Err e => (a, [], Err e)
          | Ok _ => let '(u, o) := begin_update (a_upd a) d in (set_aupd a u, ev_begin o, Ok tt)
          end
      end
  end.

(* scan.py:109-111 end_scan_update *)
Definition end_scan_update (a : acc) (d : ival T) : acc * list (ev T) * res unit :=
  let '(u, o) := end_update (a_upd a) (update_interval d) in (set_aupd a u, ev_end o, Ok tt).

(** The notifications of a source operation, in order; an exception in a
    callback stops the rest. *)
Fixpoint acc_events (a : acc) (evs : list (ev T)) : acc * list (ev T) * res unit :=
  match evs with
  | [] => (a, [], Ok tt)
  | e :: evs' =>
      let '(a, o, r) := match e with
                        | EvBegin d => begin_scan_update a d
                        | EvEnd d => end_scan_update a d
                        end in
      match r with
      | Err x => (a, o, Err x)
      | Ok _ => let '(a, o', r) := acc_events a evs' in (a, o ++ o', r)
      end
  end.

End Scan.
Arguments acc T W : clear implicits.

(** ** The transforms *)
Section Transforms.
Context {T : Type} {N : Num T}.
Notation V := (option T).

(* integral.py:22-51 _integral_scan.  [cy] is the source's y.  The Line object
   is reused by the code; line.set stores exactly its arguments. *)
Definition integral_scan (half : T) (ip : interp) (cy : T -> res V)
    (p : pts T V) (x : T) (y sum : V) : res V :=
  match y with
  | None => Ok sum
  | Some yv =>
      let s := match sum with Some s => s | None => n_zero end in
      let! x0 := p_x_previous p x (Some MIN_STEP) None in
      let! y0 := match x0 with Some x0 => cy x0 | None => Ok None end in
      match x0, y0 with
      | Some x0, Some y0 =>
          let '(p1, p2) :=
            match ip with
            | ILinear => ((x0, y0), (x, yv))
            | IPrevious => ((x0, y0), (x, y0))
            | INext => ((x0, yv), (x, yv))
            end in
          let! l := line_args None None (Some p1) (Some p2) None in
          Ok (Some (s + line_partial_integration half l x0 x))
      | _, _ => Ok (Some s)
      end
  end.
(* integral.py:16-20 scanned_y *)
Definition integral_post (const : T) (y : V) : V := option_map (fun v => v + const) y.

(* ema.py:39-53 _ema_scan; the degree is a period or an alpha *)
Inductive ema_degree := EmaPeriod (p : T) | EmaAlpha (a : T).
Definition ema_scan (deg : ema_degree) (init : option (T -> res V))
    (cprev : T -> res (option T)) (x : T) (y ema : V) : res V :=
  match y with
  | None => Ok ema
  | Some yv =>
      match ema with
      | None => match init with Some f => f x | None => Ok (Some yv) end
      | Some e =>
          match deg with
          | EmaPeriod p =>
              let! x0 := cprev x in
              match x0 with
              | None => Err EType
              | Some x0 => let! q := n_div (x - x0) p in Ok (Some (e + n_abs q * (yv - e)))
              end
          | EmaAlpha al => Ok (Some (e + al * (yv - e)))
          end
      end
  end.

Definition py_none (v : V) : bool := match v with None => true | Some _ => false end.
(* accumulator_map.py:46-52: the sampling call of the degree branch *)
Definition map_from_x (c : crv T V) (own : option T) (x : T) (n : Z) : res (list (T * V)) :=
  sample_points_from_x py_none c x n true true own.

(* accumulator_map.py:42-68 _accumulator_map_scan.  [from_x x n] is
   curve.sample_points_from_x(x, n, backward=True, open=True, min_step),
   [sampled d] is curve.sample_points(domain=d, min_step). *)
Inductive map_degree := MapPeriod (p : T) | MapDegree (n : Z).
Definition map_scan (deg : map_degree) (from_x : T -> Z -> res (list (T * V)))
    (sampled : ival T -> res (list (T * V))) (tfm : T -> list V -> res V) (x : T) (y : V) : res V :=
  let! more :=
    match deg with
    | MapDegree n => if negb (n =? 1)%Z then from_x x (n - 1)%Z else Ok []
    | MapPeriod p => let! l := sampled (mkI (x - p) x false true) in Ok (rev l)
    end in
  tfm x (y :: map snd more).

(** Python's builtin min and max of a list of numbers and None: comparing with
    None raises TypeError; a single element is returned as it is. *)
Fixpoint fold_cmp (better : T -> T -> bool) (best : V) (l : list V) : res V :=
  match l with
  | [] => Ok best
  | v :: l' =>
      match v, best with
      | Some a, Some b => fold_cmp better (if better a b then v else best) l'
      | _, _ => Err EType
      end
  end.
Definition py_min (l : list V) : res V :=
  match l with [] => Err EValue | v :: l' => fold_cmp n_ltb v l' end.
Definition py_max (l : list V) : res V :=
  match l with [] => Err EValue | v :: l' => fold_cmp n_gtb v l' end.

End Transforms.
Arguments ema_degree T : clear implicits.
Arguments map_degree T : clear implicits.

(** ** SMA *)
Section Sma.
Context {T : Type} {N : Num T}.
Notation V := (option T).
(* sma.py:40-52 __init__: a period or a number of points *)
Inductive sma_degree := SmaPeriod (p : T) | SmaDegree (n : nat).

(* sma.py:114-127, 129-140: the degree loops of _sma_start and _sma_end *)
Fixpoint sma_walk (step : T -> res (option T)) (n : nat) (x0 : T) : res T :=
  match n with
  | O => Ok x0
  | S n' => let! x1 := step x0 in
            match x1 with None => Ok x0 | Some x1 => sma_walk step n' x1 end
  end.
Definition sma_start (c : crv T V) (own : option T) (deg : sma_degree) (x : T) : res (option T) :=
  match deg with
  | SmaPeriod p => c_next c (x - p) own None
  | SmaDegree n => let! r := sma_walk (fun x => c_prev c x own None) (n - 1) x in Ok (Some r)
  end.
Definition sma_end (c : crv T V) (own : option T) (deg : sma_degree) (x : T) : res (option T) :=
  match deg with
  | SmaPeriod p => c_prev c (x + p) own None
  | SmaDegree n => let! r := sma_walk (fun x => c_next c x own None) (n - 1) x in Ok (Some r)
  end.

(* sma.py:13-38 get_domain *)
Fixpoint sma_first (c : crv T V) (own : option T) (n : nat) (x : T) : res (option T) :=
  match n with
  | O => Ok (Some x)
  | S n' => let! x1 := c_next c x own None in
            match x1 with None => Ok None | Some x1 => sma_first c own n' x1 end
  end.
Definition sma_get_domain (c : crv T V) (own : option T) (deg : sma_degree) : res (ival T) :=
  let d := c_dom c in
  if i_is_empty d then Ok i_empty
  else
    let! p :=
      match deg with
      | SmaPeriod p =>
          let! x := c_prev c (i_start d + p) own None in
          Ok (Some (match x with None => p | Some x => x - i_start d end))
      | SmaDegree n =>
          let! x := sma_first c own (n - 1) (i_start d) in
          Ok (option_map (fun x => x - i_start d) x)
      end in
    match p with
    | None => Ok i_empty
    | Some p =>
        let d_start := i_start d + p in
        if n_isnan d_start || (d_start >? i_end d) then Ok i_empty else Ok (i_closed d_start (i_end d))
    end.
(* curve.py:36-40 the cached domain *)
Definition sma_dom (c : crv T V) (own : option T) (deg : sma_degree) (a : acc T V) : acc T V * res (ival T) :=
  match u_dom (a_upd a) with
  | Some d => (a, Ok d)
  | None =>
      match sma_get_domain c own deg with
      | Err e => (a, Err e)
      | Ok d => (set_aupd a (mkU (u_begin (a_upd a)) (u_end (a_upd a)) (Some d)), Ok d)
      end
  end.

(* scan.py:25-29 y with the init_scan and offset_scan of sma.py:60-70, and
   integral.py:16-20; SMA leaves the integral's const at 0 and its
   interpolation linear *)
Definition sma_integral (fuel : nat) (half : T) (c : crv T V) (own : option T) (deg : sma_degree)
    (a : acc T V) (x : T) : acc T V * res V :=
  let '(a, out) :=
    if negb (i_contains (c_dom c) x) then
      let '(a, d) := sma_dom c own deg a in
      (a, let! d := d in Ok (negb (i_contains d x)))
    else (a, Ok false) in
  match out with
  | Err e => (a, Err e)
  | Ok true => (a, Ok None)
  | Ok false =>
      let '(a, r) := scan fuel c own (fun a x => (a, Ok x)) (sma_start c own deg)
                       (integral_scan half ILinear (c_y c)) x a in
      match r with
      | Err e => (a, Err e)
      | Ok _ => (a, let! y := p_y (a_pts a) x in Ok (integral_post n_zero y))
      end
  end.

(* sma.py:72-112 y.  [depth] bounds the calls of y to itself. *)
Fixpoint sma_y (depth fuel : nat) (half : T) (c : crv T V) (own : option T) (deg : sma_degree)
    (a : acc T V) (x : T) : acc T V * res V :=
  match depth with
  | O => (a, Err EFuel)
  | S depth' =>
      let '(a, d) := sma_dom c own deg a in
      match d with
      | Err e => (a, Err e)
      | Ok d =>
      if negb (i_contains d x) then (a, Ok None)
      else
        match sma_start c own deg x with
        | Err e => (a, Err e)
        | Ok None => (a, Err EType)
        | Ok (Some x0) =>
        match sma_end c own deg x0 with
        | Err e => (a, Err e)
        | Ok ox1 =>
        if (x0 =? x) || (match ox1 with Some x1 => x0 =? x1 | None => false end) then (a, c_y c x)
        else
          let '(a, y0) := sma_integral fuel half c own deg a x0 in
          match y0, ox1 with
          | Err e, _ => (a, Err e)
          | Ok None, _ => (a, Ok None)
          | Ok (Some _), None => (a, Err EType)
          | Ok (Some y0), Some x1 =>
          let '(a, y1) := sma_integral fuel half c own deg a x1 in
          match y1 with
          | Err e => (a, Err e)
          | Ok None => (a, Ok None)
          | Ok (Some y1) =>
          match n_div (y1 - y0) (x1 - x0) with
          | Err e => (a, Err e)
          | Ok sma1 =>
          if x =? x1 then (a, Ok (Some sma1))
          else if x >? x1 then
            match c_next c x1 own None with
            | Err e => (a, Err e)
            | Ok None => (a, Err EType)
            | Ok (Some x2) =>
                if x2 =? x then (a, Ok (Some sma1))
                else
                  let '(a, sma2) := sma_y depth' fuel half c own deg a x2 in
                  match sma2 with
                  | Err e => (a, Err e)
                  | Ok None => (a, Ok None)
                  | Ok (Some sma2) =>
                      (a, let! u := n_div (x - x1) (x2 - x1) in Ok (Some (u * sma2 + (n_one - u) * sma1)))
                  end
            end
          else
            match c_prev c x1 own None with
            | Err e => (a, Err e)
            | Ok None => (a, Err EType)
            | Ok (Some x01) =>
                if x01 =? x then (a, Ok (Some sma1))
                else
                  let '(a, sma01) := sma_y depth' fuel half c own deg a x01 in
                  match sma01 with
                  | Err e => (a, Err e)
                  | Ok None => (a, Ok None)
                  | Ok (Some sma01) =>
                      (a, let! u := n_div (x - x01) (x1 - x01) in Ok (Some (u * sma01 + (n_one - u) * sma1)))
                  end
            end
          end
          end
          end
        end
        end
      end
  end.
End Sma.
Arguments sma_degree T : clear implicits.
