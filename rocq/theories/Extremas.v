(** Model of /repo/curvepy/extremas.py on top of scan.py.

    As for the accumulating curves the source is the snapshot [crv] of its
    current state; the reference is its function [r : T -> res (option T)].
    Notifications of the source and of the reference arrive as events. *)
From Coq Require Import List ZArith Bool.
From Verif Require Import Base Num Interval Curve Points Combine Scan.
Import ListNotations.
Open Scope num_scope.
Open Scope bool_scope.

Section Extremas.
Context {T : Type} {N : Num T}.
Notation V := (option T).

(* extremas.py:10-20 and scan.py:11-17.  extrema_xs always holds the first
   components of extremas, so one list stands for both. *)
Record exs := mkX {
  x_start : option T;
  x_cur : option T;
  x_ext : list (T * T);
  x_int : ival T;
  x_poss : option (T * T);
  x_phase : option T;
  x_upd : upd T
}.
Definition xset_start (e : exs) (o : option T) : exs := mkX o (x_cur e) (x_ext e) (x_int e) (x_poss e) (x_phase e) (x_upd e).
Definition xset_cur (e : exs) (o : option T) : exs := mkX (x_start e) o (x_ext e) (x_int e) (x_poss e) (x_phase e) (x_upd e).
Definition xset_poss (e : exs) (o : option (T * T)) (ph : option T) : exs :=
  mkX (x_start e) (x_cur e) (x_ext e) (x_int e) o ph (x_upd e).
Definition xset_upd (e : exs) (u : upd T) : exs := mkX (x_start e) (x_cur e) (x_ext e) (x_int e) (x_poss e) (x_phase e) u.

(* extremas.py:128-135 _did_update_extremas, after the list became [l] *)
Definition ext_interval (l : list (T * T)) : ival T :=
  match head_opt l, last_opt l with
  | Some a, Some b => mkI (fst a) (fst b) false false
  | _, _ => i_empty
  end.
Definition did_update (e : exs) (l : list (T * T)) : exs :=
  mkX (x_start e) (x_cur e) l (ext_interval l) None None (x_upd e).

(* extremas.py:10-20 __init__ *)
Definition ex_init : exs := mkX None None [] i_empty None None upd_init.

(* extremas.py:121-126 _confirm_extrema; only called with a possible extrema *)
Definition confirm (e : exs) : exs :=
  match x_poss e with
  | Some p => did_update e (x_ext e ++ [p])
  | None => e
  end.

(* extremas.py:90-114 _extrema_scan; [dev] is abs(min_deviation) *)
Definition extrema_scan (dev : T) (r : T -> res V) (e : exs) (x : T) (y : V) : exs * res unit :=
  match y with
  | None => (e, Ok tt)
  | Some y =>
      match r x with
      | Err er => (e, Err er)
      | Ok None => (e, Ok tt)
      | Ok (Some y0) =>
          match n_div y y0 with
          | Err er => (e, Err er)
          | Ok q =>
              if n_abs (q - n_one) <=? dev then (e, Ok tt)
              else
                let phase := y - y0 in
                match x_poss e with
                | None => (xset_poss e (Some (x, y)) (Some phase), Ok tt)
                | Some (_, py) =>
                    match x_phase e with
                    | None => (e, Err EType)
                    | Some ph =>
                        if ph * phase <? n_zero then (xset_poss (confirm e) (Some (x, y)) (Some phase), Ok tt)
                        else if ((n_zero <? phase) && (py <? y)) || ((phase <? n_zero) && (y <? py)) then
                          (xset_poss e (Some (x, y)) (Some phase), Ok tt)
                        else (e, Ok tt)
                    end
                end
          end
      end
  end.

(* bisect.bisect (bisect_right) on extrema_xs, the standard library's halving
   loop; bisect.bisect_left is the loop of points.py:343-362, [bisect_points] *)
Fixpoint bisect_right_loop (fuel : nat) (a : list (T * T)) (x : T) (lo hi : Z) : res Z :=
  match fuel with
  | O => Err EFuel
  | S f =>
      if (lo <? hi)%Z then
        let mid := ((lo + hi) / 2)%Z in
        let! p := py_nth a mid in
        if x <? fst p then bisect_right_loop f a x lo mid
        else bisect_right_loop f a x (mid + 1)%Z hi
      else Ok lo
  end.
Definition bisect_right (a : list (T * T)) (x : T) : res Z :=
  bisect_right_loop (S (length a)) a x 0%Z (Z.of_nat (length a)).

(* extremas.py:25-36 scanned_y *)
Definition ex_scanned (e : exs) (x : T) : res V :=
  if negb (i_contains (x_int e) x) then Ok None
  else if x =? i_start (x_int e) then let! p := py_nth (x_ext e) 0 in Ok (Some (snd p))
  else if x =? i_end (x_int e) then let! p := py_nth (x_ext e) (-1) in Ok (Some (snd p))
  else
    let! i := bisect_right (x_ext e) x in
    let! p1 := py_nth (x_ext e) (i - 1) in
    let! p2 := py_nth (x_ext e) i in
    let! u := n_div (x - fst p1) (fst p2 - fst p1) in
    Ok (Some ((n_one - u) * snd p1 + u * snd p2)).

(* extremas.py:137-148 _i *)
Definition ex_index (e : exs) (x : T) : res (option T) :=
  if negb (i_contains (x_int e) x) then Ok None
  else if x =? i_start (x_int e) then Ok (Some n_zero)
  else if x =? i_end (x_int e) then Ok (Some (n_ofZ (Z.of_nat (length (x_ext e)) - 1)))
  else
    let! i := bisect_right (x_ext e) x in
    let! p1 := py_nth (x_ext e) (i - 1) in
    let! p2 := py_nth (x_ext e) i in
    let! u := n_div (x - fst p1) (fst p2 - fst p1) in
    Ok (Some (n_ofZ i + u)).

(* extremas.py:45-53 x_previous, 55-63 x_next; [own] is self.min_step *)
Definition ex_prev (c : crv T V) (own : option T) (e : exs) (x : T) (ms limit : option T) : res (option T) :=
  match resolve_min_step own ms with
  | None => Err EType
  | Some m =>
      if i_contains (x_int e) (x - m) then
        let! i := bisect_points (x_ext e) (x - m) in
        let! p := py_nth (x_ext e) i in
        if n_gtb (fst p) (x - m) then let! p := py_nth (x_ext e) (i - 1) in Ok (Some (fst p))
        else Ok (Some (fst p))
      else c_prev c x (Some m) limit
  end.
Definition ex_next (c : crv T V) (own : option T) (e : exs) (x : T) (ms limit : option T) : res (option T) :=
  match resolve_min_step own ms with
  | None => Err EType
  | Some m =>
      if i_contains (x_int e) (x + m) then
        let! i := bisect_points (x_ext e) (x + m) in
        let! p := py_nth (x_ext e) i in
        if fst p <? x + m then let! p := py_nth (x_ext e) (i + 1) in Ok (Some (fst p))
        else Ok (Some (fst p))
      else c_next c x (Some m) limit
  end.

(* curve.py:36-40 the cached domain; scan.py:8-9 get_domain is the source's *)
Definition ex_dom (gd : ival T) (e : exs) : exs * ival T :=
  match u_dom (x_upd e) with
  | Some d => (e, d)
  | None => (xset_upd e (mkU (u_begin (x_upd e)) (u_end (x_upd e)) (Some gd)), gd)
  end.

(* scan.py:48-50 reset_scan, which extremas.py does not extend *)
Definition ex_reset (e : exs) : exs := xset_cur (xset_start e None) None.

(* scan.py:37-43 init_scan *)
Definition ex_init_scan (c : crv T V) (own : option T) (e : exs) (x : T) : exs * res (option T) :=
  if i_is_empty (c_dom c) || i_is_negative_infinite (c_dom c) then (e, Ok (Some x))
  else
    let x0 := i_start (c_dom c) in
    let '(e, d) := ex_dom (c_dom c) e in
    if negb (i_contains d x0) then (e, c_next c x0 own None) else (e, Ok (Some x0)).

(* extremas.py:38-43 continue_scan, with scan.py:34-35; [cur] is self.current *)
Definition ex_continue (gd : ival T) (e : exs) (cur x : T) : exs * bool :=
  if cur <? x then (e, true)
  else
    let '(e, d) := ex_dom gd e in
    if negb (i_contains d cur) then (e, false)
    else (e, negb (i_contains_gen false true (x_int e) x)).

(* scan.py:56-67: the loop of scan.  Fuel stands for the unbounded while. *)
Fixpoint ex_loop (fuel : nat) (c : crv T V) (own : option T) (dev : T) (r : T -> res V)
    (x0 : T) (e : exs) : exs * res unit :=
  match fuel with
  | O => (e, Err EFuel)
  | S f =>
      let '(e, go) := match x_cur e with None => (e, true) | Some cur => ex_continue (c_dom c) e cur x0 end in
      if go then
        let '(e, n) :=
          match x_cur e with
          | None => let '(e, n) := ex_init_scan c own e x0 in
                    match n with Ok o => (xset_start e o, n) | Err _ => (e, n) end
          | Some cur => (e, ex_next c own e cur own (Some x0))
          end in
        match n with
        | Err er => (e, Err er)
        | Ok None => (e, Ok tt)
        | Ok (Some current) =>
            if negb (i_contains (c_dom c) current) then (e, Ok tt)
            else if (match x_cur e with Some cur => current <=? cur | None => false end) then (e, Err EExc)
            else
              match c_y c current with
              | Err er => (e, Err er)
              | Ok y =>
                  let '(e, t) := extrema_scan dev r e current y in
                  match t with
                  | Err er => (e, Err er)
                  | Ok _ => ex_loop f c own dev r x0 (xset_cur e (Some current))
                  end
              end
        end
      else (e, Ok tt)
  end.

(* scan.py:52-55 scan *)
Definition ex_scan (fuel : nat) (c : crv T V) (own : option T) (dev : T) (r : T -> res V) (x0 : T) (e : exs) : exs * res unit :=
  let e := match x_start e with Some s => if x0 <? s then ex_reset e else e | None => e end in
  ex_loop fuel c own dev r x0 e.

(* scan.py:25-29 y *)
Definition ex_y (fuel : nat) (c : crv T V) (own : option T) (dev : T) (r : T -> res V) (e : exs) (x : T) : exs * res V :=
  let '(e, out) :=
    if negb (i_contains (c_dom c) x) then let '(e, d) := ex_dom (c_dom c) e in (e, negb (i_contains d x))
    else (e, false) in
  if out then (e, Ok None)
  else
    let '(e, t) := ex_scan fuel c own dev r x e in
    match t with
    | Err er => (e, Err er)
    | Ok _ => (e, ex_scanned e x)
    end.

(* extremas.py:68-73, the loop from the last extrema down: the extremas kept, in
   the same reversed order, and whether any was removed *)
Fixpoint ex_prune (d : ival T) (l : list (T * T)) : list (T * T) * bool :=
  match l with
  | [] => ([], false)
  | p :: l' =>
      if i_contains d (fst p) then (fst (ex_prune d l'), true)
      else if n_gtb (i_start d) (fst p) then (p :: l', false)
      else let '(l', b) := ex_prune d l' in (p :: l', b)
  end.

(* extremas.py:65-84 begin_update, with 116-119 _remove_extrema_index *)
Definition ex_begin (r : T -> res V) (e : exs) (d : ival T) : exs * list (ev T) * res unit :=
  let '(u, o) := begin_update (x_upd e) d in
  let e := xset_upd e u in
  let '(l, b) := ex_prune d (rev (x_ext e)) in
  let e := if b then did_update e (rev l) else e in
  match last_opt (x_ext e) with
  | None => (xset_cur e None, ev_begin o, Ok tt)
  | Some p =>
      let e := xset_cur (xset_poss e (Some p) (x_phase e)) (Some (fst p)) in
      match r (fst p) with
      | Err er => (e, ev_begin o, Err er)
      | Ok None => (e, ev_begin o, Err EType)
      | Ok (Some y0) => (xset_poss e (Some p) (Some (snd p - y0)), ev_begin o, Ok tt)
      end
  end.

(* curve.py:446-462 end_update *)
Definition ex_end (e : exs) (d : ival T) : exs * list (ev T) * res unit :=
  let '(u, o) := end_update (x_upd e) d in (xset_upd e u, ev_end o, Ok tt).

(* scan.py:98-107 begin_scan_update, 109-111 end_scan_update, as observers of
   the source; extremas.py:20 observes the reference with begin_update and
   end_update themselves *)
Definition ex_begin_scan (r : T -> res V) (e : exs) (d : ival T) : exs * list (ev T) * res unit :=
  let d := update_interval d in
  let e := match x_cur e with
           | Some cur => if (i_start d <? cur) || ((i_start d =? cur) && negb (i_so d)) then ex_reset e else e
           | None => e
           end in
  let e := match x_cur e, x_start e with
           | Some cur, Some s => if cur <? s then ex_reset e else e
           | _, _ => e
           end in
  ex_begin r e d.
Definition ex_end_scan (e : exs) (d : ival T) : exs * list (ev T) * res unit := ex_end e (update_interval d).

(** The notifications of the source, in order; an exception in a callback stops
    the rest. *)
Fixpoint ex_events (r : T -> res V) (e : exs) (evs : list (ev T)) : exs * list (ev T) * res unit :=
  match evs with
  | [] => (e, [], Ok tt)
  | v :: evs' =>
      let '(e, o, t) := match v with EvBegin d => ex_begin_scan r e d | EvEnd d => ex_end_scan e d end in
      match t with
      | Err er => (e, o, Err er)
      | Ok _ => let '(e, o', t) := ex_events r e evs' in (e, o ++ o', t)
      end
  end.
(** The same for the reference. *)
Fixpoint ex_ref_events (r : T -> res V) (e : exs) (evs : list (ev T)) : exs * list (ev T) * res unit :=
  match evs with
  | [] => (e, [], Ok tt)
  | v :: evs' =>
      let '(e, o, t) := match v with EvBegin d => ex_begin r e d | EvEnd d => ex_end e d end in
      match t with
      | Err er => (e, o, Err er)
      | Ok _ => let '(e, o', t) := ex_ref_events r e evs' in (e, o ++ o', t)
      end
  end.

(* extremas.py:86-88 sample_points filters what the inherited method returns *)
Definition ex_sample (ps : list (T * V)) : list (T * V) :=
  filter (fun p => match snd p with Some _ => true | None => false end) ps.

End Extremas.
Arguments exs T : clear implicits.
