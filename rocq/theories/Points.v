(** Model of /repo/curvepy/points.py, class Points. *)
From Coq Require Import List ZArith Bool.
From Verif Require Import Base Num Interval Curve.
Import ListNotations.
Open Scope num_scope.
Open Scope bool_scope.

(* points.py:5-13 *)
Inductive interp := IPrevious | ILinear | INext.

(** What Points needs to know about the stored values: Python's None, and the
    linear blend [(1.0 - u) * y1 + u * y2] with its None check
    (points.py:236-240). *)
Class Val (T V : Type) := {
  v_none : V;
  v_lerp : T -> V -> V -> res V
}.

(** Numeric values. *)
#[export] Instance NumVal {T} {N : Num T} : Val T (option T) := {|
  v_none := None;
  v_lerp := fun u y1 y2 =>
    match y1, y2 with
    | Some a, Some b => Ok (Some ((n_one - u) * a + u * b))
    | _, _ => Ok None
    end
|}.

Section Points.
Context {T : Type} {N : Num T} {V : Type} {W : Val T V}.

Record pts := mkP {
  p_pts : list (T * V);        (* _points *)
  p_int : option T;            (* interval *)
  p_force : bool;              (* _force_equally_spaced (argument uniform) *)
  p_eq : bool;                 (* _is_equally_spaced; None before the first set is false *)
  p_interp : interp;           (* interpolation *)
  p_upd : upd T                (* pending update intervals and cached domain *)
}.

Definition set_upd (s : pts) (u : upd T) : pts :=
  mkP (p_pts s) (p_int s) (p_force s) (p_eq s) (p_interp s) u.
Definition set_pts (s : pts) (l : list (T * V)) : pts :=
  mkP l (p_int s) (p_force s) (p_eq s) (p_interp s) (p_upd s).
Definition set_eq (s : pts) (b : bool) : pts :=
  mkP (p_pts s) (p_int s) (p_force s) b (p_interp s) (p_upd s).
Definition set_int (s : pts) (i : option T) : pts :=
  mkP (p_pts s) i (p_force s) (p_eq s) (p_interp s) (p_upd s).

(* points.py:27-31 is_uniform *)
Definition p_uniform (s : pts) : bool := if p_force s then true else p_eq s.

(* points.py:33-36 get_domain *)
Definition pts_domain (l : list (T * V)) : ival T :=
  match head_opt l, last_opt l with
  | Some a, Some b => mkI (fst a) (fst b) false false
  | _, _ => i_empty
  end.

(* curve.py:36-40 the cached domain property: value, and state after reading *)
Definition p_dom (s : pts) : ival T :=
  match u_dom (p_upd s) with Some d => d | None => pts_domain (p_pts s) end.
Definition p_touch (s : pts) : pts :=
  set_upd s (mkU (u_begin (p_upd s)) (u_end (p_upd s)) (Some (p_dom s))).

(* points.py:343-362 _bisect_points; [hi - lo] decreases, fuel = length + 1 *)
Fixpoint bisect_loop (fuel : nat) (a : list (T * V)) (x : T) (lo hi : Z) : res Z :=
  match fuel with
  | O => Err EFuel
  | S f =>
      if (lo <? hi)%Z then
        let mid := ((lo + hi) / 2)%Z in
        let! p := py_nth a mid in
        if fst p <? x then bisect_loop f a x (mid + 1)%Z hi
        else bisect_loop f a x lo mid
      else Ok lo
  end.
Definition bisect_points (a : list (T * V)) (x : T) : res Z :=
  bisect_loop (S (length a)) a x 0%Z (Z.of_nat (length a)).

(* points.py:284-299 x_index *)
Definition x_index (s : pts) (x : T) : res T :=
  if p_uniform s then
    match p_int s with
    | None => Ok n_zero
    | Some h => let! p0 := py_nth (p_pts s) 0 in n_div (x - fst p0) h
    end
  else
    let! i1 := bisect_points (p_pts s) x in
    let i0 := (i1 - 1)%Z in
    if (i0 <? 0)%Z then Ok (n_ofZ i1)
    else if (Z.of_nat (length (p_pts s)) <=? i1)%Z then Ok (n_ofZ i0)
    else
      let! p0 := py_nth (p_pts s) i0 in
      let! p1 := py_nth (p_pts s) i1 in
      let! u := n_div (x - fst p0) (fst p1 - fst p0) in
      Ok (n_ofZ i0 + u).

(* points.py:227-246 y *)
Definition p_y (s : pts) (x : T) : res V :=
  if negb (i_contains (p_dom s) x) then Ok v_none
  else
    let! i_ := x_index s x in
    let u := n_mod1 i_ in
    let! i := n_trunc i_ in
    if u =? n_zero then let! p := py_nth (p_pts s) i in Ok (snd p)
    else match p_interp s with
         | ILinear =>
             let! p1 := py_nth (p_pts s) i in
             let! p2 := py_nth (p_pts s) (i + 1)%Z in
             v_lerp u (snd p1) (snd p2)
         | IPrevious => let! p := py_nth (p_pts s) i in Ok (snd p)
         | INext => let! p := py_nth (p_pts s) (i + 1)%Z in Ok (snd p)
         end.

(* points.py:248-256 y_start, y_end *)
Definition p_y_start (s : pts) : res V :=
  if i_is_empty (p_dom s) then Ok v_none
  else let! p := py_nth (p_pts s) 0 in Ok (snd p).
Definition p_y_end (s : pts) : res V :=
  if i_is_empty (p_dom s) then Ok v_none
  else let! p := py_nth (p_pts s) (-1) in Ok (snd p).

(* points.py:260-270 x_next ([limit] is ignored by the code).  The curve's own
   min_step is None (points.py:42).  A None step makes [x + None] raise. *)
Definition p_x_next (s : pts) (x : T) (ms limit : option T) : res (option T) :=
  if i_is_empty (p_dom s) then Ok None
  else match resolve_min_step None ms with
  | None => Err EType
  | Some m =>
      if negb (i_contains_gen false true (p_dom s) (x + m)) then Ok None
      else if n_isinf x && (x <? n_zero) then Ok (Some (i_start (p_dom s)))
      else
        let! q := x_index s (x + m) in
        let! c := n_ceil q in
        let! p := py_nth (p_pts s) (Z.max 0 c) in
        Ok (Some (fst p))
  end.

(* points.py:272-282 x_previous *)
Definition p_x_previous (s : pts) (x : T) (ms limit : option T) : res (option T) :=
  if i_is_empty (p_dom s) then Ok None
  else match resolve_min_step None ms with
  | None => Err EType
  | Some m =>
      if negb (i_contains_gen true false (p_dom s) (x - m)) then Ok None
      else if n_isinf x && (x >? n_zero) then Ok (Some (i_end (p_dom s)))
      else
        let! q := x_index s (x - m) in
        let! f := n_floor q in
        let! p := py_nth (p_pts s) (Z.min (Z.of_nat (length (p_pts s)) - 1) f) in
        Ok (Some (fst p))
  end.

(* points.py:317-324: first loop of _domain_indexes *)
Fixpoint di_start_loop (fuel : nat) (l : list (T * V)) (d : ival T) (i : Z) : res Z :=
  match fuel with
  | O => Err EFuel
  | S f =>
      if (i <? Z.of_nat (length l))%Z then
        let! p := py_nth l i in
        if fst p >=? i_end d then Ok i
        else if i_contains d (fst p) then Ok i
        else di_start_loop f l d (i + 1)%Z
      else Ok i
  end.
(* points.py:331-338: second loop *)
Fixpoint di_end_loop (fuel : nat) (l : list (T * V)) (d : ival T) (i : Z) : res Z :=
  match fuel with
  | O => Err EFuel
  | S f =>
      if (0 <=? i)%Z then
        let! p := py_nth l i in
        if fst p <=? i_start d then Ok i
        else if i_contains d (fst p) then Ok i
        else di_end_loop f l d (i - 1)%Z
      else Ok i
  end.

(* points.py:301-341 _domain_indexes *)
Definition domain_indexes (s : pts) (domain : ival T) : res (Z * Z) :=
  let n := Z.of_nat (length (p_pts s)) in
  let fuel := S (S (length (p_pts s))) in
  if i_superset domain (p_dom s) then Ok (0%Z, n)
  else
    let d := i_inter2 domain (p_dom s) in
    if i_is_empty d then Ok (0%Z, 0%Z)
    else
      let! start_i :=
        if i_is_negative_infinite d then Ok 0%Z
        else let! q := x_index s (i_start d) in
             let! f := n_floor q in
             di_start_loop fuel (p_pts s) d (Z.max 0 f) in
      let! end_i :=
        if i_is_positive_infinite d then Ok n
        else let! q := x_index s (i_end d) in
             let! c := n_ceil q in
             let! i := di_end_loop fuel (p_pts s) d (Z.min n c) in
             Ok (i + 1)%Z in
      Ok (start_i, end_i).

(* points.py:198-202 _did_change_points: the new [interval].
   [len_points - 1] is a positive integer here, so the division is defined. *)
Definition span_interval (l : list (T * V)) : res (option T) :=
  match l with
  | [] | [_] => Ok None
  | a :: _ =>
      match last_opt l with
      | Some b =>
          let! q := n_div (fst b - fst a) (n_ofZ (Z.of_nat (length l) - 1)) in
          Ok (Some q)
      | None => Ok None
      end
  end.

(* points.py:204-225 _points_equally_spaced *)
Definition points_equally_spaced (interval : option T) (old new : list (T * V)) : res bool :=
  let ol := length old in
  let nl := length new in
  if (Nat.eqb nl 0) || Nat.ltb (ol + nl) 2 then Ok true
  else
    let! (start, steps) :=
      if negb (Nat.eqb ol 0) then
        let! p := py_nth old (-1) in Ok (fst p, Z.of_nat nl)
      else
        let! p := py_nth new 0 in Ok (fst p, (Z.of_nat nl - 1)%Z) in
    let! iv :=
      match interval with
      | Some h => Ok h
      | None =>
          if Nat.eqb ol 1 then
            let! a := py_nth new 0 in
            let! b := py_nth old (-1) in
            Ok (fst a - fst b)
          else
            let! a := py_nth new 1 in
            let! b := py_nth new 0 in
            Ok (fst a - fst b)
      end in
    let! z := py_nth new (-1) in
    Ok (fst z =? (start + iv * n_ofZ steps)).

(** An operation that may mutate: final state, events, result. *)
Definition out (A : Type) : Type := pts * list (ev T) * res A.

Definition p_begin (s : pts) (d : ival T) : pts * list (ev T) :=
  let '(u, o) := begin_update (p_upd s) d in (set_upd s u, ev_begin o).
Definition p_end (s : pts) (d : ival T) : pts * list (ev T) :=
  let '(u, o) := end_update (p_upd s) d in (set_upd s u, ev_end o).

(** Common tail of set/append_list/replace: store points, recompute interval,
    end the update (points.py:83-85, 173-175, 108-109). *)
Definition p_finish (s : pts) (l : list (T * V)) (d : ival T) (evs : list (ev T)) : out unit :=
  match span_interval l with
  | Err e => (set_pts s l, evs, Err e)
  | Ok h =>
      let s := set_int (set_pts s l) h in
      let '(s, ev2) := p_end s d in
      (s, evs ++ ev2, Ok tt)
  end.

(* points.py:159-175 set *)
Definition p_set (s : pts) (points : list (T * V)) (update_domain : option (ival T)) : out unit :=
  let '(s, d) :=
    match update_domain with
    | Some d => (s, d)
    | None =>
        let s := p_touch s in
        match head_opt points, last_opt points with
        | Some a, Some b => (s, i_union2 (p_dom s) (i_closed (fst a) (fst b)))
        | _, _ => (s, p_dom s)
        end
    end in
  let '(s, ev1) := p_begin s d in
  match points_equally_spaced (p_int s) [] points with
  | Err e => (s, ev1, Err e)
  | Ok b =>
      let s := set_eq s b in
      if p_force s && negb b then (s, ev1, Err EExc)
      else p_finish s points d ev1
  end.

(* points.py:38-53 __init__ *)
Definition p_empty (ip : interp) (uniform : bool) : pts :=
  mkP [] None uniform false ip upd_init.
Definition p_init (points : list (T * V)) (ip : interp) (uniform : bool) : out unit :=
  p_set (p_empty ip uniform) points None.

(* points.py:61-85 append_list *)
Definition p_append_list (s : pts) (points : list (T * V)) : out unit :=
  match p_pts s with
  | [] => p_set s points None
  | _ =>
      match head_opt points, last_opt points, last_opt (p_pts s) with
      | Some a, Some b, Some z =>
          if fst a <=? fst z then (s, [], Err EExc)
          else
            let s := p_touch s in
            let d := if i_is_empty (p_dom s) then i_closed (fst a) (fst b)
                     else mkI (i_end (p_dom s)) (fst b) true false in
            let '(s, ev1) := p_begin s d in
            match points_equally_spaced (p_int s) (p_pts s) points with
            | Err e => (s, ev1, Err e)
            | Ok q =>
                let s := set_eq s q in
                if p_force s && negb q then (s, ev1, Err EExc)
                else p_finish s (p_pts s ++ points) d ev1
            end
      | _, _, _ => (s, [], Ok tt)
      end
  end.

(* points.py:55-59 append *)
Definition p_append (s : pts) (p : T * V) : out unit := p_append_list s [p].

(* points.py:87-109 replace.  [nearest_i] may be negative or out of range only
   with rounding; then py_nth / the list update follow Python. *)
Definition p_replace (s : pts) (p : T * V) (or_append : bool) : out unit :=
  let s := p_touch s in
  if negb (i_contains (p_dom s) (fst p)) then
    (if or_append then p_append s p else (s, [], Err EExc))
  else
    let d := i_point (fst p) in
    let '(s, ev1) := p_begin s d in
    match (let! q := x_index s (fst p) in
           let! i := n_ceil q in
           let! np := py_nth (p_pts s) i in Ok (i, np)) with
    | Err e => (s, ev1, Err e)
    | Ok (i, np) =>
        if negb (fst p =? fst np) then
          if p_force s then (s, ev1, Err EExc)
          else p_finish (set_eq s false) (list_insert (p_pts s) (Z.to_nat i) p) d ev1
        else p_finish s (list_set (p_pts s) (Z.to_nat i) p) d ev1
    end.

(* points.py:111-157 reset *)
Definition p_reset (s : pts) (domain : option (ival T)) : out unit :=
  match p_pts s with
  | [] => (s, [], Ok tt)
  | p_first :: _ =>
      match domain with
      | None => p_set s [] None
      | Some d =>
          let s := p_touch s in
          if negb (i_intersects (p_dom s) d) then (s, [], Ok tt)
          else if i_superset d (p_dom s) then p_set s [] None
          else
            match domain_indexes s d with
            | Err e => (s, [], Err e)
            | Ok (a, b) =>
                if (a =? b)%Z then (s, [], Ok tt)
                else
                  let head := py_upto (p_pts s) a in
                  let tail := py_from (p_pts s) b in
                  let head := match last_opt head with
                              | Some h => if i_contains d (fst h) then removelast head else head
                              | None => head
                              end in
                  let tail := match tail with
                              | t :: tl => if i_contains d (fst t) then tl else tail
                              | [] => tail
                              end in
                  match last_opt head, head_opt tail with
                  | None, None => p_set s [] None
                  | oh, ot =>
                      let '(us, uso) := match oh with
                                        | Some h => (fst h, true)
                                        | None => (fst p_first, false)
                                        end in
                      let '(ue, ueo) := match ot with
                                        | Some t => (fst t, true)
                                        | None => (match last_opt (p_pts s) with
                                                   | Some z => fst z
                                                   | None => us
                                                   end, false)
                                        end in
                      p_set s (head ++ tail) (Some (mkI us ue uso ueo))
                  end
            end
      end
  end.

(** The curve interface of a Points object (used by derived curves). *)
Definition p_crv (s : pts) : crv T V :=
  mkC (p_dom s) (p_y s) (p_x_next s) (p_x_previous s) None.

(* points.py:177-196 sample_points.  The irregular branch calls the base class
   (fuelled). *)
Definition p_sample_points (fuel : nat) (s : pts) (domain : option (ival T))
    (ms step : option T) : res (list (T * V)) :=
  let domain := i_parse domain in
  if i_is_empty (p_dom s) then Ok []
  else
    let irregular :=
      match p_int s with
      | None => false
      | Some h =>
          (match ms with Some m => m >? h | None => false end)
          || (match step with Some k => negb (k =? h) | None => false end)
      end in
    if irregular then sample_points fuel (p_crv s) (Some domain) ms step
    else if i_superset domain (p_dom s) then Ok (p_pts s)
    else
      let d := i_inter2 (p_dom s) domain in
      if i_is_empty d then Ok []
      else let! (i0, i1) := domain_indexes s d in
           Ok (py_slice (p_pts s) i0 i1).

End Points.
Arguments pts T V : clear implicits.
Arguments out T V A : clear implicits.
