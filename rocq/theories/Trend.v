(** Model of /repo/curvepy/trend.py: the geometry helpers, TrendLine and Trend.

    Simplifications.
    - A method that raises half-way leaves a partly updated object; the model
      returns only the exception.
    - numpy's polyfit (trend.py:933-939) is a parameter [polyfit] giving the
      constant and the slope.
    - EPSILON_ZERO, GOLD and GOLD_2 are parameters.
    - The attributes prediction_line, prediction_trend_line, x_tol_rel,
      x_tol_abs and search_length_int_rel are written but never read in the
      package and are left out.  line_extended, copies and iteration: TrendMore.v.
    - trend.py:945 makes [_line] the same list object as [trend_points] when
      there are two trend points.  Every change of [trend_points] is followed by
      update_trend, which sets [_line] anew before its elements are read, so
      the model keeps two values.
    - sorted() is a stable insertion sort by [<], which is what it computes when
      no key is nan.
    - math.pow(d, 2.0) (trend.py:438) is d * d; it raises OverflowError where
      the product is infinite, the model does not.
    - Trend's superclass Scan feeds (x, y) pairs to _trend_scan; the model takes
      the pairs.  See Scan.v for scan.py. *)
From Coq Require Import List ZArith Bool.
From Verif Require Import Base Num Interval Points.
Import ListNotations.
Open Scope num_scope.
Open Scope bool_scope.

Section Trend.
Context {T : Type} {N : Num T}.
Variables (eps gold gold2 : T).
Definition pt : Type := (T * T)%type.
Definition seg : Type := (pt * pt)%type.

(** None where a number is needed raises TypeError. *)
Definition need {A} (o : option A) : res A := match o with Some a => Ok a | None => Err EType end.

(* trend.py:1021-1031 _line_y *)
Definition seg_y (l : seg) (x : T) : res (option T) :=
  let '((x1, y1), (x2, y2)) := l in
  if x2 =? x1 then Ok (if x1 =? x then Some y1 else None)
  else let! m := n_div (y2 - y1) (x2 - x1) in Ok (Some (y1 + m * (x - x1))).

(* trend.py:1033-1045 _line_x *)
Definition seg_x (l : seg) (y : T) : res (option T) :=
  let '((x1, y1), (x2, y2)) := l in
  if x2 =? x1 then Ok (Some x1)
  else
    let! m := n_div (y2 - y1) (x2 - x1) in
    if m =? n_zero then Ok (if y1 =? y then Some x1 else None)
    else let! d := n_div (y - y1) m in Ok (Some (x1 + d)).

(* trend.py:967-981 _line_intersection *)
Definition det (a b : pt) : T := fst a * snd b - snd a * fst b.
Definition seg_meet (l1 l2 : seg) : res (option pt) :=
  let xd := (fst (fst l1) - fst (snd l1), fst (fst l2) - fst (snd l2)) in
  let yd := (snd (fst l1) - snd (snd l1), snd (fst l2) - snd (snd l2)) in
  let div := det xd yd in
  if div =? n_zero then Ok None
  else
    let d := (det (fst l1) (snd l1), det (fst l2) (snd l2)) in
    let! x := n_div (det d xd) div in
    let! y := n_div (det d yd) div in
    Ok (Some (x, y)).

(* trend.py:1075-1076 _average_point_of_2 *)
Definition average2 (p1 p2 : pt) : res pt :=
  let! x := n_div (fst p1 + fst p2) (n_ofZ 2) in
  let! y := n_div (snd p1 + snd p2) (n_ofZ 2) in Ok (x, y).

(* trend.py:1012-1019 _is_value_within_tolerance *)
Definition within_tol (rel abs : option T) (y y0 : option T) : res bool :=
  match y, y0 with
  | Some y, Some y0 =>
      if (match abs with Some a => n_abs (y - y0) >? a | None => false end) then Ok false
      else match rel with
           | Some r => if (n_abs y0 >? eps) && (n_abs y >? eps)
                       then let! q := n_div y y0 in Ok (negb (n_abs (q - n_one) >? r))
                       else Ok true
           | None => Ok true
           end
  | _, _ => Ok false
  end.

(* trend.py:1006-1010 _is_point_on_line, 1001-1004 _is_coincident_points *)
Definition on_line (rel abs : option T) (l : seg) (p : pt) : res bool :=
  let! y0 := seg_y l (fst p) in within_tol rel abs (Some (snd p)) y0.
Definition coincident (rel abs : option T) (p0 p1 p2 : pt) : res bool := on_line rel abs (p0, p2) p1.

(* trend.py:983-999 _is_strictly_convex_points *)
Definition strictly_convex (rel abs : option T) (p0 p1 p2 : pt) : res bool :=
  let y := snd p1 in
  let! o := seg_y (p0, p2) (fst p1) in
  match o with
  | None => Ok false
  | Some y0 =>
      if (match abs with Some a => y0 - y <? a | None => false end) then Ok false
      else match rel with
           | Some r => if (n_abs y0 >? eps) && (n_abs y >? eps)
                       then let! q := n_div y0 y in Ok (negb (q - n_one <? r))
                       else Ok true
           | None => Ok true
           end
  end.

(* trend.py:1051-1073 _insort_point_left; the loop is the one of
   points.py:343-362, modelled by bisect_loop *)
Definition insort (a : list pt) (p : pt) (lo : Z) (hi : option Z) (no_repeat : bool) : res (list pt) :=
  if (lo <? 0)%Z then Err EValue
  else
    let hi := match hi with Some h => h | None => Z.of_nat (length a) end in
    let! i := bisect_loop (S (Z.to_nat (hi - lo))) a (fst p) lo hi in
    if no_repeat && (i <? Z.of_nat (length a))%Z
       && (match nth_error a (Z.to_nat i) with Some q => fst p =? fst q | None => false end)
    then Ok a else Ok (list_insert a (Z.to_nat i) p).

(* trend.py:1047-1049 _insort_points_left *)
Fixpoint insorts (a : list pt) (ps : list pt) : res (list pt) :=
  match ps with
  | [] => Ok a
  | p :: ps => let! a := insort a p 0 None false in insorts a ps
  end.

(* trend.py:941-954 _line_fit, 933-939 _line_fit_f *)
Variable polyfit : list pt -> T * T.
Definition line_fit (ps : list pt) : option seg :=
  match ps with
  | [] | [_] => None
  | [a; b] => Some (a, b)
  | a :: _ =>
      let '(c, m) := polyfit ps in
      let x0 := fst a in
      let x1 := match last_opt ps with Some z => fst z | None => x0 end in
      Some ((x0, c + m * x0), (x1, c + m * x1))
  end.

(** ** TrendLine *)

(* trend.py:318-328 the arguments *)
Record cfg := mkG {
  g_width : T; g_upper : bool; g_minp : Z; g_dist : T; g_len : T; g_rel : option T; g_abs : option T
}.

(* trend.py:678-699 reset_prediction: the prediction attributes *)
Record pred := mkP {
  q_phase : nat;                 (* 0 none, 1 intersected, 2 retested, 3 confirmed, 4 fulfilled *)
  q_origin : option pt; q_inter : option pt; q_extrema : option pt; q_retest : option pt;
  q_rxmax : option T;            (* prediction_retest_x_max *)
  q_conf : option seg;           (* prediction_confirmation_line *)
  q_y : option T; q_ymin : option T; q_ymax : option T; q_xmin : option T; q_xmax : option T;
  q_failed : bool; q_ok : bool; q_okpt : option pt; q_valid : bool;
  q_seen : option pt;            (* _prediction_last_seen_extrema_point *)
  q_done : option T;             (* _prediction_x_processed *)
  q_tan : Z                      (* _prediction_tangent_before_intersection_count *)
}.
Definition pred0 : pred :=
  mkP 0 None None None None None None None None None None None false false None false None None 0.

(* trend.py:330-340 the attributes *)
Record tl := mkTL {
  t_pts : list pt;               (* trend_points *)
  t_bnd : list pt;               (* _boundary_points *)
  t_tan : list pt;               (* tangent_points *)
  t_line : option seg;           (* _line *)
  t_upper : option seg; t_lower : option seg;  (* the tolerance lines *)
  t_int : ival T;                (* search_interval *)
  t_cross : list pt;             (* intersections *)
  t_ext : list pt;               (* extremas *)
  t_pred : pred
}.
Definition tl0 : tl := mkTL [] [] [] None None None i_empty [] [] pred0.

Section Line.
Variable g : cfg.

(* trend.py:289-291 width *)
Definition width (t : tl) : T :=
  match t_pts t, last_opt (t_pts t) with
  | a :: _ :: _, Some z => fst z - fst a
  | _, _ => n_zero
  end.

(* trend.py:267-275: counts the neighbours that are far enough apart; the
   early break does not change the answer *)
Fixpoint far_count (d : T) (l : list pt) : Z :=
  match l with
  | a :: ((b :: _) as l') => let k : Z := if fst b - fst a >=? d then 1%Z else 0%Z in (k + far_count d l')%Z
  | _ => 0%Z
  end.

(* trend.py:258-282 is_ready, is_valid; lines 263-264, then 266-277 *)
Definition is_ready (t : tl) : bool := match t_line t with Some _ => true | None => false end.
Definition is_valid (t : tl) : bool :=
  is_ready t && negb (width t <? g_width g) && (g_minp g <=? Z.of_nat (length (t_pts t)))%Z
  && (g_minp g <=? 1 + far_count (g_dist g) (t_pts t))%Z.

(* trend.py:376-378 y *)
Definition tl_y (t : tl) (x : T) : res T :=
  let! l := need (t_line t) in let! y := seg_y l x in need y.

(* trend.py:384-387 is_point_on_trend, 868-872 *)
Definition on_trend (t : tl) (p : pt) : res bool :=
  match t_line t with
  | None => Ok false
  | Some _ =>
      if negb (i_contains (t_int t) (fst p)) then Ok false
      else
        let! lo := need (t_lower t) in
        let! lo := seg_y lo (fst p) in
        let! lo := need lo in
        if snd p >=? lo then
          let! hi := need (t_upper t) in
          let! hi := seg_y hi (fst p) in
          let! hi := need hi in
          Ok (snd p <=? hi)
        else Ok false
  end.

(* trend.py:391-395 is_line_coincident *)
Definition line_coincident (t : tl) (other : tl) : res bool :=
  let! l := need (t_line other) in
  let! a := on_trend t (fst l) in
  if a then on_trend t (snd l) else Ok false.

(* trend.py:840-852 _value_tolerance_min, 854-866 _value_tolerance_max *)
Definition tol_min (y : T) : T :=
  let a := match g_abs g with Some a => Some (y - a) | None => None end in
  let a := match g_rel g with
           | Some r => if n_abs y >? eps then
                         let v := y * (n_one - r) in
                         Some (match a with None => v | Some a => n_max a v end)
                       else a
           | None => a
           end in
  match a with None => y | Some a => a end.
Definition tol_max (y : T) : T :=
  let a := match g_abs g with Some a => Some (y + a) | None => None end in
  let a := match g_rel g with
           | Some r => if n_abs y >? eps then
                         let v := y * (n_one + r) in
                         Some (match a with None => v | Some a => n_min a v end)
                       else a
           | None => a
           end in
  match a with None => y | Some a => a end.

(* trend.py:835-838 the method _is_value_within_tolerance *)
Definition method_within (y ref : option T) : bool :=
  match y, ref with
  | Some y, Some r => (y <? tol_min r) || (y >? tol_max r)
  | _, _ => false
  end.

(** *** set_trend_with_boundary_points *)

(* del l[i] *)
Definition del {A} (l : list A) (i : nat) : list A := firstn i l ++ skipn (S i) l.

(** The state of the removal loops: extremas, _boundary_points,
    coincident_points, did_remove. *)
Definition prune := (list pt * list pt * list pt * bool)%type.

(* trend.py:406-417 the for loop, from index [i - 1] down to 0 *)
Fixpoint prune_for (i : nat) (s : prune) : res prune :=
  match i with
  | O => Ok s
  | S i =>
      let '(ex, bnd, co, rem) := s in
      match skipn i ex with
      | p0 :: p1 :: p2 :: _ =>
          let! c := coincident (g_rel g) (g_abs g) p0 p1 p2 in
          let! v := strictly_convex (g_rel g) (g_abs g) p0 p1 p2 in
          if c || eqb v (g_upper g) then
            let co := if c && (match last_opt co with None => true | Some z => negb (fst z =? fst p1) end)
                      then co ++ [p1] else co in
            let bnd := if c then bnd else del bnd (S i) in
            prune_for i (del ex (S i), bnd, co, true)
          else prune_for i s
      | _ => Err EExc
      end
  end.

(* trend.py:403-417 the while loop *)
Fixpoint prune_while (fuel : nat) (ex bnd co : list pt) : res (list pt * list pt * list pt) :=
  match fuel with
  | O => Err EFuel
  | S f =>
      let! (ex, bnd, co, rem) := prune_for (length ex - 2) (ex, bnd, co, false) in
      if (rem : bool) then prune_while f ex bnd co else Ok (ex, bnd, co)
  end.

(* trend.py:420-423 *)
Fixpoint prune_near (i : nat) (ex : list pt) : list pt :=
  match i with
  | O => ex
  | S i =>
      match skipn i ex with
      | p0 :: p1 :: p2 :: _ =>
          if (fst p1 - fst p0 <? g_dist g) || (fst p2 - fst p1 <? g_dist g)
          then prune_near i (del ex (S i)) else prune_near i ex
      | _ => ex
      end
  end.

(* trend.py:435-439 line_fitness *)
Fixpoint fitness (l : seg) (error_sum : T) (ps : list pt) : res T :=
  match ps with
  | [] => Ok error_sum
  | p :: ps =>
      let! y := seg_y l (fst p) in
      let! y := need y in
      fitness l (error_sum + (snd p - y) * (snd p - y)) ps
  end.
(* trend.py:431-433 the consecutive pairs *)
Fixpoint pairs (l : list pt) : list seg :=
  match l with a :: ((b :: _) as l') => (a, b) :: pairs l' | _ => [] end.
(* trend.py:441-442 the first line of least fitness *)
Fixpoint best_line (bnd : list pt) (best : option (seg * T)) (l : list seg) : res (option seg) :=
  match l with
  | [] => Ok (match best with Some (s, _) => Some s | None => None end)
  | s :: l =>
      let! f := fitness s n_zero bnd in
      best_line bnd (match best with
                     | Some (b, fb) => if f <? fb then Some (s, f) else best
                     | None => Some (s, f)
                     end) l
  end.

(* trend.py:444-456 add_coincident_points *)
Fixpoint keep_on_line (l : seg) (ps : list pt) : res (list pt) :=
  match ps with
  | [] => Ok []
  | p :: ps =>
      let! b := on_line (g_rel g) (g_abs g) l p in
      let! r := keep_on_line l ps in
      Ok (if (b : bool) then p :: r else r)
  end.

(* trend.py:398-459: the new trend points and boundary points *)
Definition set_trend (bnd : list pt) : res (list pt * list pt) :=
  let! (ex, bnd, co) := prune_while (S (length bnd)) bnd bnd [] in
  let ex := prune_near (length ex - 2) ex in
  let! fin :=
    match ex with
    | [a; b] => Ok (Some (a, b))
    | a :: _ :: _ => best_line bnd None (pairs ex)
    | _ => Ok None
    end in
  match fin with
  | None => Ok (ex, bnd)
  | Some l => let! r := keep_on_line l co in Ok (fst l :: r ++ [snd l], bnd)
  end.

(** *** update_trend *)

(* trend.py:878-894 *)
Definition tolerance_line (t : tl) (upper : bool) : option seg :=
  match t_pts t, t_line t with
  | _ :: _ :: _, Some ((x0, y0), (x1, y1)) =>
      let f := if upper then tol_max else tol_min in
      Some ((x0, f y0), (x1, f y1))
  | _, _ => None
  end.

(* trend.py:526-571 update_interval *)
Definition new_interval (t : tl) : ival T :=
  match t_line t with
  | None => match t_pts t with [p] => i_point (fst p) | _ => i_empty end
  | Some ((x0, _), (x1, _)) =>
      if x0 =? x1 then i_point x0
      else if g_len g <=? n_zero then i_closed x0 x1
      else
        let i := match t_cross t with
                 | [] => None
                 | i :: _ => if fst i <=? x0 then None else Some (fst i)
                 end in
        let len :=
          match i with
          | None => (x1 - x0) * g_len g
          | Some i => if (g_minp g <=? Z.of_nat (length (t_pts t)))%Z then (x1 - x0) * g_len g else i - x0
          end in
        i_closed_open x0 (x0 + len)
  end.
Definition update_interval (t : tl) : tl :=
  mkTL (t_pts t) (t_bnd t) (t_tan t) (t_line t) (t_upper t) (t_lower t) (new_interval t) (t_cross t) (t_ext t) (t_pred t).

(* trend.py:586-596 process_points_on_trend: the closest point *)
Fixpoint closest (t : tl) (best : option (pt * T)) (ps : list pt) : res (option pt) :=
  match ps with
  | [] => Ok (match best with Some (p, _) => Some p | None => None end)
  | p :: ps =>
      let! y := tl_y t (fst p) in
      let d := n_abs (y - snd p) in
      closest t (match best with
                 | Some (_, db) => if d <? db then Some (p, d) else best
                 | None => Some (p, d)
                 end) ps
  end.

(** The state of the loop of update_points_of_interest. *)
Record poi := mkPoi {
  o_prev : T; o_pp : option pt; o_found : bool;
  o_on : list pt;                (* points_on_trend *)
  o_new : list pt;               (* new_extremas *)
  o_ext : option pt; o_dist : T; (* extrema, extrema_dist *)
  o_cross : list pt; o_tan : list pt
}.

(* trend.py:586-596: insert the closest of the points on the trend *)
Definition flush_on (t : tl) (ti : nat) (o : poi) : res poi :=
  match o_on o with
  | [] => Ok o
  | _ => let! c := closest t None (o_on o) in
         let! c := need c in
         Ok (mkPoi (o_prev o) (o_pp o) (o_found o) [] (o_new o) (o_ext o) (o_dist o) (o_cross o)
               (list_insert (o_tan o) ti c))
  end.
Definition push_ext (o : poi) : poi :=
  match o_ext o with
  | None => o
  | Some e => mkPoi (o_prev o) (o_pp o) (o_found o) (o_on o) (e :: o_new o) None (o_dist o) (o_cross o) (o_tan o)
  end.

(* trend.py:617-656 the loop, over the underlying points from the last one *)
Fixpoint poi_loop (t : tl) (ui : ival T) (ci ti : nat) (o : poi) (ps : list pt) : res poi :=
  match ps with
  | [] => Ok o
  | p :: ps =>
      if negb (i_contains ui (fst p)) then Ok o
      else
        let! on := on_trend t p in
        if (on : bool) then
          let o := push_ext o in
          poi_loop t ui ci ti (mkPoi (o_prev o) (o_pp o) (o_found o) (p :: o_on o) (o_new o) (o_ext o) (o_dist o) (o_cross o) (o_tan o)) ps
        else
          let! o := flush_on t ti o in
          let! y := tl_y t (fst p) in
          let phase := snd p - y in
          let! o :=
            if negb (o_prev o =? n_zero) && (phase * o_prev o <? n_zero) then
              let! l := need (t_line t) in
              let! pp := need (o_pp o) in
              let! i := seg_meet l (pp, p) in
              let! i := match i with
                        | Some i => if fst i <? fst (fst l) then average2 pp p else Ok i
                        | None => average2 pp p
                        end in
              Ok (push_ext (mkPoi (o_prev o) (o_pp o) true (o_on o) (o_new o) (o_ext o) (o_dist o)
                              (list_insert (o_cross o) ci i) (o_tan o)))
            else Ok o in
          let dist := if phase >? n_zero then snd p else - snd p in
          let '(e, d) := match o_ext o with
                         | None => (p, dist)
                         | Some e => if dist >? o_dist o then (p, dist) else (e, o_dist o)
                         end in
          poi_loop t ui ci ti (mkPoi phase (Some p) (o_found o) (o_on o) (o_new o) (Some e) d (o_cross o) (o_tan o)) ps
  end.

(* trend.py:610-615 *)
Definition poi_interval (t : tl) : ival T :=
  let ui := t_int t in
  let ui := match last_opt (t_cross t) with Some i => i_inter2 ui (i_gte (fst i)) | None => ui end in
  match last_opt (t_tan t) with Some q => i_inter2 ui (mkI (fst q) n_inf true true) | None => ui end.

(* trend.py:578-676 update_points_of_interest *)
Definition update_poi (t : tl) (under : list pt) : res (tl * bool) :=
  if negb (is_ready t) then Ok (t, false)
  else match under with
  | [] => Ok (t, false)
  | _ =>
      let ui := poi_interval t in
      let ti := length (t_tan t) in
      let! o := poi_loop t ui (length (t_cross t)) ti
                  (mkPoi n_zero None false [] [] None n_zero (t_cross t) (t_tan t)) (rev under) in
      let! o := flush_on t ti o in
      let o := push_ext o in
      let ext :=
        match o_new o with
        | [] => t_ext t
        | _ => match last_opt (t_ext t) with
               | None => o_new o
               | Some z => (if fst z >=? i_start ui then removelast (t_ext t) else t_ext t) ++ o_new o
               end
        end in
      let t := mkTL (t_pts t) (t_bnd t) (o_tan o) (t_line t) (t_upper t) (t_lower t) (t_int t) (o_cross o) ext (t_pred t) in
      Ok (if o_found o then update_interval t else t, o_found o)
  end.

(** *** update_prediction *)

Inductive ptype := TExt | TTan | TInt.
Definition tpt : Type := (T * T * ptype)%type.
Definition tx (p : tpt) : T := fst (fst p).

(* sorted(..., key=lambda p: p[0]) *)
Fixpoint ins_sorted (p : tpt) (l : list tpt) : list tpt :=
  match l with
  | [] => [p]
  | q :: l' => if tx p <? tx q then p :: q :: l' else q :: ins_sorted p l'
  end.
Definition sort_pts (l : list tpt) : list tpt := fold_left (fun a p => ins_sorted p a) l [].

(* trend.py:711-714 extrema_filter *)
Fixpoint beyond (t : tl) (ps : list pt) : res (list pt) :=
  match ps with
  | [] => Ok []
  | p :: ps =>
      let! y := tl_y t (fst p) in
      let! r := beyond t ps in
      Ok (if (if g_upper g then snd p >? y else snd p <? y) then p :: r else r)
  end.

Definition set_phase (q : pred) n := mkP n (q_origin q) (q_inter q) (q_extrema q) (q_retest q) (q_rxmax q) (q_conf q) (q_y q) (q_ymin q) (q_ymax q) (q_xmin q) (q_xmax q) (q_failed q) (q_ok q) (q_okpt q) (q_valid q) (q_seen q) (q_done q) (q_tan q).
Definition set_origin (q : pred) o := mkP (q_phase q) o (q_inter q) (q_extrema q) (q_retest q) (q_rxmax q) (q_conf q) (q_y q) (q_ymin q) (q_ymax q) (q_xmin q) (q_xmax q) (q_failed q) (q_ok q) (q_okpt q) (q_valid q) (q_seen q) (q_done q) (q_tan q).
Definition set_failed (q : pred) := mkP (q_phase q) (q_origin q) (q_inter q) (q_extrema q) (q_retest q) (q_rxmax q) (q_conf q) (q_y q) (q_ymin q) (q_ymax q) (q_xmin q) (q_xmax q) true (q_ok q) (q_okpt q) (q_valid q) (q_seen q) (q_done q) (q_tan q).
Definition set_pvalid (q : pred) b := mkP (q_phase q) (q_origin q) (q_inter q) (q_extrema q) (q_retest q) (q_rxmax q) (q_conf q) (q_y q) (q_ymin q) (q_ymax q) (q_xmin q) (q_xmax q) (q_failed q) (q_ok q) (q_okpt q) b (q_seen q) (q_done q) (q_tan q).
Definition set_tanc (q : pred) n := mkP (q_phase q) (q_origin q) (q_inter q) (q_extrema q) (q_retest q) (q_rxmax q) (q_conf q) (q_y q) (q_ymin q) (q_ymax q) (q_xmin q) (q_xmax q) (q_failed q) (q_ok q) (q_okpt q) (q_valid q) (q_seen q) (q_done q) n.
Definition set_seen (q : pred) p := mkP (q_phase q) (q_origin q) (q_inter q) (q_extrema q) (q_retest q) (q_rxmax q) (q_conf q) (q_y q) (q_ymin q) (q_ymax q) (q_xmin q) (q_xmax q) (q_failed q) (q_ok q) (q_okpt q) (q_valid q) (Some p) (q_done q) (q_tan q).
Definition set_done (q : pred) x := mkP (q_phase q) (q_origin q) (q_inter q) (q_extrema q) (q_retest q) (q_rxmax q) (q_conf q) (q_y q) (q_ymin q) (q_ymax q) (q_xmin q) (q_xmax q) (q_failed q) (q_ok q) (q_okpt q) (q_valid q) (q_seen q) (Some x) (q_tan q).
Definition set_inter (q : pred) p r := mkP 1 (q_origin q) (Some p) (q_extrema q) (q_retest q) (Some r) (q_conf q) (q_y q) (q_ymin q) (q_ymax q) (q_xmin q) (q_xmax q) (q_failed q) (q_ok q) (q_okpt q) (q_valid q) (q_seen q) (q_done q) (q_tan q).
Definition set_retest (q : pred) p := mkP 2 (q_origin q) (q_inter q) (q_extrema q) (Some p) (q_rxmax q) (q_conf q) (q_y q) (q_ymin q) (q_ymax q) (q_xmin q) (q_xmax q) (q_failed q) (q_ok q) (q_okpt q) (q_valid q) (q_seen q) (q_done q) (q_tan q).
Definition set_ok (q : pred) p := mkP 4 (q_origin q) (q_inter q) (q_extrema q) (q_retest q) (q_rxmax q) (q_conf q) (q_y q) (q_ymin q) (q_ymax q) (q_xmin q) (q_xmax q) (q_failed q) true (Some p) (q_valid q) (q_seen q) (q_done q) (q_tan q).

(* trend.py:720-740 update_prediction_target; None: it returned False *)
Definition set_target (q : pred) : res (option pred) :=
  match q_inter q with
  | None => Err EExc
  | Some i =>
      match q_seen q with
      | None => Ok None
      | Some e =>
          let! og := need (q_origin q) in
          let y := snd i + (snd e - snd i) * gold2 in
          Ok (Some (mkP (q_phase q) (q_origin q) (q_inter q) (Some e) (q_retest q) (q_rxmax q) (Some (og, e))
                (Some y) (Some (tol_min y)) (Some (tol_max y)) (Some (fst e)) (Some (fst e + (fst e - fst og) * gold))
                (q_failed q) (q_ok q) (q_okpt q) (y >? n_zero) (q_seen q) (q_done q) (q_tan q)))
      end
  end.

(* trend.py:746-810 the body of the loop for one point; the flag says break *)
Definition predict_one (q : pred) (p : tpt) : res (pred * bool) :=
  let '(px, py, ty) := p in
  let c : pt := (px, py) in
  if (match q_done q with Some d => px <? d | None => false end) then Ok (q, false)
  else if q_ok q || q_failed q then Ok (q, true)
  else if (q_phase q =? 0)%nat then
    match ty with
    | TExt => Ok (q, false)
    | TTan => Ok (set_tanc q (q_tan q + 1), false)
    | TInt =>
        if (q_tan q <? g_minp g)%Z then Ok (set_pvalid (set_failed q) false, true)
        else
          let! og := need (q_origin q) in
          let! d := n_div (px - fst og) gold in
          Ok (set_inter q c (px + d), false)
    end
  else
    match ty with
    | TExt =>
        let q := set_seen q c in
        let! r := if (q_phase q =? 1)%nat then set_target q else Ok (Some q) in
        match r with
        | None => Ok (set_failed q, true)
        | Some q =>
            let! q :=
              if (q_phase q =? 2)%nat then
                let! l := need (q_conf q) in
                let! cy := seg_y l px in
                let! cy := need cy in
                Ok (if (g_upper g && (py >=? tol_max cy)) || (negb (g_upper g) && (py <=? tol_min cy))
                    then set_phase q 3 else q)
              else Ok q in
            if (q_phase q =? 3)%nat then
              let! lo := need (q_ymin q) in
              let! hi := need (q_ymax q) in
              if (g_upper g && (py >=? lo)) || (negb (g_upper g) && (py <=? hi)) then Ok (set_ok q c, true)
              else
                let! xm := need (q_xmax q) in
                if px >=? xm then Ok (set_failed q, true) else Ok (q, false)
            else Ok (q, false)
        end
    | TTan =>
        let! rx := need (q_rxmax q) in
        if px >? rx then Ok (set_failed q, true)
        else
          let! r := set_target q in
          match r with
          | None => Ok (set_failed q, true)
          | Some q => Ok (set_retest q c, false)
          end
    | TInt => Ok (set_failed q, true)
    end.

Fixpoint predict_loop (q : pred) (ps : list tpt) : res pred :=
  match ps with
  | [] => Ok q
  | p :: ps => let! (q, stop) := predict_one q p in if (stop : bool) then Ok q else predict_loop q ps
  end.

(* trend.py:711-718 the points, in order *)
Definition poi_points (t : tl) : res (list tpt) :=
  let! ex := beyond t (t_ext t) in
  Ok (sort_pts (map (fun p => (fst p, snd p, TExt)) ex ++ map (fun p => (fst p, snd p, TTan)) (t_tan t)
                ++ map (fun p => (fst p, snd p, TInt)) (t_cross t))).

(* trend.py:742-822: everything after the points are collected *)
Definition predict (q : pred) (ps : list tpt) (under : list pt) : res pred :=
  match last_opt ps with
  | None => Ok q
  | Some z =>
      let! q := predict_loop q ps in
      if negb (q_ok q) && negb (q_failed q) then
        let q := set_done q (tx z) in
        match last_opt under with
        | None => Err EIndex
        | Some u =>
            let! q :=
              if (2 <=? q_phase q)%nat then
                let! xm := need (q_xmax q) in Ok (if fst u >=? xm then set_failed q else q)
              else Ok q in
            if (q_phase q =? 1)%nat then
              let! rx := need (q_rxmax q) in Ok (if fst u >=? rx then set_failed q else q)
            else Ok q
        end
      else Ok q
  end.

(* trend.py:701-822 update_prediction *)
Definition update_prediction (t : tl) (under : list pt) : res tl :=
  if negb (is_valid t) then Ok t
  else
    let! l := need (t_line t) in
    let! ps := poi_points t in
    let! q := predict (set_origin (t_pred t) (Some (fst l))) ps under in
    Ok (mkTL (t_pts t) (t_bnd t) (t_tan t) (t_line t) (t_upper t) (t_lower t) (t_int t) (t_cross t) (t_ext t) q).

(* trend.py:514-524 update_trend *)
Definition update_trend (t : tl) (under : list pt) : res tl :=
  let! (pts, bnd) := if is_valid t then Ok (t_pts t, t_bnd t) else set_trend (t_bnd t) in
  let t := mkTL pts bnd (t_tan t) (line_fit pts) (t_upper t) (t_lower t) (t_int t) (t_cross t) (t_ext t) (t_pred t) in
  let t := mkTL pts bnd [] (t_line t) (tolerance_line t true) (tolerance_line t false) (t_int t) [] [] (t_pred t) in
  let! (t, _) := update_poi t under in
  let t := update_interval t in
  let t := mkTL (t_pts t) (t_bnd t) (t_tan t) (t_line t) (t_upper t) (t_lower t) (t_int t) (t_cross t) (t_ext t) pred0 in
  update_prediction t under.

(* trend.py:461-480 did_append_point *)
Definition did_append (t : tl) (p : pt) (under : list pt) : res (tl * bool) :=
  if is_ready t && negb (i_contains (t_int t) (fst p)) then Ok (t, false)
  else if negb (is_valid t) then
    let! bnd := insort (t_bnd t) p 0 None true in
    let! t := update_trend (mkTL (t_pts t) bnd (t_tan t) (t_line t) (t_upper t) (t_lower t) (t_int t) (t_cross t) (t_ext t) (t_pred t)) under in
    Ok (t, true)
  else
    let! on := on_trend t p in
    if (on : bool) then
      let! bnd := insort (t_bnd t) p 0 None true in
      let! pts := insort (t_pts t) p 0 None true in
      let! t := update_trend (mkTL pts bnd (t_tan t) (t_line t) (t_upper t) (t_lower t) (t_int t) (t_cross t) (t_ext t) (t_pred t)) under in
      Ok (t, true)
    else
      let! (t, ch) := update_poi t under in
      let! t := update_prediction t under in
      Ok (t, ch).

(* trend.py:489-498 remove_stale: from the end *)
Fixpoint drop_stale (d : ival T) (l : list pt) : list pt :=   (* on the reversed list *)
  match l with
  | [] => []
  | p :: l' => if i_contains d (fst p) then drop_stale d l'
               else if fst p <? i_start d then l else p :: drop_stale d l'
  end.
Definition remove_stale (d : ival T) (l : list pt) : list pt := rev (drop_stale d (rev l)).

(* trend.py:482-512 begin_update *)
Definition tl_begin (t : tl) (d : ival T) (under : list pt) : res tl :=
  if negb (i_intersects (t_int t) d) then Ok t
  else
    let f := remove_stale d in
    let t' := mkTL (f (t_pts t)) (f (t_bnd t)) (f (t_tan t)) (t_line t) (t_upper t) (t_lower t) (t_int t)
                (f (t_cross t)) (f (t_ext t)) (t_pred t) in
    let same l := (length (f l) =? length l)%nat in
    if same (t_pts t) && same (t_bnd t) && same (t_cross t) && same (t_tan t) && same (t_ext t)
    then Ok t' else update_trend t' under.

End Line.

(** ** Trend *)

(* trend.py:26-45; a level of nested_upper_lines or nested_lower_lines is a
   list of lines *)
Definition levels := list (list tl).
Record trend := mkTr { r_pts : list pt; r_up : levels; r_lo : levels }.
Definition trend0 : trend := mkTr [] [[]] [[]].

(* trend.py:221-230 _create_line: min_point_distance is not handed over *)
Definition line_cfg (g : cfg) (upper : bool) : cfg :=
  mkG (g_width g) upper (g_minp g) n_zero (g_len g) (g_rel g) (g_abs g).

Section Append.
Variable g : cfg.    (* of the lines *)

(* trend.py:238-244 _has_coincident_line; [me] is the index of the line itself
   in this level, if it is there *)
Fixpoint has_coincident (line : tl) (me : option nat) (lines : list tl) : res bool :=
  match lines with
  | [] => Ok false
  | o :: lines =>
      let me' := match me with Some (S n) => Some n | _ => None end in
      if (match me with Some O => true | _ => false end) || negb (is_ready o)
         || negb (i_intersects (t_int line) (t_int o))
      then has_coincident line me' lines
      else let! c := line_coincident o line in
           if (c : bool) then Ok true else has_coincident line me' lines
  end.
(* trend.py:232-236 _has_coincident_nested_line; [me] is (level, index) *)
Fixpoint has_coincident_nested (line : tl) (level idx : nat) (ls : levels) : res bool :=
  match ls with
  | [] => Ok false
  | lines :: ls =>
      let! c := has_coincident line (match level with O => Some idx | _ => None end) lines in
      if (c : bool) then Ok true
      else has_coincident_nested line (match level with O => length ls | S n => n end) idx ls
  end.

(* the line object [nested[level][i]] is replaced by its updated version *)
Definition put_line (ls : levels) (level i : nat) (t : tl) : levels :=
  match nth_error ls level with
  | Some lines => list_set ls level (list_set lines i t)
  | None => ls
  end.

(* trend.py:181-201: the loop over the lines of a level, [n] of which remain;
   returns the levels, the indexes to remove and the new trend points *)
Fixpoint append_loop (n i level : nat) (ls : levels) (p : pt) (under : list pt) (rm : list nat) (np : list pt)
    : res (levels * list nat * list pt) :=
  match n with
  | O => Ok (ls, rm, np)
  | S n =>
      match nth_error ls level with
      | None => Err EIndex
      | Some lines =>
          match nth_error lines i with
          | None => Err EIndex
          | Some t0 =>
              let! (t, ch) := did_append g t0 p under in
              let ls := put_line ls level i t in
              let lines := list_set lines i t in
              if negb ch then append_loop n (S i) level ls p under rm np
              else if is_valid g t then
                if negb (is_valid g t0) then
                  let! c := has_coincident_nested t level i ls in
                  if (c : bool) then append_loop n (S i) level ls p under (rm ++ [i]) np
                  else
                    match head_opt (t_pts t), last_opt (t_pts t) with
                    | Some a, Some z =>
                        let! np := insort np a 0 None true in
                        let! np := insort np z 0 None true in
                        append_loop n (S i) level ls p under rm np
                    | _, _ => Err EIndex
                    end
                else append_loop n (S i) level ls p under rm np
              else if is_ready t && negb (is_ready t0) then
                let! c := has_coincident t (Some i) lines in
                append_loop n (S i) level ls p under (if (c : bool) then rm ++ [i] else rm) np
              else append_loop n (S i) level ls p under rm np
          end
      end
  end.

(* trend.py:210-219 _try_fork_line *)
Definition try_fork (lines : list tl) (p : pt) (under : list pt) : res (list tl) :=
  let! fork :=
    match last_opt lines with
    | None => Ok true
    | Some z =>
        if negb (is_ready z) then Ok false
        else match t_pts z with
             | [] => Err EIndex
             | a :: _ => Ok (negb (fst p - fst a <? g_width g))
             end
    end in
  if (fork : bool) then let! (t, _) := did_append g tl0 p under in Ok (lines ++ [t]) else Ok lines.

(* trend.py:177-208 _append_point_and_validate *)
Definition append_validate (p : pt) (level : nat) (ls : levels) (under : list pt) : res (levels * list pt) :=
  match nth_error ls level with
  | None => Err EIndex
  | Some lines =>
      let! (ls, rm, np) := append_loop (length lines) 0 level ls p under [] [] in
      match nth_error ls level with
      | None => Err EIndex
      | Some lines =>
          let lines := fold_left (fun l i => del l i) (rev rm) lines in
          let! lines := try_fork lines p under in
          Ok (list_set ls level lines, np)
      end
  end.
End Append.

Section Scan.
Variable g : cfg.

(* trend.py:161-166: one level, all points *)
Fixpoint level_points (ps : list pt) (level : nat) (up lo : levels) (under : list pt) (acc : list pt)
    : res (levels * levels * list pt) :=
  match ps with
  | [] => Ok (up, lo, acc)
  | p :: ps =>
      let! (up, np) := append_validate (line_cfg g true) p level up under in
      let! acc := insorts acc np in
      let! (lo, np) := append_validate (line_cfg g false) p level lo under in
      let! acc := insorts acc np in
      level_points ps level up lo under acc
  end.

(* trend.py:157-175 the while loop *)
Fixpoint scan_levels (fuel level : nat) (ps : list pt) (up lo : levels) (under : list pt) : res (levels * levels) :=
  match fuel with
  | O => Err EFuel
  | S f =>
      if negb (level <? length up)%nat then Ok (up, lo)
      else
        let! (up, lo, acc) := level_points ps level up lo under [] in
        match acc with
        | [] => Ok (up, lo)
        | _ =>
            let '(up, lo) := if (length up =? S level)%nat then (up ++ [[]], lo ++ [[]]) else (up, lo) in
            scan_levels f (S level) acc up lo under
        end
  end.

(* trend.py:147-175 _trend_scan *)
Definition trend_scan (fuel : nat) (r : trend) (x : T) (y : option T) : res trend :=
  match y with
  | None => Ok r
  | Some y =>
      let under := r_pts r ++ [(x, y)] in
      let! (up, lo) := scan_levels fuel 0 [(x, y)] (r_up r) (r_lo r) under in
      Ok (mkTr under up lo)
  end.

(* trend.py:104-116 *)
Fixpoint begin_lines (cg : cfg) (lines : list tl) (d : ival T) (under : list pt) : res (list tl) :=
  match lines with
  | [] => Ok []
  | t :: lines =>
      let! r := begin_lines cg lines d under in
      let! t := tl_begin cg t d under in
      Ok (match t_pts t with [] => r | _ => t :: r end)
  end.
Fixpoint begin_levels (cg : cfg) (first : bool) (ls : levels) (d : ival T) (under : list pt) : res levels :=
  match ls with
  | [] => Ok []
  | lines :: ls =>
      let! r := begin_levels cg false ls d under in
      let! lines := begin_lines cg lines d under in
      Ok (match lines with [] => if first then [] :: r else r | _ => lines :: r end)
  end.
(* trend.py:93-120 begin_update, after Scan's own *)
Definition trend_begin (r : trend) (d : ival T) : res trend :=
  let under := remove_stale d (r_pts r) in
  let! up := begin_levels (line_cfg g true) true (r_up r) d under in
  let! lo := begin_levels (line_cfg g false) true (r_lo r) d under in
  Ok (mkTr under up lo).

(* trend.py:138-145 _line_filter, 122-136, 63-64 scanned_y *)
Definition line_filter (cg : cfg) (x : option T) (t : tl) : bool :=
  is_valid cg t && (match x with Some x => i_contains (t_int t) x | None => true end)
  && negb (width t <? g_width g).
Definition scanned_upper (r : trend) (x : option T) : list tl :=
  filter (line_filter (line_cfg g true) x) (concat (r_up r)).
Definition scanned_lower (r : trend) (x : option T) : list tl :=
  filter (line_filter (line_cfg g false) x) (concat (r_lo r)).
Definition scanned_lines (r : trend) (x : option T) : list tl := scanned_lower r x ++ scanned_upper r x.

(* trend.py:72-91: continue_scan, after Scan's own *)
Definition wants_more (r : trend) (x : T) : bool :=
  let ls := concat (r_up r) ++ concat (r_lo r) in
  match ls with
  | [] => true
  | _ => existsb (fun t => i_contains_gen true false (t_int t) x) ls
  end.
End Scan.
End Trend.
Arguments pt T : clear implicits.
Arguments seg T : clear implicits.
Arguments cfg T : clear implicits.
Arguments pred T : clear implicits.
Arguments tl T : clear implicits.
Arguments poi T : clear implicits.
Arguments tpt T : clear implicits.
Arguments trend T : clear implicits.
Arguments levels T : clear implicits.
