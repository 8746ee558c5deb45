(** Model of the parts of /repo/curvepy/trend.py that read a TrendLine:
    line_extended, the sequence protocol, copies, x, the lines of a Trend at a
    position, and the tolerance tests over a list of points.

    Simplifications.
    - [t_upper] and [t_lower] are [None] on a copy: __copy__ does not set the
      attributes _tolerance_line_upper and _tolerance_line_lower.  Reading one
      raises AttributeError in the code and [EType] in the model; the theorems
      only say that it raises.
    - extremas and the prediction of a copy are those of a new line.
    - Interval.copy gives an equal interval. *)
From Coq Require Import List ZArith Bool.
From Verif Require Import Base Num Interval Points Trend.
Import ListNotations.
Open Scope num_scope.
Open Scope bool_scope.

Section More.
Context {T : Type} {N : Num T}.
Variables (eps : T) (polyfit : list (pt T) -> T * T).
Notation pt := (pt T).
Notation tl := (tl T).

(* trend.py:301-304 the index, clipped to the intersections *)
Definition clip_index (n k : Z) : Z := if (k <? 0)%Z then Z.max 0 (n + k)%Z else Z.min k (n - 1)%Z.

(* trend.py:293-316 line_extended; the y of the second point is None where the
   line has none *)
Definition line_extended (t : tl) (mult mx : option T) (k : option Z) : res (option (pt * (T * option T))) :=
  match t_line t with
  | None => Ok None
  | Some l =>
      let x0 := fst (fst l) in
      let n := Z.of_nat (length (t_cross t)) in
      let! (k, x1) :=
        match k with
        | None => Ok (None, fst (snd l))
        | Some k =>
            if (n =? 0)%Z then Ok (Some k, fst (snd l))
            else
              let k := clip_index n k in
              let! c := py_nth (t_cross t) k in
              Ok (Some k, if fst c >? fst (snd l) then fst c else fst (snd l))
        end in
      let x1 := match mult with Some m => x0 + (x1 - x0) * m | None => x1 end in
      let x1 := match mx with Some w => if x1 - x0 >? w then x0 + w else x1 | None => x1 end in
      let! x1 :=
        match k with
        | None => Ok x1
        | Some k =>
            if (k + 1 <? n)%Z then
              let! c := py_nth (t_cross t) (k + 1)%Z in
              Ok (if fst c <? x1 then fst c else x1)
            else Ok x1
        end in
      let! y1 := seg_y l x1 in
      Ok (Some (fst l, (x1, y1)))
  end.

(* trend.py:342-343 __len__, 345-346 __getitem__, 348-352 __iter__ *)
Definition tl_len (t : tl) : nat := if is_ready t then 2 else 0.
Definition tl_item (t : tl) (i : Z) : res pt :=
  match t_line t with None => Err EType | Some l => py_nth [fst l; snd l] i end.
Definition tl_iter (t : tl) : list pt :=
  match t_line t with None => [] | Some l => [fst l; snd l] end.

(* trend.py:354-374 __copy__, copy: tuple(None) raises; the arguments are the
   same, so the copy has the same [cfg] *)
Definition tl_copy (t : tl) : res tl :=
  match t_line t with
  | None => Err EType
  | Some l => Ok (mkTL (t_pts t) (t_bnd t) (t_tan t) (Some l) None None (t_int t) (t_cross t) [] pred0)
  end.

(* trend.py:380-382 x *)
Definition tl_x (t : tl) (y : T) : res (option T) := let! l := need (t_line t) in seg_x l y.

(* trend.py:824-833 the method _is_line_fit_within_tolerance *)
Definition method_fit (g : cfg T) (ps : list pt) : bool :=
  match ps with
  | [] | [_] | [_; _] => true
  | _ => let '(c, m) := polyfit ps in
         forallb (fun p => method_within eps g (Some (snd p)) (Some (c + m * fst p))) ps
  end.
(* trend.py:956-965 the function _is_line_fit_within_tolerance *)
Fixpoint all_within (rel abs : option T) (c m : T) (ps : list pt) : res bool :=
  match ps with
  | [] => Ok true
  | p :: ps => let! b := within_tol eps rel abs (Some (snd p)) (Some (c + m * fst p)) in
               if (b : bool) then all_within rel abs c m ps else Ok false
  end.
Definition fit_within (rel abs : option T) (ps : list pt) : res bool :=
  match ps with
  | [] | [_] | [_; _] => Ok true
  | _ => let '(c, m) := polyfit ps in all_within rel abs c m ps
  end.

(* trend.py:50-51 lines, 53-61 upper and lower after their scan *)
Definition trend_lines (g : cfg T) (r : trend T) : list tl := scanned_lower g r None ++ scanned_upper g r None.
Definition trend_upper (g : cfg T) (r : trend T) (x : option T) : list tl := scanned_upper g r x.
Definition trend_lower (g : cfg T) (r : trend T) (x : option T) : list tl := scanned_lower g r x.
End More.
