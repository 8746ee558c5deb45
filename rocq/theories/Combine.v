(** Model of the derived ("combinator") curves:
    /repo/curvepy/aggregate.py, map.py, offset.py, piecewise.py, generic.py,
    constant.py, line.py, empty.py, and the operators of
    /repo/curvepy/curve.py:475-546, 671-803, 1075-1127 that build them.

    A child curve is seen through the interface record [crv] (Curve.v); each
    combinator is a function from child interfaces to an interface.
    Not modelled here: pow_many, log_many (floating point powers), Offset with
    a [duration] (external package pyduration; see OffsetDur.v), [name], [__repr__], and the
    observer registration done by the constructors (the propagation of
    updates between curves is Graph.v). *)
From Coq Require Import List ZArith Bool.
From Verif Require Import Base Num Interval Curve.
Import ListNotations.
Open Scope num_scope.
Open Scope bool_scope.

Section Combine.
Context {T : Type} {N : Num T}.

Notation ncrv := (crv T (option T)).

(** ** aggregate.py *)

(* aggregate.py:65-73 min_or_none(iterable, gt) *)
Fixpoint min_or_none (gt : T) (best : option T) (l : list (option T)) : option T :=
  match l with
  | [] => best
  | None :: l' => min_or_none gt best l'
  | Some item :: l' =>
      let better := match best with None => true | Some b => item <? b end in
      min_or_none gt (if better then (if item >? gt then Some item else best) else best) l'
  end.

(* aggregate.py:76-84 max_or_none(iterable, lt) *)
Fixpoint max_or_none (lt : T) (best : option T) (l : list (option T)) : option T :=
  match l with
  | [] => best
  | None :: l' => max_or_none lt best l'
  | Some item :: l' =>
      let better := match best with None => true | Some b => item >? b end in
      max_or_none lt (if better then (if item <? lt then Some item else best) else best) l'
  end.

(* aggregate.py:8-13 get_domain *)
Definition agg_dom {V} (union : bool) (funcs : list (crv T V)) : ival T :=
  if union then i_union (map c_dom funcs) else i_inter (map c_dom funcs).

(* aggregate.py:50-62 y, x_previous, x_next.  min_step is None: line 18 calls
   super().__init__() without arguments. *)
Definition aggregate {V W} (union : bool) (default : W) (tfm : T -> list V -> res W)
    (funcs : list (crv T V)) : crv T W :=
  mkC (agg_dom union funcs)
    (fun x =>
       if negb (i_contains (agg_dom union funcs) x) then Ok default
       else let! vals := rmapM (fun f => c_y f x) funcs in tfm x vals)
    (fun x ms limit =>
       let! xs := rmapM (fun f => c_next f x ms limit) funcs in
       Ok (min_or_none x None xs))
    (fun x ms limit =>
       let! xs := rmapM (fun f => c_prev f x ms limit) funcs in
       Ok (max_or_none x None xs))
    None.

(** ** The transforms of the operator constructors *)

Fixpoint has_none (ys : list (option T)) : bool :=
  match ys with [] => false | None :: _ => true | Some _ :: l => has_none l end.
Fixpoint somes (ys : list (option T)) : list T :=
  match ys with [] => [] | None :: l => somes l | Some y :: l => y :: somes l end.

(* curve.py:745-749 add_f; sum() starts from 0 *)
Definition add_f (_ : T) (ys : list (option T)) : res (option T) :=
  if has_none ys then Ok None else Ok (Some (fold_left n_add (somes ys) n_zero)).

(* curve.py:758-767 sub_f: [first] says that no operand was consumed yet *)
Fixpoint sub_loop (first : bool) (result : T) (ys : list (option T)) : res (option T) :=
  match ys with
  | [] => Ok (Some result)
  | None :: _ => Ok None
  | Some y :: l => sub_loop false (if first then y else result - y) l
  end.
Definition sub_f (_ : T) (ys : list (option T)) := sub_loop true n_zero ys.

(* curve.py:776-782 mult_f *)
Fixpoint mult_loop (geo_sum : T) (ys : list (option T)) : res (option T) :=
  match ys with
  | [] => Ok (Some geo_sum)
  | None :: _ => Ok None
  | Some y :: l => mult_loop (geo_sum * y) l
  end.
Definition mult_f (_ : T) (ys : list (option T)) := mult_loop n_one ys.

(* curve.py:791-802 div_f *)
Fixpoint div_loop (first : bool) (result : T) (ys : list (option T)) : res (option T) :=
  match ys with
  | [] => Ok (Some result)
  | None :: _ => Ok None
  | Some y :: l =>
      if first then div_loop false y l
      else if y =? n_zero then div_loop false (if result >=? n_zero then n_inf else n_ninf) l
      else let! q := n_div result y in div_loop false q l
  end.
Definition div_f (_ : T) (ys : list (option T)) := div_loop true n_zero ys.

(* curve.py:705-710 min_vals *)
Fixpoint min_vals_loop (best : option T) (vals : list (option T)) : option T :=
  match vals with
  | [] => best
  | val :: l =>
      let take := match best, val with
                  | None, _ => true
                  | Some b, Some v => v <? b
                  | Some _, None => false
                  end in
      min_vals_loop (if take then val else best) l
  end.
Definition min_vals (_ : T) (vals : list (option T)) : res (option T) := Ok (min_vals_loop None vals).

(* curve.py:725-730 max_vals *)
Fixpoint max_vals_loop (best : option T) (vals : list (option T)) : option T :=
  match vals with
  | [] => best
  | val :: l =>
      let take := match best, val with
                  | None, _ => true
                  | Some b, Some v => v >? b
                  | Some _, None => false
                  end in
      max_vals_loop (if take then val else best) l
  end.
Definition max_vals (_ : T) (vals : list (option T)) : res (option T) := Ok (max_vals_loop None vals).

(* curve.py:712-713 min_vals_with_empty: the built-in min of the values that
   are not None (it keeps the first of several equal minima), default None *)
Definition min_vals_with_empty (_ : T) (vals : list (option T)) : res (option T) :=
  match somes vals with
  | [] => Ok None
  | v :: l => Ok (Some (fold_left n_min l v))
  end.
(* curve.py:732-733 max_vals_with_empty *)
Definition max_vals_with_empty (_ : T) (vals : list (option T)) : res (option T) :=
  match somes vals with
  | [] => Ok None
  | v :: l => Ok (Some (fold_left n_max l v))
  end.

(* curve.py:690-694 first_val *)
Fixpoint first_loop (vals : list (option T)) : option T :=
  match vals with [] => None | Some v :: _ => Some v | None :: l => first_loop l end.
Definition first_val (_ : T) (vals : list (option T)) : res (option T) := Ok (first_loop vals).

(* curve.py:739-803, 1075-1103: add_many and + etc. *)
Definition add_many (funcs : list ncrv) : ncrv := aggregate false None add_f funcs.
Definition subtract_many (funcs : list ncrv) : ncrv := aggregate false None sub_f funcs.
Definition multiply_many (funcs : list ncrv) : ncrv := aggregate false None mult_f funcs.
Definition divide_many (funcs : list ncrv) : ncrv := aggregate false None div_f funcs.
(* curve.py:699-737 *)
Definition curve_min (ignore_empty : bool) (funcs : list ncrv) : ncrv :=
  aggregate ignore_empty None (if ignore_empty then min_vals_with_empty else min_vals) funcs.
Definition curve_max (ignore_empty : bool) (funcs : list ncrv) : ncrv :=
  aggregate ignore_empty None (if ignore_empty then max_vals_with_empty else max_vals) funcs.
(* curve.py:681-697 *)
Definition curve_first (funcs : list ncrv) : ncrv := aggregate true None first_val funcs.

(** ** map.py *)

(* map.py:9-12: the step of the map; [param] is the min_step argument *)
Definition map_min_step (param : T) (src : option T) : T :=
  match src with
  | Some s => if negb (s =? n_zero) && (s >? param) then s else param
  | None => param
  end.

(* map.py:6-7, 35-53 *)
Definition map_curve {A} (skip_none : bool) (param : T) (tfm : T -> option A -> res (option T))
    (c : crv T (option A)) : ncrv :=
  let own := Some (map_min_step param (c_ms c)) in
  mkC (c_dom c)
    (fun x => let! y := c_y c x in
              match y with
              | None => if skip_none then Ok None else tfm x y
              | Some _ => tfm x y
              end)
    (fun x ms limit => c_next c x (resolve_min_step own ms) limit)
    (fun x ms limit => c_prev c x (resolve_min_step own ms) limit)
    own.

(* curve.py:1114-1127 _additive_inverse, _multiplicative_inverse, _abs *)
Definition additive_inverse_f (_ : T) (y : option T) : res (option T) :=
  match y with None => Ok None | Some y => Ok (Some (- y)) end.
Definition multiplicative_inverse_f (_ : T) (y : option T) : res (option T) :=
  match y with None => Ok None | Some y => let! q := n_div n_one y in Ok (Some q) end.
Definition abs_f (_ : T) (y : option T) : res (option T) :=
  match y with None => Ok None | Some y => Ok (Some (n_abs y)) end.

(* curve.py:521-528, 1105-1112 *)
Definition additive_inverse := map_curve false MIN_STEP additive_inverse_f.
Definition multiplicative_inverse := map_curve false MIN_STEP multiplicative_inverse_f.
Definition abs_curve := map_curve false MIN_STEP abs_f.

(* curve.py:671-675 differential: the map ignores the value and asks the
   source for its slope *)
Definition differential (forward : bool) (c : ncrv) : ncrv :=
  map_curve false MIN_STEP (fun x _ => d_y c x forward (Some MIN_STEP) None) c.

(** ** offset.py (without duration) *)

(* offset.py:92-98 _offset_x and 100-106 _unoffset_x *)
Definition offset_x (a x : T) : T := if n_isinf x then x else x + a.
Definition unoffset_x (a x : T) : T := if n_isinf x then x else x - a.

(* offset.py:117-127 _offset_interval: the openness is kept *)
Definition offset_interval (a : T) (d : ival T) : ival T :=
  mkI (offset_x a (i_start d)) (offset_x a (i_end d)) (i_so d) (i_eo d).

(* offset.py:43-60 _interpolated_func: without duration x0 and x1 coincide;
   [contains] is False for a nan, so the interpolation is never reached *)
Definition offset_eval (a : T) (c : ncrv) (f : T -> res (option T)) (x : T) : res (option T) :=
  let x0 := unoffset_x a x in
  if negb (i_contains (c_dom c) x0) then Ok None else f x0.

(* offset.py:13-14, 37-38, 62-84 *)
Definition offset_curve (a : T) (c : ncrv) : ncrv :=
  mkC (offset_interval a (c_dom c))
    (fun x => offset_eval a c (c_y c) x)
    (fun x ms limit =>
       let! x1 := c_next c (unoffset_x a x) ms limit in
       match x1 with
       | None => Ok None
       | Some x1 => if i_contains (c_dom c) x1 then Ok (Some (offset_x a x1)) else Ok None
       end)
    (fun x ms limit =>
       let! x1 := c_prev c (unoffset_x a x) ms limit in
       match x1 with
       | None => Ok None
       | Some x1 => if i_contains (c_dom c) x1 then Ok (Some (offset_x a x1)) else Ok None
       end)
    None.

(* offset.py:40-41 d_y *)
Definition offset_d_y (a : T) (c : ncrv) (x : T) (forward : bool) (ms limit : option T) :=
  offset_eval a c (fun x0 => d_y c x0 forward ms limit) x.

(* offset.py:86-90 begin_offset_update, end_offset_update *)
Definition offset_begin (a : T) (u : upd T) (d : ival T) := begin_update u (offset_interval a d).
Definition offset_end (a : T) (u : upd T) (d : ival T) := end_update u (offset_interval a d).

(** ** generic.py *)

(* generic.py:6-17 as constructed (its _domain attribute is set) *)
Definition generic_curve (y_func : T -> res (option T)) (dom : option (ival T)) (ms : option T) : ncrv :=
  let d := i_parse dom in
  mkC d
    (fun x => if negb (i_contains d x) then Ok None else y_func x)
    (base_x_next d ms) (base_x_previous d ms) ms.

(* generic.py:6-7 get_domain returns self._domain, and curve.py:37-40, 446-473:
   the same attribute is the cache that a finished update resets.  [u_dom] is
   that attribute. *)
Definition generic_init (dom : option (ival T)) : upd T :=
  mkU i_empty i_empty (Some (i_parse dom)).
Definition generic_y (y_func : T -> res (option T)) (u : upd T) (x : T) : res (option T) :=
  match u_dom u with
  | None => Err EAttr                      (* None.contains *)
  | Some d => if negb (i_contains d x) then Ok None else y_func x
  end.

(* curve.py:677-679 subset: Generic(self, domain, min_step=self.min_step);
   calling a curve evaluates y (curve.py:59-60) *)
Definition subset (d : ival T) (c : ncrv) : ncrv := generic_curve (c_y c) (Some d) (c_ms c).

(** ** constant.py and empty.py *)

(* constant.py:23-42: y ignores the domain; min_step is inf *)
Definition constant_curve (value : T) (dom : option (ival T)) : ncrv :=
  let d := i_parse dom in
  mkC d (fun _ => Ok (Some value))
    (base_x_next d (Some n_inf)) (base_x_previous d (Some n_inf)) (Some n_inf).

(* constant.py:15-21 value setter; the update protocol of the curve itself *)
Definition constant_set (dom : ival T) (u : upd T) (old new : T) : upd T * T * list (ev T) :=
  if new =? old then (u, old, [])
  else let '(u1, b) := begin_update u dom in
       let '(u2, e) := end_update u1 dom in
       (u2, new, ev_begin b ++ ev_end e).

(* empty.py *)
Definition empty_curve : ncrv :=
  mkC i_empty (fun _ => Ok None)
    (base_x_next i_empty (Some n_inf)) (base_x_previous i_empty (Some n_inf)) (Some n_inf).

(** ** line.py *)

Record line := mkL { l_x : T; l_y : T; l_slope : T }.

(* line.py:36-58: the reference point and slope asked for by the arguments;
   [points] overrides p1 and p2 *)
Definition line_args (const slope : option T) (p1 p2 : option (T * T))
    (points : option ((T * T) * (T * T))) : res line :=
  let p1 := match points with Some (a, _) => Some a | None => p1 end in
  let p2 := match points with Some (_, b) => Some b | None => p2 end in
  let rx := match p1 with Some (a, _) => a | None => n_zero end in
  let ry := match p1 with Some (_, b) => Some b | None => const end in
  let! slope :=
    match p2 with
    | None => Ok slope
    | Some (x2, y2) =>
        match ry with
        | None => Err EType                   (* arithmetic on None *)
        | Some y1 =>
            if negb (x2 =? rx) then let! q := n_div (y2 - y1) (x2 - rx) in Ok (Some q)
            else if y2 >=? y1 then Ok (Some n_inf) else Ok (Some n_ninf)
        end
    end in
  match ry, slope with
  | None, _ => Err EExc
  | _, None => Err EExc
  | Some y, Some s => Ok (mkL rx y s)
  end.

(* line.py:58-64: the rest of set *)
Definition line_put (u : upd T) (old new : line) : upd T * line * list (ev T) :=
  if (l_x new =? l_x old) && (l_y new =? l_y old) && (l_slope new =? l_slope old) then (u, old, [])
  else let '(u1, b) := begin_update u i_infinite in
       let '(u2, e) := end_update u1 i_infinite in
       (u2, new, ev_begin b ++ ev_end e).
Definition line_set (u : upd T) (old : line) const slope p1 p2 points
    : res (upd T * line * list (ev T)) :=
  let! new := line_args const slope p1 p2 points in Ok (line_put u old new).

(* line.py:11-15 __init__ *)
Definition line_init const slope p1 p2 points : res line :=
  let! r := line_set upd_init (mkL n_zero n_zero n_zero) const slope p1 p2 points in
  Ok (snd (fst r)).

(* line.py:66-73 y, d_y, x *)
Definition line_y (l : line) (x : T) : T := l_y l + l_slope l * (x - l_x l).
Definition line_d_y (l : line) : T := l_slope l.
Definition line_x (l : line) (y : T) : res T :=
  let! q := n_div (y - l_y l) (l_slope l) in Ok (l_x l + q).

(* line.py:17-19 const *)
Definition line_const (l : line) : T := line_y l n_zero.

(* line.py:75-84 partial_integration; [half] is the literal 0.5 and a ** 2 is
   a product *)
Definition line_primitive (half : T) (l : line) (a : T) : T :=
  l_slope l * half * (a * a) + line_const l * a.
Definition line_partial_integration (half : T) (l : line) (a b : T) : T :=
  if a =? b then n_zero else line_primitive half l b - line_primitive half l a.

(* line.py:8-9, 12 *)
Definition line_curve (l : line) : ncrv :=
  mkC i_infinite (fun x => Ok (Some (line_y l x)))
    (base_x_next i_infinite (Some n_inf)) (base_x_previous i_infinite (Some n_inf)) (Some n_inf).

(** ** piecewise.py *)

(* piecewise.py:9-16: the constructor refuses lists of different lengths;
   afterwards a piecewise curve is a list of (curve, domain) *)
Definition piecewise_init (funcs : list ncrv) (domains : list (ival T)) : res (list (ncrv * ival T)) :=
  if (length funcs =? length domains)%nat then Ok (combine funcs domains) else Err EExc.

(* piecewise.py:25-34 y *)
Fixpoint piecewise_y (ps : list (ncrv * ival T)) (x : T) : res (option T) :=
  match ps with
  | [] => Ok None
  | (f, d) :: ps' =>
      if negb (i_contains_gen false true d x) then piecewise_y ps' x
      else if negb (i_contains_gen true false d x) then Ok None
      else c_y f x
  end.

(* d.contains(None): False for the empty interval; otherwise the comparison of
   None with a number raises TypeError when [none_raises] (the behaviour of
   Python's operators), and is False if intervalpy guards against it. *)
Definition contains_none (none_raises : bool) (d : ival T) (x : option T) : res bool :=
  match x with
  | Some x => Ok (i_contains d x)
  | None => if none_raises && negb (i_is_empty d) then Err EType else Ok false
  end.

(* piecewise.py:45-46, 60-61: is some candidate left by the filter?  The chosen
   candidate itself is never used afterwards. *)
Fixpoint any_candidate (none_raises : bool) (zs : list (option T * ival T)) : res bool :=
  match zs with
  | [] => Ok false
  | (x, d) :: zs' =>
      let! b := contains_none none_raises d x in
      let! r := any_candidate none_raises zs' in
      Ok (b || r)
  end.

Definition piecewise_dom (ps : list (ncrv * ival T)) : ival T := i_union (map snd ps).

(* piecewise.py:36-49 x_previous: there is no [return x1] *)
Definition piecewise_prev (none_raises : bool) (ps : list (ncrv * ival T)) (x : T) (ms limit : option T)
    : res (option T) :=
  match resolve_min_step None ms with
  | None => Err EType
  | Some m =>
      if negb (i_contains_gen true false (piecewise_dom ps) (x - m)) then Ok None
      else
        let! xs := rmapM (fun p => c_prev (fst p) x (Some m) limit) ps in
        let! found := any_candidate none_raises (combine xs (map snd ps)) in
        if found then Ok None
        else match ps with
             | [] => Err EIndex
             | (_, d) :: _ => if i_contains d x then Ok (Some (i_start d)) else Ok None
             end
  end.

(* piecewise.py:51-64 x_next *)
Definition piecewise_next (none_raises : bool) (ps : list (ncrv * ival T)) (x : T) (ms limit : option T)
    : res (option T) :=
  match resolve_min_step None ms with
  | None => Err EType
  | Some m =>
      if negb (i_contains_gen true false (piecewise_dom ps) (x + m)) then Ok None
      else
        let! xs := rmapM (fun p => c_next (fst p) x (Some m) limit) ps in
        let! found := any_candidate none_raises (combine xs (map snd ps)) in
        if found then Ok None
        else match last_opt ps with
             | None => Err EIndex
             | Some (_, d) => if i_contains d x then Ok (Some (i_end d)) else Ok None
             end
  end.

Definition piecewise_curve (none_raises : bool) (ps : list (ncrv * ival T)) : ncrv :=
  mkC (piecewise_dom ps) (piecewise_y ps) (piecewise_next none_raises ps) (piecewise_prev none_raises ps) None.

(** ** blend, curve.py:530-542 *)

(* intervalpy's d.partition([a, b]) for cut points inside d: three adjacent
   intervals.  [right] says that a cut point belongs to the piece on its right
   (what /repo/test/piecewise_test.py:12-22 shows); the theorems hold for
   either convention. *)
Definition partition2 (right : bool) (d : ival T) (a b : T) : list (ival T) :=
  [ mkI (i_start d) a (i_so d) right;
    mkI a b (negb right) right;
    mkI b (i_end d) (negb right) (i_eo d) ].

(* curve.py:535-537 blend_f; None in an operand raises TypeError *)
Definition blend_f (a b x : T) (ys : list (option T)) : res (option T) :=
  let! u := n_div (x - a) (b - a) in
  match ys with
  | [Some y0; Some y1] => Ok (Some ((n_one - u) * y0 + u * y1))
  | _ => Err EType
  end.

Definition blend (none_raises right : bool) (f g : ncrv) (a b : T) : res ncrv :=
  let c := aggregate false None (blend_f a b) [f; g] in
  let! ps := piecewise_init [f; c; g] (partition2 right (c_dom f) a b) in
  Ok (piecewise_curve none_raises ps).

End Combine.
Arguments line T : clear implicits.
Arguments mkL {T} l_x l_y l_slope.
