(** Model of /repo/curvepy/extension/extension.py, constant.py and tangent.py.

    An extension is an object with mutable state; [y] and [domain] refresh it
    lazily.  Its source is seen through a snapshot of its current state; source
    updates reach the extension as begin/end notifications.
    The comparisons [domain <= other] and [domain >= other] of the external
    class Interval (extension.py:117-118) are parameters [le] and [ge] of the
    model: nothing in /repo says what they mean for overlapping intervals, so
    every theorem is for every interpretation.
    Not modelled: SinExtension's update_extension_func here (see Sine.v),
    [uniform] (stored, never read), [__repr__], [__del__], and callbacks of the
    extension's own observers that query it while it is being refreshed. *)
From Coq Require Import List ZArith Bool.
From Verif Require Import Base Num Interval Curve Combine.
Import ListNotations.
Open Scope num_scope.
Open Scope bool_scope.

Section Extension.
Context {T : Type} {N : Num T}.

(** The source: its interface, its d_y (subclasses may override it) and its
    regression over a window given by its two ends. *)
Record src := mkS {
  s_c : crv T (option T);
  s_dy : T -> bool -> res (option T);
  s_reg : T -> T -> res (option (line T))
}.

(** Interval.get_lt() and get_gt(): everything before the start, everything
    after the end. *)
Definition i_get_lt (d : ival T) : ival T := mkI n_ninf (i_start d) true (negb (i_so d)).
Definition i_get_gt (d : ival T) : ival T := mkI (i_end d) n_inf (negb (i_eo d)) true.

Section Any.
(** [F]: the extension function objects (Constant or Line) *)
Context {F : Type}.

(* extension.py:16-44 the attributes *)
Record ext := mkE {
  e_start : bool; e_end : bool;          (* start, end *)
  e_sv : bool; e_ev : bool;              (* start_valid, end_valid *)
  e_raise : bool;                        (* raise_on_empty *)
  e_int : ival T;                        (* extension_interval *)
  e_stale : bool; e_istale : bool;       (* _extension_stale, _extension_interval_stale *)
  e_sf : option F; e_ef : option F;      (* start_func, end_func *)
  e_upd : upd T                          (* the curve's own update state *)
}.
Definition set_sv (e : ext) b := mkE (e_start e) (e_end e) b (e_ev e) (e_raise e) (e_int e) (e_stale e) (e_istale e) (e_sf e) (e_ef e) (e_upd e).
Definition set_ev (e : ext) b := mkE (e_start e) (e_end e) (e_sv e) b (e_raise e) (e_int e) (e_stale e) (e_istale e) (e_sf e) (e_ef e) (e_upd e).
Definition set_int (e : ext) i := mkE (e_start e) (e_end e) (e_sv e) (e_ev e) (e_raise e) i (e_stale e) (e_istale e) (e_sf e) (e_ef e) (e_upd e).
Definition set_stale (e : ext) b := mkE (e_start e) (e_end e) (e_sv e) (e_ev e) (e_raise e) (e_int e) b (e_istale e) (e_sf e) (e_ef e) (e_upd e).
Definition set_istale (e : ext) b := mkE (e_start e) (e_end e) (e_sv e) (e_ev e) (e_raise e) (e_int e) (e_stale e) b (e_sf e) (e_ef e) (e_upd e).
Definition set_sf (e : ext) f := mkE (e_start e) (e_end e) (e_sv e) (e_ev e) (e_raise e) (e_int e) (e_stale e) (e_istale e) f (e_ef e) (e_upd e).
Definition set_ef (e : ext) f := mkE (e_start e) (e_end e) (e_sv e) (e_ev e) (e_raise e) (e_int e) (e_stale e) (e_istale e) (e_sf e) f (e_upd e).
Definition set_eupd (e : ext) u := mkE (e_start e) (e_end e) (e_sv e) (e_ev e) (e_raise e) (e_int e) (e_stale e) (e_istale e) (e_sf e) (e_ef e) u.

(** What a subclass provides: the initial function, its value, and
    update_extension. *)
Record kind := mkK {
  k_new : F;
  k_y : F -> T -> option T;
  k_update : src -> ext -> ext * list (ev T) * res unit
}.
Variable K : kind.

(* extension.py:16-44 __init__ *)
Definition ext_init (s : src) (start en raise_on_empty : bool) : ext :=
  let start := if i_is_negative_infinite (c_dom (s_c s)) then false else start in
  let en := if i_is_positive_infinite (c_dom (s_c s)) then false else en in
  mkE start en true true raise_on_empty i_empty true true
    (if start then Some (k_new K) else None) (if en then Some (k_new K) else None) upd_init.

(** A changed extension function announces (-inf, inf), and the extension
    observes it with its own begin_update and end_update
    (extension.py:38-43; constant.py:19-21, line.py:60-64). *)
Definition announce (e : ext) : ext * list (ev T) :=
  let '(u1, b) := begin_update (e_upd e) i_infinite in
  let '(u2, n) := end_update u1 i_infinite in
  (set_eupd e u2, ev_begin b ++ ev_end n).

(* extension.py:141-148; the extension functions' domains are infinite *)
Definition compute_interval (s : src) (e : ext) : ival T :=
  if e_start e && e_sv e && e_end e && e_ev e then i_union [i_infinite; i_infinite]
  else if e_start e && e_sv e then i_inter [i_infinite; i_get_lt (c_dom (s_c s))]
  else if e_end e && e_ev e then i_inter [i_infinite; i_get_gt (c_dom (s_c s))]
  else i_empty.

(* extension.py:150-152 and 161-163 *)
Definition unable (e : ext) : bool :=
  ((e_start e && negb (i_is_negative_infinite (e_int e)))
   || (e_end e && negb (i_is_positive_infinite (e_int e)))) && e_raise e.

(* extension.py:141-152, the second half of _update_extension_interval *)
Definition refresh_interval (s : src) (e : ext) : ext * res unit :=
  let e := set_int e (compute_interval s e) in
  (e, if unable e then Err EExc else Ok tt).

(* extension.py:154-164 _update_extension_if_needed.  At line 164
   _extension_stale is False, so _update_extension_interval does not call back. *)
Definition update_if_needed (s : src) (e : ext) : ext * list (ev T) * res unit :=
  if negb (e_stale e) then (e, [], Ok tt)
  else
    let e := set_istale (set_stale e false) true in
    let '(e, evs, r) := k_update K s e in
    match r with
    | Err x => (e, evs, Err x)
    | Ok _ =>
        if unable e then (e, evs, Err EExc)
        else if negb (e_istale e) then (e, evs, Ok tt)
        else let '(e, r) := refresh_interval s (set_istale e false) in (e, evs, r)
    end.

(* extension.py:134-152 _update_extension_interval *)
Definition update_interval (s : src) (e : ext) : ext * list (ev T) * res unit :=
  if negb (e_istale e) then (e, [], Ok tt)
  else
    let e := set_istale e false in
    let '(e, evs, r) := if e_stale e then update_if_needed s e else (e, [], Ok tt) in
    match r with
    | Err x => (e, evs, Err x)
    | Ok _ => let '(e, r) := refresh_interval s e in (e, evs, r)
    end.

(* extension.py:12-14 get_domain through the cache of curve.py:36-40 *)
Definition ext_dom (s : src) (e : ext) : ext * list (ev T) * res (ival T) :=
  match u_dom (e_upd e) with
  | Some d => (e, [], Ok d)
  | None =>
      let '(e, evs, r) := update_interval s e in
      match r with
      | Err x => (e, evs, Err x)
      | Ok _ =>
          let d := i_union [c_dom (s_c s); e_int e] in
          (set_eupd e (mkU (u_begin (e_upd e)) (u_end (e_upd e)) (Some d)), evs, Ok d)
      end
  end.

(* extension.py:73-83 y_extension *)
Definition y_extension (s : src) (e : ext) (x : T) : res (option T) :=
  if i_is_empty (c_dom (s_c s)) then Ok None
  else if e_start e && (x <=? i_start (c_dom (s_c s))) then
    match e_sf e with None => Err EAttr | Some f => Ok (k_y K f x) end
  else if e_end e && (x >=? i_end (c_dom (s_c s))) then
    match e_ef e with None => Err EAttr | Some f => Ok (k_y K f x) end
  else Ok None.

(* extension.py:85-91 y *)
Definition ext_y (s : src) (e : ext) (x : T) : ext * list (ev T) * res (option T) :=
  if i_contains (c_dom (s_c s)) x then (e, [], c_y (s_c s) x)
  else
    let '(e, evs, r) := update_if_needed s e in
    match r with
    | Err z => (e, evs, Err z)
    | Ok _ => (e, evs, if i_contains (e_int e) x then y_extension s e x else Ok None)
    end.

(* extension.py:93-102 x_previous, 104-113 x_next *)
Definition ext_prev (s : src) (start : bool) (x : T) (ms limit : option T) : res (option T) :=
  let c := s_c s in
  let! x1 := c_prev c x ms None in
  match x1 with
  | Some x1 => Ok (Some x1)
  | None =>
      if negb start then Ok None
      else
        let! x0 := c_next c (i_start (c_dom c)) ms limit in
        match x0 with
        | None => Ok None
        | Some x0 => Ok (Some (x - (x0 - i_start (c_dom c))))
        end
  end.
Definition ext_next (s : src) (en : bool) (x : T) (ms limit : option T) : res (option T) :=
  let c := s_c s in
  let! x1 := c_next c x ms None in
  match x1 with
  | Some x1 => Ok (Some x1)
  | None =>
      if negb en then Ok None
      else
        let! x0 := c_prev c (i_end (c_dom c)) ms limit in
        match x0 with
        | None => Ok None
        | Some x0 => Ok (Some (x + (i_end (c_dom c) - x0)))
        end
  end.

Section Compare.
Variables le ge : ival T -> ival T -> bool.

(* extension.py:115-118 is_in_extension *)
Definition in_extension (e : ext) (d : ival T) : bool :=
  (e_start e && le d (e_int e)) || (e_end e && ge d (e_int e)).

(* extension.py:120-124 begin_extension_update *)
Definition ext_begin (e : ext) (d : ival T) : ext * list (ev T) :=
  let '(u, n) := begin_update (e_upd e) (if in_extension e d then e_int e else d) in
  (set_eupd e u, ev_begin n).

(* extension.py:126-132 end_extension_update *)
Definition ext_end (s : src) (e : ext) (d : ival T) : ext * list (ev T) * res unit :=
  if in_extension e d then
    let '(e, evs, r) := update_interval s (set_stale e true) in
    match r with
    | Err x => (e, evs, Err x)
    | Ok _ => let '(u, n) := end_update (e_upd e) (e_int e) in (set_eupd e u, evs ++ ev_end n, Ok tt)
    end
  else let '(u, n) := end_update (e_upd e) d in (set_eupd e u, ev_end n, Ok tt).

(** A source operation that announces [d] and after which the source is [s]. *)
Definition ext_source (s : src) (e : ext) (d : ival T) : ext * list (ev T) * res unit :=
  let '(e, b) := ext_begin e d in
  let '(e, n, r) := ext_end s e d in (e, b ++ n, r).

End Compare.
End Any.

(** ** constant.py *)

(* extension/constant.py:11-33; the function is a Constant, i.e. a value that
   may be None.  constant.py:15-21: the setter; None == None holds. *)
Definition opt_same (a b : option T) : bool :=
  match a, b with None, None => true | Some a, Some b => a =? b | _, _ => false end.

(* self.start_func.value = y *)
Definition put_start (v : option T) (e : ext (F := option T)) : ext * list (ev T) * res unit :=
  match e_sf e with
  | None => (e, [], Err EAttr)
  | Some old => if opt_same v old then (e, [], Ok tt)
                else let '(e, evs) := announce (set_sf e (Some v)) in (e, evs, Ok tt)
  end.
(* self.end_func.value = y *)
Definition put_end (v : option T) (e : ext (F := option T)) : ext * list (ev T) * res unit :=
  match e_ef e with
  | None => (e, [], Err EAttr)
  | Some old => if opt_same v old then (e, [], Ok tt)
                else let '(e, evs) := announce (set_ef e (Some v)) in (e, evs, Ok tt)
  end.

(** Sequencing of state-changing steps that announce and may raise. *)
Definition andthen {S} (a : S * list (ev T) * res unit) (k : S -> S * list (ev T) * res unit) :=
  let '(e, evs, r) := a in
  match r with
  | Err x => (e, evs, Err x)
  | Ok _ => let '(e, evs', r) := k e in (e, evs ++ evs', r)
  end.

(* constant.py:11-30 update_extension *)
Definition constant_update (s : src) (e : ext (F := option T)) : ext * list (ev T) * res unit :=
  let c := s_c s in
  if i_is_empty (c_dom c) then andthen (put_start None e) (put_end None)
  else
    andthen
      (if e_start e then
         match c_y c (i_start (c_dom c)) with Err x => (e, [], Err x) | Ok y => put_start y e end
       else (e, [], Ok tt))
      (fun e =>
         if e_end e then
           match c_y c (i_end (c_dom c)) with Err x => (e, [], Err x) | Ok y => put_end y e end
         else (e, [], Ok tt)).

Definition constant_ext : kind := mkK (Some n_zero) (fun v _ => v) constant_update.

(** ** tangent.py *)

(* tangent.py:14-23 the arguments *)
Inductive tangent_mode := TSlope | TDegree (n : nat) | TPeriod (p : T).

(* tangent.py:33-34, 59-60: the loop over regression_degree; stepping from
   None raises *)
Fixpoint tangent_walk (step : T -> res (option T)) (n : nat) (x : option T) : res (option T) :=
  match n with
  | O => Ok x
  | S n' => match x with
            | None => Err EType
            | Some x => let! x1 := step x in tangent_walk step n' x1
            end
  end.

(* tangent.py:37-39, 42-45: y and slope of a regression line *)
Definition of_line (x : T) (l : option (line T)) : option T * option T :=
  match l with None => (None, None) | Some l => (Some (line_y l x), Some (l_slope l)) end.

(* tangent.py:27-49 (forward) and 54-74 (backward): the edge, y and d_y.
   [own] is self.min_step. *)
Definition tangent_edge (mode : tangent_mode) (own : option T) (s : src) (fwd : bool)
    : res (T * option T * option T) :=
  let c := s_c s in
  let d := c_dom c in
  let x := if fwd then i_start d else i_end d in
  let! x :=
    if (if fwd then i_so d else i_eo d) then
      match own with
      | None => Err EType
      | Some m => let x' := if fwd then x + m else x - m in
                  Ok (if i_contains d x' then x' else x)
      end
    else Ok x in
  let! (y, dy) :=
    match mode with
    | TDegree n =>
        let! x1 := tangent_walk (fun x => if fwd then c_next c x own None else c_prev c x own None) n (Some x) in
        match x1 with
        | None => Err EType
        | Some x1 => let! l := if fwd then s_reg s x x1 else s_reg s x1 x in Ok (of_line x l)
        end
    | TPeriod p =>
        let! l := if fwd then s_reg s x (x + p) else s_reg s (x - p) x in Ok (of_line x l)
    | TSlope => let! y := c_y c x in let! dy := s_dy s x fwd in Ok (y, dy)
    end in
  Ok (x, y, dy).

(* tangent.py:82-83 update_extension_func: line.set(p1=(x, y), slope=dy) *)
Definition line_same (a b : line T) : bool :=
  (l_x a =? l_x b) && (l_y a =? l_y b) && (l_slope a =? l_slope b).
Definition tan_start (l : line T) (e : ext (F := line T)) : ext * list (ev T) * res unit :=
  match e_sf e with
  | None => (e, [], Err EAttr)
  | Some old => if line_same l old then (e, [], Ok tt)
                else let '(e, evs) := announce (set_sf e (Some l)) in (e, evs, Ok tt)
  end.
Definition tan_end (l : line T) (e : ext (F := line T)) : ext * list (ev T) * res unit :=
  match e_ef e with
  | None => (e, [], Err EAttr)
  | Some old => if line_same l old then (e, [], Ok tt)
                else let '(e, evs) := announce (set_ef e (Some l)) in (e, evs, Ok tt)
  end.

(* tangent.py:25-77 update_extension *)
Definition tangent_update (mode : tangent_mode) (own : option T) (s : src) (e : ext (F := line T))
    : ext * list (ev T) * res unit :=
  andthen
    (if e_start e then
       match tangent_edge mode own s true with
       | Err x => (e, [], Err x)
       | Ok (x, Some y, Some dy) => tan_start (mkL x y dy) (set_sv e true)
       | Ok _ => (set_sv e false, [], Ok tt)
       end
     else (e, [], Ok tt))
    (fun e =>
       if e_end e then
         match tangent_edge mode own s false with
         | Err x => (e, [], Err x)
         | Ok (x, Some y, Some dy) => tan_end (mkL x y dy) (set_ev e true)
         | Ok _ => (set_ev e false, [], Ok tt)
         end
       else (e, [], Ok tt)).

(* tangent.py:79-80 create_extension_func *)
Definition tangent_ext (mode : tangent_mode) (own : option T) : kind :=
  mkK (mkL n_zero n_zero n_zero) (fun l x => Some (line_y l x)) (tangent_update mode own).

End Extension.
Arguments src T : clear implicits.
Arguments ext T F : clear implicits.
Arguments kind T F : clear implicits.
Arguments tangent_mode T : clear implicits.
