(** Model of the external package [intervalpy] (class Interval).
    The package is not part of /repo and is not installed in this sandbox:
    what follows is its contract as curvepy uses it (see DESIGN.md, trusted
    base).  IntervalFacts.v proves that these computable definitions have the
    expected set meaning.

    Usage sites: /repo/curvepy/curve.py:76-445, points.py:33-341, scan.py,
    accumulator.py, sma.py, offset.py, aggregate.py, piecewise.py,
    extension/extension.py. *)
From Coq Require Import List ZArith Bool.
From Verif Require Import Base Num.
Import ListNotations.
Open Scope num_scope.
Open Scope bool_scope.

Section Interval.
Context {T : Type} {N : Num T}.

Record ival := mkI { i_start : T; i_end : T; i_so : bool; i_eo : bool }.

(** Interval.is_empty *)
Definition i_is_empty (i : ival) : bool :=
  (i_start i >? i_end i) || ((i_start i =? i_end i) && (i_so i || i_eo i)).

Definition above_start (i : ival) (x : T) : bool :=
  (i_start i <? x) || (negb (i_so i) && (i_start i =? x)).
Definition below_end (i : ival) (x : T) : bool :=
  (x <? i_end i) || (negb (i_eo i) && (x =? i_end i)).

(** Interval.contains(x, enforce_start=True, enforce_end=True) *)
Definition i_contains_gen (enforce_start enforce_end : bool) (i : ival) (x : T) : bool :=
  negb (i_is_empty i)
  && (negb enforce_start || above_start i x)
  && (negb enforce_end || below_end i x).
Definition i_contains (i : ival) (x : T) : bool := i_contains_gen true true i x.

(** Constructors *)
Definition i_empty : ival := mkI n_zero n_zero true true.
Definition i_infinite : ival := mkI n_ninf n_inf true true.
Definition i_closed (a b : T) : ival := mkI a b false false.
Definition i_open (a b : T) : ival := mkI a b true true.
Definition i_closed_open (a b : T) : ival := mkI a b false true.
Definition i_point (a : T) : ival := mkI a a false false.
Definition i_gte (a : T) : ival := mkI a n_inf false true.
Definition i_lte (a : T) : ival := mkI n_ninf a true false.

(** [a.is_superset_of(b)] *)
Definition i_superset (a b : ival) : bool :=
  i_is_empty b
  || (negb (i_is_empty a)
      && ((i_start a <? i_start b)
          || ((i_start a =? i_start b) && (negb (i_so a) || i_so b)))
      && ((i_end b <? i_end a)
          || ((i_end a =? i_end b) && (negb (i_eo a) || i_eo b)))).

Definition later_start (a b : ival) : T * bool :=
  if i_start a <? i_start b then (i_start b, i_so b)
  else if i_start b <? i_start a then (i_start a, i_so a)
  else (i_start a, i_so a || i_so b).
Definition earlier_end (a b : ival) : T * bool :=
  if i_end a <? i_end b then (i_end a, i_eo a)
  else if i_end b <? i_end a then (i_end b, i_eo b)
  else (i_end a, i_eo a || i_eo b).
Definition earlier_start (a b : ival) : T * bool :=
  if i_start a <? i_start b then (i_start a, i_so a)
  else if i_start b <? i_start a then (i_start b, i_so b)
  else (i_start a, i_so a && i_so b).
Definition later_end (a b : ival) : T * bool :=
  if i_end a <? i_end b then (i_end b, i_eo b)
  else if i_end b <? i_end a then (i_end a, i_eo a)
  else (i_end a, i_eo a && i_eo b).

(** Interval.intersection([a, b]) *)
Definition i_inter2 (a b : ival) : ival :=
  if i_is_empty a || i_is_empty b then i_empty
  else let '(s, so) := later_start a b in
       let '(e, eo) := earlier_end a b in
       let i := mkI s e so eo in
       if i_is_empty i then i_empty else i.

(** Interval.union([a, b]): the smallest interval covering both *)
Definition i_union2 (a b : ival) : ival :=
  if i_is_empty a then (if i_is_empty b then i_empty else b)
  else if i_is_empty b then a
  else let '(s, so) := earlier_start a b in
       let '(e, eo) := later_end a b in
       mkI s e so eo.

Definition i_inter (l : list ival) : ival :=
  match l with [] => i_empty | a :: l' => fold_left i_inter2 l' a end.
Definition i_union (l : list ival) : ival := fold_left i_union2 l i_empty.

(** [a.intersects(b)] *)
Definition i_intersects (a b : ival) : bool := negb (i_is_empty (i_inter2 a b)).

Definition i_is_negative_infinite (i : ival) : bool :=
  n_isinf (i_start i) && (i_start i <? n_zero).
Definition i_is_positive_infinite (i : ival) : bool :=
  n_isinf (i_end i) && (i_end i >? n_zero).
Definition i_is_finite (i : ival) : bool :=
  negb (n_isinf (i_start i)) && negb (n_isinf (i_end i)).
Definition i_is_infinite (i : ival) : bool := negb (i_is_finite i).

(** Interval.parse(d, default_inf=True) for a value that is None or already
    an interval. *)
Definition i_parse (d : option ival) : ival :=
  match d with Some i => i | None => i_infinite end.

End Interval.
Arguments ival : clear implicits.
Arguments mkI {T} i_start i_end i_so i_eo.
