(** Specification vocabulary for Points, independent of the model's code:
    what a point list denotes. *)
From Coq Require Import List ZArith QArith Qcanon Bool Sorting.Sorted.
From Verif Require Import Base Num NumFacts Interval IntervalFacts Curve Points.
Import ListNotations.

Section Spec.
Context {V : Type} {W : Val xq V}.

(** The x values are finite and strictly ascending. *)
Definition ascending (l : list (xq * V)) : Prop :=
  Forall (fun p => xfin (fst p)) l /\
  StronglySorted (fun a b => lt_x (fst a) (fst b)) l.

(** The x values are x0, x0+h, x0+2h, ... for some h > 0. *)
Definition equally_spaced (l : list (xq * V)) : Prop :=
  exists x0 h : Qc, (0 < h)%Qc /\
    forall i p, nth_error l i = Some p -> fst p = Fin (x0 + QcofZ (Z.of_nat i) * h)%Qc.

(** The value of the piecewise function at [q], as a relation:
    at a stored point, strictly between two neighbours, or outside. *)
Inductive value (ip : interp) (l : list (xq * V)) (q : Qc) : V -> Prop :=
| val_knot v : In (Fin q, v) l -> value ip l q v
| val_before v l1 a b vb l2 :
    ip = IPrevious -> l = l1 ++ (Fin a, v) :: (Fin b, vb) :: l2 ->
    (a < q)%Qc -> (q < b)%Qc -> value ip l q v
| val_after v l1 a b va l2 :
    ip = INext -> l = l1 ++ (Fin a, va) :: (Fin b, v) :: l2 ->
    (a < q)%Qc -> (q < b)%Qc -> value ip l q v
| val_lerp v l1 a va b vb l2 :
    ip = ILinear -> l = l1 ++ (Fin a, va) :: (Fin b, vb) :: l2 ->
    (a < q)%Qc -> (q < b)%Qc ->
    v_lerp (Fin ((q - a) / (b - a))%Qc) va vb = Ok v -> value ip l q v
| val_outside :
    ((forall p, In p l -> lt_x (Fin q) (fst p)) \/ (forall p, In p l -> lt_x (fst p) (Fin q))) ->
    value ip l q v_none.

(** The closed span of the stored points. *)
Definition span (l : list (xq * V)) (q : Qc) : Prop :=
  exists a b va vb, In (Fin a, va) l /\ In (Fin b, vb) l /\ (a <= q)%Qc /\ (q <= b)%Qc.

(** A Points object in a consistent, idle state: ascending points, a truthful
    [is_uniform], the right [interval], no update in progress and no stale
    cached domain. *)
Definition good (s : pts xq V) : Prop :=
  ascending (p_pts s) /\
  span_interval (p_pts s) = Ok (p_int s) /\
  (p_uniform s = true -> equally_spaced (p_pts s)) /\
  u_begin (p_upd s) = i_empty /\ u_end (p_upd s) = i_empty /\
  (u_dom (p_upd s) = None \/ u_dom (p_upd s) = Some (pts_domain (p_pts s))).

Implicit Type l : list (xq * V).
Implicit Type s : pts xq V.

(** [y] is the least stored x that is >= b (None if there is none) *)
Definition least_from l (b : xq) (y : option xq) : Prop :=
  match y with
  | Some y => (exists v, In (y, v) l) /\ le_x b y /\ (forall x v, In (x, v) l -> le_x b x -> le_x y x)
  | None => forall x v, In (x, v) l -> ~ le_x b x
  end.
(** [y] is the greatest stored x that is <= b (None if there is none) *)
Definition greatest_upto l (b : xq) (y : option xq) : Prop :=
  match y with
  | Some y => (exists v, In (y, v) l) /\ le_x y b /\ (forall x v, In (x, v) l -> le_x x b -> le_x x y)
  | None => forall x v, In (x, v) l -> ~ le_x x b
  end.

(** ** Histories *)
(** The public mutators with finite x values. *)
Inductive op :=
| OAppend (q : Qc) (v : V)
| OAppendList (l : list (xq * V))
| OReplace (q : Qc) (v : V) (or_append : bool)
| OReset (d : option (ival xq))
| OSet (l : list (xq * V)).

Definition run_op s (o : op) : out xq V unit :=
  match o with
  | OAppend q v => p_append s (Fin q, v)
  | OAppendList l => p_append_list s l
  | OReplace q v oa => p_replace s (Fin q, v) oa
  | OReset d => p_reset s d
  | OSet l => p_set s l None
  end.

(** Arguments as documented: point lists in strictly ascending order, interval
    ends that are not NaN. *)
Definition op_ok (o : op) : Prop :=
  match o with
  | OAppendList l | OSet l => ascending l
  | OReset (Some d) => iok d
  | _ => True
  end.

(** ** Curves created with uniform=True *)
(** Bulk arguments really are equally spaced (the code checks only their last x). *)
Definition bulk_ok s (o : op) : Prop :=
  match o with
  | OAppendList l => equally_spaced (p_pts s ++ l)
  | OSet l => equally_spaced l
  | _ => True
  end.

Inductive uniform_history : pts xq V -> Prop :=
| uh_init l ip s evs : ascending l -> equally_spaced l ->
    p_init l ip true = (s, evs, Ok tt) -> uniform_history s
| uh_read s : uniform_history s -> uniform_history (p_touch s)
| uh_op s o s' evs : uniform_history s -> op_ok o -> bulk_ok s o ->
    run_op s o = (s', evs, Ok tt) -> uniform_history s'
| uh_refused s o s' e : uniform_history s -> op_ok o ->
    run_op s o = (s', [], Err e) -> uniform_history s'.

(** ** Any curve whose is_uniform flag tells the truth along the way *)
Inductive honest_history : pts xq V -> Prop :=
| hh_init l ip u s evs : ascending l -> p_init l ip u = (s, evs, Ok tt) ->
    (p_uniform s = true -> equally_spaced (p_pts s)) -> honest_history s
| hh_read s : honest_history s -> honest_history (p_touch s)
| hh_op s o s' evs : honest_history s -> op_ok o -> run_op s o = (s', evs, Ok tt) ->
    (p_uniform s' = true -> equally_spaced (p_pts s')) -> honest_history s'
| hh_refused s o s' e : honest_history s -> op_ok o -> run_op s o = (s', [], Err e) -> honest_history s'.

End Spec.
Arguments op V : clear implicits.
