(** Model of update forwarding through a network of derived curves.

    Map (map.py:23), Aggregate (aggregate.py:25-27), Piecewise
    (piecewise.py:18-19), Quotes (quotes.py:114), Offset (offset.py:25-26,
    86-90) register their own begin_update / end_update (Offset: shifted) with
    the curves they depend on, for all x.  A network is a finite directed
    acyclic graph: node [i] has the list of its dependants, in the order in
    which it notifies them, each with the function that the dependant applies
    to the interval (identity, a shift, ...).  Dependants have larger numbers.
    The state of a node is the update state of Curve.v (curve.py:433-473). *)
From Coq Require Import List ZArith Bool.
From Verif Require Import Base Num Interval Curve.
Import ListNotations.
Open Scope bool_scope.

Section Graph.
Context {T : Type} {N : Num T}.

Definition net := list (list (nat * (ival T -> ival T))).
Definition deps (g : net) (i : nat) : list (nat * (ival T -> ival T)) := nth i g [].
Definition nstate := nat -> upd T.
Definition set_node (s : nstate) (i : nat) (u : upd T) : nstate := fun j => if (j =? i)%nat then u else s j.

(** One entry per begin_update / end_update call: the node, whether it was an
    end, the argument, and the interval its dependants were then notified with. *)
Record entry := mkL { l_node : nat; l_end : bool; l_arg : ival T; l_not : option (ival T) }.

(* curve.py:433-445 / 446-466 without the loop over the observers; dependants
   observe all x, i.e. (-inf, inf) *)
Definition node_op (u : upd T) (e : bool) (d : ival T) : upd T * option (ival T) :=
  let '(u', n) := if e then end_update u d else begin_update u d in
  (u', match n with Some x => if i_intersects x i_infinite then Some x else None | None => None end).

(* the loop over the observers, each of which calls its own begin/end_update *)
Fixpoint net_op (g : net) (fuel : nat) (s : nstate) (i : nat) (e : bool) (d : ival T) : res (nstate * list entry) :=
  match fuel with
  | O => Err EFuel
  | S f =>
      let '(u, n) := node_op (s i) e d in
      let s1 := set_node s i u in
      let! (s2, log) :=
        match n with
        | None => Ok (s1, [])
        | Some x =>
            (fix go (cs : list (nat * (ival T -> ival T))) (s : nstate) : res (nstate * list entry) :=
               match cs with
               | [] => Ok (s, [])
               | (c, t) :: cs' =>
                   let! (s1, l1) := net_op g f s c e (t x) in
                   let! (s2, l2) := go cs' s1 in
                   Ok (s2, l1 ++ l2)
               end) (deps g i) s1
        end in
      Ok (s2, mkL i e d n :: log)
  end.

(** A complete update of node [i]: begin_update(d), end_update(d). *)
Definition net_update (g : net) (fuel : nat) (s : nstate) (i : nat) (d : ival T) : res (nstate * list entry * list entry) :=
  let! (s1, lb) := net_op g fuel s i false d in
  let! (s2, le) := net_op g fuel s1 i true d in
  Ok (s2, lb, le).

End Graph.
Arguments net T : clear implicits.
Arguments nstate T : clear implicits.
Arguments entry T : clear implicits.
