(** Model of a network of derived curves with both its values and its
    notifications: Map, Offset, Aggregate and Piecewise nodes over source curves
    (/repo/curvepy/map.py, offset.py, aggregate.py, piecewise.py).

    The values are those of Combine.v, the forwarding of begin_update and
    end_update is that of Graph.v.  A node names the nodes it reads by their
    numbers, all smaller than its own.  Sources stand for any other curve
    (Points, Line, Constant, ...); their interfaces are given from outside and
    change from outside. *)
From Coq Require Import List ZArith Bool.
From Verif Require Import Base Num Interval Curve Graph Combine.
Import ListNotations.

Section Live.
Context {T : Type} {N : Num T}.
Notation ncrv := (crv T (option T)).

Inductive node :=
| NSource
| NMap (skip_none : bool) (param : T) (tfm : T -> option T -> res (option T)) (p : nat)          (* map.py:14-23 *)
| NOffset (a : T) (p : nat)                                                                      (* offset.py:16-26, no duration *)
| NAggregate (union : bool) (default : option T) (tfm : T -> list (option T) -> res (option T)) (ps : list nat) (* aggregate.py:15-27 *)
| NPiecewise (none_raises : bool) (ps : list (nat * ival T)).                                    (* piecewise.py:9-19 *)

(* map.py:18, offset.py:18, aggregate.py:19, piecewise.py:16: the curves a node reads *)
Definition reads (n : node) : list nat :=
  match n with
  | NSource => []
  | NMap _ _ _ p => [p]
  | NOffset _ p => [p]
  | NAggregate _ _ _ ps => ps
  | NPiecewise _ ps => map fst ps
  end.

(* map.py:23, aggregate.py:26-27, piecewise.py:19 register begin_update and
   end_update themselves; offset.py:25-26, 86-90 the shifting callbacks *)
Definition forwards (n : node) : ival T -> ival T :=
  match n with NOffset a _ => offset_interval a | _ => fun d => d end.

(* the interface of one node, given the interfaces of all earlier nodes and,
   for a source, its own *)
Definition pick (cs : list ncrv) (p : nat) : ncrv := nth p cs empty_curve.
Definition node_curve (own : ncrv) (cs : list ncrv) (n : node) : ncrv :=
  match n with
  | NSource => own
  | NMap skip param tfm p => map_curve skip param tfm (pick cs p)
  | NOffset a p => offset_curve a (pick cs p)
  | NAggregate union default tfm ps => aggregate union default tfm (map (pick cs) ps)
  | NPiecewise nr ps => piecewise_curve nr (map (fun p => (pick cs (fst p), snd p)) ps)
  end.
Fixpoint grow (env : nat -> ncrv) (cs : list ncrv) (ns : list node) : list ncrv :=
  match ns with
  | [] => cs
  | n :: ns' => grow env (cs ++ [node_curve (env (length cs)) cs n]) ns'
  end.
Definition curves (env : nat -> ncrv) (ns : list node) : list ncrv := grow env [] ns.
Definition curve_of (env : nat -> ncrv) (ns : list node) (j : nat) : ncrv := pick (curves env ns) j.

(* curve.py:384-414 add_observer: every node registers once with each curve it
   reads (aggregate.py:25, piecewise.py:18: set(...)); with prioritize the
   newest registration comes first (curve.py:410-411) *)
Definition observers (ns : list node) (p : nat) : list (nat * (ival T -> ival T)) :=
  rev (flat_map (fun jn => if existsb (Nat.eqb p) (reads (snd jn)) then [(fst jn, forwards (snd jn))] else [])
         (combine (seq 0 (length ns)) ns)).
Definition network (ns : list node) : net T := map (observers ns) (seq 0 (length ns)).

(** A source changes: its interface becomes [c] and it completes an update of [d]. *)
Definition set_env (env : nat -> ncrv) (i : nat) (c : ncrv) : nat -> ncrv :=
  fun j => if (j =? i)%nat then c else env j.

(* curve.py:36-40 the domain property: the cached value if there is one;
   otherwise computed and kept *)
Definition dom_read (u : upd T) (c : ncrv) : upd T * ival T :=
  match u_dom u with
  | Some d => (u, d)
  | None => (mkU (u_begin u) (u_end u) (Some (c_dom c)), c_dom c)
  end.

End Live.
Arguments node T : clear implicits.
