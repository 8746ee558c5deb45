(** Vocabulary for the statements about networks of derived curves. *)
From Coq Require Import List ZArith QArith Qcanon Bool Arith Permutation.
From Verif Require Import Base Num NumFacts Interval IntervalFacts Curve Graph Combine UpdFacts GraphFacts Live.
Import ListNotations.

Notation ncurve := (crv xq (option xq)).

(** Nodes read earlier nodes only; offsets are finite, pieces have proper ends. *)
Definition node_ok (n : node xq) : Prop :=
  match n with
  | NOffset a _ => exists k, a = Fin k
  | NPiecewise _ ps => Forall (fun p => iok (snd p)) ps
  | _ => True
  end.
Definition proper (ns : list (node xq)) : Prop :=
  forall j n, nth_error ns j = Some n -> node_ok n /\ Forall (fun p => (p < j)%nat) (reads n).

(** [g] lists the observers of every node, in some order. *)
Definition wired (ns : list (node xq)) (g : net xq) : Prop :=
  length g = length ns /\ forall p, Permutation (deps g p) (deps (network ns) p).

(** What a change of interface does at [q]. *)
Definition y_changes (c c' : ncurve) (q : Qc) : Prop := c_y c' (Fin q) <> c_y c (Fin q).
Definition dom_changes (c c' : ncurve) (q : Qc) : Prop :=
  i_contains (c_dom c') (Fin q) <> i_contains (c_dom c) (Fin q).
(** The interval [d] contains every x at which the curve changed. *)
Definition tells (d : ival xq) (c c' : ncurve) : Prop :=
  forall q, y_changes c c' q \/ dom_changes c c' q -> imem d (Fin q).

(** A curve that is None outside its domain. *)
Definition none_outside (c : ncurve) : Prop :=
  forall q, i_contains (c_dom c) (Fin q) = false -> c_y c (Fin q) = Ok None.

(** Nodes whose domain is determined, x by x, by the domains they read: all but
    unions and the maps and offsets of unions. *)
Inductive local_domain (ns : list (node xq)) : nat -> Prop :=
| ld_source j : nth_error ns j = Some NSource -> local_domain ns j
| ld_map j skip param tfm p : nth_error ns j = Some (NMap skip param tfm p) -> local_domain ns p -> local_domain ns j
| ld_offset j a p : nth_error ns j = Some (NOffset a p) -> local_domain ns p -> local_domain ns j
| ld_agg j default tfm ps : nth_error ns j = Some (NAggregate false default tfm ps) ->
    (forall p, In p ps -> local_domain ns p) -> local_domain ns j
| ld_pieces j nr ps : nth_error ns j = Some (NPiecewise nr ps) -> local_domain ns j.

(** Offsets and intersections read such nodes.  Unions (min, max and first with
    ignore_empty) read curves that are None outside their domains, and combine
    nothing but Nones to their default. *)
Definition node_tame (ns : list (node xq)) (env : nat -> ncurve) (n : node xq) : Prop :=
  match n with
  | NOffset _ p => local_domain ns p
  | NAggregate false _ _ ps => forall p, In p ps -> local_domain ns p
  | NAggregate true default tfm ps =>
      (forall p, In p ps -> none_outside (curve_of env ns p)) /\ forall x, tfm x (map (fun _ => None) ps) = Ok default
  | _ => True
  end.
Definition tame (ns : list (node xq)) (env : nat -> ncurve) : Prop :=
  forall j n, nth_error ns j = Some n -> node_tame ns env n.

(** The domains of the sources have proper ends. *)
Definition sources_ok (ns : list (node xq)) (env : nat -> ncurve) : Prop :=
  forall j, nth_error ns j = Some NSource -> iok (c_dom (env j)).

(** Some end notification of node [j] in the log covers [q]. *)
Definition told (log : list (entry xq)) (j : nat) (q : Qc) : Prop :=
  exists en D, In en log /\ l_node en = j /\ l_end en = true /\ l_not en = Some D /\ imem D (Fin q).

(** Histories: changes of the sources (whole updates of intervals that tell the
    change) and readings of domains, starting with nothing cached. *)
Inductive live (ns : list (node xq)) (g : net xq) : (nat -> ncurve) -> nstate xq -> Prop :=
| lv_start env : sources_ok ns env -> live ns g env (fun _ => upd_init)
| lv_read env s j : live ns g env s -> live ns g env (set_node s j (fst (dom_read (s j) (curve_of env ns j))))
| lv_change env s i c d s' LB LE : live ns g env s -> nth_error ns i = Some NSource -> iok (c_dom c) ->
    iok d -> i_intersects d i_infinite = true -> tells d (env i) c ->
    net_update g (length ns) s i d = Ok (s', LB, LE) -> live ns g (set_env env i c) s'.
