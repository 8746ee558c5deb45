(** Model of domain readings made from inside notification callbacks.

    curve.py:433-466: while begin_update or end_update of a curve goes through
    its observers, the callbacks of other observers may read the domain of any
    curve of the network (curve.py:36-40), which fills caches in the middle of
    the update.  [hook k] lists the curves read at the k-th such opportunity.
    The interfaces of the sources are the old ones in begin callbacks and the
    new ones in end callbacks (points.py:273-330: the points are replaced
    between the two). *)
From Coq Require Import List ZArith Bool.
From Verif Require Import Base Num Interval Curve Graph Combine Live.
Import ListNotations.

Section LiveReads.
Context {T : Type} {N : Num T}.
Notation ncrv := (crv T (option T)).

(* the curves whose domain get_domain asks for: map.py:6-7, offset.py:13-14,
   aggregate.py:8-13; piecewise.py:6-7 has its own *)
Definition dom_reads (n : node T) : list nat :=
  match n with NPiecewise _ _ => [] | _ => reads n end.
(* get_domain of one node from the domains it asked for *)
Definition node_dom (own : ncrv) (n : node T) (ds : list (ival T)) : ival T :=
  match n with
  | NSource => c_dom own
  | NMap _ _ _ _ => hd i_empty ds
  | NOffset a _ => offset_interval a (hd i_empty ds)
  | NAggregate union _ _ _ => if union then i_union ds else i_inter ds
  | NPiecewise _ ps => i_union (map snd ps)
  end.

(* curve.py:36-40 *)
Definition keep_dom (u : upd T) (d : ival T) : upd T := mkU (u_begin u) (u_end u) (Some d).
Fixpoint read_dom (env : nat -> ncrv) (ns : list (node T)) (fuel : nat) (s : nstate T) (j : nat) : res (nstate T * ival T) :=
  match fuel with
  | O => Err EFuel
  | S f =>
      match u_dom (s j), nth_error ns j with
      | Some d, _ => Ok (s, d)
      | None, None => Ok (s, i_empty)
      | None, Some n =>
          let! (s1, ds) :=
            (fix go (ps : list nat) (s : nstate T) : res (nstate T * list (ival T)) :=
               match ps with
               | [] => Ok (s, [])
               | p :: ps' =>
                   let! (s1, d) := read_dom env ns f s p in
                   let! (s2, ds) := go ps' s1 in
                   Ok (s2, d :: ds)
               end) (dom_reads n) s in
          let d := node_dom (env j) n ds in
          Ok (set_node s1 j (keep_dom (s1 j) d), d)
      end
  end.

(** What happened: a call of begin_update / end_update, or a reading. *)
Inductive item := ICall (en : entry T) | IRead (j : nat) (d : ival T).

Fixpoint read_all (env : nat -> ncrv) (ns : list (node T)) (s : nstate T) (js : list nat) : res (nstate T * list item) :=
  match js with
  | [] => Ok (s, [])
  | j :: js' =>
      let! (s1, d) := read_dom env ns (S (length ns)) s j in
      let! (s2, l) := read_all env ns s1 js' in
      Ok (s2, IRead j d :: l)
  end.

(* Graph.v's net_op (curve.py:433-466) with readings before each dependant is
   called and after the last one *)
Fixpoint net_op_r (env : nat -> ncrv) (ns : list (node T)) (hook : nat -> list nat) (g : net T) (fuel : nat)
    (s : nstate T) (k : nat) (i : nat) (e : bool) (d : ival T) : res (nstate T * nat * list item) :=
  match fuel with
  | O => Err EFuel
  | S f =>
      let '(u, n) := node_op (s i) e d in
      let s1 := set_node s i u in
      let! (s2, k2, log) :=
        match n with
        | None => Ok (s1, k, [])
        | Some x =>
            (fix go (cs : list (nat * (ival T -> ival T))) (s : nstate T) (k : nat) : res (nstate T * nat * list item) :=
               let! (s0, l0) := read_all env ns s (hook k) in
               match cs with
               | [] => Ok (s0, S k, l0)
               | (c, t) :: cs' =>
                   let! (s1, k1, l1) := net_op_r env ns hook g f s0 (S k) c e (t x) in
                   let! (s2, k2, l2) := go cs' s1 k1 in
                   Ok (s2, k2, l0 ++ l1 ++ l2)
               end) (deps g i) s1 k
        end in
      Ok (s2, k2, ICall (Graph.mkL i e d n) :: log)
  end.

(** A whole update of source [i], whose interface becomes [c] in between. *)
Definition net_update_r (ns : list (node T)) (env : nat -> ncrv) (hook : nat -> list nat) (g : net T) (fuel : nat)
    (s : nstate T) (i : nat) (c : ncrv) (d : ival T) : res (nstate T * list item * list item) :=
  let! (s1, k, lb) := net_op_r env ns hook g fuel s 0 i false d in
  let! (s2, _, le) := net_op_r (set_env env i c) ns hook g fuel s1 k i true d in
  Ok (s2, lb, le).

(** The calls alone. *)
Fixpoint calls (l : list item) : list (entry T) :=
  match l with [] => [] | ICall en :: l' => en :: calls l' | IRead _ _ :: l' => calls l' end.

End LiveReads.
Arguments item T : clear implicits.
