(** Model of updates and domain readings made from inside notification callbacks.

    curve.py:433-466: while begin_update or end_update of a curve goes through
    its observers, the callbacks of other observers run.  They may read domains
    (curve.py:36-40) and start complete updates of other (or the same) sources,
    whose notifications are delivered before the outer update goes on.
    [hook w] is what the callbacks do when the network has come to [w]; [w]
    contains the whole history, so that they may behave in any way. *)
From Coq Require Import List ZArith Bool.
From Verif Require Import Base Num Interval Curve Points Graph Combine Live LiveReads.
Import ListNotations.

Section Nest.
Context {T : Type} {N : Num T}.
Notation ncrv := (crv T (option T)).

(** A domain is read, or source [i] completes an update of [d] in which its
    interface becomes [c]. *)
Inductive action := ARead (j : nat) | AUpdate (i : nat) (c : ncrv) (d : ival T).

(** What happened: a call of begin_update / end_update with the number of the
    update that it belongs to, a reading, a change of a source. *)
Inductive event := XCall (r : nat) (en : entry T) | XRead (j : nat) (d : ival T) | XSet (i : nat) (c : ncrv) (d : ival T).

(** The interfaces of the sources, the curves' update states, the history
    (newest first). *)
Record world := mkW { w_env : nat -> ncrv; w_st : nstate T; w_log : list event }.

Section Run.
Variable ns : list (node T).
Variable hook : world -> list action.
Variable g : net T.

(* points.py:273-330, line.py, constant.py: begin_update, change, end_update *)
Fixpoint run_actions (op : world -> nat -> nat -> bool -> ival T -> res world) (l : list action) (w : world) : res world :=
  match l with
  | [] => Ok w
  | ARead j :: l' =>
      let! (s, d) := read_dom (w_env w) ns (S (length ns)) (w_st w) j in
      run_actions op l' (mkW (w_env w) s (XRead j d :: w_log w))
  | AUpdate i c d :: l' =>
      let r := length (w_log w) in
      let! w1 := op w r i false d in
      let! w2 := op (mkW (set_env (w_env w1) i c) (w_st w1) (XSet i c d :: w_log w1)) r i true d in
      run_actions op l' w2
  end.

(* curve.py:433-466; callbacks run before each dependant is called and after
   the last one *)
Fixpoint nest_op (fuel : nat) (w : world) (r i : nat) (e : bool) (d : ival T) : res world :=
  match fuel with
  | O => Err EFuel
  | S f =>
      let '(u, n) := node_op (w_st w i) e d in
      let w1 := mkW (w_env w) (set_node (w_st w) i u) (XCall r (Graph.mkL i e d n) :: w_log w) in
      match n with
      | None => Ok w1
      | Some x =>
          (fix go (cs : list (nat * (ival T -> ival T))) (w : world) : res world :=
             let! w0 := run_actions (nest_op f) (hook w) w in
             match cs with
             | [] => Ok w0
             | (c, t) :: cs' => let! w1 := nest_op f w0 r c e (t x) in go cs' w1
             end) (deps g i) w1
      end
  end.

(** A whole history. *)
Definition session (fuel : nat) (l : list action) (w : world) : res world := run_actions (nest_op fuel) l w.

End Run.
Definition new_world (env : nat -> ncrv) : world := mkW env (fun _ => upd_init) [].
End Nest.
Arguments action T : clear implicits.
Arguments event T : clear implicits.
Arguments world T : clear implicits.

(** points.py:61-85 append_list to a curve with points, with callbacks that do
    [cb] to the curve itself at the end of its begin_update. *)
Section Reentrant.
Context {T : Type} {N : Num T} {V : Type}.
Definition p_append_cb (cb : pts T V -> pts T V * list (ev T)) (s : pts T V) (points : list (T * V)) : out T V unit :=
  match p_pts s with
  | [] => p_set s points None
  | _ =>
      match head_opt points, last_opt points, last_opt (p_pts s) with
      | Some a, Some b, Some z =>
          if n_leb (fst a) (fst z) then (s, [], Err EExc)
          else
            let s := p_touch s in
            let d := if i_is_empty (p_dom s) then i_closed (fst a) (fst b)
                     else mkI (i_end (p_dom s)) (fst b) true false in
            let '(s, ev1) := p_begin s d in
            let '(s, ev2) := cb s in
            match points_equally_spaced (p_int s) (p_pts s) points with
            | Err e => (s, ev1 ++ ev2, Err e)
            | Ok q =>
                let s := set_eq s q in
                if p_force s && negb q then (s, ev1 ++ ev2, Err EExc)
                else p_finish s (p_pts s ++ points) d (ev1 ++ ev2)
            end
      | _, _, _ => (s, [], Ok tt)
      end
  end.
End Reentrant.
