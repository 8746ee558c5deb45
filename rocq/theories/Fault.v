(** Model of notifications during which a callback raises an exception.

    curve.py:433-466: begin_update and end_update record the interval and then
    call the observers one after the other.  Neither catches anything: when a
    callback raises, the remaining observers of this curve, and of every curve
    on the way down to it, are not called, and the exception goes to the caller
    of the update.  [raises log] tells whether a callback raises when the calls
    [log] (newest first) have been made, so that callbacks may raise at any
    point and for any reason. *)
From Coq Require Import List ZArith Bool.
From Verif Require Import Base Num Interval Curve Points Graph.
Import ListNotations.

Section Fault.
Context {T : Type} {N : Num T}.
Variable g : net T.
Variable raises : list (entry T) -> bool.

(* curve.py:437-445 / 459-466; the callbacks of other observers run before each
   dependant and after the last one; [true]: an exception is under way *)
Fixpoint fault_op (fuel : nat) (s : nstate T) (log : list (entry T)) (i : nat) (e : bool) (d : ival T)
  : res (nstate T * list (entry T) * bool) :=
  match fuel with
  | O => Err EFuel
  | S f =>
      let '(u, n) := node_op (s i) e d in
      let s1 := set_node s i u in
      let log1 := Graph.mkL i e d n :: log in
      match n with
      | None => Ok (s1, log1, false)
      | Some x =>
          (fix go (cs : list (nat * (ival T -> ival T))) (s : nstate T) (log : list (entry T))
             : res (nstate T * list (entry T) * bool) :=
             if raises log then Ok (s, log, true)
             else match cs with
                  | [] => Ok (s, log, false)
                  | (c, t) :: cs' =>
                      let! (s1, log1, b) := fault_op f s log c e (t x) in
                      if b then Ok (s1, log1, true) else go cs' s1 log1
                  end) (deps g i) s1 log1
      end
  end.

(** A history of calls of begin_update ([false]) and end_update ([true]) from
    outside, in any order and not necessarily in pairs; whoever makes them
    catches the exceptions. *)
Fixpoint calls (fuel : nat) (h : list (nat * bool * ival T)) (s : nstate T) (log : list (entry T))
  : res (nstate T * list (entry T)) :=
  match h with
  | [] => Ok (s, log)
  | (i, e, d) :: h' =>
      let! (s1, log1, _) := fault_op fuel s log i e d in
      calls fuel h' s1 log1
  end.

(* points.py:61-85 etc.: begin_update, the change, end_update; an exception in
   begin_update leaves the operation, so that end_update is not called *)
Definition attempt (fuel : nat) (s : nstate T) (log : list (entry T)) (i : nat) (d : ival T)
  : res (nstate T * list (entry T) * bool) :=
  let! (s1, log1, b) := fault_op fuel s log i false d in
  if b then Ok (s1, log1, true) else fault_op fuel s1 log1 i true d.
Fixpoint attempts (fuel : nat) (l : list (nat * ival T)) (s : nstate T) (log : list (entry T))
  : res (nstate T * list (entry T)) :=
  match l with
  | [] => Ok (s, log)
  | (i, d) :: l' =>
      let! (s1, log1, _) := attempt fuel s log i d in
      attempts fuel l' s1 log1
  end.

(** Updates during which nothing raises (Graph.v). *)
Fixpoint net_updates (fuel : nat) (l : list (nat * ival T)) (s : nstate T) : res (nstate T * list (entry T)) :=
  match l with
  | [] => Ok (s, [])
  | (i, d) :: l' =>
      let! (s1, lb, le) := net_update g fuel s i d in
      let! (s2, log) := net_updates fuel l' s1 in
      Ok (s2, lb ++ le ++ log)
  end.

End Fault.

(** points.py:61-85 append_list to a curve with points, when a callback raises
    during begin_update: the points have not been touched yet. *)
Section Points.
Context {T : Type} {N : Num T} {V : Type}.
Definition p_append_broken (s : pts T V) (points : list (T * V)) : out T V unit :=
  match p_pts s, head_opt points, last_opt points, last_opt (p_pts s) with
  | _ :: _, Some a, Some b, Some z =>
      if n_leb (fst a) (fst z) then (s, [], Err EExc)
      else
        let s := p_touch s in
        let d := if i_is_empty (p_dom s) then i_closed (fst a) (fst b)
                 else mkI (i_end (p_dom s)) (fst b) true false in
        let '(s, ev1) := p_begin s d in (s, ev1, Err EExc)
  | _, _, _, _ => (s, [], Ok tt)
  end.
End Points.
