(** Sampling a curve whose queries change its state, and the sampling method of
    scanning curves. *)
From Coq Require Import List ZArith Bool.
From Verif Require Import Base Num Interval Curve Points Scan.
Import ListNotations.
Local Open Scope num_scope.

Section Stateful.
Context {T : Type} {N : Num T} {S V : Type}.
(** [rd] reads the domain, [qy] is y, [nx] is x_next; only the first two write.
    The methods of curve.py:168-210 as in Curve.v, with the state passed on *)
Context (own : option T) (rd : S -> S * ival T) (qy : S -> T -> S * res V)
        (nx : S -> T -> option T -> option T -> res (option T)).

(* curve.py:185-189 the [step] loop *)
Fixpoint st_step_loop (fuel : nat) (s : S) (x_end step x : T) : S * res (list (T * V)) :=
  match fuel with
  | O => (s, Err EFuel)
  | Datatypes.S f =>
      if x <=? x_end then
        match qy s x with
        | (s, Err e) => (s, Err e)
        | (s, Ok y) =>
            match st_step_loop f s x_end step (x + step) with
            | (s, Err e) => (s, Err e)
            | (s, Ok r) => (s, Ok ((x, y) :: r))
            end
        end
      else (s, Ok [])
  end.

(* curve.py:191-203 the [min_step] loop *)
Fixpoint st_ms_loop (fuel : nat) (s : S) (x_end ms : T) (x_end_bin : Z) (x : option T) : S * res (list (T * V)) :=
  match fuel with
  | O => (s, Err EFuel)
  | Datatypes.S f =>
      match x with
      | None => (s, Ok [])
      | Some x =>
          if negb (x <=? x_end) then (s, Ok []) else
          match qy s x with
          | (s, Err e) => (s, Err e)
          | (s, Ok y) =>
              match (let! q := n_div x ms in n_round q) with
              | Err e => (s, Err e)
              | Ok x_bin =>
                  if (x_bin =? x_end_bin)%Z then (s, Ok [(x, y)]) else
                  match (let! x1 := nx s x (Some ms) (Some x_end) in
                         let! ok :=
                           match x1 with
                           | None => Ok tt
                           | Some x1v =>
                               let! q1 := n_div x1v ms in
                               let! x1_bin := n_round q1 in
                               if (x1_bin <=? x_bin)%Z then Err EExc else Ok tt
                           end in
                         Ok x1) with
                  | Err e => (s, Err e)
                  | Ok x1 =>
                      match st_ms_loop f s x_end ms x_end_bin x1 with
                      | (s, Err e) => (s, Err e)
                      | (s, Ok r) => (s, Ok ((x, y) :: r))
                      end
                  end
              end
          end
      end
  end.

(* curve.py:168-210 sample_points *)
Definition st_sample (fuel : nat) (s : S) (domain : option (ival T)) (ms step : option T) : S * res (list (T * V)) :=
  let ms := resolve_min_step own ms in
  let '(s, d0) := rd s in
  let dom := match domain with None => d0 | Some d => i_inter2 d0 d end in
  if i_is_empty dom then (s, Ok [])
  else if negb (i_is_finite dom) then (s, Err EExc)
  else
    let x_start := i_start dom in
    let x_end := i_end dom in
    match match ms with Some m => let! q := n_div x_end m in n_round q | None => Ok 0%Z end with
    | Err e => (s, Err e)
    | Ok x_end_bin =>
        let '(s, points) :=
          if i_so dom then (s, Ok [])
          else match qy s x_start with (s, Err e) => (s, Err e) | (s, Ok y) => (s, Ok [(x_start, y)]) end in
        match points with
        | Err e => (s, Err e)
        | Ok points =>
            match step with
            | Some h =>
                match st_step_loop fuel s x_end h (x_start + h) with
                | (s, Err e) => (s, Err e)
                | (s, Ok r) => (s, Ok (points ++ r))
                end
            | None =>
                match ms with
                | Some m =>
                    if m >? n_zero then
                      match nx s x_start (Some m) (Some x_end) with
                      | Err e => (s, Err e)
                      | Ok x =>
                          match st_ms_loop fuel s x_end m x_end_bin x with
                          | (s, Err e) => (s, Err e)
                          | (s, Ok r) =>
                              let pts := points ++ r in
                              if i_eo dom then (s, Ok pts)
                              else match last_opt pts with
                                   | None => (s, Err EIndex)
                                   | Some (xl, _) =>
                                       if negb (xl =? x_end) then
                                         match qy s x_end with
                                         | (s, Err e) => (s, Err e)
                                         | (s, Ok y) => (s, Ok (pts ++ [(x_end, y)]))
                                         end
                                       else (s, Ok pts)
                                   end
                          end
                      end
                    else (s, Err EExc)
                | None => (s, Err EExc)
                end
            end
        end
    end.
End Stateful.

Section Scanning.
Context {T : Type} {N : Num T} {V W : Type} {WW : Val T W}.

(* scan.py:69-81 sample_points of an accumulator: accumulator.py:32-34 x_next,
   scan.py:25-29 y and the cached domain are those of Scan.v *)
Definition acc_sample (fuel : nat) (c : crv T V) (own : option T)
    (tf : pts T W -> T -> V -> W -> res W) (post : W -> W) (a : acc T W)
    (domain : option (ival T)) (ms step : option T) : acc T W * res (list (T * W)) :=
  let ms := resolve_min_step own ms in
  let '(a, d0) := acc_dom (c_dom c) a in
  let dom := match domain with None => d0 | Some d => i_inter2 d0 d end in
  if i_is_empty dom then (a, Ok [])
  else if i_is_infinite dom then (a, Err EExc)
  else
    match scan fuel c own (init_scan c own) no_offset tf (i_start dom) a with
    | (a, Err e) => (a, Err e)
    | (a, Ok _) =>
        match scan fuel c own (init_scan c own) no_offset tf (i_end dom) a with
        | (a, Err e) => (a, Err e)
        | (a, Ok _) =>
            st_sample own (acc_dom (c_dom c)) (acc_y fuel c own tf post) (acc_next c own) fuel a (Some dom) ms step
        end
    end.
End Scanning.
