(** curvepy/curve.py:360-382 regression.  numpy.linalg.lstsq is not part of the
    repository: it is a parameter, given the points and answering with slope and
    constant; it may raise.  vstack and the matrix only repackage the points. *)
From Coq Require Import List ZArith Bool.
From Verif Require Import Base Num Interval Curve Points Combine.
Import ListNotations.

Section Regression.
Context {T : Type} {N : Num T}.
Variable lstsq : list (T * T) -> res (T * T).

(* curve.py:362-364: None as soon as a value is None *)
Fixpoint all_values (l : list (T * option T)) : option (list (T * T)) :=
  match l with
  | [] => Some []
  | (x, Some y) :: l' => match all_values l' with Some m => Some ((x, y) :: m) | None => None end
  | (_, None) :: _ => None
  end.

(* curve.py:362-382 *)
Definition regress (points : list (T * option T)) : res (option (line T)) :=
  match all_values points with
  | None | Some [] | Some [_] => Ok None
  | Some [p; q] => let! l := line_init None None (Some p) (Some q) None in Ok (Some l)
  | Some l => let! w := lstsq l in
              let! l := line_init (Some (snd w)) (Some (fst w)) None None None in Ok (Some l)
  end.

(* curve.py:360-361: on a curve with the inherited sample_points, and on Points *)
Definition regression (fuel : nat) (c : crv T (option T)) (domain : option (ival T)) (ms step : option T) : res (option (line T)) :=
  let! l := sample_points fuel c domain ms step in regress l.
Definition p_regression (fuel : nat) (s : pts T (option T)) (domain : option (ival T)) (ms step : option T) : res (option (line T)) :=
  let! l := p_sample_points fuel s domain ms step in regress l.

End Regression.
