(** Below zero the relative tolerance turns the band inside out
    (trend.py:840-866). *)
From Coq Require Import List ZArith QArith Qcanon Bool Lia.
From Verif Require Import Base Num NumFacts Interval Points Trend TrendGeo.
Import ListNotations.
Open Scope Qc_scope.

Lemma band_inverted eps r a y : 0 <= eps -> 0 < r -> nonneg_o a -> y < - eps ->
  y < tmin eps (Some r) a y /\ tmax eps (Some r) a y < y.
Proof.
  intros He Hr Ha Hy. unfold tmin, tmax.
  assert (Hn : y < 0) by qc_lra.
  rewrite (Qca_neg y) by qc_lra. replace (Qcltb eps (- y)) with true by (symmetry; apply Qcltb_true; qc_lra).
  assert (P : y * r < 0) by (clear - Hn Hr; qc_nra).
  assert (E1 : y * (1 - r) = y - y * r) by ring. assert (E2 : y * (1 + r) = y + y * r) by ring.
  destruct a as [a|]; cbn [nonneg_o] in Ha.
  - rewrite E1, E2. replace (Qcltb (y - a) (y - y * r)) with true by (symmetry; apply Qcltb_true; clear - P Ha; qc_lra).
    replace (Qcltb (y + y * r) (y + a)) with true by (symmetry; apply Qcltb_true; clear - P Ha; qc_lra).
    split; clear - P; qc_lra.
  - rewrite E1, E2. split; clear - P; qc_lra.
Qed.
