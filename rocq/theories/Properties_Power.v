(** C57: powers and logarithms of curves. *)
From Coq Require Import List Reals ZArith QArith Qcanon Bool Lra.
From Verif Require Import Base Num NumFacts Interval IntervalFacts Curve Combine CombineFacts Power PowerFacts.
Import ListNotations.
Open Scope R_scope.

(** [cx] is what Python makes of a negative number to a fractional power; no
    statement depends on it. *)

(** log(b) of a positive value is the exponent that gives the value. *)
Theorem C57_log : forall f x v b, finite x -> answers f x (Some v) -> 0 < v -> 0 < b -> b <> 1 ->
  exists r, c_y (log f b) x = Ok (Some r) /\ Rpower b r = v /\ forall r', Rpower b r' = v -> r' = r.
Proof. exact log_value. Qed.
Print Assumptions C57_log.
Theorem C57_log_order : forall f g x v w b, finite x -> answers f x (Some v) -> answers g x (Some w) -> 0 < v -> 1 < b -> v < w ->
  exists r s, c_y (log f b) x = Ok (Some r) /\ c_y (log g b) x = Ok (Some s) /\ r < s.
Proof. exact log_order. Qed.
Print Assumptions C57_log_order.
(** raised(b) and log(b) undo each other. *)
Theorem C57_log_raised : forall cx f x v b, finite x -> answers f x (Some v) -> 0 < v -> 0 < b -> b <> 1 ->
  c_y (raised cx (log f b) b) x = Ok (Some v).
Proof. exact log_raised. Qed.
Print Assumptions C57_log_raised.
Theorem C57_raised_log : forall cx f x v b, finite x -> answers f x (Some v) -> 0 < b -> b <> 1 ->
  c_y (log (raised cx f b) b) x = Ok (Some v).
Proof. exact raised_log. Qed.
Print Assumptions C57_raised_log.
Example C57_log_ex : finite (Fin 0%Qc) /\ answers (number 8) (Fin 0%Qc) (Some 8) /\ 0 < 8 /\ 0 < 2 /\ 2 <> 1 /\
  c_y (log (number 8) 2) (Fin 0%Qc) = Ok (Some (ln 8 / ln 2)) /\ ln 8 / ln 2 = 3.
Proof.
  split; [exact I|]. split; [apply number_fin; exact I|]. split; [lra|]. split; [lra|]. split; [lra|].
  split; [apply log_answers; [exact I|apply number_fin; exact I|lra|lra|lra]|].
  replace 8 with (2 ^ 3) by (cbn; lra). rewrite ln_pow by lra. cbn [INR]. field. apply ln_not0; lra.
Qed.

(** Whole powers are products, also of negative values; a positive value may
    have any power. *)
Theorem C57_pow_whole : forall cx f x v n, finite x -> answers f x (Some v) ->
  c_y (pow cx f (number (INR n))) x = Ok (Some (Rpow_def.pow v n)).
Proof. exact pow_whole. Qed.
Print Assumptions C57_pow_whole.
Theorem C57_pow_negative : forall cx f x v n, finite x -> answers f x (Some v) -> (0 < n)%nat ->
  (v <> 0 -> c_y (pow cx f (number (- INR n))) x = Ok (Some (/ Rpow_def.pow v n))) /\
  (v = 0 -> c_y (pow cx f (number (- INR n))) x = Err EZeroDiv).
Proof. exact pow_negative. Qed.
Print Assumptions C57_pow_negative.
Theorem C57_pow_real : forall cx f g x v w, finite x -> answers f x (Some v) -> answers g x (Some w) -> 0 < v ->
  c_y (pow cx f g) x = Ok (Some (Rpower v w)).
Proof. exact pow_real. Qed.
Print Assumptions C57_pow_real.
(** Several operands associate to the left: the exponents multiply. *)
Theorem C57_pow_chain : forall cx f gs x v ws, finite x -> answers f x (Some v) ->
  Forall2 (fun g w => answers g x (Some w)) gs ws -> 0 < v ->
  c_y (pow_many cx (f :: gs)) x = Ok (Some (Rpower v (fold_right Rmult 1 ws))).
Proof. exact pow_chain. Qed.
Print Assumptions C57_pow_chain.
Example C57_pow_ex : forall cx, c_y (pow cx (number (-2)) (number (INR 3))) (Fin 0%Qc) = Ok (Some (-8)) /\
  c_y (pow cx (number 0) (number (- INR 1))) (Fin 0%Qc) = Err EZeroDiv /\
  c_y (pow_many cx [number 2; number 3; number 2]) (Fin 0%Qc) = Ok (Some (Rpower 2 (3 * (2 * 1)))) /\ Rpower 2 (3 * (2 * 1)) = 64.
Proof.
  intros cx. split; [rewrite (pow_whole cx _ _ (-2)); [cbn; do 2 f_equal; ring|exact I|apply number_fin; exact I]|].
  split; [apply (pow_negative cx _ _ 0); [exact I|apply number_fin; exact I|constructor|reflexivity]|].
  split; [apply (pow_chain cx (number 2) [number 3; number 2] (Fin 0%Qc) 2 [3; 2]); [exact I|apply number_fin; exact I| |lra];
    repeat (apply Forall2_cons; [apply number_fin; exact I|]); constructor|].
  replace (3 * (2 * 1)) with (INR 6) by (cbn; ring). rewrite Rpower_pow by lra. cbn. ring.
Qed.

(** None where an operand is None or outside of a domain. *)
Theorem C57_none : forall cx f g x, finite x ->
  (answers f x None /\ (exists v, answers g x v) \/ (exists v, answers f x (Some v)) /\ answers g x None) ->
  c_y (pow cx f g) x = Ok None /\ c_y (log_many [f; g]) x = Ok None.
Proof. exact pow_none. Qed.
Print Assumptions C57_none.
Theorem C57_outside : forall cx f g x, notnan x -> iok (c_dom f) -> iok (c_dom g) -> ~ (imem (c_dom f) x /\ imem (c_dom g) x) ->
  c_y (pow cx f g) x = Ok None /\ c_y (log_many [f; g]) x = Ok None.
Proof. exact pow_out. Qed.
Print Assumptions C57_outside.
(** Unlike division, a logarithm that is not defined raises. *)
Theorem C57_log_raises : forall f x v b, finite x -> answers f x (Some v) ->
  (v <= 0 \/ b <= 0 -> c_y (log f b) x = Err EValue) /\ (0 < v -> b = 1 -> c_y (log f b) x = Err EZeroDiv).
Proof. exact log_raises. Qed.
Print Assumptions C57_log_raises.
Example C57_raises_ex : answers (number (-1)) (Fin 0%Qc) (Some (-1)) /\ c_y (log (number (-1)) 2) (Fin 0%Qc) = Err EValue.
Proof. split; [apply number_fin; exact I|]. apply (log_raises _ _ (-1)); [exact I|apply number_fin; exact I|lra]. Qed.
