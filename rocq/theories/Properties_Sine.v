(** C47: sine curves and the sine extension, over the reals. *)
From Coq Require Import Reals.
From Verif Require Import Base Sine SineFacts.
Open Scope R_scope.

(** The curve its parameters describe. *)
Theorem C47_period : forall a p ph, p <> 0 -> exists s, sin_set (Some a) None (Some p) (Some ph) None = Ok s /\
  s_amp s = a /\ s_phase s = ph /\ sin_period s = Ok p /\ sin_frequency s = 1 / p /\
  forall x, sin_y s x = a * sin (2 * PI * x / p + ph).
Proof. exact set_period. Qed.
Print Assumptions C47_period.
Theorem C47_frequency : forall a f ph, exists s, sin_set (Some a) (Some f) None (Some ph) None = Ok s /\
  sin_frequency s = f /\ forall x, sin_y s x = a * sin (2 * PI * f * x + ph).
Proof. exact set_frequency. Qed.
Print Assumptions C47_frequency.
Theorem C47_phase_x : forall a p px, p <> 0 -> exists s, sin_set (Some a) None (Some p) (Some 0) (Some px) = Ok s /\
  forall x, sin_y s x = a * sin (2 * PI * (x + px) / p).
Proof. exact set_phase_x. Qed.
Print Assumptions C47_phase_x.
Theorem C47_periodic : forall s p x, sin_period s = Ok p -> sin_y s (x + p) = sin_y s x /\ sin_dy s (x + p) = sin_dy s x.
Proof. exact periodic. Qed.
Print Assumptions C47_periodic.
Theorem C47_bounded : forall s x, Rabs (sin_y s x) <= Rabs (s_amp s).
Proof. exact bounded. Qed.
Print Assumptions C47_bounded.
Example C47_period_ex : sin_set (Some 3) None (Some 4) (Some 0) None = Ok wave /\ sin_period wave = Ok 4 /\ sin_y wave 1 = 3.
Proof. exact (conj wave_set (conj wave_period wave_top)). Qed.

(** The slope of the curve is the coefficient of x times d_y ... *)
Theorem C47_true_slope : forall s x, derivable_pt_lim (sin_y s) x (s_coef s * sin_dy s x).
Proof. exact true_slope. Qed.
Print Assumptions C47_true_slope.
(** ... so d_y is the slope exactly when the coefficient is 1 or there is no slope. *)
Theorem C47_slope_iff : forall s x, derivable_pt_lim (sin_y s) x (sin_dy s x) <-> s_coef s = 1 \/ sin_dy s x = 0.
Proof. exact slope_iff. Qed.
Print Assumptions C47_slope_iff.
Example C47_slope_iff_ex : exists s, sin_set (Some 3) None (Some (2 * PI)) (Some 0) None = Ok s /\ s_coef s = 1.
Proof. exact unit_coef. Qed.
Theorem C47_slope_refuted : forall a p ph s, p <> 0 -> p <> 2 * PI -> a <> 0 -> sin_set (Some a) None (Some p) (Some ph) None = Ok s ->
  exists x, ~ derivable_pt_lim (sin_y s) x (sin_dy s x).
Proof. exact slope_wrong. Qed.
Print Assumptions C47_slope_refuted.
Example C47_slope_refuted_ex : sin_set (Some 3) None (Some 4) (Some 0) None = Ok wave /\ 4 <> 2 * PI /\ sin_dy wave 0 = 3.
Proof. exact (conj wave_set (conj four_not_2pi wave_slope)). Qed.

(** The sine extension goes through the edge point with the edge slope, for
    every edge point and slope ... *)
Theorem C47_extension : forall p x y dy, 0 < p -> exists s, sin_update p x y dy = Ok s /\ sin_period s = Ok p /\
  sin_y s x = y /\ derivable_pt_lim (sin_y s) x dy.
Proof. exact update_tangent. Qed.
Print Assumptions C47_extension.
Example C47_extension_ex : exists s, sin_update 4 1 5 (-2) = Ok s /\ sin_period s = Ok 4 /\ sin_y s 1 = 5 /\ derivable_pt_lim (sin_y s) 1 (-2).
Proof. exact (update_tangent 4 1 5 (-2) (Rmult_lt_0_compat 2 2 Rlt_0_2 Rlt_0_2)). Qed.
(** ... but reports another one. *)
Theorem C47_extension_reported : forall p x y dy s, 0 < p -> sin_update p x y dy = Ok s -> 2 * PI / p * sin_dy s x = dy.
Proof. exact update_reported. Qed.
Print Assumptions C47_extension_reported.
Theorem C47_created : forall p x, 0 < p -> exists s, sin_create p = Ok s /\ sin_y s x = 0.
Proof. exact create_flat. Qed.
Print Assumptions C47_created.
Theorem C47_zero_period : forall a f ph px, sin_set a f (Some 0) ph px = Err EZeroDiv.
Proof. exact set_zero_period. Qed.
Print Assumptions C47_zero_period.
