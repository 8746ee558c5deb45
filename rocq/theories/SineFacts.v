(** Facts on sine curves and the sine extension. *)
From Coq Require Import Reals ZArith Lra Psatz.
From Verif Require Import Base Sine.
Open Scope R_scope.

Lemma r_div_ok a b : b <> 0 -> r_div a b = Ok (a / b).
Proof. intros H. unfold r_div. destruct (Req_EM_T b 0); [contradiction|reflexivity]. Qed.
Lemma pi_nz : PI <> 0.
Proof. pose proof PI_RGT_0. lra. Qed.

(** ** set *)
Theorem set_period a p ph : p <> 0 -> exists s, sin_set (Some a) None (Some p) (Some ph) None = Ok s /\
  s_amp s = a /\ s_phase s = ph /\ sin_period s = Ok p /\ sin_frequency s = 1 / p /\
  forall x, sin_y s x = a * sin (2 * PI * x / p + ph).
Proof.
  intros H. unfold sin_set. rewrite r_div_ok by exact H. cbn [rbind]. eexists. split; [reflexivity|].
  cbn [s_amp s_phase]. split; [reflexivity|]. split; [reflexivity|]. pose proof pi_nz as Hp. split; [|split].
  - unfold sin_period. cbn [s_coef]. rewrite r_div_ok.
    + f_equal. field. split; assumption.
    + assert (1 / p <> 0) by (unfold Rdiv; rewrite Rmult_1_l; apply Rinv_neq_0_compat, H).
      apply Rmult_integral_contrapositive_currified; [|lra]. apply Rmult_integral_contrapositive_currified; assumption.
  - unfold sin_frequency. cbn [s_coef]. field. split; assumption.
  - intros x. unfold sin_y. cbn [s_amp s_coef s_phase]. f_equal. f_equal. f_equal. field. exact H.
Qed.
Theorem set_frequency a f ph : exists s, sin_set (Some a) (Some f) None (Some ph) None = Ok s /\
  sin_frequency s = f /\ forall x, sin_y s x = a * sin (2 * PI * f * x + ph).
Proof.
  eexists. split; [reflexivity|]. pose proof pi_nz. split.
  - unfold sin_frequency. cbn. field. assumption.
  - intros x. unfold sin_y. cbn. f_equal. f_equal. ring.
Qed.
Theorem set_phase_x a p px : p <> 0 -> exists s, sin_set (Some a) None (Some p) (Some 0) (Some px) = Ok s /\
  forall x, sin_y s x = a * sin (2 * PI * (x + px) / p).
Proof.
  intros H. unfold sin_set. rewrite r_div_ok by exact H. cbn [rbind]. eexists. split; [reflexivity|].
  intros x. unfold sin_y. cbn. f_equal. f_equal. field. exact H.
Qed.
Theorem set_zero_period a f ph px : sin_set a f (Some 0) ph px = Err EZeroDiv.
Proof. unfold sin_set, r_div. destruct (Req_EM_T 0 0); [reflexivity|lra]. Qed.

(** ** Values and slopes *)
Theorem periodic s p x : sin_period s = Ok p -> sin_y s (x + p) = sin_y s x /\ sin_dy s (x + p) = sin_dy s x.
Proof.
  unfold sin_period, r_div. destruct (Req_EM_T (s_coef s) 0); [discriminate|]. intros E. injection E as <-.
  unfold sin_y, sin_dy. replace (s_coef s * (x + PI * 2 / s_coef s) + s_phase s) with (s_coef s * x + s_phase s + 2 * PI) by (field; assumption).
  set (b := s_coef s * x + s_phase s). rewrite (sin_plus b), (cos_plus b), sin_2PI, cos_2PI. split; ring.
Qed.
Theorem bounded s x : Rabs (sin_y s x) <= Rabs (s_amp s).
Proof.
  unfold sin_y. rewrite Rabs_mult. rewrite <- (Rmult_1_r (Rabs (s_amp s))) at 2. apply Rmult_le_compat_l; [apply Rabs_pos|].
  pose proof (SIN_bound (s_coef s * x + s_phase s)). apply Rabs_le. lra.
Qed.
Lemma affine_slope k ph x : derivable_pt_lim (fun x => k * x + ph) x k.
Proof.
  intros eps He. exists (mkposreal 1 Rlt_0_1). intros h Hh _.
  replace ((k * (x + h) + ph - (k * x + ph)) / h - k) with 0 by (field; exact Hh). rewrite Rabs_R0. exact He.
Qed.
(** The slope of the curve. *)
Theorem true_slope s x : derivable_pt_lim (sin_y s) x (s_coef s * sin_dy s x).
Proof.
  pose proof (derivable_pt_lim_comp (fun x => s_coef s * x + s_phase s) sin x _ _ (affine_slope (s_coef s) (s_phase s) x)
                (derivable_pt_lim_sin (s_coef s * x + s_phase s))) as H.
  apply (derivable_pt_lim_scal _ (s_amp s)) in H. unfold sin_dy.
  replace (s_coef s * (s_amp s * cos (s_coef s * x + s_phase s))) with (s_amp s * (cos (s_coef s * x + s_phase s) * s_coef s)) by ring.
  exact H.
Qed.
(** d_y is the slope exactly where there is none or the coefficient is 1. *)
Theorem slope_iff s x : derivable_pt_lim (sin_y s) x (sin_dy s x) <-> s_coef s = 1 \/ sin_dy s x = 0.
Proof.
  split.
  - intros H. pose proof (uniqueness_limite _ _ _ _ H (true_slope s x)) as E.
    assert (E' : (s_coef s - 1) * sin_dy s x = 0) by lra. apply Rmult_integral in E'. destruct E'; [left|right]; lra.
  - pose proof (true_slope s x) as H. intros [E|E].
    + rewrite E, Rmult_1_l in H. exact H.
    + rewrite E in *. rewrite Rmult_0_r in H. exact H.
Qed.
Theorem slope_wrong a p ph s : p <> 0 -> p <> 2 * PI -> a <> 0 -> sin_set (Some a) None (Some p) (Some ph) None = Ok s ->
  exists x, ~ derivable_pt_lim (sin_y s) x (sin_dy s x).
Proof.
  intros Hp Hq Ha E. unfold sin_set in E. rewrite r_div_ok in E by exact Hp. cbn [rbind] in E. injection E as <-.
  pose proof pi_nz as Hpi.
  exists (- ph * p / (2 * PI)). rewrite slope_iff. unfold sin_dy. cbn [s_amp s_coef s_phase].
  replace (1 / p * PI * 2 * (- ph * p / (2 * PI)) + ph) with 0 by (field; split; assumption). rewrite cos_0. intros [H|H]; [|lra].
  apply Hq. apply (f_equal (Rmult p)) in H. rewrite Rmult_1_r in H. rewrite <- H. field. exact Hp.
Qed.

(** ** atan2 *)
Lemma sqrt_frac x y : 0 < x -> sqrt (1 + (y / x)²) = sqrt (x * x + y * y) / x.
Proof.
  intros H. replace (1 + (y / x)²) with ((x * x + y * y) / (x * x)).
  - rewrite sqrt_div_alt by nra. rewrite sqrt_square by lra. reflexivity.
  - unfold Rsqr. field. lra.
Qed.
Lemma hyp_pos x y : x <> 0 \/ y <> 0 -> 0 < sqrt (x * x + y * y).
Proof. intros H. apply sqrt_lt_R0. destruct H; nra. Qed.
Lemma atan_quot x y : 0 < x -> sin (atan (y / x)) = y / sqrt (x * x + y * y) /\ cos (atan (y / x)) = x / sqrt (x * x + y * y).
Proof.
  intros H. rewrite sin_atan, cos_atan, sqrt_frac by exact H. assert (Hp : 0 < sqrt (x * x + y * y)) by (apply hyp_pos; lra).
  split; field; lra.
Qed.
Theorem atan2_spec x y : x <> 0 \/ y <> 0 ->
  sin (atan2 y x) = y / sqrt (x * x + y * y) /\ cos (atan2 y x) = x / sqrt (x * x + y * y).
Proof.
  intros H. unfold atan2. pose proof (hyp_pos x y H) as Hp.
  destruct (Rlt_dec 0 x) as [X|X]; [apply atan_quot, X|].
  destruct (Rlt_dec x 0) as [X'|X'].
  - assert (Q : sin (atan (y / x)) = - y / sqrt (x * x + y * y) /\ cos (atan (y / x)) = - x / sqrt (x * x + y * y)).
    { replace (y / x) with (- y / - x) by (field; lra). replace (x * x + y * y) with (- x * - x + - y * - y) by ring.
      apply atan_quot. lra. }
    destruct Q as (Q1 & Q2). destruct (Rle_dec 0 y).
    + rewrite neg_sin, neg_cos, Q1, Q2. split; field; lra.
    + unfold Rminus. rewrite sin_plus, cos_plus, sin_neg, cos_neg, sin_PI, cos_PI, Q1, Q2. split; field; lra.
  - assert (x = 0) by lra. subst. replace (0 * 0 + y * y) with (y²) in * by (unfold Rsqr; ring).
    destruct (Rlt_dec 0 y) as [Y|Y].
    + rewrite sin_PI2, cos_PI2, sqrt_Rsqr by lra. split; field; lra.
    + destruct (Rlt_dec y 0) as [Y'|Y']; [|exfalso; destruct H; lra].
      rewrite sin_neg, cos_neg, sin_PI2, cos_PI2. rewrite (Rsqr_neg y), sqrt_Rsqr by lra. split; field; lra.
Qed.

(** ** a % pi *)
Lemma Int_part_IZR k : Int_part (IZR k) = k.
Proof.
  destruct (base_Int_part (IZR k)) as (A & B). apply le_IZR in A.
  assert (C : IZR k - 1 < IZR (Int_part (IZR k))) by lra. rewrite <- minus_IZR in C. apply lt_IZR in C. lia.
Qed.
Lemma mod_pi a : r_mod a PI = 0 <-> sin a = 0.
Proof.
  unfold r_mod. split.
  - intros H. apply sin_eq_0_1. exists (Int_part (a / PI)). lra.
  - intros H. apply sin_eq_0_0 in H. destruct H as (k & ->). replace (IZR k * PI / PI) with (IZR k) by (field; apply pi_nz).
    rewrite Int_part_IZR. ring.
Qed.

(** ** The extension *)
Lemma one_of a b : (sin a * sin a + cos a * cos a) * b = b.
Proof. pose proof (sin2_cos2 a) as H. unfold Rsqr in H. rewrite H. ring. Qed.
Theorem update_tangent p x y dy : 0 < p -> exists s, sin_update p x y dy = Ok s /\ sin_period s = Ok p /\
  sin_y s x = y /\ derivable_pt_lim (sin_y s) x dy.
Proof.
  intros Hp. pose proof pi_nz as Hpi. pose proof PI_RGT_0 as Hpp. unfold sin_update. rewrite r_div_ok by lra. cbn [rbind].
  set (k := 2 * PI / p). assert (Hk : 0 < k) by (unfold k; apply Rdiv_lt_0_compat; lra).
  set (a := k * x). set (num := k * y * cos a - dy * sin a). set (den := k * y * sin a + dy * cos a). set (ph := atan2 num den).
  assert (HS : exists r, 0 <= r /\ (y <> 0 \/ dy <> 0 -> r <> 0) /\ (y <> 0 \/ dy <> 0 -> sin (a + ph) = k * y / r /\ cos (a + ph) = dy / r)).
  { exists (sqrt (den * den + num * num)).
    assert (Hr : den * den + num * num = k * y * (k * y) + dy * dy).
    { unfold den, num. rewrite <- (one_of a (k * y * (k * y) + dy * dy)). ring. }
    split; [apply sqrt_pos|].
    assert (Hnz : y <> 0 \/ dy <> 0 -> sqrt (den * den + num * num) <> 0).
    { rewrite Hr. intros H. apply Rgt_not_eq. apply sqrt_lt_R0. destruct H as [H|H]; [|nra].
      assert (k * y <> 0) by (apply Rmult_integral_contrapositive_currified; lra). nra. }
    split; [exact Hnz|]. intros H. specialize (Hnz H).
    assert (Hd : den <> 0 \/ num <> 0).
    { destruct (Req_EM_T den 0) as [E|E]; [|auto]. destruct (Req_EM_T num 0) as [E'|E']; [|auto]. exfalso. apply Hnz.
      rewrite E, E'. replace (0 * 0 + 0 * 0) with 0 by ring. apply sqrt_0. }
    destruct (atan2_spec den num Hd) as (A & B). fold ph in A, B. rewrite sin_plus, cos_plus, A, B.
    set (r := sqrt (den * den + num * num)) in *. split.
    - replace (k * y) with ((sin a * sin a + cos a * cos a) * (k * y)) by apply one_of. unfold den, num. field. exact Hnz.
    - transitivity ((sin a * sin a + cos a * cos a) * dy / r); [unfold den, num; field; exact Hnz|rewrite one_of; reflexivity]. }
  destruct HS as (r & Hr & Hr0 & HS).
  assert (HA : exists amp, (if Req_EM_T (r_mod (a + ph) PI) 0 then r_div dy (k * cos (a + ph)) else r_div y (sin (a + ph))) = Ok amp /\
      amp * sin (a + ph) = y /\ k * (amp * cos (a + ph)) = dy).
  { destruct (Req_EM_T (r_mod (a + ph) PI) 0) as [E|E].
    - apply mod_pi in E. assert (Hc : cos (a + ph) <> 0).
      { pose proof (sin2_cos2 (a + ph)) as H. rewrite E in H. unfold Rsqr in H. intros H'. rewrite H' in H. lra. }
      exists (dy / (k * cos (a + ph))). rewrite r_div_ok by (apply Rmult_integral_contrapositive_currified; lra).
      split; [reflexivity|]. split; [|field; split; lra]. rewrite E, Rmult_0_r.
      destruct (Req_EM_T y 0) as [->|Hy]; [reflexivity|]. exfalso. destruct (HS (or_introl Hy)) as (A & _). rewrite E in A.
      assert (H : k * y = 0). { apply (f_equal (fun z => z * r)) in A. unfold Rdiv in A. rewrite Rmult_assoc, Rinv_l in A by auto. lra. }
      apply Rmult_integral in H. lra.
    - assert (Hs : sin (a + ph) <> 0) by (rewrite <- mod_pi; exact E).
      exists (y / sin (a + ph)). rewrite r_div_ok by exact Hs. split; [reflexivity|]. split; [field; exact Hs|].
      destruct (Req_EM_T y 0) as [Hy|Hy].
      + destruct (Req_EM_T dy 0) as [Hd|Hd]; [rewrite Hy, Hd; unfold Rdiv; ring|].
        exfalso. destruct (HS (or_intror Hd)) as (A & _). apply Hs. rewrite A, Hy. unfold Rdiv. ring.
      + destruct (HS (or_introl Hy)) as (A & B). rewrite A, B. assert (r <> 0) by auto. field. repeat split; lra. }
  destruct HA as (amp & EA & HY & HD). rewrite EA. cbn [rbind].
  destruct (set_period amp p ph) as (s & ES & S1 & S2 & S3 & S4 & S5); [lra|]. exists s. split; [exact ES|]. split; [exact S3|].
  assert (K : 2 * PI * x / p + ph = a + ph) by (unfold a, k; field; lra). split.
  - rewrite S5, K. exact HY.
  - pose proof (true_slope s x) as T. replace dy with (s_coef s * sin_dy s x); [exact T|].
    unfold sin_dy. rewrite S1, S2. unfold sin_set in ES. rewrite r_div_ok in ES by lra. cbn [rbind] in ES. injection ES as <-. cbn [s_coef].
    replace (1 / p * PI * 2) with k by (unfold k; field; lra). exact HD.
Qed.
(** What the extension reports as its slope at the edge. *)
Theorem update_reported p x y dy s : 0 < p -> sin_update p x y dy = Ok s -> 2 * PI / p * sin_dy s x = dy.
Proof.
  intros Hp E. destruct (update_tangent p x y dy Hp) as (s' & E' & Hper & _ & D). rewrite E in E'. injection E' as <-.
  pose proof (uniqueness_limite _ _ _ _ D (true_slope s x)) as H. rewrite H. f_equal.
  unfold sin_period, r_div in Hper. destruct (Req_EM_T (s_coef s) 0) as [|N]; [discriminate|]. injection Hper as <-. pose proof pi_nz.
  field. split; assumption.
Qed.
Theorem create_flat p x : 0 < p -> exists s, sin_create p = Ok s /\ sin_y s x = 0.
Proof.
  intros Hp. unfold sin_create. destruct (set_period 0 p 0) as (s & E & _ & _ & _ & _ & Y); [lra|]. exists s. split; [exact E|].
  rewrite Y. ring.
Qed.

(** ** Concrete curves *)
Definition wave : sine := mkSin 3 (1 / 4 * PI * 2) 0.
Lemma wave_set : sin_set (Some 3) None (Some 4) (Some 0) None = Ok wave.
Proof. unfold sin_set. rewrite r_div_ok by lra. reflexivity. Qed.
Lemma wave_top : sin_y wave 1 = 3.
Proof. unfold sin_y. cbn. replace (1 / 4 * PI * 2 * 1 + 0) with (PI / 2) by field. rewrite sin_PI2. ring. Qed.
Lemma wave_slope : sin_dy wave 0 = 3.
Proof. unfold sin_dy. cbn. replace (1 / 4 * PI * 2 * 0 + 0) with 0 by ring. rewrite cos_0. ring. Qed.
Lemma four_not_2pi : 4 <> 2 * PI.
Proof. pose proof PI2_1. lra. Qed.
Lemma wave_period : sin_period wave = Ok 4.
Proof. unfold sin_period. cbn. pose proof pi_nz. rewrite r_div_ok by lra. f_equal. field. assumption. Qed.
(** A period of 2 pi. *)
Lemma unit_coef : exists s, sin_set (Some 3) None (Some (2 * PI)) (Some 0) None = Ok s /\ s_coef s = 1.
Proof.
  pose proof pi_nz. unfold sin_set. rewrite r_div_ok by lra. eexists. split; [reflexivity|]. cbn. field. assumption.
Qed.
