(** Products, quotients, extremes and inverses of curves in binary64. *)
From Coq Require Import List ZArith Reals Lia Lra Psatz Bool SpecFloat.
From Flocq Require Import Core BinarySingleNaN.
From Verif Require Import Base Num Interval Curve Points Combine B64Facts GridFacts StepB64 IrregB64 ErrB64 IntB64 SumB64 SumErrB64.
Import ListNotations.
Open Scope Z_scope.
#[local] Existing Instances Hprec Hmax Hval Hexp.

(** numbers far from overflow and underflow *)
Definition moderate (v : R) : Prop := (bpow radix2 (-1000) <= Rabs v <= bpow radix2 1000)%R.
Lemma near_round v : (bpow radix2 (-1001) <= Rabs v)%R -> (Rabs (rnd v - v) <= 3 / 2 * eps * Rabs v)%R.
Proof.
  intros L. destruct (any_err v) as (d & t & D & T & ->). replace (v * (1 + d) + t - v)%R with (v * d + t)%R by ring. apply Rle_trans with (1 := Rabs_triang _ _).
  pose proof (err_mul v d D) as Q. pose proof eps_pos as EP.
  assert (TT : (tiny <= / 2 * eps * Rabs v)%R).
  { apply Rle_trans with (/ 2 * eps * bpow radix2 (-1001))%R; [|apply Rmult_le_compat_l; [lra|exact L]]. replace (/ 2 * eps * bpow radix2 (-1001))%R with (bpow radix2 (-1055)); [unfold tiny; apply bpow_le; lia|].
    change (/ 2)%R with (bpow radix2 (-1)). unfold eps. rewrite <- !bpow_plus. reflexivity. }
  lra.
Qed.
Section Factors.
Variables (op : b64 -> b64 -> b64) (g : R -> R).
Hypothesis OP : forall s y : bf, is_finite s = true -> is_finite y = true -> B2R y <> 0%R -> (Rabs (B2R s * g (B2R y)) <= huge)%R ->
  exists z : bf, op (B2SF s) (B2SF y) = B2SF z /\ is_finite z = true /\ B2R z = rnd (B2R s * g (B2R y)).
Lemma factors_err ys : forall (s : bf) (I : R) (k : nat), is_finite s = true -> Forall (fun y => finite64 y /\ val64 y <> 0%R) ys -> (Rabs (B2R s - I) <= 2 * INR k * eps * Rabs I)%R ->
  Z.of_nat (k + length ys) <= 2 ^ 50 -> (forall j, (1 <= j <= length ys)%nat -> moderate (I * rprod (map (fun y => g (val64 y)) (firstn j ys)))) ->
  exists r : bf, fold_left op ys (B2SF s) = B2SF r /\ is_finite r = true /\
    (Rabs (B2R r - I * rprod (map (fun y => g (val64 y)) ys)) <= 2 * INR (k + length ys) * eps * Rabs (I * rprod (map (fun y => g (val64 y)) ys)))%R.
Proof.
  induction ys as [|y ys IH]; intros s I k FS FY ER LN MO.
  - exists s. split; [reflexivity|]. split; [exact FS|]. cbn [map rprod fold_right length]. rewrite Nat.add_0_r, Rmult_1_r. exact ER.
  - inversion_clear FY. destruct H as [FY NZ]. destruct (real_of _ FY) as (yb & -> & Fy). rewrite val_B2R in NZ. cbn [length] in LN, MO. pose proof eps_pos as EP. pose proof (pos_INR k) as PK. pose proof (count_eps k ltac:(lia)) as KE.
    pose proof (MO 1%nat ltac:(lia)) as M1. cbn [firstn map rprod fold_right] in M1. rewrite val_B2R, Rmult_1_r in M1. set (q := g (B2R yb)) in *. set (I1 := (I * q)%R) in *. destruct M1 as [ML MU].
    assert (D1 : (Rabs (B2R s * q - I1) <= 2 * INR k * eps * Rabs I1)%R).
    { unfold I1. replace (B2R s * q - I * q)%R with ((B2R s - I) * q)%R by ring. rewrite !Rabs_mult. replace (2 * INR k * eps * (Rabs I * Rabs q))%R with (2 * INR k * eps * Rabs I * Rabs q)%R by ring. apply Rmult_le_compat_r; [apply Rabs_pos|exact ER]. }
    pose proof (Rabs_pos I1) as P1. assert (D2 : (2 * INR k * eps * Rabs I1 <= / 4 * Rabs I1)%R) by (apply Rmult_le_compat_r; assumption).
    pose proof (abs_from _ _ _ _ D1 (Rle_refl (Rabs I1))) as UP.
    assert (LO : (3 / 4 * Rabs I1 <= Rabs (B2R s * q))%R).
    { pose proof (Rabs_triang_inv I1 (I1 - B2R s * q)) as TI. replace (I1 - (I1 - B2R s * q))%R with (B2R s * q)%R in TI by ring. rewrite (Rabs_minus_sym I1 (B2R s * q)) in TI. lra. }
    assert (P2 : (bpow radix2 (-1000) = 2 * bpow radix2 (-1001))%R) by (change 2%R with (bpow radix2 1); rewrite <- bpow_plus; reflexivity). pose proof (bpow_gt_0 radix2 (-1001)) as P3.
    assert (HU : (Rabs (B2R s * q) <= huge)%R).
    { assert (T : (bpow radix2 1000 <= bpow radix2 1020)%R) by (apply bpow_le; lia). apply huge_ge in T. pose proof (bpow_gt_0 radix2 1000). lra. }
    destruct (OP s yb FS Fy NZ HU) as (z & EZ & FZ & RZ). pose proof (near_round (B2R s * q) ltac:(lra)) as NR. fold q in RZ. rewrite <- RZ in NR.
    destruct (IH z I1 (S k)) as (r & E & F & R); try assumption.
    + apply Rle_trans with (1 := abs_trans _ _ _ _ _ NR D1). rewrite S_INR. assert (Q : (3 / 2 * eps * Rabs (B2R s * q) <= 3 / 2 * eps * (Rabs I1 + / 4 * Rabs I1))%R) by (apply Rmult_le_compat_l; lra).
      assert (0 <= eps * Rabs I1)%R by (apply Rmult_le_pos; lra). lra.
    + lia.
    + intros j Lj. specialize (MO (S j) ltac:(lia)). cbn [firstn map rprod fold_right] in MO. rewrite val_B2R in MO. fold q in MO. rewrite <- Rmult_assoc in MO. exact MO.
    + exists r. cbn [fold_left]. rewrite EZ. split; [exact E|]. split; [exact F|]. cbn [length map rprod fold_right]. rewrite val_B2R. fold q. rewrite <- !Rmult_assoc. fold I1. replace (k + S (length ys))%nat with (S k + length ys)%nat by lia. exact R.
Qed.
End Factors.
Lemma mul_op (s y : bf) : is_finite s = true -> is_finite y = true -> B2R y <> 0%R -> (Rabs (B2R s * B2R y) <= huge)%R ->
  exists z : bf, SFmul 53 1024 (B2SF s) (B2SF y) = B2SF z /\ is_finite z = true /\ B2R z = rnd (B2R s * B2R y).
Proof. intros A B _. apply mul_big; assumption. Qed.
Lemma div_op (s y : bf) : is_finite s = true -> is_finite y = true -> B2R y <> 0%R -> (Rabs (B2R s * / B2R y) <= huge)%R ->
  exists z : bf, SFdiv 53 1024 (B2SF s) (B2SF y) = B2SF z /\ is_finite z = true /\ B2R z = rnd (B2R s * / B2R y).
Proof.
  intros A B NZ H. destruct (div_big s y A NZ H) as (z & E & F & R). exists z. split; [|split; assumption]. cbn [n_div B64] in E. destruct y as [sg| | |sg m e B0]; try discriminate B; [elim NZ; reflexivity|]. cbn [B2SF] in *. injection E as E. exact E.
Qed.
Lemma rprod_inv l : (rprod (map Rinv l) = / rprod l)%R.
Proof. unfold rprod. induction l as [|v l IH]; cbn [map fold_right]; [symmetry; apply Rinv_1|]. rewrite IH, Rinv_mult. reflexivity. Qed.
Section Values.
Variables (funcs : list (crv b64 (option b64))) (x : b64) (ys : list b64).
Hypothesis (NE : funcs <> []) (D : Forall (fun f => ival64 (c_dom f)) funcs) (X : number64 x).
Hypothesis E : Forall2 (fun f y => i_contains (c_dom f) x = true /\ c_y f x = Ok (Some y)) funcs ys.
Lemma product_near : Forall (fun y => finite64 y /\ val64 y <> 0%R) ys -> Z.of_nat (length ys) <= 2 ^ 50 -> (forall j, (1 <= j <= length ys)%nat -> moderate (rprod (map val64 (firstn j ys)))) ->
  exists r, c_y (multiply_many funcs) x = Ok (Some r) /\ finite64 r /\ (Rabs (val64 r - rprod (map val64 ys)) <= 2 * INR (length ys) * eps * Rabs (rprod (map val64 ys)))%R.
Proof.
  intros F L M. destruct one_bf as (o & EO & FO & RO). destruct (factors_err (SFmul 53 1024) (fun v => v) mul_op ys o 1 0 FO F) as (r & ER & FR & RR).
  - rewrite RO, Rminus_eq_0, Rabs_R0. cbn. lra.
  - exact L.
  - intros j Lj. rewrite Rmult_1_l. apply M, Lj.
  - exists (B2SF r). rewrite (mul_value funcs x ys NE D X E), EO. split; [exact (f_equal (fun v => Ok (Some v)) ER)|]. split; [split; [apply valid_binary_B2SF|rewrite is_finite_SF_B2SF; exact FR]|].
    rewrite val_B2R. rewrite Rmult_1_l in RR. exact RR.
Qed.
Lemma quotient_near y r : ys = y :: r -> finite64 y -> Forall (fun y => finite64 y /\ val64 y <> 0%R) r -> Z.of_nat (length ys) <= 2 ^ 50 -> (forall j, (1 <= j <= length r)%nat -> moderate (val64 y / rprod (map val64 (firstn j r)))) ->
  exists v, c_y (divide_many funcs) x = Ok (Some v) /\ finite64 v /\ (Rabs (val64 v - val64 y / rprod (map val64 r)) <= 2 * INR (length r) * eps * Rabs (val64 y / rprod (map val64 r)))%R.
Proof.
  intros EY FY F L M. rewrite EY in L. cbn [length] in L. destruct (real_of _ FY) as (yb & Ey & Fy).
  assert (INV : forall l, (rprod (map (fun y => / val64 y) l) = / rprod (map val64 l))%R) by (intros l; rewrite <- rprod_inv, map_map; reflexivity).
  destruct (factors_err (SFdiv 53 1024) Rinv div_op r yb (B2R yb) 0 Fy F) as (v & EV & FV & RV).
  - rewrite Rminus_eq_0, Rabs_R0. cbn. lra.
  - cbn. lia.
  - intros j Lj. rewrite INV. specialize (M j Lj). rewrite Ey, val_B2R in M. exact M.
  - exists (B2SF v). rewrite (div_value funcs x ys NE D X E y r EY F), Ey. split; [exact (f_equal (fun v => Ok (Some v)) EV)|]. split; [split; [apply valid_binary_B2SF|rewrite is_finite_SF_B2SF; exact FV]|].
    rewrite !val_B2R. rewrite INV in RV. exact RV.
Qed.
(** ** Extremes are exact *)
Lemma min_loop l : forall b, finite64 b -> Forall finite64 l -> exists r, min_vals_loop (Some b) (map Some l) = Some r /\ In r (b :: l) /\ (val64 r <= val64 b)%R /\ forall y, In y l -> (val64 r <= val64 y)%R.
Proof.
  clear. induction l as [|y l IH]; intros b FB F; cbn [map min_vals_loop].
  - exists b. split; [reflexivity|]. split; [left; reflexivity|]. split; [lra|intros y []].
  - inversion_clear F. change (@n_ltb b64 B64) with SFltb. destruct (real_of _ FB) as (bb & EB & Fb). destruct (real_of _ H) as (yb & EY & Fy). rewrite EB, EY, ltb_val by assumption. rewrite <- EB, <- EY.
    assert (VB : val64 b = B2R bb) by (rewrite EB; apply val_B2R). assert (VY : val64 y = B2R yb) by (rewrite EY; apply val_B2R).
    destruct (Rlt_bool_spec (B2R yb) (B2R bb)) as [Q|Q].
    + destruct (IH y H H0) as (r & E1 & I1 & L1 & A1). exists r. split; [exact E1|]. split; [right; exact I1|]. split; [lra|]. intros z [<-|Z]; [exact L1|apply A1, Z].
    + destruct (IH b FB H0) as (r & E1 & I1 & L1 & A1). exists r. split; [exact E1|]. split; [destruct I1 as [->|I1]; [left; reflexivity|right; right; exact I1]|]. split; [exact L1|]. intros z [<-|Z]; [lra|apply A1, Z].
Qed.
Lemma max_loop l : forall b, finite64 b -> Forall finite64 l -> exists r, max_vals_loop (Some b) (map Some l) = Some r /\ In r (b :: l) /\ (val64 b <= val64 r)%R /\ forall y, In y l -> (val64 y <= val64 r)%R.
Proof.
  clear. induction l as [|y l IH]; intros b FB F; cbn [map max_vals_loop].
  - exists b. split; [reflexivity|]. split; [left; reflexivity|]. split; [lra|intros y []].
  - inversion_clear F. unfold n_gtb. change (@n_ltb b64 B64) with SFltb. destruct (real_of _ FB) as (bb & EB & Fb). destruct (real_of _ H) as (yb & EY & Fy). rewrite EB, EY, ltb_val by assumption. rewrite <- EB, <- EY.
    assert (VB : val64 b = B2R bb) by (rewrite EB; apply val_B2R). assert (VY : val64 y = B2R yb) by (rewrite EY; apply val_B2R).
    destruct (Rlt_bool_spec (B2R bb) (B2R yb)) as [Q|Q].
    + destruct (IH y H H0) as (r & E1 & I1 & L1 & A1). exists r. split; [exact E1|]. split; [right; exact I1|]. split; [lra|]. intros z [<-|Z]; [exact L1|apply A1, Z].
    + destruct (IH b FB H0) as (r & E1 & I1 & L1 & A1). exists r. split; [exact E1|]. split; [destruct I1 as [->|I1]; [left; reflexivity|right; right; exact I1]|]. split; [exact L1|]. intros z [<-|Z]; [lra|apply A1, Z].
Qed.
Lemma extremes : ys <> [] -> Forall finite64 ys ->
  (exists r, c_y (curve_min false funcs) x = Ok (Some r) /\ In r ys /\ forall y, In y ys -> (val64 r <= val64 y)%R) /\
  (exists r, c_y (curve_max false funcs) x = Ok (Some r) /\ In r ys /\ forall y, In y ys -> (val64 y <= val64 r)%R).
Proof.
  intros N F. unfold curve_min, curve_max. rewrite (agg_value funcs min_vals None x _ NE D X (some_values funcs x ys E)), (agg_value funcs max_vals None x _ NE D X (some_values funcs x ys E)). unfold min_vals, max_vals.
  destruct ys as [|y r]; [contradiction|]. inversion_clear F. cbn [map min_vals_loop max_vals_loop]. split.
  - destruct (min_loop r y H H0) as (v & E1 & I1 & L1 & A1). exists v. rewrite E1. split; [reflexivity|]. split; [exact I1|]. intros z [<-|Z]; [exact L1|apply A1, Z].
  - destruct (max_loop r y H H0) as (v & E1 & I1 & L1 & A1). exists v. rewrite E1. split; [reflexivity|]. split; [exact I1|]. intros z [<-|Z]; [exact L1|apply A1, Z].
Qed.
End Values.

(** ** The order of two operands *)
Lemma add_comm64 a b : SFadd 53 1024 a b = SFadd 53 1024 b a.
Proof.
  destruct a as [sa|sa| |sa ma ea], b as [sb|sb| |sb mb eb]; try reflexivity; try (destruct sa, sb; reflexivity).
  cbn [SFadd]. rewrite (Z.min_comm ea eb). f_equal. apply Z.add_comm.
Qed.
Lemma zero_add64 a : SFadd 53 1024 (S754_zero false) a = match a with S754_zero _ => S754_zero false | _ => a end.
Proof. destruct a as [[]| | |]; reflexivity. Qed.
Lemma two_add a b : SFadd 53 1024 (SFadd 53 1024 (S754_zero false) a) b = SFadd 53 1024 (SFadd 53 1024 (S754_zero false) b) a.
Proof.
  rewrite !zero_add64. destruct a as [sa|sa| |sa ma ea], b as [sb|sb| |sb mb eb]; try apply add_comm64; try reflexivity; try (destruct sa; reflexivity); try (destruct sb; reflexivity); destruct sa, sb; reflexivity.
Qed.
Lemma mul_comm64 a b : SFmul 53 1024 a b = SFmul 53 1024 b a.
Proof.
  destruct a as [sa|sa| |sa ma ea], b as [sb|sb| |sb mb eb]; try reflexivity; cbn [SFmul]; try (rewrite xorb_comm; reflexivity). rewrite xorb_comm, Pos.mul_comm, Z.add_comm. reflexivity.
Qed.
Lemma one_mul64 a : valid_binary 53 1024 a = true -> SFmul 53 1024 (b64_ofZ 1) a = a.
Proof.
  intros V. destruct a as [s|s| |s m e]; try reflexivity; try (destruct s; reflexivity). destruct one_bf as (o & EO & FO & RO). rewrite EO.
  assert (F : finite64 (S754_finite s m e)) by (split; [exact V|reflexivity]). destruct (real_of _ F) as (b & EB & FB). rewrite EB.
  pose proof (Bmult_correct 53 1024 _ _ mode_NE o b) as C. rewrite RO, Rmult_1_l in C. cbn [round_mode] in C. rewrite round_generic in C; [|typeclasses eauto|apply generic_format_B2R].
  rewrite Rlt_bool_true in C by apply abs_B2R_lt_emax. destruct C as (R & Fz & _). rewrite FO, FB in Fz. cbn [andb] in Fz.
  assert (E : SFmul 53 1024 (B2SF o) (B2SF b) = B2SF (Bmult mode_NE o b)) by (apply mul_eq).
  rewrite E. f_equal. destruct b as [sb| | |sb mb eb Bb]; try discriminate. set (z := Bmult mode_NE o _) in *. apply B2R_inj; [|reflexivity|exact R]. destruct z as [sz| | |sz mz ez Bz]; try discriminate; [|reflexivity]. exfalso. cbn in R. symmetry in R. apply eq_0_F2R in R. destruct sb; discriminate R.
Qed.
Lemma two_mul a b : valid_binary 53 1024 a = true -> valid_binary 53 1024 b = true -> SFmul 53 1024 (SFmul 53 1024 (b64_ofZ 1) a) b = SFmul 53 1024 (SFmul 53 1024 (b64_ofZ 1) b) a.
Proof. intros A B. rewrite (one_mul64 a A), (one_mul64 b B). apply mul_comm64. Qed.
Lemma two_commute (f g : crv b64 (option b64)) x a b : ival64 (c_dom f) -> ival64 (c_dom g) -> number64 x ->
  i_contains (c_dom f) x = true -> i_contains (c_dom g) x = true -> c_y f x = Ok (Some a) -> c_y g x = Ok (Some b) -> valid_binary 53 1024 a = true -> valid_binary 53 1024 b = true ->
  c_y (add_many [f; g]) x = c_y (add_many [g; f]) x /\ c_y (multiply_many [f; g]) x = c_y (multiply_many [g; f]) x.
Proof.
  intros DF DG X IF IG YF YG VA VB.
  assert (E1 : Forall2 (fun f y => i_contains (c_dom f) x = true /\ c_y f x = Ok (Some y)) [f; g] [a; b]) by (repeat constructor; assumption).
  assert (E2 : Forall2 (fun f y => i_contains (c_dom f) x = true /\ c_y f x = Ok (Some y)) [g; f] [b; a]) by (repeat constructor; assumption).
  assert (D1 : Forall (fun f => ival64 (c_dom f)) [f; g]) by (repeat constructor; (apply DF || apply DG)). assert (D2 : Forall (fun f => ival64 (c_dom f)) [g; f]) by (repeat constructor; (apply DF || apply DG)).
  assert (N1 : [f; g] <> []) by discriminate. assert (N2 : [g; f] <> []) by discriminate.
  rewrite (add_value _ x _ N1 D1 X E1), (add_value _ x _ N2 D2 X E2), (mul_value _ x _ N1 D1 X E1), (mul_value _ x _ N2 D2 X E2).
  split; do 2 f_equal; cbn [fold_left]; [apply two_add|apply two_mul; assumption].
Qed.
(** ** Inverses *)
Lemma opp_val a : finite64 a -> finite64 (SFopp a) /\ val64 (SFopp a) = (- val64 a)%R.
Proof.
  intros [V F]. split; [split; [destruct a; try discriminate; exact V|destruct a; try discriminate; reflexivity]|]. destruct a as [s| | |s m e]; try discriminate; cbn [SFopp val64]; [symmetry; apply Ropp_0|].
  destruct s; cbn [cond_Zopp negb]; unfold F2R; cbn [Fnum Fexp]; rewrite <- Ropp_mult_distr_l_reverse, <- opp_IZR; reflexivity.
Qed.
Lemma abs_val a : finite64 a -> finite64 (SFabs a) /\ val64 (SFabs a) = Rabs (val64 a).
Proof.
  intros [V F]. split; [split; [destruct a; try discriminate; exact V|destruct a; try discriminate; reflexivity]|]. destruct a as [s| | |s m e]; try discriminate; cbn [SFabs val64]; [symmetry; apply Rabs_R0|].
  unfold F2R. cbn [Fnum Fexp]. rewrite Rabs_mult, (Rabs_pos_eq (bpow radix2 e)) by apply bpow_ge_0. f_equal. rewrite <- abs_IZR. destruct s; reflexivity.
Qed.
Lemma inverses (c : crv b64 (option b64)) x y : c_y c x = Ok (Some y) -> finite64 y ->
  (exists r, c_y (additive_inverse c) x = Ok (Some r) /\ finite64 r /\ val64 r = (- val64 y)%R) /\
  (exists r, c_y (additive_inverse (additive_inverse c)) x = Ok (Some r) /\ r = y) /\
  (exists r, c_y (abs_curve c) x = Ok (Some r) /\ finite64 r /\ val64 r = Rabs (val64 y)) /\
  (val64 y <> 0%R -> (Rabs (/ val64 y) <= bpow radix2 1020)%R ->
     exists r, c_y (multiplicative_inverse c) x = Ok (Some r) /\ finite64 r /\ (Rabs (val64 r - / val64 y) <= Rabs (/ val64 y) * eps + tiny)%R).
Proof.
  intros E F. unfold additive_inverse, abs_curve, multiplicative_inverse. cbn [map_curve c_y]. rewrite E. cbn [rbind additive_inverse_f abs_f multiplicative_inverse_f].
  split; [eexists; split; [reflexivity|]; apply opp_val, F|]. split; [eexists; split; [reflexivity|]; destruct y as [[]|[]| |[]]; reflexivity|]. split; [eexists; split; [reflexivity|]; apply abs_val, F|].
  intros NZ B. destruct (real_of _ F) as (yb & -> & Fy). rewrite val_B2R in *. destruct one_bf as (o & EO & FO & RO). change (@n_one b64 B64) with (b64_ofZ 1). rewrite EO.
  assert (B1 : (Rabs (B2R o / B2R yb) <= Rabs (/ B2R yb))%R) by (rewrite RO; unfold Rdiv; rewrite Rmult_1_l; lra).
  destruct (div_abs o yb _ FO NZ B1 B) as (r & ER & FR & RR). exists (B2SF r).
  split; [change (@n_div spec_float B64) with (@n_div b64 B64); rewrite ER; reflexivity|]. split; [split; [apply valid_binary_B2SF|rewrite is_finite_SF_B2SF; exact FR]|]. rewrite val_B2R. replace (B2R o / B2R yb)%R with (/ B2R yb)%R in RR by (rewrite RO; unfold Rdiv; ring). exact RR.
Qed.

(** ** Gaps and division by zero *)
Lemma gap_none (funcs : list (crv b64 (option b64))) x (ys : list (option b64)) : funcs <> [] -> Forall (fun f => ival64 (c_dom f)) funcs -> number64 x ->
  Forall2 (fun f y => i_contains (c_dom f) x = true /\ c_y f x = Ok y) funcs ys -> In None ys ->
  c_y (add_many funcs) x = Ok None /\ c_y (subtract_many funcs) x = Ok None /\ c_y (multiply_many funcs) x = Ok None /\ c_y (divide_many funcs) x = Ok None.
Proof.
  intros NE D X E N. unfold add_many, subtract_many, multiply_many, divide_many.
  rewrite !(agg_value funcs _ None x ys NE D X E). unfold add_f, sub_f, mult_f, div_f. clear - N. repeat split.
  - assert (H : has_none ys = true) by (induction ys as [|[y|] l IH]; [destruct N|destruct N as [N|N]; [discriminate N|apply IH, N]|reflexivity]). rewrite H. reflexivity.
  - generalize true as b, (@n_zero b64 B64) as r. induction ys as [|[y|] l IH]; intros b r; [destruct N| |reflexivity]. destruct N as [N|N]; [discriminate N|]. apply (IH N).
  - generalize (@n_one b64 B64) as r. induction ys as [|[y|] l IH]; intros r; [destruct N| |reflexivity]. destruct N as [N|N]; [discriminate N|]. apply (IH N).
  - generalize true as b, (@n_zero b64 B64) as r. induction ys as [|[y|] l IH]; intros b r; [destruct N| |reflexivity]. destruct N as [N|N]; [discriminate N|]. cbn [div_loop].
    destruct b; [apply (IH N)|]. destruct (n_eqb y n_zero) eqn:Z; [apply (IH N)|].
    assert (Q : exists q, @n_div b64 B64 r y = Ok q) by (destruct y as [[]| | |]; try discriminate Z; eexists; reflexivity). destruct Q as (q & ->). cbn [rbind]. apply (IH N).
Qed.
Lemma by_zero (f g : crv b64 (option b64)) x a z : ival64 (c_dom f) -> ival64 (c_dom g) -> number64 x -> i_contains (c_dom f) x = true -> i_contains (c_dom g) x = true ->
  c_y f x = Ok (Some a) -> c_y g x = Ok (Some z) -> finite64 a -> finite64 z -> val64 z = 0%R ->
  ((0 <= val64 a)%R -> c_y (divide_many [f; g]) x = Ok (Some n_inf)) /\ ((val64 a < 0)%R -> c_y (divide_many [f; g]) x = Ok (Some n_ninf)).
Proof.
  intros Df Dg X If Ig Ef Eg Fa Fz Z. unfold divide_many. rewrite (agg_value [f; g] _ None x [Some a; Some z]); [|discriminate|constructor; [exact Df|constructor; [exact Dg|constructor]]|exact X|constructor; [split; assumption|constructor; [split; assumption|constructor]]].
  unfold div_f. cbn [div_loop]. destruct (real_of _ Fa) as (ab & -> & FA). destruct (real_of _ Fz) as (zb & -> & FZ). rewrite val_B2R in *.
  assert (Q : @n_eqb b64 B64 (B2SF zb) n_zero = true) by (change (SFeqb (B2SF zb) (B2SF (B754_zero false : bf)) = true); rewrite eqb_val by (exact FZ || reflexivity); apply Req_bool_true; exact Z).
  rewrite Q. change (@n_geb b64 B64 (B2SF ab) n_zero) with (SFleb (B2SF (B754_zero false : bf)) (B2SF ab)). rewrite leb_val by (exact FA || reflexivity). change (B2R (B754_zero false : bf)) with 0%R.
  split; intros H; [rewrite Rle_bool_true by exact H|rewrite Rle_bool_false by exact H]; reflexivity.
Qed.
