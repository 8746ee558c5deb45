(** The integral of a straight line in binary64 (line.py:75-84). *)
From Coq Require Import List ZArith Reals Lia Lra Psatz Bool SpecFloat.
From Flocq Require Import Core BinarySingleNaN.
From Verif Require Import Base Num Interval Curve Combine B64Facts GridFacts StepB64 IrregB64 ErrB64 InterpB64 EmaB64 IntB64 LineB64.
Import ListNotations.
Open Scope Z_scope.
#[local] Existing Instances Hprec Hmax Hval Hexp.

Lemma lowest v : (bpow radix2 (-900) <= v)%R -> (tiny <= eps * v / 1024)%R.
Proof.
  intros L. apply Rle_trans with (eps * bpow radix2 (-900) / 1024)%R; [|pose proof eps_pos; unfold Rdiv; apply Rmult_le_compat_r; [lra|]; apply Rmult_le_compat_l; lra].
  unfold eps, tiny. change 1024%R with (bpow radix2 10). unfold Rdiv. rewrite <- bpow_opp, <- !bpow_plus. apply bpow_le. lia.
Qed.
(** multiplying two numbers known up to an error *)
Lemma mul_step (x y : bf) u v P Q p q : is_finite x = true -> is_finite y = true -> (0 <= p <= P / 100)%R -> (0 <= q <= Q / 100)%R -> (Rabs u <= P)%R -> (Rabs v <= Q)%R ->
  (Rabs (B2R x - u) <= p)%R -> (Rabs (B2R y - v) <= q)%R -> (tiny <= eps * (P * Q) / 100)%R -> (P * Q <= bpow radix2 1000)%R ->
  exists z : bf, SFmul 53 1024 (B2SF x) (B2SF y) = B2SF z /\ is_finite z = true /\ (Rabs (B2R z - u * v) <= 104 / 100 * eps * (P * Q) + p * Q + 101 / 100 * (P * q))%R.
Proof.
  intros Fx Fy Hp Hq Hu Hv Ex Ey HT HB. pose proof eps_pos. pose proof (abs_from _ _ _ _ Ex Hu) as Bx. pose proof (abs_from _ _ _ _ Ey Hv) as By.
  assert (0 <= P * Q)%R by (apply Rmult_le_pos; lra).
  assert (M : (Rabs (B2R x * B2R y) <= 1021 / 1000 * (P * Q))%R).
  { apply Rle_trans with ((101 / 100 * P) * (101 / 100 * Q))%R; [apply abs_mul; lra|]. nra. }
  destruct (mul_abs x y _ Fx Fy M) as (z & E & F & R).
  { apply Rle_trans with (2 * bpow radix2 1000)%R; [lra|]. rewrite b2. apply bpow_le. lia. }
  exists z. split; [exact E|]. split; [exact F|].
  assert (S : (Rabs (B2R x * B2R y - u * v) <= p * Q + 101 / 100 * (P * q))%R).
  { replace (B2R x * B2R y - u * v)%R with ((B2R x - u) * v + B2R x * (B2R y - v))%R by ring. apply Rle_trans with (1 := Rabs_triang _ _). apply Rplus_le_compat; [apply abs_mul; assumption|].
    apply Rle_trans with ((101 / 100 * P) * q)%R; [apply abs_mul; lra|lra]. }
  pose proof (abs_trans _ _ _ _ _ R S). assert (0 <= eps * (P * Q))%R by (apply Rmult_le_pos; lra). lra.
Qed.
(** adding two numbers known up to an error *)
Lemma add_step (x y : bf) u v p q B : is_finite x = true -> is_finite y = true -> (Rabs u + Rabs v + p + q <= B)%R -> (Rabs (B2R x - u) <= p)%R -> (Rabs (B2R y - v) <= q)%R -> (B <= bpow radix2 1010)%R ->
  exists z : bf, SFadd 53 1024 (B2SF x) (B2SF y) = B2SF z /\ is_finite z = true /\ (Rabs (B2R z - (u + v)) <= B * eps + p + q)%R.
Proof.
  intros Fx Fy L Ex Ey HB. pose proof (abs_from _ _ _ _ Ex (Rle_refl _)) as Bx. pose proof (abs_from _ _ _ _ Ey (Rle_refl _)) as By.
  destruct (add_abs x y B Fx Fy) as (z & E & F & R); [apply Rle_trans with (1 := Rabs_triang _ _); lra|apply Rle_trans with (1 := HB); apply bpow_le; lia|].
  exists z. split; [exact E|]. split; [exact F|]. assert (S : (Rabs (B2R x + B2R y - (u + v)) <= p + q)%R).
  { replace (B2R x + B2R y - (u + v))%R with ((B2R x - u) + (B2R y - v))%R by ring. apply Rle_trans with (1 := Rabs_triang _ _). lra. }
  pose proof (abs_trans _ _ _ _ _ R S). lra.
Qed.
Lemma sub_step (x y : bf) u v p q B : is_finite x = true -> is_finite y = true -> (Rabs u + Rabs v + p + q <= B)%R -> (Rabs (B2R x - u) <= p)%R -> (Rabs (B2R y - v) <= q)%R -> (B <= bpow radix2 1010)%R ->
  exists z : bf, SFsub 53 1024 (B2SF x) (B2SF y) = B2SF z /\ is_finite z = true /\ (Rabs (B2R z - (u - v)) <= B * eps + p + q)%R.
Proof.
  intros Fx Fy L Ex Ey HB. pose proof (abs_from _ _ _ _ Ex (Rle_refl _)) as Bx. pose proof (abs_from _ _ _ _ Ey (Rle_refl _)) as By.
  destruct (sub_abs x y B Fx Fy) as (z & E & F & R); [unfold Rminus; apply Rle_trans with (1 := Rabs_triang _ _); rewrite Rabs_Ropp; lra|apply Rle_trans with (1 := HB); apply bpow_le; lia|].
  exists z. split; [exact E|]. split; [exact F|]. assert (S : (Rabs (B2R x - B2R y - (u - v)) <= p + q)%R).
  { replace (B2R x - B2R y - (u - v))%R with ((B2R x - u) + - (B2R y - v))%R by ring. apply Rle_trans with (1 := Rabs_triang _ _). rewrite Rabs_Ropp. lra. }
  pose proof (abs_trans _ _ _ _ _ R S). lra.
Qed.
Lemma exact0 (x : bf) : (Rabs (B2R x - B2R x) <= 0)%R. Proof. rewrite Rminus_diag_eq, Rabs_R0 by reflexivity. lra. Qed.

Section Area.
Variables (lx ly s : bf) (X M S : R).
Hypothesis (Fl : is_finite lx = true) (Fy : is_finite ly = true) (Fs : is_finite s = true).
Hypothesis (Bl : (Rabs (B2R lx) <= X)%R) (By : (Rabs (B2R ly) <= M)%R) (Bs : (Rabs (B2R s) <= S)%R).
Hypothesis (HX : (1 <= X <= bpow radix2 300)%R) (HM : (bpow radix2 (-900) <= M <= bpow radix2 300)%R) (HS : (bpow radix2 (-900) <= S <= bpow radix2 300)%R).
Notation l := (mkL (B2SF lx) (B2SF ly) (B2SF s)).
Notation W := (M * X + S * (X * X))%R.
Lemma sizes : (0 < M /\ 0 < S /\ 0 < M * X /\ 0 < S * X /\ S <= S * X /\ M <= M * X /\ S * X <= S * (X * X) /\ 1 <= X * X /\ X * X <= bpow radix2 600 /\ S * X <= bpow radix2 600 /\ S * (X * X) <= bpow radix2 900 /\ M * X <= bpow radix2 600)%R.
Proof.
  pose proof (bpow_gt_0 radix2 (-900)). assert (0 < M)%R by lra. assert (0 < S)%R by lra.
  assert (P : forall a b, (0 <= a)%R -> (0 <= b)%R -> forall m n, (a <= bpow radix2 m)%R -> (b <= bpow radix2 n)%R -> (a * b <= bpow radix2 (m + n))%R) by (intros; rewrite bpow_plus; apply Rmult_le_compat; assumption).
  assert (XX : (X * X <= bpow radix2 (300 + 300))%R) by (apply P; lra).
  change (300 + 300) with 600 in XX. assert (SX : (S * X <= bpow radix2 600)%R) by (apply (P S X) with (m := 300) (n := 300); lra). assert (MX : (M * X <= bpow radix2 600)%R) by (apply (P M X) with (m := 300) (n := 300); lra).
  assert (X2 : (X <= X * X)%R) by (rewrite <- (Rmult_1_r X) at 1; apply Rmult_le_compat_l; lra).
  assert (SXX : (S * (X * X) <= bpow radix2 900)%R) by (apply (P S (X * X)%R) with (m := 300) (n := 600); lra).
  assert (S1 : (S <= S * X)%R) by (rewrite <- (Rmult_1_r S) at 1; apply Rmult_le_compat_l; lra). assert (M1 : (M <= M * X)%R) by (rewrite <- (Rmult_1_r M) at 1; apply Rmult_le_compat_l; lra).
  assert (S2 : (S * X <= S * (X * X))%R) by (apply Rmult_le_compat_l; lra). repeat split; lra.
Qed.
Lemma slack : (0 <= eps * (S * X) /\ 0 <= eps * M /\ 0 <= eps * (S * (X * X)) /\ 0 <= eps * (M * X) /\ 0 <= eps * S /\ 0 <= eps * (X * X) /\ 0 <= eps * X)%R.
Proof. destruct sizes as (PM & PS & PMX & PSX & C1 & C2 & C3 & C4 & C5 & C6 & C7 & C8). pose proof eps_pos. repeat split; apply Rmult_le_pos; lra. Qed.
Lemma const_near : exists c : bf, line_const l = B2SF c /\ is_finite c = true /\ (Rabs (B2R c - (B2R ly - B2R s * B2R lx)) <= eps * (102 / 100 * M + 310 / 100 * (S * X)))%R.
Proof.
  destruct sizes as (PM & PS & PMX & PSX & C1 & C2 & C3 & C4 & C5 & C6 & C7 & C8). pose proof eps_pos as EP. pose proof eps_small as ES.
  pose proof (lowest S (proj1 HS)) as TS. destruct slack as (Z1 & Z2 & Z3 & Z4 & Z5 & Z6 & Z7).
  destruct (sub_step (B754_zero false) lx 0 (B2R lx) 0 0 X) as (d & Ed & Fd & Rd); [reflexivity|exact Fl|rewrite Rabs_R0; lra|rewrite (Rminus_diag_eq (B2R (B754_zero false : bf)) 0) by reflexivity; rewrite Rabs_R0; lra|apply exact0|apply Rle_trans with (1 := proj2 HX); apply bpow_le; lia|].
  replace (0 - B2R lx)%R with (- B2R lx)%R in Rd by ring.
  destruct (mul_step s d (B2R s) (- B2R lx) S X 0 (X * eps) Fs Fd) as (m & Em & Fm & Rm); [lra|nra|exact Bs|rewrite Rabs_Ropp; exact Bl|apply exact0|lra|nra|apply Rle_trans with (1 := C6); apply bpow_le; lia|].
  destruct (add_step ly m (B2R ly) (B2R s * - B2R lx) 0 (eps * (206 / 100 * (S * X))) (102 / 100 * M + 102 / 100 * (S * X)) Fy Fm) as (c & Ec & Fc & Rc).
  - assert (Rabs (B2R s * - B2R lx) <= S * X)%R by (apply abs_mul; [exact Bs|rewrite Rabs_Ropp; exact Bl]). nra.
  - apply exact0.
  - apply Rle_trans with (1 := Rm). lra.
  - assert (bpow radix2 300 <= bpow radix2 600)%R by (apply bpow_le; lia). apply Rle_trans with (4 * bpow radix2 600)%R; [lra|]. replace (4 * bpow radix2 600)%R with (2 * (2 * bpow radix2 600))%R by ring. rewrite !b2. apply bpow_le. lia.
  - exists c. split; [|split; [exact Fc|]].
    + change (line_const l) with (SFadd 53 1024 (B2SF ly) (SFmul 53 1024 (B2SF s) (SFsub 53 1024 (B2SF (B754_zero false : bf)) (B2SF lx)))). rewrite Ed, Em, Ec. reflexivity.
    + replace (B2R ly - B2R s * B2R lx)%R with (B2R ly + B2R s * - B2R lx)%R by ring. apply Rle_trans with (1 := Rc). lra.
Qed.
Definition prim (a : R) : R := (B2R s / 2 * (a * a) + (B2R ly - B2R s * B2R lx) * a)%R.
Lemma prim_near (a : bf) : is_finite a = true -> (Rabs (B2R a) <= X)%R ->
  exists f : bf, line_primitive half64 l (B2SF a) = B2SF f /\ is_finite f = true /\ (Rabs (B2R f - prim (B2R a)) <= 75 / 10 * eps * W)%R /\ (Rabs (prim (B2R a)) <= 3 / 2 * W)%R.
Proof.
  intros Fa Ba. destruct sizes as (PM & PS & PMX & PSX & C1 & C2 & C3 & C4 & C5 & C6 & C7 & C8). pose proof eps_pos as EP. pose proof eps_small as ES. pose proof (lowest S (proj1 HS)) as TS. destruct slack as (Z1 & Z2 & Z3 & Z4 & Z5 & Z6 & Z7).
  destruct half_bf as (o & Eo & Fo & Ro).
  destruct (mul_step s o (B2R s) (/ 2) S (/ 2) 0 0 Fs Fo) as (h & Eh & Fh & Rh); [lra|lra|exact Bs|rewrite Rabs_pos_eq; lra|apply exact0|rewrite Ro, Rminus_diag_eq, Rabs_R0 by reflexivity; lra|lra|assert (bpow radix2 300 <= bpow radix2 1000)%R by (apply bpow_le; lia); lra|].
  pose proof (lowest 1%R) as T1. assert (T1' : (bpow radix2 (-900) <= 1)%R) by (change 1%R with (bpow radix2 0); apply bpow_le; lia). specialize (T1 T1').
  destruct (mul_step a a (B2R a) (B2R a) X X 0 0 Fa Fa) as (q & Eq & Fq & Rq); [lra|lra|exact Ba|exact Ba|apply exact0|apply exact0|nra|apply Rle_trans with (1 := C5); apply bpow_le; lia|].
  destruct (mul_step h q (B2R s * / 2) (B2R a * B2R a) (S / 2) (X * X) (52 / 100 * eps * S) (104 / 100 * eps * (X * X)) Fh Fq) as (p & Ep & Fp & Rp).
  - split; [|nra]. apply Rmult_le_pos; lra.
  - split; [|nra]. apply Rmult_le_pos; lra.
  - rewrite Rabs_mult, (Rabs_pos_eq (/ 2)) by lra. lra.
  - apply abs_mul; exact Ba.
  - apply Rle_trans with (1 := Rh). lra.
  - apply Rle_trans with (1 := Rq). lra.
  - nra.
  - assert (bpow radix2 900 <= bpow radix2 1000)%R by (apply bpow_le; lia). nra.
  - destruct const_near as (c & Ec & Fc & Rc). set (K := (B2R ly - B2R s * B2R lx)%R) in *.
    assert (BK : (Rabs K <= M + S * X)%R) by (unfold K, Rminus; apply Rle_trans with (1 := Rabs_triang _ _); rewrite Rabs_Ropp; apply Rplus_le_compat; [exact By|apply abs_mul; assumption]).
    destruct (mul_step c a K (B2R a) (M + S * X) X (eps * (102 / 100 * M + 310 / 100 * (S * X))) 0 Fc Fa) as (k & Ek & Fk & Rk).
    + split; [|nra]. apply Rmult_le_pos; lra.
    + lra.
    + exact BK.
    + exact Ba.
    + exact Rc.
    + apply exact0.
    + nra.
    + replace ((M + S * X) * X)%R with (M * X + S * (X * X))%R by ring. assert (bpow radix2 600 <= bpow radix2 900)%R by (apply bpow_le; lia). apply Rle_trans with (2 * bpow radix2 900)%R; [lra|]. rewrite b2. apply bpow_le. lia.
    + assert (A1 : (Rabs (B2R s * / 2 * (B2R a * B2R a)) <= S / 2 * (X * X))%R) by (apply abs_mul; [rewrite Rabs_mult, (Rabs_pos_eq (/ 2)) by lra; lra|apply abs_mul; exact Ba]).
      assert (A2 : (Rabs (K * B2R a) <= (M + S * X) * X)%R) by (apply abs_mul; assumption).
      assert (Rp' : (Rabs (B2R p - B2R s * / 2 * (B2R a * B2R a)) <= eps * (157 / 100 * (S * (X * X))))%R) by (apply Rle_trans with (1 := Rp); assert (0 <= eps * (S * (X * X)))%R by (apply Rmult_le_pos; lra); lra).
      assert (Rk' : (Rabs (B2R k - K * B2R a) <= eps * (206 / 100 * (M * X) + 414 / 100 * (S * (X * X))))%R) by (apply Rle_trans with (1 := Rk); lra).
      destruct (add_step p k (B2R s * / 2 * (B2R a * B2R a)) (K * B2R a) (eps * (157 / 100 * (S * (X * X)))) (eps * (206 / 100 * (M * X) + 414 / 100 * (S * (X * X)))) (101 / 100 * (M * X) + 152 / 100 * (S * (X * X))) Fp Fk) as (f & Ef & Ff & Rf); [|exact Rp'|exact Rk'| |].
      * nra.
      * assert (bpow radix2 600 <= bpow radix2 900)%R by (apply bpow_le; lia). apply Rle_trans with (4 * bpow radix2 900)%R; [lra|]. replace (4 * bpow radix2 900)%R with (2 * (2 * bpow radix2 900))%R by ring. rewrite !b2. apply bpow_le. lia.
      * exists f. split; [|split; [exact Ff|]].
        -- change (SFadd 53 1024 (SFmul 53 1024 (SFmul 53 1024 (B2SF s) half64) (SFmul 53 1024 (B2SF a) (B2SF a))) (SFmul 53 1024 (line_const l) (B2SF a)) = B2SF f). rewrite Ec, Eo, Eh, Eq, Ep, Ek, Ef. reflexivity.
        -- unfold prim. fold K. unfold Rdiv. assert (0 <= eps * (S * (X * X)))%R by (apply Rmult_le_pos; lra). assert (0 <= eps * (M * X))%R by (apply Rmult_le_pos; lra). split; [apply Rle_trans with (1 := Rf); lra|].
           apply Rle_trans with (1 := Rabs_triang _ _). lra.
Qed.
End Area.

(** the integral, in terms of bounds on the positions, the value and the slope *)
Lemma area_near (l : line b64) (a b : b64) X M S : finite64 (l_x l) -> finite64 (l_y l) -> finite64 (l_slope l) -> finite64 a -> finite64 b ->
  (Rabs (val64 (l_x l)) <= X)%R -> (Rabs (val64 (l_y l)) <= M)%R -> (Rabs (val64 (l_slope l)) <= S)%R -> (Rabs (val64 a) <= X)%R -> (Rabs (val64 b) <= X)%R ->
  (1 <= X <= bpow radix2 300)%R -> (bpow radix2 (-900) <= M <= bpow radix2 300)%R -> (bpow radix2 (-900) <= S <= bpow radix2 300)%R ->
  exists r, line_partial_integration half64 l a b = r /\ finite64 r /\
    (Rabs (val64 r - (val64 (l_y l) * (val64 b - val64 a) + val64 (l_slope l) * ((val64 b - val64 (l_x l)) * (val64 b - val64 (l_x l)) - (val64 a - val64 (l_x l)) * (val64 a - val64 (l_x l))) / 2)) <= 20 * eps * (M * X + S * (X * X)))%R.
Proof.
  destruct l as [lx ly s]. cbn [l_x l_y l_slope]. intros F1 F2 F3 F4 F5 B1 B2 B3 B4 B5 HX HM HS.
  destruct (real_of _ F1) as (xb & -> & Fx). destruct (real_of _ F2) as (yb & -> & Fy). destruct (real_of _ F3) as (sb & -> & Fs). destruct (real_of _ F4) as (ab & -> & Fa). destruct (real_of _ F5) as (bb & -> & Fb). rewrite !val_B2R in *.
  pose proof eps_pos as EP. pose proof eps_small as ES. destruct (sizes X M S HX HM HS) as (PM & PS & PMX & PSX & C1 & C2 & C3 & C4 & C5 & C6 & C7 & C8).
  unfold line_partial_integration. match goal with |- context [if ?c then _ else _] => change c with (SFeqb (B2SF ab) (B2SF bb)) end. rewrite eqb_val by assumption. destruct (Req_bool_spec (B2R ab) (B2R bb)) as [E|E].
  - exists n_zero. split; [reflexivity|]. split; [split; reflexivity|]. rewrite E. replace (val64 n_zero) with 0%R by reflexivity.
    match goal with |- (Rabs ?v <= _)%R => replace v with 0%R by field end. rewrite Rabs_R0. apply Rmult_le_pos; lra.
  - destruct (prim_near xb yb sb X M S Fx Fy Fs B1 B2 B3 HX HM HS ab Fa B4) as (fa & Ea & Ga & Ra & Pa). destruct (prim_near xb yb sb X M S Fx Fy Fs B1 B2 B3 HX HM HS bb Fb B5) as (fb & Eb & Gb & Rb & Pb).
    destruct (sub_step fb fa (prim xb yb sb (B2R bb)) (prim xb yb sb (B2R ab)) (75 / 10 * eps * (M * X + S * (X * X))) (75 / 10 * eps * (M * X + S * (X * X))) (31 / 10 * (M * X + S * (X * X))) Gb Ga) as (z & Ez & Fz & Rz); [nra|exact Rb|exact Ra| |].
    + assert (bpow radix2 600 <= bpow radix2 900)%R by (apply bpow_le; lia). apply Rle_trans with (8 * bpow radix2 900)%R; [lra|]. replace (8 * bpow radix2 900)%R with (2 * (2 * (2 * bpow radix2 900)))%R by ring. rewrite !b2. apply bpow_le. lia.
    + exists (B2SF z). split; [change (SFsub 53 1024 (line_primitive half64 (mkL (B2SF xb) (B2SF yb) (B2SF sb)) (B2SF bb)) (line_primitive half64 (mkL (B2SF xb) (B2SF yb) (B2SF sb)) (B2SF ab)) = B2SF z); rewrite Ea, Eb; exact Ez|]. split; [split; [apply valid_binary_B2SF|rewrite is_finite_SF_B2SF; exact Fz]|]. rewrite val_B2R.
      match goal with |- (Rabs (_ - ?v) <= _)%R => replace v with (prim xb yb sb (B2R bb) - prim xb yb sb (B2R ab))%R by (unfold prim; field) end.
      apply Rle_trans with (1 := Rz). assert (0 <= eps * (M * X + S * (X * X)))%R by (apply Rmult_le_pos; lra). lra.
Qed.
