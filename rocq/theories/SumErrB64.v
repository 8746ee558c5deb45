(** Rounding errors of sums, differences, products and quotients of curves. *)
From Coq Require Import List ZArith Reals Lia Lra Psatz Bool SpecFloat.
From Flocq Require Import Core BinarySingleNaN.
From Verif Require Import Base Num Interval Curve Points Combine B64Facts GridFacts StepB64 IrregB64 ErrB64 IntB64 SumB64.
Import ListNotations.
Open Scope Z_scope.
#[local] Existing Instances Hprec Hmax Hval Hexp.

Definition rsum (l : list R) : R := fold_right Rplus 0%R l.
Definition rprod (l : list R) : R := fold_right Rmult 1%R l.
Definition sizes (ys : list b64) : R := rsum (map (fun y => Rabs (val64 y)) ys).
Lemma sizes_nonneg ys : (0 <= sizes ys)%R.
Proof. unfold sizes, rsum. induction ys as [|y r IH]; cbn [map fold_right]; [lra|]. pose proof (Rabs_pos (val64 y)). lra. Qed.
Lemma count_eps n : Z.of_nat n <= 2 ^ 50 -> (2 * INR n * eps <= / 4)%R.
Proof.
  intros L. assert (INR n <= bpow radix2 50)%R by (rewrite INR_IZR_INZ; change (bpow radix2 50) with (IZR (2 ^ 50)); apply IZR_le; exact L). pose proof eps_pos.
  apply Rle_trans with (2 * bpow radix2 50 * eps)%R; [nra|]. unfold eps. replace (2 * bpow radix2 50 * bpow radix2 (-53))%R with (bpow radix2 (-2)); [cbn; lra|]. change 2%R with (bpow radix2 1). rewrite <- !bpow_plus. reflexivity.
Qed.

(** ** Sums and differences *)
Section Signed.
Variables (op : b64 -> b64 -> b64) (c : R).
Hypothesis C1 : (c = 1 \/ c = -1)%R.
Hypothesis OP : forall s y : bf, is_finite s = true -> is_finite y = true -> (Rabs (B2R s + c * B2R y) <= huge)%R ->
  exists z : bf, op (B2SF s) (B2SF y) = B2SF z /\ is_finite z = true /\ B2R z = rnd (B2R s + c * B2R y).
Lemma op_abs (s y : bf) B : is_finite s = true -> is_finite y = true -> (Rabs (B2R s + c * B2R y) <= B)%R -> (B <= bpow radix2 1020)%R ->
  exists z : bf, op (B2SF s) (B2SF y) = B2SF z /\ is_finite z = true /\ (Rabs (B2R z - (B2R s + c * B2R y)) <= B * eps)%R.
Proof.
  intros FS FY AB HB. pose proof (huge_ge _ HB). assert (0 <= B)%R by (apply Rle_trans with (2 := AB); apply Rabs_pos). destruct (OP s y FS FY ltac:(lra)) as (z & E & F & R). exists z. split; [exact E|]. split; [exact F|].
  destruct (any_err (B2R s + c * B2R y)) as (d0 & t0 & _). clear d0 t0.
  assert (G : exists d, (Rabs d <= eps)%R /\ rnd (B2R s + c * B2R y) = ((B2R s + c * B2R y) * (1 + d))%R).
  { destruct C1 as [-> | ->]; [rewrite Rmult_1_l; apply plus_err; apply generic_format_B2R|]. replace (B2R s + -1 * B2R y)%R with (B2R s - B2R y)%R by ring. apply minus_err; apply generic_format_B2R. }
  destruct G as (d & D & EQ). rewrite R, EQ. set (p := (B2R s + c * B2R y)%R) in *.
  replace (p * (1 + d) - p)%R with (p * d)%R by ring. apply Rle_trans with (1 := err_mul _ _ D). apply Rmult_le_compat_r; [left; apply eps_pos|exact AB].
Qed.
Lemma fold_err ys : forall (s : bf) (I A : R) (k : nat), is_finite s = true -> Forall finite64 ys -> (Rabs I <= A)%R -> (Rabs (B2R s - I) <= 2 * INR k * eps * A)%R ->
  Z.of_nat (k + length ys) <= 2 ^ 50 -> (A + sizes ys <= bpow radix2 1019)%R ->
  exists r : bf, fold_left op ys (B2SF s) = B2SF r /\ is_finite r = true /\ (Rabs (B2R r - (I + c * rsum (map val64 ys))) <= 2 * INR (k + length ys) * eps * (A + sizes ys))%R.
Proof.
  induction ys as [|y ys IH]; intros s I A k FS FY IA ER LN AB.
  - exists s. split; [reflexivity|]. split; [exact FS|]. cbn [map rsum fold_right length sizes]. unfold sizes. cbn. rewrite Nat.add_0_r, Rplus_0_r. replace (I + c * 0)%R with I by ring. exact ER.
  - inversion_clear FY. destruct (real_of _ H) as (yb & -> & Fy). cbn [length] in LN. unfold sizes in AB. cbn [map rsum fold_right] in AB. fold (rsum (map (fun y => Rabs (val64 y)) ys)) in AB. fold (sizes ys) in AB. rewrite val_B2R in AB.
    pose proof (sizes_nonneg ys) as SN. pose proof eps_pos as EP. pose proof (pos_INR k) as PK. pose proof (count_eps k ltac:(lia)) as KE. pose proof (Rabs_pos (B2R yb)) as YP. assert (A0 : (0 <= A)%R) by (apply Rle_trans with (2 := IA); apply Rabs_pos).
    assert (CY : (Rabs (c * B2R yb) = Rabs (B2R yb))%R) by (destruct C1 as [-> | ->]; [rewrite Rmult_1_l; reflexivity|]; replace (-1 * B2R yb)%R with (- B2R yb)%R by ring; apply Rabs_Ropp).
    assert (IY : (Rabs (I + c * B2R yb) <= A + Rabs (B2R yb))%R) by (apply Rle_trans with (1 := Rabs_triang _ _); lra).
    assert (DY : (Rabs (B2R s + c * B2R yb - (I + c * B2R yb)) <= 2 * INR k * eps * A)%R) by (replace (B2R s + c * B2R yb - (I + c * B2R yb))%R with (B2R s - I)%R by ring; exact ER).
    pose proof (abs_from _ _ _ _ DY IY) as BY. set (B := (A + Rabs (B2R yb) + 2 * INR k * eps * A)%R) in *.
    assert (KA : (2 * INR k * eps * A <= / 4 * A)%R) by (apply Rmult_le_compat_r; assumption).
    destruct (op_abs s yb B FS Fy BY) as (z & EZ & FZ & RZ).
    { unfold B. replace (bpow radix2 1020) with (2 * bpow radix2 1019)%R by (change 2%R with (bpow radix2 1); rewrite <- bpow_plus; reflexivity). lra. }
    destruct (IH z (I + c * B2R yb)%R (A + Rabs (B2R yb))%R (S k)) as (r & E & F & R); try assumption; [|lia|lra|].
    + apply Rle_trans with (1 := abs_trans _ _ _ _ _ RZ DY). rewrite S_INR. unfold B.
      assert (Q : ((A + Rabs (B2R yb) + 2 * INR k * eps * A) * eps <= 2 * (A + Rabs (B2R yb)) * eps)%R) by (apply Rmult_le_compat_r; lra).
      assert (Q2 : (0 <= 2 * INR k * eps * Rabs (B2R yb))%R) by (apply Rmult_le_pos; [apply Rmult_le_pos; lra|exact YP]). lra.
    + exists r. cbn [fold_left]. rewrite EZ. split; [exact E|]. split; [exact F|]. cbn [length map]. unfold sizes. cbn [rsum map fold_right]. fold (rsum (map val64 ys)). fold (rsum (map (fun y => Rabs (val64 y)) ys)). fold (sizes ys). rewrite val_B2R.
      replace (k + S (length ys))%nat with (S k + length ys)%nat by lia. replace (I + c * (B2R yb + rsum (map val64 ys)))%R with (I + c * B2R yb + c * rsum (map val64 ys))%R by ring.
      replace (A + (Rabs (B2R yb) + sizes ys))%R with (A + Rabs (B2R yb) + sizes ys)%R by ring. exact R.
Qed.
End Signed.
Lemma add_op (s y : bf) : is_finite s = true -> is_finite y = true -> (Rabs (B2R s + 1 * B2R y) <= huge)%R ->
  exists z : bf, SFadd 53 1024 (B2SF s) (B2SF y) = B2SF z /\ is_finite z = true /\ B2R z = rnd (B2R s + 1 * B2R y).
Proof. rewrite Rmult_1_l. apply add_big. Qed.
Lemma sub_op (s y : bf) : is_finite s = true -> is_finite y = true -> (Rabs (B2R s + -1 * B2R y) <= huge)%R ->
  exists z : bf, SFsub 53 1024 (B2SF s) (B2SF y) = B2SF z /\ is_finite z = true /\ B2R z = rnd (B2R s + -1 * B2R y).
Proof. replace (B2R s + -1 * B2R y)%R with (B2R s - B2R y)%R by ring. apply sub_big. Qed.

Lemma somes_some (ys : list b64) : somes (map Some ys) = ys. Proof. induction ys as [|y r IH]; cbn; [reflexivity|f_equal; exact IH]. Qed.
Lemma no_none (ys : list b64) : has_none (map Some ys) = false. Proof. induction ys as [|y r IH]; cbn; [reflexivity|exact IH]. Qed.
Lemma sub_fold (ys : list b64) : forall s, sub_loop false s (map Some ys) = Ok (Some (fold_left n_sub ys s)).
Proof. induction ys as [|y r IH]; intros s; cbn; [reflexivity|apply IH]. Qed.
Lemma mult_fold (ys : list b64) : forall s, mult_loop s (map Some ys) = Ok (Some (fold_left n_mul ys s)).
Proof. induction ys as [|y r IH]; intros s; cbn; [reflexivity|apply IH]. Qed.

Section Values.
Variables (funcs : list (crv b64 (option b64))) (x : b64) (ys : list b64).
Hypothesis (NE : funcs <> []) (D : Forall (fun f => ival64 (c_dom f)) funcs) (X : number64 x).
Hypothesis E : Forall2 (fun f y => i_contains (c_dom f) x = true /\ c_y f x = Ok (Some y)) funcs ys.
Lemma some_values : Forall2 (fun f v => i_contains (c_dom f) x = true /\ c_y f x = Ok v) funcs (map Some ys).
Proof. pose proof E as K. clear - K. induction K as [|f y l r H _ IH]; cbn [map]; [apply Forall2_nil|apply Forall2_cons; assumption]. Qed.
Lemma add_value : c_y (add_many funcs) x = Ok (Some (fold_left (SFadd 53 1024) ys (b64_ofZ 0))).
Proof. unfold add_many. rewrite (agg_value funcs add_f None x _ NE D X some_values). unfold add_f. rewrite no_none, somes_some. reflexivity. Qed.
Lemma sub_value y r : ys = y :: r -> c_y (subtract_many funcs) x = Ok (Some (fold_left (SFsub 53 1024) r y)).
Proof. intros EY. unfold subtract_many. rewrite (agg_value funcs sub_f None x _ NE D X some_values). rewrite EY. unfold sub_f. cbn [map sub_loop]. apply sub_fold. Qed.
Lemma mul_value : c_y (multiply_many funcs) x = Ok (Some (fold_left (SFmul 53 1024) ys (b64_ofZ 1))).
Proof. unfold multiply_many. rewrite (agg_value funcs mult_f None x _ NE D X some_values). unfold mult_f. apply mult_fold. Qed.
Lemma div_value y r : ys = y :: r -> Forall (fun z => finite64 z /\ val64 z <> 0%R) r -> c_y (divide_many funcs) x = Ok (Some (fold_left (SFdiv 53 1024) r y)).
Proof.
  intros EY NZ. unfold divide_many. rewrite (agg_value funcs div_f None x _ NE D X some_values). rewrite EY. unfold div_f. cbn [map div_loop]. clear - NZ. revert y. induction NZ as [|z r [FZ NZ] _ IH]; intros y; cbn [map div_loop fold_left]; [reflexivity|].
  destruct (real_of _ FZ) as (zb & -> & Fz). rewrite val_B2R in NZ. destruct zb as [sg| | |sg m e B]; try discriminate Fz; [elim NZ; reflexivity|]. cbn [B2SF].
  assert (Z : @n_eqb b64 B64 (S754_finite sg m e) n_zero = false) by (destruct sg; reflexivity). rewrite Z. cbn [n_div B64 rbind]. apply IH.
Qed.
Lemma sum_near : Forall finite64 ys -> Z.of_nat (length ys) <= 2 ^ 50 -> (sizes ys <= bpow radix2 1019)%R ->
  exists r, c_y (add_many funcs) x = Ok (Some r) /\ finite64 r /\ (Rabs (val64 r - rsum (map val64 ys)) <= 2 * INR (length ys) * eps * sizes ys)%R.
Proof.
  intros F L B. destruct (fold_err (SFadd 53 1024) 1 (or_introl eq_refl) add_op ys (B754_zero false) 0 0 0 eq_refl F) as (r & ER & FR & RR).
  - rewrite Rabs_R0. lra.
  - cbn [B2R]. rewrite Rminus_0_r, Rabs_R0. cbn. lra.
  - exact L.
  - lra.
  - exists (B2SF r). rewrite add_value. split; [exact (f_equal (fun v => Ok (Some v)) ER)|]. split; [split; [apply valid_binary_B2SF|rewrite is_finite_SF_B2SF; exact FR]|].
    rewrite val_B2R. rewrite Rplus_0_l, Rmult_1_l in RR. rewrite Rplus_0_l in RR. exact RR.
Qed.
Lemma difference_near y r : ys = y :: r -> Forall finite64 ys -> Z.of_nat (length ys) <= 2 ^ 50 -> (sizes ys <= bpow radix2 1019)%R ->
  exists v, c_y (subtract_many funcs) x = Ok (Some v) /\ finite64 v /\ (Rabs (val64 v - (val64 y - rsum (map val64 r))) <= 2 * INR (length r) * eps * sizes ys)%R.
Proof.
  intros EY F L B. rewrite EY in F, L, B. inversion_clear F. destruct (real_of _ H) as (yb & Ey & Fy). cbn [length] in L. unfold sizes in B. cbn [map rsum fold_right] in B. fold (rsum (map (fun y => Rabs (val64 y)) r)) in B. fold (sizes r) in B.
  destruct (fold_err (SFsub 53 1024) (-1) (or_intror eq_refl) sub_op r yb (B2R yb) (Rabs (B2R yb)) 0 Fy H0) as (v & EV & FV & RV).
  - lra.
  - rewrite Rminus_eq_0, Rabs_R0. cbn. lra.
  - lia.
  - rewrite Ey, val_B2R in B. exact B.
  - exists (B2SF v). rewrite (sub_value y r EY), Ey. split; [exact (f_equal (fun v => Ok (Some v)) EV)|]. split; [split; [apply valid_binary_B2SF|rewrite is_finite_SF_B2SF; exact FV]|].
    rewrite !val_B2R, EY, Ey. unfold sizes at 1. cbn [map rsum fold_right]. fold (rsum (map (fun y => Rabs (val64 y)) r)). fold (sizes r). rewrite val_B2R.
    replace (B2R yb - rsum (map val64 r))%R with (B2R yb + -1 * rsum (map val64 r))%R by ring. exact RV.
Qed.
End Values.

(** ** Monotony *)
Lemma fold_mono ys : forall zs (s t : bf) A, is_finite s = true -> is_finite t = true -> (B2R s <= B2R t)%R -> Forall2 (fun y z => finite64 y /\ finite64 z /\ (val64 y <= val64 z)%R) ys zs ->
  (exists I J k, Rabs I <= A /\ Rabs J <= A /\ Rabs (B2R s - I) <= 2 * INR k * eps * A /\ Rabs (B2R t - J) <= 2 * INR k * eps * A /\ (Z.of_nat (k + length ys) <= 2 ^ 50)%Z)%R -> (A + sizes ys + sizes zs <= bpow radix2 1019)%R ->
  (val64 (fold_left (SFadd 53 1024) ys (B2SF s)) <= val64 (fold_left (SFadd 53 1024) zs (B2SF t)))%R.
Proof.
  induction ys as [|y ys IH]; intros zs s t A FS FT ST YZ (I & J & k & IA & JA & DI & DJ & LN) AB.
  - inversion YZ. cbn. rewrite !val_B2R. exact ST.
  - destruct zs as [|z zs]; [inversion YZ|]. inversion_clear YZ. destruct H as (FY & FZ & LE). destruct (real_of _ FY) as (yb & -> & Fy). destruct (real_of _ FZ) as (zb & -> & Fz). rewrite !val_B2R in LE. cbn [length] in LN.
    unfold sizes in AB. cbn [map rsum fold_right] in AB. fold (rsum (map (fun y => Rabs (val64 y)) ys)) in AB. fold (rsum (map (fun y => Rabs (val64 y)) zs)) in AB. fold (sizes ys) in AB. fold (sizes zs) in AB. rewrite !val_B2R in AB.
    pose proof (sizes_nonneg ys) as SN. pose proof (sizes_nonneg zs) as SZ. pose proof eps_pos as EP. pose proof (pos_INR k) as PK. pose proof (count_eps k ltac:(lia)) as KE. pose proof (Rabs_pos (B2R yb)) as YP. pose proof (Rabs_pos (B2R zb)) as ZP.
    assert (A0 : (0 <= A)%R) by (apply Rle_trans with (2 := IA); apply Rabs_pos). assert (KA : (2 * INR k * eps * A <= / 4 * A)%R) by (apply Rmult_le_compat_r; assumption).
    assert (P19 : (bpow radix2 1020 = 2 * bpow radix2 1019)%R) by (change 2%R with (bpow radix2 1); rewrite <- bpow_plus; reflexivity).
    set (A' := (A + (Rabs (B2R yb) + Rabs (B2R zb)))%R).
    assert (STEP : forall (s u : bf) I, is_finite s = true -> is_finite u = true -> (Rabs I <= A)%R -> (Rabs (B2R s - I) <= 2 * INR k * eps * A)%R -> (Rabs (B2R u) <= Rabs (B2R yb) + Rabs (B2R zb))%R ->
      exists w : bf, SFadd 53 1024 (B2SF s) (B2SF u) = B2SF w /\ is_finite w = true /\ B2R w = rnd (B2R s + B2R u) /\ (Rabs (I + B2R u) <= A')%R /\ (Rabs (B2R w - (I + B2R u)) <= 2 * INR (S k) * eps * A')%R).
    { clear s t I J FS FT ST IA JA DI DJ. intros s u I FS FU IA DI BU.
      assert (IY : (Rabs (I + B2R u) <= A')%R) by (apply Rle_trans with (1 := Rabs_triang _ _); unfold A'; lra).
      assert (DY : (Rabs (B2R s + B2R u - (I + B2R u)) <= 2 * INR k * eps * A)%R) by (replace (B2R s + B2R u - (I + B2R u))%R with (B2R s - I)%R by ring; exact DI).
      pose proof (abs_from _ _ _ _ DY IY) as BY. set (B := (A' + 2 * INR k * eps * A)%R) in *. assert (BB : (B <= bpow radix2 1020)%R) by (unfold B, A' in *; lra).
      destruct (add_abs s u B FS FU BY BB) as (w & EW & FW & RW). exists w. split; [exact EW|]. split; [exact FW|]. split; [|split; [exact IY|]].
      - pose proof (huge_ge _ BB). assert (0 <= B)%R by (apply Rle_trans with (2 := BY); apply Rabs_pos). destruct (add_big s u FS FU ltac:(lra)) as (w' & EW' & FW' & RW'). rewrite EW in EW'. apply B2SF_inj in EW'. subst w'. exact RW'.
      - apply Rle_trans with (1 := abs_trans _ _ _ _ _ RW DY). rewrite S_INR. unfold B, A' in *. set (q := (Rabs (B2R yb) + Rabs (B2R zb))%R) in *.
        assert (Q : ((A + q + 2 * INR k * eps * A) * eps <= 2 * (A + q) * eps)%R) by (apply Rmult_le_compat_r; unfold q in *; lra).
        assert (Q2 : (0 <= 2 * INR k * eps * q)%R) by (apply Rmult_le_pos; [apply Rmult_le_pos; lra|unfold q; lra]). lra. }
    destruct (STEP s yb I FS Fy IA DI ltac:(lra)) as (s1 & E1 & F1 & R1 & I1 & D1). destruct (STEP t zb J FT Fz JA DJ ltac:(lra)) as (t1 & E2 & F2 & R2 & J1 & D2).
    cbn [fold_left]. rewrite E1, E2. apply (IH zs s1 t1 A'); try assumption; [rewrite R1, R2; apply round_le; try typeclasses eauto; lra| |unfold A'; lra].
    exists (I + B2R yb)%R, (J + B2R zb)%R, (S k). repeat split; try assumption. lia.
Qed.
Lemma sum_mono (fs gs : list (crv b64 (option b64))) x ys zs : fs <> [] -> gs <> [] -> Forall (fun f => ival64 (c_dom f)) fs -> Forall (fun f => ival64 (c_dom f)) gs -> number64 x ->
  Forall2 (fun f y => i_contains (c_dom f) x = true /\ c_y f x = Ok (Some y)) fs ys -> Forall2 (fun f y => i_contains (c_dom f) x = true /\ c_y f x = Ok (Some y)) gs zs ->
  Forall2 (fun y z => finite64 y /\ finite64 z /\ (val64 y <= val64 z)%R) ys zs -> Z.of_nat (length ys) <= 2 ^ 50 -> (sizes ys + sizes zs <= bpow radix2 1019)%R ->
  exists r v, c_y (add_many fs) x = Ok (Some r) /\ c_y (add_many gs) x = Ok (Some v) /\ (val64 r <= val64 v)%R.
Proof.
  intros NF NG DF DG X EF EG YZ L B. do 2 eexists. split; [apply (add_value fs x ys); assumption|]. split; [apply (add_value gs x zs); assumption|]. change (b64_ofZ 0) with (B2SF (B754_zero false : bf)).
  apply (fold_mono ys zs _ _ 0); try reflexivity; try assumption; [cbn; lra| |lra]. exists 0%R, 0%R, 0%nat. cbn [B2R INR]. rewrite Rminus_0_r, Rabs_R0. repeat split; try lra. exact L.
Qed.
