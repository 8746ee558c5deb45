(** The accumulated sums of the integral in binary64. *)
From Coq Require Import List ZArith Reals Lia Lra Psatz Bool SpecFloat.
From Flocq Require Import Core BinarySingleNaN.
From Verif Require Import Base Num Interval Curve Points Combine Scan B64Facts GridFacts StepB64 IrregB64 ErrB64 InterpB64 AccB64 EmaB64 BetweenB64 IntB64.
Import ListNotations.
Open Scope Z_scope.
#[local] Existing Instances Hprec Hmax Hval Hexp.

(** what the line joins (integral.py:38-46) *)
Definition ends (ip : interp) (y0 y : b64) : b64 * b64 := match ip with ILinear => (y0, y) | IPrevious => (y0, y0) | INext => (y, y) end.
(** integral.py:48-49 *)
Definition area64 (ip : interp) (x0 y0 x y : b64) : b64 :=
  match line_args None None (Some (x0, fst (ends ip y0 y))) (Some (x, snd (ends ip y0 y))) None with Ok l => line_partial_integration half64 l x0 x | Err _ => n_zero end.
(** the sums, from position [x] on; [y0] and [sum] are those of the point before *)
Definition sum_next (ip : interp) (x0 x : Z) (y0 sum v : option b64) : option b64 :=
  match v with
  | None => sum
  | Some y =>
      let s := match sum with Some s => s | None => n_zero end in
      match y0 with Some y0 => Some (n_add s (area64 ip (b64_ofZ x0) y0 (b64_ofZ x) y)) | None => Some s end
  end.
Fixpoint int_outs (ip : interp) (h x : Z) (y0 sum : option b64) (vs : list (option b64)) : list (option b64) :=
  match vs with
  | [] => []
  | v :: r => let s := sum_next ip (x - h) x y0 sum v in s :: int_outs ip h (x + h) v s r
  end.
Lemma int_outs_length ip h vs : forall x y0 s, length (int_outs ip h x y0 s vs) = length vs.
Proof. induction vs as [|v r IH]; intros x y0 s; cbn [int_outs length]; [reflexivity|]. f_equal. apply IH. Qed.
Lemma int_outs_prefix ip h vs us : forall x y0 s k, (k <= length vs)%nat -> firstn k (int_outs ip h x y0 s (vs ++ us)) = firstn k (int_outs ip h x y0 s vs).
Proof. induction vs as [|v r IH]; intros x y0 s [|k] L; cbn [length] in L; try lia; try reflexivity. cbn [app int_outs firstn]. f_equal. apply IH. lia. Qed.
Definition prior {A} (d : A) (l : list A) (d0 : A) (k : nat) : A := match k with O => d0 | S j => nth j l d end.
Lemma int_outs_next ip h vs : forall x y0 s k v, nth_error vs k = Some v ->
  nth_error (int_outs ip h x y0 s vs) k = Some (sum_next ip (x + Z.of_nat k * h - h) (x + Z.of_nat k * h) (prior None vs y0 k) (prior None (int_outs ip h x y0 s vs) s k) v).
Proof.
  induction vs as [|u r IH]; intros x y0 s [|k] v E; try discriminate.
  - injection E as ->. cbn [int_outs nth_error prior]. replace (x + Z.of_nat 0 * h) with x by lia. reflexivity.
  - cbn [nth_error int_outs] in *. rewrite (IH _ _ _ _ _ E). replace (x + h + Z.of_nat k * h) with (x + Z.of_nat (S k) * h) by lia. destruct k; reflexivity.
Qed.

Lemma minstep_ok h : 0 < h <= 2 ^ 35 -> step_ok h n_minstep.
Proof.
  intros HH. split; [vm_compute; reflexivity|]. split; [vm_compute; reflexivity|]. destruct minstep_real as (b & E & F & R). rewrite E. change (@n_leb b64 B64) with SFleb.
  assert (FH : fits h 0) by (split; lia). destruct (bnum_spec h 0 FH) as (R2 & N2 & _). rewrite fnum_bnum, leb_val by assumption. rewrite R2, dy0. apply Rle_bool_true.
  assert (1 <= IZR h)%R by (apply IZR_le; lia). assert (bpow radix2 (-16) <= bpow radix2 0)%R by (apply bpow_le; lia). cbn [bpow] in *. lra.
Qed.
(** _integral_scan as a transform *)
Definition int_tf (ip : interp) (src : pts b64 (option b64)) (p : pts b64 (option b64)) (x : b64) (y e : option b64) : res (option b64) := integral_scan half64 ip (p_y src) p x y e.
Lemma line_ok (xa xb y0 y1 : b64) (a b : bf) : xa = B2SF a -> xb = B2SF b -> is_finite a = true -> is_finite b = true -> (B2R a < B2R b)%R -> (Rabs (B2R b - B2R a) <= bpow radix2 1020)%R -> generic_format radix2 fexp (B2R b - B2R a) ->
  exists l, line_args None None (Some (xa, y0)) (Some (xb, y1)) None = Ok l.
Proof.
  intros -> -> FA FB LT BD GF. unfold line_args. cbv beta iota zeta. change (@n_eqb b64 B64) with SFeqb. rewrite eqb_val by assumption. rewrite Req_bool_false by lra. cbn [negb].
  destruct (sub_exact b a FB FA BD GF) as (d & E & F & R). change (@n_sub spec_float B64) with (SFsub 53 1024). change (@n_sub b64 B64) with (SFsub 53 1024). rewrite E.
  destruct d as [sg| | |sg m e0 B0]; try discriminate F; [cbn in R; lra|]. cbn [n_div B64 rbind B2SF]. eexists. reflexivity.
Qed.
Lemma int_tf_next a h ip vs src : grid_small a h (length vs) -> on_grid a h 0 vs src ->
  forall k v w p, nth_error vs k = Some v -> nth_error (int_outs ip h a None None vs) k = Some w -> on_grid a h 0 (firstn k (int_outs ip h a None None vs)) p ->
  int_tf ip src p (fnum (at_i a h k) 0) v (before (int_outs ip h a None None vs) k) = Ok w.
Proof.
  intros SM ON k v w p E EW OP. pose proof (int_outs_next ip h vs a None None k v E) as N. rewrite N in EW. injection EW as <-. set (os := int_outs ip h a None None vs) in *.
  assert (K : (k < length vs)%nat) by (apply nth_error_Some; congruence). assert (LO : length os = length vs) by apply int_outs_length.
  assert (PB : before os k = prior None os None k) by (destruct k; reflexivity). rewrite PB. unfold int_tf, integral_scan, sum_next. destruct v as [y|]; [|reflexivity].
  destruct k as [|k].
  - assert (p_x_previous p (fnum (at_i a h 0) 0) (Some MIN_STEP) None = Ok None) as ->.
    { destruct OP as (_ & _ & _ & dom & _ & PD). unfold p_x_previous. rewrite PD. cbn [firstn length grid_dom]. replace (i_is_empty (@i_empty b64 B64)) with true by (vm_compute; reflexivity). reflexivity. }
    reflexivity.
  - assert (LF : length (firstn (S k) os) = S k) by (apply firstn_length_le; lia).
    assert (HH : h <= 2 ^ 35) by (destruct SM as (P & A & B & C); nia). assert (HP : 0 < h) by apply SM.
    assert (SK : grid_small a h (S (length (firstn (S k) os)))) by (rewrite LF; apply (small_prefix a h (length vs)); [exact SM|lia]).
    pose proof (prev_after a h (firstn (S k) os) p SK OP n_minstep None ltac:(lia) (minstep_ok h ltac:(lia))) as PA. rewrite LF in PA. replace (S k - 1)%nat with k in PA by lia.
    change (@MIN_STEP b64 B64) with (@n_minstep b64 B64). rewrite PA. cbn [rbind].
    destruct (nth_error vs k) as [v0|] eqn:E0; [|apply nth_error_None in E0; lia].
    rewrite (grid_y a h 0 vs src k v0 (small_fits a h _ SM) ON E0). cbn [rbind prior]. rewrite (nth_error_nth _ _ None E0).
    destruct v0 as [y0|]; [|reflexivity].
    replace (a + Z.of_nat (S k) * h - h) with (at_i a h k) by (unfold at_i; lia). change (a + Z.of_nat (S k) * h) with (at_i a h (S k)).
    change (b64_ofZ (at_i a h k)) with (fnum (at_i a h k) 0). change (b64_ofZ (at_i a h (S k))) with (fnum (at_i a h (S k)) 0).
    destruct (x_real a h vs SM ltac:(lia) k ltac:(lia)) as (xb0 & EX0 & F0 & R0 & A0). destruct (x_real a h vs SM ltac:(lia) (S k) K) as (xb1 & EX1 & F1 & R1 & A1).
    assert (DH : (B2R xb1 - B2R xb0 = IZR h)%R) by (rewrite R0, R1, <- minus_IZR; f_equal; unfold at_i; lia). assert (H1 : (1 <= IZR h)%R) by (apply IZR_le; lia).
    destruct (line_ok (fnum (at_i a h k) 0) (fnum (at_i a h (S k)) 0) (fst (ends ip y0 y)) (snd (ends ip y0 y)) xb0 xb1 EX0 EX1 F0 F1) as (l & EL); [lra| | |].
    { rewrite DH, Rabs_pos_eq by lra. apply Rle_trans with (bpow radix2 35); [change (bpow radix2 35) with (IZR (2 ^ 35)); apply IZR_le; exact HH|apply bpow_le; lia]. }
    { rewrite DH. apply format_int. lia. }
    unfold area64. rewrite EL. destruct ip; cbn [ends fst snd] in EL; cbv beta iota zeta; rewrite EL; reflexivity.
Qed.

(** the same recurrence in doubles, whatever the history, with None values *)
Lemma int_exact a h m ip ip2 const vs src q fuel : step_ok h m -> grid_small a h (length vs) ->
  watch64 a h m ip (int_tf ip2) (integral_post const) vs src q -> (length vs < fuel)%nat ->
  exists ss : nat -> option b64,
    (forall v, nth_error vs 0 = Some v -> ss 0%nat = option_map (fun _ => b64_ofZ 0) v) /\
    (forall k v0 v, nth_error vs k = Some v0 -> nth_error vs (S k) = Some v -> ss (S k) = sum_next ip2 (a + Z.of_nat k * h) (a + Z.of_nat (S k) * h) v0 (ss k) v) /\
    (forall k, (k < length vs)%nat -> snd (y64 m (int_tf ip2) (integral_post const) fuel src q (b64_ofZ (a + Z.of_nat k * h))) = Ok (integral_post const (ss k))) /\
    (forall x, valid_binary 53 1024 x = true -> i_contains (p_dom src) x = false -> snd (y64 m (int_tf ip2) (integral_post const) fuel src q x) = Ok None).
Proof.
  intros ST SM R L. set (os := int_outs ip2 h a None None vs). exists (fun k => nth k os None).
  assert (LO : length os = length vs) by apply int_outs_length.
  split; [|split; [|split]].
  - intros v E. pose proof (int_outs_next ip2 h vs a None None 0 v E) as N. fold os in N. rewrite (nth_error_nth _ _ None N). destruct v; reflexivity.
  - intros k v0 v E0 E. pose proof (int_outs_next ip2 h vs a None None (S k) v E) as N. fold os in N. rewrite (nth_error_nth _ _ None N). cbn [prior]. rewrite (nth_error_nth _ _ None E0).
    replace (a + Z.of_nat (S k) * h - h) with (a + Z.of_nat k * h) by lia. reflexivity.
  - intros k K. eapply (watched_knot a h m ip (int_tf ip2) (integral_post const) (int_outs ip2 h a None None) (fun _ => True)); try eassumption; auto.
    + intros us. apply int_outs_length.
    + intros us ws j. apply int_outs_prefix.
    + intros us s _ S O. apply (int_tf_next a h ip2 us s S O).
    + apply nth_error_nth'. fold os. lia.
  - intros x VX C. change (@None b64) with (@v_none b64 (option b64) _). eapply (watched_outside a h m ip (int_tf ip2) (integral_post const) (int_outs ip2 h a None None) (fun _ => True)); try eassumption; auto.
    + intros us. apply int_outs_length.
    + intros us ws j. apply int_outs_prefix.
    + intros us s _ S O. apply (int_tf_next a h ip2 us s S O).
Qed.

(** ** How far from the exact sum *)
(** the mean height of a step *)
Definition mean (ip : interp) (u v : R) : R := match ip with ILinear => (u + v) / 2 | IPrevious => u | INext => v end%R.
Lemma area_two A M (xa xb u v : b64) (a b y0 y1 : bf) H : xa = B2SF a -> xb = B2SF b -> u = B2SF y0 -> v = B2SF y1 ->
  (exists (l : line b64) (r : bf), line_args None None (Some (B2SF a, B2SF y0)) (Some (B2SF b, B2SF y1)) None = Ok l /\
     line_partial_integration half64 l (B2SF a) (B2SF b) = B2SF r /\ is_finite r = true /\ (Rabs (B2R r - H * (B2R y0 + B2R y1) / 2) <= trap A M H)%R) ->
  exists r : bf, match line_args None None (Some (xa, u)) (Some (xb, v)) None with Ok l => line_partial_integration half64 l xa xb | Err _ => n_zero end = B2SF r /\ is_finite r = true /\
     (Rabs (B2R r - H * (B2R y0 + B2R y1) / 2) <= trap A M H)%R.
Proof. intros -> -> -> -> (l & r & E1 & E2 & F & R). exists r. split; [|split; assumption]. rewrite <- E2. match goal with |- match ?e with _ => _ end = _ => change e with (line_args None None (Some (B2SF a, B2SF y0)) (Some (B2SF b, B2SF y1)) None) end. rewrite E1. reflexivity. Qed.
Lemma area_near A M ip (x0 x : Z) (y0 y : bf) : x0 < x -> x - x0 <= 2 ^ 35 -> Z.abs x0 <= 2 ^ 35 -> Z.abs x <= 2 ^ 35 -> (IZR (x - x0) <= A)%R -> (A <= bpow radix2 40)%R -> (0 <= M)%R -> (M <= bpow radix2 800)%R ->
  (Rabs (IZR x0) <= A)%R -> (Rabs (IZR x) <= A)%R -> is_finite y0 = true -> is_finite y = true -> (Rabs (B2R y0) <= M)%R -> (Rabs (B2R y) <= M)%R ->
  exists r : bf, area64 ip (b64_ofZ x0) (B2SF y0) (b64_ofZ x) (B2SF y) = B2SF r /\ is_finite r = true /\ (Rabs (B2R r - IZR (x - x0) * mean ip (B2R y0) (B2R y)) <= trap A M (IZR (x - x0)))%R.
Proof.
  intros LX DX AX0 AX HA A40 M0 M800 BX0 BX F0 F1 B0 B1.
  assert (G0 : fits x0 0) by (split; lia). assert (G1 : fits x 0) by (split; lia). destruct (bnum_spec _ _ G0) as (R0 & N0 & _). destruct (bnum_spec _ _ G1) as (R1 & N1 & _). rewrite dy0 in R0, R1.
  assert (X0 : b64_ofZ x0 = B2SF (bnum x0 0)) by (change (b64_ofZ x0) with (fnum x0 0); apply fnum_bnum). assert (X1 : b64_ofZ x = B2SF (bnum x 0)) by (change (b64_ofZ x) with (fnum x 0); apply fnum_bnum).
  assert (H1 : (1 <= IZR (x - x0))%R) by (apply IZR_le; lia). assert (FH : generic_format radix2 fexp (IZR (x - x0))) by (apply format_int; lia).
  assert (T : forall u v : bf, is_finite u = true -> is_finite v = true -> (Rabs (B2R u) <= M)%R -> (Rabs (B2R v) <= M)%R ->
    exists r : bf, match line_args None None (Some (b64_ofZ x0, (B2SF u : b64))) (Some (b64_ofZ x, (B2SF v : b64))) None with Ok l => line_partial_integration half64 l (b64_ofZ x0) (b64_ofZ x) | Err _ => n_zero end = B2SF r /\ is_finite r = true /\
      (Rabs (B2R r - IZR (x - x0) * (B2R u + B2R v) / 2) <= trap A M (IZR (x - x0)))%R).
  { intros u v FU FV BU BV. apply (area_two A M _ _ _ _ _ _ u v _ X0 X1 eq_refl eq_refl). apply trapezium; try assumption; rewrite ?R0, ?R1; try assumption. rewrite minus_IZR. reflexivity. }
  unfold area64. destruct ip; cbn [ends fst snd mean].
  - destruct (T y0 y0 F0 F0 B0 B0) as (r & E & FR & RR). exists r. split; [exact E|]. split; [exact FR|]. replace (IZR (x - x0) * B2R y0)%R with (IZR (x - x0) * (B2R y0 + B2R y0) / 2)%R by field. exact RR.
  - destruct (T y0 y F0 F1 B0 B1) as (r & E & FR & RR). exists r. split; [exact E|]. split; [exact FR|]. replace (IZR (x - x0) * ((B2R y0 + B2R y) / 2))%R with (IZR (x - x0) * (B2R y0 + B2R y) / 2)%R by field. exact RR.
  - destruct (T y y F1 F1 B1 B1) as (r & E & FR & RR). exists r. split; [exact E|]. split; [exact FR|]. replace (IZR (x - x0) * B2R y)%R with (IZR (x - x0) * (B2R y + B2R y) / 2)%R by field. exact RR.
Qed.
Lemma mean_abs ip u v M : (Rabs u <= M)%R -> (Rabs v <= M)%R -> (Rabs (mean ip u v) <= M)%R.
Proof. intros U V. apply Rabs_le_inv in U. apply Rabs_le_inv in V. destruct ip; cbn [mean]; apply Rabs_le; lra. Qed.

Section Sum.
Variables (ip : interp) (h : Z) (A M : R) (n : nat).
Hypothesis (HP : 0 < h <= 2 ^ 35) (HA : (IZR h <= A)%R) (A40 : (A <= bpow radix2 40)%R) (M0 : (0 <= M)%R) (M800 : (M <= bpow radix2 800)%R) (NB : Z.of_nat n <= 2 ^ 36) (NA : (INR n * IZR h <= 2 * A)%R).
Notation H := (IZR h).
Definition step_err : R := (trap A M H + INR n * (H * M) * eps)%R.
Lemma step_err_cap : (0 <= step_err)%R /\ (INR n * (H * M) + 2 * (INR n * step_err) + trap A M H <= bpow radix2 1020)%R /\ (step_err <= 322 * eps * (M * (A * A) / H) + 20 * (tiny * (A * A)))%R /\ (0 <= trap A M H)%R.
Proof.
  assert (H1 : (1 <= H)%R) by (apply IZR_le; lia). destruct (small_facts M H H1 M0) as (EP & ES & TP & TE & NP & NH). destruct (monos A M H H1 HA M0) as (T0 & T1 & T2 & T3 & N0 & N1 & N2 & N3 & N4).
  pose proof (pos_INR n) as PN. assert (A1 : (1 <= A)%R) by lra.
  assert (AA : (A * A <= bpow radix2 80)%R) by (change (bpow radix2 80) with (bpow radix2 (40 + 40)); rewrite bpow_plus; apply Rmult_le_compat; lra).
  assert (NM : (M / H <= M)%R) by (rewrite <- NH at 2; rewrite <- (Rmult_1_r (M / H)) at 1; apply Rmult_le_compat_l; lra).
  assert (K : (M / H * A * A <= bpow radix2 880)%R) by (change (bpow radix2 880) with (bpow radix2 (800 + 80)); rewrite bpow_plus, Rmult_assoc; apply Rmult_le_compat; nra).
  assert (T : (tiny * A * A <= bpow radix2 80)%R) by (rewrite Rmult_assoc; rewrite <- (Rmult_1_l (bpow radix2 80)); apply Rmult_le_compat; nra).
  assert (P1 : (bpow radix2 80 <= bpow radix2 880)%R) by (apply bpow_le; lia).
  assert (MA : (M * A <= M / H * A * A)%R) by (rewrite <- NH at 1; exact N1).
  assert (NHM : (INR n * (H * M) <= 2 * (M / H * A * A))%R).
  { apply Rle_trans with (2 * A * M)%R; [rewrite <- Rmult_assoc; apply Rmult_le_compat_r; assumption|]. lra. }
  assert (NHM0 : (0 <= INR n * (H * M))%R) by (apply Rmult_le_pos; [exact PN|nra]).
  assert (TR : trap A M H = (320 * eps * (M / H * A * A) + 20 * (tiny * A * A))%R) by (unfold trap; field; lra).
  assert (E2 : forall x, (0 <= x -> x * eps <= x * / 1024)%R) by (intros x L; apply Rmult_le_compat_l; assumption).
  assert (TR0 : (0 <= trap A M H)%R) by (rewrite TR; nra).
  assert (S0 : (0 <= step_err)%R) by (unfold step_err; nra).
  assert (SE : (step_err <= 322 * eps * (M / H * A * A) + 20 * (tiny * A * A))%R).
  { unfold step_err. rewrite TR. assert (INR n * (H * M) * eps <= 2 * (M / H * A * A) * eps)%R by (apply Rmult_le_compat_r; lra). lra. }
  split; [exact S0|]. split; [|split; [|exact TR0]].
  - pose proof (E2 _ N0) as Q1. assert (SB : (step_err <= 64 * bpow radix2 880)%R) by lra. assert (TB : (trap A M H <= 64 * bpow radix2 880)%R) by (rewrite TR; lra).
    assert (NI : (INR n <= bpow radix2 36)%R) by (rewrite INR_IZR_INZ; change (bpow radix2 36) with (IZR (2 ^ 36)); apply IZR_le; exact NB).
    assert (INR n * step_err <= bpow radix2 36 * (64 * bpow radix2 880))%R by (apply Rmult_le_compat; assumption).
    assert (Q2 : (bpow radix2 36 * (64 * bpow radix2 880) = bpow radix2 922)%R) by (change 64%R with (bpow radix2 6); rewrite <- !bpow_plus; reflexivity).
    assert (Q3 : (128 * bpow radix2 922 <= bpow radix2 1020)%R) by (change 128%R with (bpow radix2 7); rewrite <- bpow_plus; apply bpow_le; lia).
    assert (Q4 : (bpow radix2 880 <= bpow radix2 922)%R) by (apply bpow_le; lia). lra.
  - replace (M * (A * A) / H)%R with (M / H * A * A)%R by (field; lra). lra.
Qed.
Lemma int_bound ys : forall (x : Z) (y0 s : bf) (I : R) (j : nat), (j + length ys < n)%nat ->
  (forall i, (i <= length ys)%nat -> Z.abs (x - h + Z.of_nat i * h) <= 2 ^ 35 /\ (Rabs (IZR (x - h + Z.of_nat i * h)) <= A)%R) ->
  is_finite y0 = true -> is_finite s = true -> (Rabs (B2R y0) <= M)%R -> (forall y, In y ys -> finite64 y /\ (Rabs (val64 y) <= M)%R) ->
  (Rabs I <= INR j * (H * M))%R -> (Rabs (B2R s - I) <= 2 * (INR j * step_err))%R ->
  exists Is : nat -> R, Is 0%nat = I /\
    (forall k u v, nth_error (B2SF y0 :: ys) k = Some u -> nth_error ys k = Some v -> Is (S k) = (Is k + H * mean ip (val64 u) (val64 v))%R) /\
    (forall k, (k < length ys)%nat -> exists r, nth_error (int_outs ip h x (Some (B2SF y0)) (Some (B2SF s)) (map Some ys)) k = Some (Some r) /\ finite64 r /\ (Rabs (val64 r - Is (S k)) <= 2 * (INR (j + S k) * step_err))%R).
Proof.
  destruct step_err_cap as (SE0 & CAP & _ & TR0). pose proof eps_pos as EP. assert (H1 : (1 <= H)%R) by (apply IZR_le; lia).
  induction ys as [|y r IH]; intros x y0 s I j J XB F0 FS B0 FY BI ERR.
  - exists (fun _ => I). split; [reflexivity|]. split; [intros [|k] u v Hu Hv; discriminate|intros k L; cbn in L; lia].
  - cbn [length] in J, XB. destruct (FY y (or_introl eq_refl)) as [F1 B1]. destruct (real_of _ F1) as (yb & -> & Fy). rewrite val_B2R in B1.
    pose proof (XB 0%nat ltac:(lia)) as X0. pose proof (XB 1%nat ltac:(lia)) as X1. replace (x - h + Z.of_nat 0 * h) with (x - h) in X0 by lia. replace (x - h + Z.of_nat 1 * h) with x in X1 by lia.
    destruct (area_near A M ip (x - h) x y0 yb) as (ar & EA & FA & RA); try (assumption || apply X0 || apply X1 || lia); [replace (x - (x - h)) with h by lia; exact HA|].
    replace (x - (x - h)) with h in RA by lia.
    set (I1 := (I + H * mean ip (B2R y0) (B2R yb))%R) in *. pose proof (mean_abs ip _ _ _ B0 B1) as BM.
    assert (BI1 : (Rabs I1 <= INR (S j) * (H * M))%R).
    { rewrite S_INR. unfold I1. apply Rle_trans with (1 := Rabs_triang _ _). rewrite Rabs_mult, (Rabs_pos_eq H) by lra. assert (H * Rabs (mean ip (B2R y0) (B2R yb)) <= H * M)%R by (apply Rmult_le_compat_l; lra). lra. }
    assert (JN : (INR (S j) <= INR n)%R) by (apply le_INR; lia). pose proof (pos_INR j) as PJ. rewrite S_INR in JN. assert (HM : (0 <= H * M)%R) by nra.
    assert (DS : (Rabs (B2R s + B2R ar - I1) <= 2 * (INR j * step_err) + trap A M H)%R).
    { unfold I1. replace (B2R s + B2R ar - (I + H * mean ip (B2R y0) (B2R yb)))%R with ((B2R s - I) + (B2R ar - H * mean ip (B2R y0) (B2R yb)))%R by ring. apply Rle_trans with (1 := Rabs_triang _ _). lra. }
    set (B := (INR (S j) * (H * M) + (2 * (INR j * step_err) + trap A M H))%R).
    assert (BB : (Rabs (B2R s + B2R ar) <= B)%R) by (apply (abs_from _ _ _ _ DS BI1)).
    assert (SJ : (INR j * step_err <= INR n * step_err)%R) by (apply Rmult_le_compat_r; lra). assert (HJ : (INR (S j) * (H * M) <= INR n * (H * M))%R) by (rewrite S_INR; apply Rmult_le_compat_r; lra).
    destruct (add_abs s ar B FS FA BB) as (s1 & E1 & FS1 & R1); [unfold B; lra|].
    assert (ERR1 : (Rabs (B2R s1 - I1) <= 2 * (INR (S j) * step_err))%R).
    { apply Rle_trans with (1 := abs_trans _ _ _ _ _ R1 DS). rewrite S_INR. unfold B.
      assert (Q1 : (INR (S j) * (H * M) * eps <= INR n * (H * M) * eps)%R) by (apply Rmult_le_compat_r; lra).
      assert (Q2 : (trap A M H <= step_err)%R) by (unfold step_err; assert (0 <= INR n * (H * M) * eps)%R by (apply Rmult_le_pos; [apply Rmult_le_pos; lra|lra]); lra).
      assert (Q3 : ((2 * INR j + 1) * eps <= 1)%R).
      { assert (INR n <= bpow radix2 36)%R by (rewrite INR_IZR_INZ; change (bpow radix2 36) with (IZR (2 ^ 36)); apply IZR_le; exact NB).
        apply Rle_trans with (bpow radix2 38 * eps)%R; [apply Rmult_le_compat_r; [lra|]|unfold eps; rewrite <- bpow_plus; change 1%R with (bpow radix2 0); apply bpow_le; lia].
        replace (bpow radix2 38) with (4 * bpow radix2 36)%R by (change 4%R with (bpow radix2 2); rewrite <- bpow_plus; reflexivity). assert (1 <= bpow radix2 36)%R by (change 1%R with (bpow radix2 0); apply bpow_le; lia). lra. }
      assert (Q4 : ((2 * (INR j * step_err) + trap A M H) * eps <= (2 * INR j + 1) * eps * step_err)%R) by nra.
      assert (Q5 : ((2 * INR j + 1) * eps * step_err <= step_err)%R) by nra.
      assert (SD : step_err = (trap A M H + INR n * (H * M) * eps)%R) by reflexivity. rewrite !S_INR in *. clear - Q1 Q4 Q5 SD. lra. }
    destruct (IH (x + h) yb s1 I1 (S j)) as (Is & Z0 & ZS & ZB); try assumption; [lia| |intros z Hz; apply FY; right; exact Hz|].
    { intros i Li. replace (x + h - h + Z.of_nat i * h) with (x - h + Z.of_nat (S i) * h) by lia. apply XB. lia. }
    exists (fun k => match k with O => I | S k => Is k end). split; [reflexivity|]. split.
    + intros [|k] u v Hu Hv; [injection Hu as <-; injection Hv as <-; rewrite Z0, !val_B2R; reflexivity|]. apply (ZS k u v Hu Hv).
    + intros [|k] L; cbn [length] in L; cbn [map int_outs nth_error sum_next]; change (@n_add b64 B64) with (SFadd 53 1024); rewrite EA, E1.
      * exists (B2SF s1). split; [reflexivity|]. split; [split; [apply valid_binary_B2SF|rewrite is_finite_SF_B2SF; exact FS1]|]. rewrite Z0, val_B2R. replace (j + 1)%nat with (S j) by lia. exact ERR1.
      * replace (j + S (S k))%nat with (S j + S k)%nat by lia. apply ZB. lia.
Qed.
End Sum.

(** the largest position *)
Definition reach (a h : Z) (n : nat) : R := IZR (Z.abs a + Z.of_nat (n - 1) * h).
Lemma int_stored a h m ip ip2 const ys src q fuel M : step_ok h m -> grid_small a h (length ys) ->
  watch64 a h m ip (int_tf ip2) (integral_post const) (map Some ys) src q -> (length ys < fuel)%nat ->
  (forall y, In y ys -> finite64 y /\ (Rabs (val64 y) <= M)%R) -> (M <= bpow radix2 800)%R ->
  exists I : nat -> R, I 0%nat = 0%R /\
    (forall k u v, nth_error ys k = Some u -> nth_error ys (S k) = Some v -> I (S k) = (I k + IZR h * mean ip2 (val64 u) (val64 v))%R) /\
    (forall k, (k < length ys)%nat -> exists r, snd (y64 m (int_tf ip2) (integral_post const) fuel src q (b64_ofZ (a + Z.of_nat k * h))) = Ok (integral_post const (Some r)) /\ nth_error (int_outs ip2 h a None None (map Some ys)) k = Some (Some r) /\ finite64 r /\
       (Rabs (val64 r - I k) <= INR k * (644 * eps * (M * (reach a h (length ys) * reach a h (length ys)) / IZR h) + 40 * (tiny * (reach a h (length ys) * reach a h (length ys)))))%R).
Proof.
  intros ST SM R L FY HM. destruct ys as [|y0 r].
  { exists (fun _ => 0%R). split; [reflexivity|]. split; [intros k u v Hu; destruct k; discriminate|intros k K; cbn in K; lia]. }
  destruct (FY y0 (or_introl eq_refl)) as [F0 B0]. destruct (real_of _ F0) as (yb & -> & Fy). rewrite val_B2R in B0. assert (M0 : (0 <= M)%R) by (apply Rle_trans with (2 := B0); apply Rabs_pos).
  assert (KN : forall k w, nth_error (int_outs ip2 h a None None (map Some (B2SF yb :: r))) k = Some w ->
     snd (y64 m (int_tf ip2) (integral_post const) fuel src q (b64_ofZ (a + Z.of_nat k * h))) = Ok (integral_post const w)).
  { intros k w Ew. eapply (watched_knot a h m ip (int_tf ip2) (integral_post const) (int_outs ip2 h a None None) (fun _ => True)); try eassumption; auto.
    - intros us. apply int_outs_length.
    - intros us ws j. apply int_outs_prefix.
    - intros us s _ S O. apply (int_tf_next a h ip2 us s S O).
    - rewrite map_length. exact SM.
    - rewrite map_length. exact L. }
  assert (Z0 : forall v, exists w, snd (y64 m (int_tf ip2) (integral_post const) fuel src q (b64_ofZ (a + Z.of_nat 0 * h))) = Ok (integral_post const (Some w)) /\ nth_error (int_outs ip2 h a None None (map Some (B2SF yb :: r))) 0 = Some (Some w) /\ finite64 w /\ (Rabs (val64 w - 0) <= INR 0 * v)%R).
  { intros v. exists (b64_ofZ 0). split; [apply (KN 0%nat); reflexivity|]. split; [reflexivity|]. split; [split; reflexivity|]. replace (val64 (b64_ofZ 0)) with 0%R by reflexivity. rewrite Rminus_0_r, Rabs_R0. cbn. lra. }
  destruct r as [|y1 r].
  { exists (fun _ => 0%R). split; [reflexivity|]. split; [intros k u v Hu Hv; destruct k; discriminate|intros [|k] K; cbn in K; [apply Z0|lia]]. }
  set (n := length (B2SF yb :: y1 :: r)) in *. assert (SMn : grid_small a h n) by exact SM. clear SM. rename SMn into SM. assert (N2 : (2 <= n)%nat) by (cbn; lia). set (A := reach a h n).
  assert (AZ : exists z, A = IZR z /\ h <= z <= 2 ^ 36 /\ forall i, (i < n)%nat -> Z.abs (a + Z.of_nat i * h) <= 2 ^ 35 /\ Z.abs (a + Z.of_nat i * h) <= z).
  { exists (Z.abs a + Z.of_nat (n - 1) * h). split; [reflexivity|]. destruct SM as (P & SA & SB & SC). assert (N1 : 1 <= Z.of_nat (n - 1)) by lia. assert (h <= Z.of_nat (n - 1) * h) by (clear - N1 P; nia). split; [lia|]. intros i Li.
    assert (0 <= Z.of_nat i * h <= Z.of_nat (n - 1) * h) by (assert (Z.of_nat i <= Z.of_nat (n - 1)) by lia; clear - H0 P; nia). split; lia. }
  destruct AZ as (z & AZ & ZB & ZI). assert (NH : h <= Z.of_nat (n - 1) * h /\ Z.of_nat (n - 1) <= Z.of_nat (n - 1) * h) by (assert (1 <= Z.of_nat (n - 1)) by lia; destruct SM as (P & _); clear - H P; nia).
  assert (HP : 0 < h <= 2 ^ 35) by (destruct SM as (P & SA & SB & SC); lia).
  assert (HA : (IZR h <= A)%R) by (rewrite AZ; apply IZR_le; lia). assert (A40 : (A <= bpow radix2 40)%R) by (rewrite AZ; change (bpow radix2 40) with (IZR (2 ^ 40)); apply IZR_le; lia).
  assert (NB : Z.of_nat n <= 2 ^ 36) by (destruct SM as (P & SA & SB & SC); lia).
  assert (NA : (INR n * IZR h <= 2 * A)%R).
  { unfold A, reach. rewrite INR_IZR_INZ, <- !mult_IZR. apply IZR_le. replace (Z.of_nat n * h) with (Z.of_nat (n - 1) * h + h) by (replace (Z.of_nat n) with (Z.of_nat (n - 1) + 1) by lia; ring). lia. }
  destruct (step_err_cap h A M n HP HA A40 M0 HM NB NA) as (SE0 & _ & SE & _).
  destruct (int_bound ip2 h A M n HP HA A40 M0 HM NB NA (y1 :: r) (a + h) yb (B754_zero false) 0 0) as (Is & I0 & IS & IB).
  - unfold n. cbn [length]. apply Nat.lt_succ_diag_r.
  - intros i Li. replace (a + h - h + Z.of_nat i * h) with (a + Z.of_nat i * h) by lia. destruct (ZI i ltac:(apply Nat.lt_succ_r; exact Li)) as [Q1 Q2]. split; [exact Q1|]. rewrite <- abs_IZR, AZ. apply IZR_le. exact Q2.
  - exact Fy.
  - reflexivity.
  - exact B0.
  - intros z0 Hz. apply FY. right. exact Hz.
  - rewrite Rabs_R0. cbn. lra.
  - cbn [B2R INR]. rewrite Rminus_0_r, Rabs_R0. lra.
  - exists Is. split; [exact I0|]. split; [intros k u v Hu Hv; apply (IS k u v Hu Hv)|]. intros [|k] K.
    + rewrite I0. apply Z0.
    + destruct (IB k) as (w & Ew & Fw & Rw); [apply Nat.succ_lt_mono; exact K|]. exists w. split; [apply KN; exact Ew|]. split; [exact Ew|]. split; [exact Fw|].
      apply Rle_trans with (1 := Rw). cbn [Nat.add]. match goal with |- context [reach a h ?q] => change (reach a h q) with A end. pose proof (pos_INR (S k)).
      replace (644 * eps * (M * (A * A) / IZR h) + 40 * (tiny * (A * A)))%R with (2 * (322 * eps * (M * (A * A) / IZR h) + 20 * (tiny * (A * A))))%R by ring.
      assert (INR (S k) * step_err h A M n <= INR (S k) * (322 * eps * (M * (A * A) / IZR h) + 20 * (tiny * (A * A))))%R by (apply Rmult_le_compat_l; assumption). lra.
Qed.
Lemma int_near a h m ip ip2 const ys src q fuel M : step_ok h m -> grid_small a h (length ys) ->
  watch64 a h m ip (int_tf ip2) (integral_post const) (map Some ys) src q -> (length ys < fuel)%nat ->
  (forall y, In y ys -> finite64 y /\ (Rabs (val64 y) <= M)%R) -> (M <= bpow radix2 800)%R ->
  exists I : nat -> R, I 0%nat = 0%R /\
    (forall k u v, nth_error ys k = Some u -> nth_error ys (S k) = Some v -> I (S k) = (I k + IZR h * mean ip2 (val64 u) (val64 v))%R) /\
    (forall k, (k < length ys)%nat -> exists r, snd (y64 m (int_tf ip2) (integral_post const) fuel src q (b64_ofZ (a + Z.of_nat k * h))) = Ok (integral_post const (Some r)) /\ finite64 r /\
       (Rabs (val64 r - I k) <= INR k * (644 * eps * (M * (reach a h (length ys) * reach a h (length ys)) / IZR h) + 40 * (tiny * (reach a h (length ys) * reach a h (length ys)))))%R).
Proof.
  intros ST SM R L FY HM. destruct (int_stored a h m ip ip2 const ys src q fuel M ST SM R L FY HM) as (I & I0 & IS & IB). exists I. split; [exact I0|]. split; [exact IS|].
  intros k K. destruct (IB k K) as (r & E & _ & F & B). exists r. auto.
Qed.

(** the area of a step, with every operation spelt out (line.py:36-58, 66-84) *)
Definition step_area (x0 x p q : b64) : b64 :=
  let slope := SFdiv 53 1024 (n_sub q p) (n_sub x x0) in
  let const := n_add p (n_mul slope (n_sub n_zero x0)) in
  n_sub (n_add (n_mul (n_mul slope half64) (n_mul x x)) (n_mul const x)) (n_add (n_mul (n_mul slope half64) (n_mul x0 x0)) (n_mul const x0)).
Lemma area_steps ip (x0 x : Z) y0 y : x0 < x -> x - x0 <= 2 ^ 35 -> Z.abs x0 <= 2 ^ 35 -> Z.abs x <= 2 ^ 35 ->
  area64 ip (b64_ofZ x0) y0 (b64_ofZ x) y = step_area (b64_ofZ x0) (b64_ofZ x) (fst (ends ip y0 y)) (snd (ends ip y0 y)).
Proof.
  intros LX DX A0 A1. assert (G0 : fits x0 0) by (split; lia). assert (G1 : fits x 0) by (split; lia). destruct (bnum_spec _ _ G0) as (R0 & N0 & _). destruct (bnum_spec _ _ G1) as (R1 & N1 & _). rewrite dy0 in R0, R1.
  change (b64_ofZ x0) with (fnum x0 0). change (b64_ofZ x) with (fnum x 0).
  unfold area64. destruct (ends ip y0 y) as [p q]. cbn [fst snd]. 
  assert (LT : (IZR x0 < IZR x)%R) by (apply IZR_lt, LX).
  assert (E1 : SFeqb (fnum x 0) (fnum x0 0) = false) by (rewrite !fnum_bnum, eqb_val by assumption; rewrite Req_bool_false; [reflexivity|lra]).
  assert (E2 : SFeqb (fnum x0 0) (fnum x 0) = false) by (rewrite !fnum_bnum, eqb_val by assumption; rewrite Req_bool_false; [reflexivity|lra]).
  assert (D : exists s m e, SFsub 53 1024 (fnum x 0) (fnum x0 0) = S754_finite s m e).
  { destruct (sub_exact (bnum x 0) (bnum x0 0) N1 N0) as (d & E & F & R).
    - rewrite R1, R0, <- minus_IZR. apply Rle_trans with (bpow radix2 53); [|apply bpow_le; lia]. rewrite <- abs_IZR. change (bpow radix2 53) with (IZR (2 ^ 53)). apply IZR_le. lia.
    - rewrite R1, R0, <- minus_IZR. apply format_int. lia.
    - rewrite !fnum_bnum, E. destruct d as [sg| | |sg m e0 B0]; try discriminate F; [cbn in R; lra|]. cbn [B2SF]. eauto. }
  destruct D as (sg & mm & ee & D).
  unfold line_args. cbv beta iota zeta. change (@n_eqb b64 B64) with SFeqb. rewrite E1. cbn [negb]. change (@n_sub b64 B64) with (SFsub 53 1024). rewrite D. cbn [n_div B64 rbind].
  unfold line_partial_integration, line_primitive, line_const, line_y, step_area. cbn [l_x l_y l_slope]. change (@n_eqb b64 B64) with SFeqb. rewrite E2. change (@n_sub b64 B64) with (SFsub 53 1024). rewrite D. reflexivity.
Qed.

(** the recurrence with the areas spelt out *)
Lemma int_recurrence a h m ip ip2 const vs src q fuel : step_ok h m -> grid_small a h (length vs) ->
  watch64 a h m ip (int_tf ip2) (integral_post const) vs src q -> (length vs < fuel)%nat ->
  exists ss : nat -> option b64,
    (forall v, nth_error vs 0 = Some v -> ss 0%nat = option_map (fun _ => b64_ofZ 0) v) /\
    (forall k v0 v, nth_error vs k = Some v0 -> nth_error vs (S k) = Some v -> ss (S k) =
       match v, v0 with
       | None, _ => ss k
       | Some v, None => Some match ss k with Some s => s | None => b64_ofZ 0 end
       | Some v, Some u => Some (n_add match ss k with Some s => s | None => b64_ofZ 0 end
           (let p := match ip2 with INext => v | _ => u end in let q := match ip2 with IPrevious => u | _ => v end in
            step_area (b64_ofZ (a + Z.of_nat k * h)) (b64_ofZ (a + Z.of_nat (S k) * h)) p q))
       end) /\
    (forall k, (k < length vs)%nat -> snd (y64 m (int_tf ip2) (integral_post const) fuel src q (b64_ofZ (a + Z.of_nat k * h))) = Ok (integral_post const (ss k))) /\
    (forall x, valid_binary 53 1024 x = true -> i_contains (p_dom src) x = false -> snd (y64 m (int_tf ip2) (integral_post const) fuel src q x) = Ok None).
Proof.
  intros ST SM R L. destruct (int_exact a h m ip ip2 const vs src q fuel ST SM R L) as (ss & S0 & S1 & S2 & S3). exists ss. split; [exact S0|]. split; [|split; assumption].
  intros k v0 v E0 E. rewrite (S1 k v0 v E0 E). destruct v as [v|]; [|reflexivity]. cbn [sum_next]. destruct v0 as [u|]; [|reflexivity]. do 2 f_equal.
  assert (K : (S k < length vs)%nat) by (apply nth_error_Some; congruence). destruct SM as (P & SA & SB & SC).
  assert (B : forall i, (i < length vs)%nat -> 0 <= Z.of_nat i * h <= Z.of_nat (length vs - 1) * h) by (intros i Li; assert (Z.of_nat i <= Z.of_nat (length vs - 1)) by lia; clear - H P; nia).
  pose proof (B k ltac:(lia)). pose proof (B (S k) K).
  rewrite area_steps by lia. destruct ip2; reflexivity.
Qed.

(** ** Steps between whole numbers *)
Definition whole (x : b64) (k : Z) : Prop := finite64 x /\ val64 x = IZR k.
Lemma of_whole x k : whole x k -> exists b : bf, x = B2SF b /\ is_finite b = true /\ B2R b = IZR k.
Proof. intros [F V]. destruct (real_of _ F) as (b & -> & Fb). rewrite val_B2R in V. eauto. Qed.
Lemma is_whole (b : bf) k : is_finite b = true -> B2R b = IZR k -> whole (B2SF b) k.
Proof. intros F V. split; [split; [apply valid_binary_B2SF|rewrite is_finite_SF_B2SF; exact F]|rewrite val_B2R; exact V]. Qed.
Lemma whole_size k : Z.abs k <= 2 ^ 53 -> (Rabs (IZR k) <= huge)%R.
Proof.
  intros L. assert (T : (bpow radix2 53 <= bpow radix2 1020)%R) by (apply bpow_le; lia). apply huge_ge in T. pose proof (bpow_gt_0 radix2 53). apply Rle_trans with (bpow radix2 53); [|lra]. rewrite <- abs_IZR. change (bpow radix2 53) with (IZR (2 ^ 53)). apply IZR_le, L.
Qed.
Lemma whole_round k : Z.abs k <= 2 ^ 53 -> rnd (IZR k) = IZR k.
Proof. intros L. apply round_generic; auto with typeclass_instances. apply format_int, L. Qed.
Lemma whole_add x y i j : whole x i -> whole y j -> Z.abs (i + j) <= 2 ^ 53 -> whole (SFadd 53 1024 x y) (i + j).
Proof.
  intros X Y L. destruct (of_whole _ _ X) as (xb & -> & FX & RX). destruct (of_whole _ _ Y) as (yb & -> & FY & RY).
  destruct (add_big xb yb FX FY) as (z & E & F & R); [rewrite RX, RY, <- plus_IZR; apply whole_size, L|]. rewrite E. apply is_whole; [exact F|]. rewrite R, RX, RY, <- plus_IZR. apply whole_round, L.
Qed.
Lemma whole_sub x y i j : whole x i -> whole y j -> Z.abs (i - j) <= 2 ^ 53 -> whole (SFsub 53 1024 x y) (i - j).
Proof.
  intros X Y L. destruct (of_whole _ _ X) as (xb & -> & FX & RX). destruct (of_whole _ _ Y) as (yb & -> & FY & RY).
  destruct (sub_big xb yb FX FY) as (z & E & F & R); [rewrite RX, RY, <- minus_IZR; apply whole_size, L|]. rewrite E. apply is_whole; [exact F|]. rewrite R, RX, RY, <- minus_IZR. apply whole_round, L.
Qed.
Lemma whole_mul x y k : finite64 x -> finite64 y -> (val64 x * val64 y)%R = IZR k -> Z.abs k <= 2 ^ 53 -> whole (SFmul 53 1024 x y) k.
Proof.
  intros FX FY V L. destruct (real_of _ FX) as (xb & -> & Fx). destruct (real_of _ FY) as (yb & -> & Fy). rewrite !val_B2R in V.
  destruct (mul_big xb yb Fx Fy) as (z & E & F & R); [rewrite V; apply whole_size, L|]. rewrite E. apply is_whole; [exact F|]. rewrite R, V. apply whole_round, L.
Qed.
Lemma whole_div0 x y k : whole x 0 -> whole y k -> k <> 0 -> whole (SFdiv 53 1024 x y) 0.
Proof.
  intros X Y K. destruct (of_whole _ _ X) as (xb & -> & FX & RX). destruct (of_whole _ _ Y) as (yb & -> & FY & RY). assert (NY : B2R yb <> 0%R) by (rewrite RY; intros E; apply (eq_IZR _ 0) in E; contradiction).
  assert (V : (B2R xb / B2R yb)%R = IZR 0) by (rewrite RX; unfold Rdiv; apply Rmult_0_l).
  destruct (div_big xb yb FX NY) as (z & E & F & R); [rewrite V; apply whole_size; lia|]. cbn [n_div B64] in E. destruct yb as [sg| | |sg mm ee B0]; try discriminate FY; [elim NY; reflexivity|]. cbn [B2SF] in *. injection E as E. rewrite E.
  apply is_whole; [exact F|]. rewrite R, V. apply whole_round. lia.
Qed.
Lemma half_finite : finite64 half64. Proof. split; vm_compute; reflexivity. Qed.
Lemma step_whole x0 x p (i j k : Z) : whole x0 i -> whole x j -> whole p k -> i <> j -> Z.abs i <= 2 ^ 35 -> Z.abs j <= 2 ^ 35 -> Z.abs (k * i) <= 2 ^ 53 -> Z.abs (k * j) <= 2 ^ 53 -> Z.abs (k * (j - i)) <= 2 ^ 53 -> Z.abs k <= 2 ^ 53 ->
  whole (step_area x0 x p p) (k * (j - i)).
Proof.
  intros X0 X P NE A0 A1 K0 K1 KD KK. unfold step_area. change (@n_add b64 B64) with (SFadd 53 1024). change (@n_mul b64 B64) with (SFmul 53 1024). change (@n_sub b64 B64) with (SFsub 53 1024).
  assert (PP : whole (SFsub 53 1024 p p) 0) by (replace 0 with (k - k) by lia; apply whole_sub; [assumption..|lia]).
  assert (DD : whole (SFsub 53 1024 x x0) (j - i)) by (apply whole_sub; [assumption..|lia]).
  pose proof (whole_div0 _ _ _ PP DD ltac:(lia)) as SL. set (sl := SFdiv 53 1024 _ _) in *.
  assert (Z0 : whole (@n_zero b64 B64) 0) by (split; [split; reflexivity|reflexivity]).
  assert (MX : whole (SFsub 53 1024 n_zero x0) (0 - i)) by (apply whole_sub; [assumption..|lia]).
  assert (CO : whole (SFmul 53 1024 sl (SFsub 53 1024 n_zero x0)) 0) by (apply whole_mul; [apply SL|apply MX|rewrite (proj2 SL); apply Rmult_0_l|lia]).
  assert (CN : whole (SFadd 53 1024 p (SFmul 53 1024 sl (SFsub 53 1024 n_zero x0))) k) by (rewrite <- (Z.add_0_r k); apply whole_add; [assumption..|lia]). set (cn := SFadd 53 1024 p _) in *.
  assert (SH : whole (SFmul 53 1024 sl half64) 0) by (apply whole_mul; [apply SL|apply half_finite|rewrite (proj2 SL); apply Rmult_0_l|lia]). set (sh := SFmul 53 1024 sl half64) in *.
  assert (SQ : forall w l, whole w l -> Z.abs l <= 2 ^ 35 -> Z.abs (k * l) <= 2 ^ 53 -> whole (SFadd 53 1024 (SFmul 53 1024 sh (SFmul 53 1024 w w)) (SFmul 53 1024 cn w)) (k * l)).
  { intros w l W AL KL.
    assert (FQ : finite64 (SFmul 53 1024 w w)).
    { destruct (of_whole _ _ W) as (wb & -> & FW & RW). destruct (mul_big wb wb FW FW) as (z & E & F & R).
      - rewrite RW, <- mult_IZR. assert (T : (bpow radix2 70 <= bpow radix2 1020)%R) by (apply bpow_le; lia). apply huge_ge in T. pose proof (bpow_gt_0 radix2 70). apply Rle_trans with (bpow radix2 70); [|lra]. rewrite <- abs_IZR. change (bpow radix2 70) with (IZR (2 ^ 70)). apply IZR_le. rewrite Z.abs_mul. change (2 ^ 70) with (2 ^ 35 * 2 ^ 35). apply Z.mul_le_mono_nonneg; lia.
      - rewrite E. split; [apply valid_binary_B2SF|rewrite is_finite_SF_B2SF; exact F]. }
    replace (k * l) with (0 + k * l) by lia. apply whole_add; [|apply whole_mul|lia].
    - apply whole_mul; [apply SH|exact FQ|rewrite (proj2 SH); apply Rmult_0_l|lia].
    - apply CN.
    - apply W.
    - rewrite (proj2 CN), (proj2 W), <- mult_IZR. reflexivity.
    - exact KL. }
  replace (k * (j - i)) with (k * j - k * i) by ring. apply whole_sub; [apply SQ; assumption..|]. replace (k * j - k * i) with (k * (j - i)) by ring. exact KD.
Qed.
Lemma int_whole a h m ip ip2 const zs src q fuel (I : nat -> Z) : ip2 <> ILinear -> step_ok h m -> grid_small a h (length zs) ->
  watch64 a h m ip (int_tf ip2) (integral_post const) (map (fun z => Some (b64_ofZ z)) zs) src q -> (length zs < fuel)%nat ->
  (forall z, In z zs -> Z.abs z * (Z.abs a + Z.of_nat (length zs - 1) * h) <= 2 ^ 53 /\ Z.abs z <= 2 ^ 53) ->
  I 0%nat = 0 -> (forall k u v, nth_error zs k = Some u -> nth_error zs (S k) = Some v -> I (S k) = I k + h * (if match ip2 with INext => true | _ => false end then v else u)) ->
  (forall k, (k < length zs)%nat -> Z.abs (I k) <= 2 ^ 53) ->
  forall k, (k < length zs)%nat -> exists r, snd (y64 m (int_tf ip2) (integral_post const) fuel src q (b64_ofZ (a + Z.of_nat k * h))) = Ok (integral_post const (Some r)) /\ finite64 r /\ val64 r = IZR (I k).
Proof.
  intros NL ST SM R L ZB I0 IS IB. set (vs := map (fun z => Some (b64_ofZ z)) zs) in *. assert (LV : length vs = length zs) by apply map_length.
  destruct (int_recurrence a h m ip ip2 const vs src q fuel ST ltac:(rewrite LV; exact SM) R ltac:(rewrite LV; exact L)) as (ss & S0 & S1 & S2 & _).
  assert (WH : forall z, Z.abs z <= 2 ^ 53 -> whole (b64_ofZ z) z).
  { intros z AZ. assert (F : fits z 0) by (split; lia). destruct (bnum_spec z 0 F) as (R1 & F1 & _). change (b64_ofZ z) with (fnum z 0). rewrite fnum_bnum. apply is_whole; [exact F1|]. rewrite R1. apply dy0. }
  assert (NV : forall k z, nth_error zs k = Some z -> nth_error vs k = Some (Some (b64_ofZ z))) by (intros k z E; unfold vs; rewrite nth_error_map, E; reflexivity).
  assert (K : forall k, (k < length zs)%nat -> exists r, ss k = Some r /\ whole r (I k)).
  { induction k as [|k IH]; intros K.
    - destruct (nth_error zs 0) as [z|] eqn:E; [|apply nth_error_None in E; lia]. exists (b64_ofZ 0). rewrite (S0 _ (NV _ _ E)). split; [reflexivity|]. rewrite I0. apply WH. lia.
    - destruct (IH ltac:(lia)) as (r & Er & WR). destruct (nth_error zs k) as [u|] eqn:E0; [|apply nth_error_None in E0; lia]. destruct (nth_error zs (S k)) as [v|] eqn:E1; [|apply nth_error_None in E1; lia].
      rewrite (S1 k _ _ (NV _ _ E0) (NV _ _ E1)), Er. eexists. split; [reflexivity|]. pose proof (IB (S k) K) as IK. rewrite (IS k u v E0 E1) in *.
      destruct (ZB u (nth_error_In _ _ E0)) as [U1 U2]. destruct (ZB v (nth_error_In _ _ E1)) as [V1 V2]. destruct SM as (P & SA & SB & SC).
      assert (B : forall i, (i < length zs)%nat -> 0 <= Z.of_nat i * h <= Z.of_nat (length zs - 1) * h) by (intros i Li; assert (Z.of_nat i <= Z.of_nat (length zs - 1)) by lia; clear - H P; nia).
      pose proof (B k ltac:(lia)) as B0. pose proof (B (S k) K) as B1. set (N := Z.of_nat (length zs - 1) * h) in *.
      set (w := if match ip2 with INext => true | _ => false end then v else u) in *.
      assert (W1 : Z.abs w * (Z.abs a + N) <= 2 ^ 53) by (unfold w; destruct ip2; assumption). assert (W2 : Z.abs w <= 2 ^ 53) by (unfold w; destruct ip2; assumption).
      assert (AB : forall l, Z.abs l <= Z.abs a + N -> Z.abs (w * l) <= 2 ^ 53) by (intros l Ll; rewrite Z.abs_mul; apply Z.le_trans with (2 := W1); apply Z.mul_le_mono_nonneg_l; lia).
      assert (WS : whole (step_area (b64_ofZ (a + Z.of_nat k * h)) (b64_ofZ (a + Z.of_nat (S k) * h)) (b64_ofZ w) (b64_ofZ w)) (w * (a + Z.of_nat (S k) * h - (a + Z.of_nat k * h)))).
      { apply step_whole; try (apply WH; lia); try (apply AB); try assumption; lia. }
      replace (w * (a + Z.of_nat (S k) * h - (a + Z.of_nat k * h))) with (h * w) in WS by lia.
      change (@n_add b64 B64) with (SFadd 53 1024). cbv zeta. apply whole_add; [exact WR| |exact IK]. revert WS. unfold w. destruct ip2; [|contradiction NL; reflexivity|]; exact (fun x => x). }
  intros k Kk. destruct (K k Kk) as (r & Er & WR). exists r. rewrite S2 by (rewrite LV; exact Kk). rewrite Er. split; [reflexivity|]. exact WR.
Qed.
(** between the points *)
Lemma int_between a h m ip2 const ys src q fuel M : step_ok h m -> grid_small a h (length ys) ->
  watch64 a h m ILinear (int_tf ip2) (integral_post const) (map Some ys) src q -> (length ys < fuel)%nat ->
  (forall y, In y ys -> finite64 y /\ (Rabs (val64 y) <= M)%R) -> (M <= bpow radix2 800)%R ->
  let D := (644 * eps * (M * (reach a h (length ys) * reach a h (length ys)) / IZR h) + 40 * (tiny * (reach a h (length ys) * reach a h (length ys))))%R in
  exists I : nat -> R, I 0%nat = 0%R /\
    (forall k u v, nth_error ys k = Some u -> nth_error ys (S k) = Some v -> I (S k) = (I k + IZR h * mean ip2 (val64 u) (val64 v))%R) /\
    (forall i x, (S i < length ys)%nat -> finite64 x -> (IZR (a + Z.of_nat i * h) < val64 x <= IZR (a + Z.of_nat (S i) * h))%R ->
       let B := (INR (S i) * (IZR h * M + D))%R in (B <= bpow radix2 1020)%R ->
       exists r, snd (y64 m (int_tf ip2) (integral_post const) fuel src q x) = Ok (integral_post const (Some r)) /\ finite64 r /\
         (Rabs (val64 r - (I i + (val64 x - IZR (a + Z.of_nat i * h)) / IZR h * (I (S i) - I i))) <= INR (S i) * D + ((4 * INR i + 11) * eps * B + 4 * tiny))%R).
Proof.
  intros ST SM R L FY HM D. destruct (int_stored a h m ILinear ip2 const ys src q fuel M ST SM R L FY HM) as (I & I0 & IS & IB). fold D in IB. exists I. split; [exact I0|]. split; [exact IS|].
  assert (HP : (0 < IZR h)%R) by (apply IZR_lt; apply SM).
  assert (BI : forall k, (k < length ys)%nat -> (Rabs (I k) <= INR k * (IZR h * M))%R).
  { induction k as [|k IH]; intros K; [rewrite I0, Rabs_R0; cbn; lra|].
    destruct (nth_error ys k) as [u|] eqn:U; [|apply nth_error_None in U; lia]. destruct (nth_error ys (S k)) as [v|] eqn:V; [|apply nth_error_None in V; lia].
    rewrite (IS k u v U V), S_INR. destruct (FY u (nth_error_In _ _ U)) as [_ BU]. destruct (FY v (nth_error_In _ _ V)) as [_ BV].
    assert (MB : (Rabs (mean ip2 (val64 u) (val64 v)) <= M)%R) by (apply Rabs_le_inv in BU; apply Rabs_le_inv in BV; apply Rabs_le; destruct ip2; unfold mean; lra).
    apply Rle_trans with (1 := Rabs_triang _ _). rewrite Rabs_mult, (Rabs_pos_eq (IZR h)) by lra. specialize (IH ltac:(lia)). pose proof (Rmult_le_compat_l (IZR h) _ _ ltac:(lra) MB). lra. }
  intros i x Li FX XB B HB. assert (D0 : (0 <= D)%R).
  { destruct (IB 1%nat ltac:(lia)) as (w & _ & _ & _ & Q). pose proof (Rle_trans _ _ _ (Rabs_pos _) Q) as Q'. change (INR 1) with 1%R in Q'. lra. }
  assert (M0 : (0 <= M)%R) by (destruct ys as [|y0 r]; [cbn in Li; lia|]; destruct (FY y0 (or_introl eq_refl)) as [_ Q]; apply Rle_trans with (2 := Q); apply Rabs_pos).
  pose proof (pos_INR i) as PI. assert (HM0 : (0 <= IZR h * M)%R) by (apply Rmult_le_pos; lra).
  assert (B0 : (Rabs (I i) + INR i * D <= B)%R) by (pose proof (BI i ltac:(lia)); unfold B; rewrite S_INR; lra).
  assert (B1 : (Rabs (I (S i)) + INR (S i) * D <= B)%R) by (pose proof (BI (S i) Li); unfold B; lra).
  destruct (IB i ltac:(lia)) as (w0 & _ & O0 & F0 & R0). destruct (IB (S i) Li) as (w1 & _ & O1 & F1 & R1).
  pose proof eps_pos as EP.
  assert (W : forall w e c, (Rabs (w - e) <= c -> Rabs e + c <= B -> Rabs w <= B)%R).
  { intros w e c P Q. apply Rle_trans with (2 := Q). replace w with (e + (w - e))%R by ring. apply Rle_trans with (1 := Rabs_triang _ _). lra. }
  pose proof (W _ _ _ R0 B0) as W0. pose proof (W _ _ _ R1 B1) as W1.
  destruct (watched_between a h m (int_tf ip2) (integral_post const) (int_outs ip2 h a None None) (fun _ => True)
    (fun us => int_outs_length ip2 h us a None None) (fun us ws j => int_outs_prefix ip2 h us ws a None None j) (fun us s _ S O' => int_tf_next a h ip2 us s S O') (fun _ _ _ => Logic.I) ST
    (map Some ys) src q fuel i x w0 w1 B) as (r & ER & FR & NR); try assumption; try (rewrite map_length; assumption); [exact Logic.I|].
  exists r. split; [exact ER|]. split; [exact FR|].
  assert (T : (0 <= (val64 x - IZR (a + Z.of_nat i * h)) / IZR h <= 1)%R).
  { replace (IZR (a + Z.of_nat (S i) * h)) with (IZR (a + Z.of_nat i * h) + IZR h)%R in XB by (rewrite <- plus_IZR; f_equal; lia). split.
    - apply Rmult_le_pos; [lra|left; apply Rinv_0_lt_compat, HP].
    - apply Rmult_le_reg_r with (IZR h); [exact HP|]. unfold Rdiv. rewrite Rmult_assoc, Rinv_l by lra. lra. }
  assert (R0' : (Rabs (val64 w0 - I i) <= INR (S i) * D)%R) by (rewrite S_INR; lra).
  apply Rle_trans with (1 := near_blend _ _ _ _ _ _ _ _ _ NR T R0' R1). apply Rplus_le_compat_l. unfold slack.
  assert (DW : (Rabs (val64 w1 - val64 w0) <= 2 * B)%R) by (apply Rabs_le_inv in W0; apply Rabs_le_inv in W1; apply Rabs_le; lra).
  assert ((2 * INR i + 3) * eps * Rabs (val64 w1 - val64 w0) <= (2 * INR i + 3) * eps * (2 * B))%R by (apply Rmult_le_compat_l; [nra|exact DW]). lra.
Qed.
