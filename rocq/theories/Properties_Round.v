(** C77: rounding in double arithmetic.  [val64] is the real number a finite
    double stands for, [eps] is 2^-53 and [tiny] is 2^-1075.  [watch64]: an
    accumulating curve was created on a Points object with whole-number
    positions, then came queries at any doubles and appends, in any order. *)
From Coq Require Import List ZArith Reals Lia Lra Bool SpecFloat.
From Flocq Require Import Core.
From Verif Require Import Base Num Interval Curve Points Combine Scan B64Facts GridFacts StepB64 IrregB64 ErrB64 InterpB64 AccB64 EmaB64 BetweenB64 B64Ex RoundEx.
Import ListNotations.
Open Scope Z_scope.

Theorem C77_constants : eps = bpow radix2 (-53) /\ tiny = bpow radix2 (-1075) /\
  (forall s m e, val64 (S754_finite s m e) = (IZR (if s then Zneg m else Zpos m) * bpow radix2 e)%R) /\ (forall s, val64 (S754_zero s) = 0%R).
Proof. exact (conj eq_refl (conj eq_refl (conj (fun s m e => match s with true => eq_refl | false => eq_refl end) (fun s => eq_refl)))). Qed.
Print Assumptions C77_constants.
Example C77_constants_ex : val64 quarter = (/ 4)%R. Proof. exact (proj2 quarter_val). Qed.

(** irregular points, between the i-th and the next *)
Theorem C77_irregular : forall (l : list (b64 * option b64)) (i : nat) (x x0 x1 y0 y1 : b64) (M : R),
  let s := fst (fst (p_init l ILinear false)) in
  increasing64 l -> p_eq s = false -> nth_error l i = Some (x0, Some y0) -> nth_error l (S i) = Some (x1, Some y1) ->
  finite64 x -> finite64 y0 -> finite64 y1 -> (val64 x0 < val64 x <= val64 x1)%R ->
  (Rabs (val64 y0) <= M)%R -> (Rabs (val64 y1) <= M)%R -> (M <= bpow radix2 1020)%R ->
  exists r, p_y s x = Ok (Some r) /\ finite64 r /\
    (Rabs (val64 r - (val64 y0 + (val64 x - val64 x0) / (val64 x1 - val64 x0) * (val64 y1 - val64 y0)))
       <= (INR i + 6) * eps * Rabs (val64 y1 - val64 y0) + (5 * eps * M + 4 * tiny))%R /\
    (Rmin (val64 y0) (val64 y1) - (5 * eps * M + 4 * tiny) <= val64 r <= Rmax (val64 y0) (val64 y1) + (5 * eps * M + 4 * tiny))%R.
Proof.
  exact (fun l i x x0 x1 y0 y1 M H E => match irregular_init l H ILinear with
    | conj _ (conj B (conj C D)) =>
        irregular_near l _ i x x0 x1 y0 y1 M H B (eq_trans (f_equal (fun b : bool => if b then true else p_eq (fst (fst (p_init l ILinear false)))) D) E) C (init_interp l) end).
Qed.
Print Assumptions C77_irregular.
Example C77_irregular_ex : increasing64 irr3 /\ p_eq (fst (fst (p_init irr3 ILinear false))) = false /\
  nth_error irr3 1 = Some (tenth 2, bn 7) /\ nth_error irr3 2 = Some (tenth 5, bn 1) /\ finite64 (tenth 3) /\
  (val64 (tenth 2) < val64 (tenth 3) <= val64 (tenth 5))%R /\ (Rabs (val64 (b64_ofZ 7)) <= 7)%R /\ (Rabs (val64 (b64_ofZ 1)) <= 7)%R /\ (7 <= bpow radix2 1020)%R /\
  p_y (fst (fst (p_init irr3 ILinear false))) (tenth 3) = Ok (bn 5).
Proof.
  split; [exact irr3_inc|]. split; [exact irr3_uneven|]. split; [reflexivity|]. split; [reflexivity|]. split; [fin|]. split; [exact irr3_at|].
  split; [apply abs_bound; lia|]. split; [apply abs_bound; lia|]. split; [apply big_bound; lia|]. vm_compute. reflexivity.
Qed.

(** a grid that fits the format, after any appends and replaces *)
Theorem C77_grid : forall (a h e : Z) (vs : list (option b64)) (s : pts b64 (option b64)) (i : nat) (x y0 y1 : b64) (M : R),
  grid_fits a h e (length vs) -> grid_run a h e vs s -> p_interp s = ILinear ->
  nth_error vs i = Some (Some y0) -> nth_error vs (S i) = Some (Some y1) -> finite64 x -> finite64 y0 -> finite64 y1 ->
  (IZR (a + Z.of_nat i * h) * bpow radix2 e <= val64 x <= IZR (a + Z.of_nat (S i) * h) * bpow radix2 e)%R ->
  (Rabs (val64 y0) <= M)%R -> (Rabs (val64 y1) <= M)%R -> (M <= bpow radix2 1020)%R ->
  exists r, p_y s x = Ok (Some r) /\ finite64 r /\
    (Rabs (val64 r - (val64 y0 + (val64 x - IZR (a + Z.of_nat i * h) * bpow radix2 e) / (IZR h * bpow radix2 e) * (val64 y1 - val64 y0)))
       <= (2 * INR i + 3) * eps * Rabs (val64 y1 - val64 y0) + (5 * eps * M + 4 * tiny))%R /\
    (Rmin (val64 y0) (val64 y1) - (5 * eps * M + 4 * tiny) <= val64 r <= Rmax (val64 y0) (val64 y1) + (5 * eps * M + 4 * tiny))%R.
Proof. exact (fun a h e vs s i x y0 y1 M G R => grid_near a h e vs s i x y0 y1 M G (run_on_grid a h e vs s G R)). Qed.
Print Assumptions C77_grid.
Example C77_grid_ex : grid_fits 1600000000 3600 0 (length secs) /\ grid_run 1600000000 3600 0 secs sst /\ p_interp sst = ILinear /\
  nth_error secs 1 = Some (bn 7) /\ nth_error secs 2 = Some (bn 1) /\ finite64 (b64_ofZ 1600004200) /\
  (IZR (1600000000 + Z.of_nat 1 * 3600) * bpow radix2 0 <= val64 (b64_ofZ 1600004200) <= IZR (1600000000 + Z.of_nat 2 * 3600) * bpow radix2 0)%R /\
  (Rabs (val64 (b64_ofZ 7)) <= 7)%R /\ (Rabs (val64 (b64_ofZ 1)) <= 7)%R /\ (7 <= bpow radix2 1020)%R /\
  p_y sst (b64_ofZ 1600004200) = Ok (bn 6).
Proof.
  split; [exact (small_fits _ _ _ sst_small)|]. split; [apply gr_init|]. split; [reflexivity|]. split; [reflexivity|]. split; [reflexivity|]. split; [apply val_ofZ; lia|].
  split; [rewrite (proj2 (val_ofZ 1600004200 ltac:(lia))); cbn; lra|].
  split; [apply abs_bound; lia|]. split; [apply abs_bound; lia|]. split; [apply big_bound; lia|]. vm_compute. reflexivity.
Qed.

(** between two points of the same value, the value is another one *)
Theorem C77_flat_refuted : exists (s : pts b64 (option b64)) (x v : b64), grid_run 0 1 0 [bn 3; bn 3] s /\
  p_y s x = Ok (Some v) /\ n_ltb v (b64_ofZ 3) = true.
Proof. exact (ex_intro _ flat3 (ex_intro _ hundredth (ex_intro _ _ (conj (gr_init 0 1 0 [bn 3; bn 3] ILinear true) flat3_below)))). Qed.
Print Assumptions C77_flat_refuted.

(** EMA: the recurrence in doubles, whatever came before *)
Theorem C77_ema_recurrence : forall (a h : Z) (m : b64) (deg : ema_degree b64) (al : b64) (ip : interp) (vs : list (option b64))
    (src : pts b64 (option b64)) (q : acc b64 (option b64)) (fuel : nat),
  step_ok h m -> weight64 h deg al -> grid_small a h (length vs) ->
  watch64 a h m ip (ema_tf deg m) (fun v => v) vs src q -> (length vs < fuel)%nat ->
  exists es : nat -> option b64,
    (forall y, nth_error vs 0 = Some y -> es 0%nat = y) /\
    (forall k y, nth_error vs (S k) = Some y -> es (S k) =
       match y, es k with None, e => e | Some y, None => Some y | Some y, Some e => Some (n_add e (n_mul al (n_sub y e))) end) /\
    (forall k, (k < length vs)%nat -> snd (y64 m (ema_tf deg m) (fun v => v) fuel src q (b64_ofZ (a + Z.of_nat k * h))) = Ok (es k)) /\
    (forall x, valid_binary 53 1024 x = true -> i_contains (p_dom src) x = false -> snd (y64 m (ema_tf deg m) (fun v => v) fuel src q x) = Ok None).
Proof. exact ema_exact. Qed.
Print Assumptions C77_ema_recurrence.
Example C77_ema_recurrence_ex : step_ok 3600 n_minstep /\ weight64 3600 (EmaAlpha quarter) quarter /\ weight64 3600 (EmaPeriod (b64_ofZ 14400)) quarter /\
  watch64 1600000000 3600 n_minstep ILinear (ema_tf (EmaAlpha quarter) n_minstep) (fun v => v) (map Some ema_ys) ema_src ema_q /\
  snd (y64 n_minstep (ema_tf (EmaAlpha quarter) n_minstep) (fun v => v) 9 ema_src ema_q (b64_ofZ 1600007200)) = Ok (Some (fnum 35 (-3))) /\
  snd (y64 n_minstep (ema_tf (EmaAlpha quarter) n_minstep) (fun v => v) 9 ema_src ema_q (b64_ofZ 1600014400)) = Ok (Some (fnum 1190 (-8))).
Proof.
  split; [exact default_step_ok|]. split; [reflexivity|]. split; [eexists; split; vm_compute; reflexivity|]. split; [exact ema_watch|].
  split; vm_compute; reflexivity.
Qed.

(** EMA: the distance from the exact recurrence does not grow with the number
    of points *)
Theorem C77_ema : forall (a h : Z) (m : b64) (deg : ema_degree b64) (al : b64) (ip : interp) (ys : list b64)
    (src : pts b64 (option b64)) (q : acc b64 (option b64)) (fuel : nat) (M : R),
  step_ok h m -> weight64 h deg al -> grid_small a h (length ys) ->
  watch64 a h m ip (ema_tf deg m) (fun v => v) (map Some ys) src q -> (length ys < fuel)%nat -> finite64 al -> (0 < val64 al <= 1)%R ->
  (forall y, In y ys -> finite64 y /\ (Rabs (val64 y) <= M)%R) -> (M <= bpow radix2 1020)%R -> (10 * eps * M + 2 * tiny <= val64 al * M)%R ->
  exists E : nat -> R,
    (forall y, nth_error ys 0 = Some y -> E 0%nat = val64 y) /\
    (forall k y, nth_error ys (S k) = Some y -> E (S k) = (E k + val64 al * (val64 y - E k))%R) /\
    (forall k, (k < length ys)%nat -> exists r, snd (y64 m (ema_tf deg m) (fun v => v) fuel src q (b64_ofZ (a + Z.of_nat k * h))) = Ok (Some r) /\
       finite64 r /\ (Rabs (val64 r - E k) <= (10 * eps * M + 2 * tiny) / val64 al)%R).
Proof. exact ema_near. Qed.
Print Assumptions C77_ema.
Example C77_ema_ex : step_ok 3600 n_minstep /\ weight64 3600 (EmaAlpha quarter) quarter /\ grid_small 1600000000 3600 (length ema_ys) /\
  watch64 1600000000 3600 n_minstep ILinear (ema_tf (EmaAlpha quarter) n_minstep) (fun v => v) (map Some ema_ys) ema_src ema_q /\
  finite64 quarter /\ (0 < val64 quarter <= 1)%R /\ (forall y, In y ema_ys -> finite64 y /\ (Rabs (val64 y) <= 9)%R) /\ (9 <= bpow radix2 1020)%R /\
  (10 * eps * 9 + 2 * tiny <= val64 quarter * 9)%R.
Proof.
  split; [exact default_step_ok|]. split; [reflexivity|]. split; [exact ema_small|]. split; [exact ema_watch|]. split; [exact (proj1 quarter_val)|].
  split; [rewrite (proj2 quarter_val); lra|]. split; [exact ema_values|]. split; [apply big_bound; lia|exact ema_drift].
Qed.

(** EMA: between the points of its source *)
Theorem C77_ema_between : forall (a h : Z) (m : b64) (deg : ema_degree b64) (al : b64) (ys : list b64)
    (src : pts b64 (option b64)) (q : acc b64 (option b64)) (fuel : nat) (M : R),
  step_ok h m -> weight64 h deg al -> grid_small a h (length ys) ->
  watch64 a h m ILinear (ema_tf deg m) (fun v => v) (map Some ys) src q -> (length ys < fuel)%nat -> finite64 al -> (0 < val64 al <= 1)%R ->
  (forall y, In y ys -> finite64 y /\ (Rabs (val64 y) <= M)%R) -> (M <= bpow radix2 1019)%R -> (10 * eps * M + 2 * tiny <= val64 al * M)%R ->
  exists E : nat -> R,
    (forall y, nth_error ys 0 = Some y -> E 0%nat = val64 y) /\
    (forall k y, nth_error ys (S k) = Some y -> E (S k) = (E k + val64 al * (val64 y - E k))%R) /\
    (forall i x, (S i < length ys)%nat -> finite64 x -> (IZR (a + Z.of_nat i * h) < val64 x <= IZR (a + Z.of_nat (S i) * h))%R ->
       exists r, snd (y64 m (ema_tf deg m) (fun v => v) fuel src q x) = Ok (Some r) /\ finite64 r /\
         (Rabs (val64 r - (E i + (val64 x - IZR (a + Z.of_nat i * h)) / IZR h * (E (S i) - E i)))
            <= (10 * eps * M + 2 * tiny) / val64 al + ((8 * INR i + 22) * eps * M + 4 * tiny))%R).
Proof. exact ema_between. Qed.
Print Assumptions C77_ema_between.
Example C77_ema_between_ex : step_ok 3600 n_minstep /\ weight64 3600 (EmaAlpha quarter) quarter /\ grid_small 1600000000 3600 (length ema_ys) /\
  watch64 1600000000 3600 n_minstep ILinear (ema_tf (EmaAlpha quarter) n_minstep) (fun v => v) (map Some ema_ys) ema_src ema_q /\
  (IZR (1600000000 + Z.of_nat 1 * 3600) < val64 (b64_ofZ 1600005400) <= IZR (1600000000 + Z.of_nat 2 * 3600))%R /\
  snd (y64 n_minstep (ema_tf (EmaAlpha quarter) n_minstep) (fun v => v) 9 ema_src ema_q (b64_ofZ 1600005400)) = Ok (Some (fnum 79 (-4))).
Proof.
  split; [exact default_step_ok|]. split; [reflexivity|]. split; [exact ema_small|]. split; [exact ema_watch|].
  split; [rewrite (proj2 (val_ofZ 1600005400 ltac:(lia))); cbn; lra|vm_compute; reflexivity].
Qed.

(** an EMA of weight 1 below every value of its source *)
Theorem C77_ema_range_refuted : exists (src : pts b64 (option b64)) (x v : b64), grid_run 0 1 0 [bn 10000000000000000; bn 1] src /\
  snd (y64 n_minstep (ema_tf (EmaAlpha (b64_ofZ 1)) n_minstep) (fun v => v) 9 src (acc_init ILinear true) x) = Ok (Some v) /\
  n_ltb v (b64_ofZ 1) = true.
Proof. exact (ex_intro _ far_src (ex_intro _ (b64_ofZ 1) (ex_intro _ _ (conj (gr_init 0 1 0 [bn 10000000000000000; bn 1] ILinear true) far_below)))). Qed.
Print Assumptions C77_ema_range_refuted.
