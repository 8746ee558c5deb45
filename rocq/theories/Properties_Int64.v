(** C79: the integral in double arithmetic.  [val64] is the real number a
    finite double stands for, [eps] is 2^-53 and [tiny] is 2^-1075.
    [watch64]: an integral was created on a Points object with whole-number
    positions, then came queries at any doubles and appends, in any order.
    [int_tf] is Integral._integral_scan, [integral_post] adds the constant. *)
From Coq Require Import List ZArith Reals Lia Lra Bool SpecFloat.
From Flocq Require Import Core.
From Verif Require Import Base Num Interval Curve Points Combine Scan B64Facts GridFacts StepB64 IrregB64 ErrB64 InterpB64 AccB64 EmaB64 IntB64 IntSumB64 B64Ex RoundEx IntEx.
Import ListNotations.
Open Scope Z_scope.

(** the recurrence in doubles, whatever came before *)
Theorem C79_recurrence : forall (a h : Z) (m : b64) (ip ip2 : interp) (const : b64) (vs : list (option b64))
    (src : pts b64 (option b64)) (q : acc b64 (option b64)) (fuel : nat),
  step_ok h m -> grid_small a h (length vs) ->
  watch64 a h m ip (int_tf ip2) (integral_post const) vs src q -> (length vs < fuel)%nat ->
  exists ss : nat -> option b64,
    (forall v, nth_error vs 0 = Some v -> ss 0%nat = option_map (fun _ => b64_ofZ 0) v) /\
    (forall k v0 v, nth_error vs k = Some v0 -> nth_error vs (S k) = Some v -> ss (S k) =
       match v, v0 with
       | None, _ => ss k
       | Some v, None => Some match ss k with Some s => s | None => b64_ofZ 0 end
       | Some v, Some u => Some (n_add match ss k with Some s => s | None => b64_ofZ 0 end
           (let x0 := b64_ofZ (a + Z.of_nat k * h) in let x1 := b64_ofZ (a + Z.of_nat (S k) * h) in
            let p := match ip2 with INext => v | _ => u end in let q := match ip2 with IPrevious => u | _ => v end in
            let slope := SFdiv 53 1024 (n_sub q p) (n_sub x1 x0) in
            let c := n_add p (n_mul slope (n_sub (b64_ofZ 0) x0)) in
            n_sub (n_add (n_mul (n_mul slope half64) (n_mul x1 x1)) (n_mul c x1)) (n_add (n_mul (n_mul slope half64) (n_mul x0 x0)) (n_mul c x0))))
       end) /\
    (forall k, (k < length vs)%nat -> snd (y64 m (int_tf ip2) (integral_post const) fuel src q (b64_ofZ (a + Z.of_nat k * h))) = Ok (option_map (fun s => n_add s const) (ss k))) /\
    (forall x, valid_binary 53 1024 x = true -> i_contains (p_dom src) x = false -> snd (y64 m (int_tf ip2) (integral_post const) fuel src q x) = Ok None).
Proof. exact int_recurrence. Qed.
Print Assumptions C79_recurrence.
Example C79_recurrence_ex : step_ok 60 n_minstep /\ grid_small 120 60 4 /\
  watch64 120 60 n_minstep ILinear (int_tf ILinear) (integral_post (b64_ofZ 10)) [bn 5; bn 7; bn 1; bn 9] min_src (min_q ILinear) /\ val64 half64 = (/ 2)%R /\
  snd (y64 n_minstep (int_tf ILinear) (integral_post (b64_ofZ 10)) 9 min_src (min_q ILinear) (b64_ofZ 180)) = Ok (bn 370).
Proof. split; [exact min_step|]. split; [exact min_small|]. split; [exact (min_watch ILinear)|]. split; [unfold val64, half64; cbn; unfold F2R; cbn; lra|vm_compute; reflexivity]. Qed.

(** the distance from the exact sums *)
Theorem C79_error : forall (a h : Z) (m : b64) (ip ip2 : interp) (const : b64) (ys : list b64)
    (src : pts b64 (option b64)) (q : acc b64 (option b64)) (fuel : nat) (M : R),
  step_ok h m -> grid_small a h (length ys) ->
  watch64 a h m ip (int_tf ip2) (integral_post const) (map Some ys) src q -> (length ys < fuel)%nat ->
  (forall y, In y ys -> finite64 y /\ (Rabs (val64 y) <= M)%R) -> (M <= bpow radix2 800)%R ->
  exists I : nat -> R, I 0%nat = 0%R /\
    (forall k u v, nth_error ys k = Some u -> nth_error ys (S k) = Some v ->
       I (S k) = (I k + IZR h * match ip2 with ILinear => (val64 u + val64 v) / 2 | IPrevious => val64 u | INext => val64 v end)%R) /\
    (forall k, (k < length ys)%nat -> exists r,
       snd (y64 m (int_tf ip2) (integral_post const) fuel src q (b64_ofZ (a + Z.of_nat k * h))) = Ok (Some (n_add r const)) /\ finite64 r /\
       let A := IZR (Z.abs a + Z.of_nat (length ys - 1) * h) in
       (Rabs (val64 r - I k) <= INR k * (644 * eps * (M * (A * A) / IZR h) + 40 * (tiny * (A * A))))%R).
Proof. exact int_near. Qed.
Print Assumptions C79_error.
Example C79_error_ex : step_ok 60 n_minstep /\ grid_small 120 60 (length min_ys) /\
  watch64 120 60 n_minstep ILinear (int_tf ILinear) (integral_post (b64_ofZ 10)) (map Some min_ys) min_src (min_q ILinear) /\
  (forall y, In y min_ys -> finite64 y /\ (Rabs (val64 y) <= 9)%R) /\ (9 <= bpow radix2 800)%R /\
  snd (y64 n_minstep (int_tf ILinear) (integral_post (b64_ofZ 10)) 9 min_src (min_q ILinear) (b64_ofZ 300)) = Ok (bn 910).
Proof.
  split; [exact min_step|]. split; [exact min_small|]. split; [exact (min_watch ILinear)|]. split; [exact min_values|]. split; [apply small_bound; lia|vm_compute; reflexivity].
Qed.

(** between the points of the source the curve is near the line between the
    exact sums *)
Theorem C79_between : forall (a h : Z) (m : b64) (ip2 : interp) (const : b64) (ys : list b64)
    (src : pts b64 (option b64)) (q : acc b64 (option b64)) (fuel : nat) (M : R),
  step_ok h m -> grid_small a h (length ys) ->
  watch64 a h m ILinear (int_tf ip2) (integral_post const) (map Some ys) src q -> (length ys < fuel)%nat ->
  (forall y, In y ys -> finite64 y /\ (Rabs (val64 y) <= M)%R) -> (M <= bpow radix2 800)%R ->
  let A := IZR (Z.abs a + Z.of_nat (length ys - 1) * h) in
  let D := (644 * eps * (M * (A * A) / IZR h) + 40 * (tiny * (A * A)))%R in
  exists I : nat -> R, I 0%nat = 0%R /\
    (forall k u v, nth_error ys k = Some u -> nth_error ys (S k) = Some v ->
       I (S k) = (I k + IZR h * match ip2 with ILinear => (val64 u + val64 v) / 2 | IPrevious => val64 u | INext => val64 v end)%R) /\
    (forall i x, (S i < length ys)%nat -> finite64 x -> (IZR (a + Z.of_nat i * h) < val64 x <= IZR (a + Z.of_nat (S i) * h))%R ->
       let B := (INR (S i) * (IZR h * M + D))%R in (B <= bpow radix2 1020)%R ->
       exists r, snd (y64 m (int_tf ip2) (integral_post const) fuel src q x) = Ok (Some (n_add r const)) /\ finite64 r /\
         (Rabs (val64 r - (I i + (val64 x - IZR (a + Z.of_nat i * h)) / IZR h * (I (S i) - I i))) <= INR (S i) * D + ((4 * INR i + 11) * eps * B + 4 * tiny))%R).
Proof. exact int_between. Qed.
Print Assumptions C79_between.
Example C79_between_ex : step_ok 60 n_minstep /\ grid_small 120 60 (length min_ys) /\
  watch64 120 60 n_minstep ILinear (int_tf ILinear) (integral_post (b64_ofZ 10)) (map Some min_ys) min_src (min_q ILinear) /\
  (forall y, In y min_ys -> finite64 y /\ (Rabs (val64 y) <= 9)%R) /\ (9 <= bpow radix2 800)%R /\ finite64 (b64_ofZ 210) /\
  (IZR (120 + Z.of_nat 1 * 60) < val64 (b64_ofZ 210) <= IZR (120 + Z.of_nat 2 * 60))%R /\
  (let A := IZR (Z.abs 120 + Z.of_nat (length min_ys - 1) * 60) in INR 2 * (IZR 60 * 9 + (644 * eps * (9 * (A * A) / IZR 60) + 40 * (tiny * (A * A)))) <= bpow radix2 1020)%R /\
  snd (y64 n_minstep (int_tf ILinear) (integral_post (b64_ofZ 10)) 9 min_src (min_q ILinear) (b64_ofZ 210)) = Ok (bn (360 + 120 + 10)).
Proof.
  split; [exact min_step|]. split; [exact min_small|]. split; [exact (min_watch ILinear)|]. split; [exact min_values|]. split; [apply small_bound; lia|].
  split; [apply val_ofZ; lia|]. split; [exact min_inside|]. split; [exact min_size|vm_compute; reflexivity].
Qed.

(** steps between whole numbers are summed exactly *)
Theorem C79_steps_exact : forall (a h : Z) (m : b64) (ip ip2 : interp) (const : b64) (zs : list Z)
    (src : pts b64 (option b64)) (q : acc b64 (option b64)) (fuel : nat) (I : nat -> Z),
  ip2 <> ILinear -> step_ok h m -> grid_small a h (length zs) ->
  watch64 a h m ip (int_tf ip2) (integral_post const) (map (fun z => Some (b64_ofZ z)) zs) src q -> (length zs < fuel)%nat ->
  (forall z, In z zs -> Z.abs z * (Z.abs a + Z.of_nat (length zs - 1) * h) <= 2 ^ 53 /\ Z.abs z <= 2 ^ 53) ->
  I 0%nat = 0 ->
  (forall k u v, nth_error zs k = Some u -> nth_error zs (S k) = Some v -> I (S k) = I k + h * (if match ip2 with INext => true | _ => false end then v else u)) ->
  (forall k, (k < length zs)%nat -> Z.abs (I k) <= 2 ^ 53) ->
  forall k, (k < length zs)%nat -> exists r,
    snd (y64 m (int_tf ip2) (integral_post const) fuel src q (b64_ofZ (a + Z.of_nat k * h))) = Ok (Some (n_add r const)) /\ finite64 r /\ val64 r = IZR (I k).
Proof. exact int_whole. Qed.
Print Assumptions C79_steps_exact.
Example C79_steps_exact_ex : IPrevious <> ILinear /\ step_ok 60 n_minstep /\ grid_small 120 60 (length min_zs) /\
  watch64 120 60 n_minstep ILinear (int_tf IPrevious) (integral_post (b64_ofZ 10)) (map (fun z => Some (b64_ofZ z)) min_zs) min_src (min_q IPrevious) /\
  (forall z, In z min_zs -> Z.abs z * (Z.abs 120 + Z.of_nat (length min_zs - 1) * 60) <= 2 ^ 53 /\ Z.abs z <= 2 ^ 53) /\
  snd (y64 n_minstep (int_tf IPrevious) (integral_post (b64_ofZ 10)) 9 min_src (min_q IPrevious) (b64_ofZ 300)) = Ok (bn (60 * (5 + 7 + 1) + 10)).
Proof.
  split; [discriminate|]. split; [exact min_step|]. split; [exact min_small|]. split; [exact (min_watch IPrevious)|].
  split; [intros z H; repeat (destruct H as [<-|H]; [cbn; lia|]); destruct H|vm_compute; reflexivity].
Qed.

(** between 0 and 1000, one second apart in unix time, the integral is below
    -200000 *)
Theorem C79_sign_refuted : exists (src : pts b64 (option b64)) (x v : b64), grid_run 1600000003 1 0 [bn 0; bn 1000] src /\
  snd (y64 n_minstep (int_tf ILinear) (integral_post (b64_ofZ 0)) 9 src (acc_init ILinear true) x) = Ok (Some v) /\ n_ltb v (b64_ofZ (-200000)) = true.
Proof. exact (ex_intro _ late_src (ex_intro _ (b64_ofZ 1600000004) (ex_intro _ _ (conj (gr_init 1600000003 1 0 [bn 0; bn 1000] ILinear true) late_neg)))). Qed.
Print Assumptions C79_sign_refuted.

(** and so is the moving average over the two of them, which should lie
    between 0 and 1000 *)
Theorem C79_sma_refuted : exists (src : pts b64 (option b64)) (x v : b64), grid_run 1600000003 1 0 [bn 0; bn 1000] src /\
  snd (sma_y 5 9 half64 (p_crv src) (Some n_minstep) (SmaDegree 2) (acc_init ILinear true) x) = Ok (Some v) /\ n_ltb v (b64_ofZ (-200000)) = true.
Proof. exact (ex_intro _ late_src (ex_intro _ (b64_ofZ 1600000004) (ex_intro _ _ (conj (gr_init 1600000003 1 0 [bn 0; bn 1000] ILinear true) late_sma_neg)))). Qed.
Print Assumptions C79_sma_refuted.
