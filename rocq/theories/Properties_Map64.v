(** C82: trailing windows in double arithmetic.  [map_tf64 m n f fuel0] is
    the transform of an AccumulatorMap over the last [n] points of a Points
    object; [sel64 true] and [sel64 false] are max and min.  [watch64]: the
    curve was created on a Points object with whole-number positions, then came
    queries at any doubles and appends, in any order. *)
From Coq Require Import List ZArith Reals Lia Lra Bool SpecFloat.
From Flocq Require Import Core.
From Verif Require Import Base Num Interval Curve Points Combine Scan B64Facts GridFacts StepB64 IrregB64 ErrB64 InterpB64 AccB64 EmaB64 MapB64 B64Ex RoundEx MapEx.
Import ListNotations.
Open Scope Z_scope.

(** any function: it is called with exactly the last [n] values, the latest first *)
Theorem C82_window : forall (a h : Z) (m : b64) (ip : interp) (n : nat) (f : b64 -> list (option b64) -> res (option b64)) (fuel0 fuel : nat)
    (vs : list (option b64)) (src : pts b64 (option b64)) (q : acc b64 (option b64)),
  step_ok h m -> (0 < n)%nat -> h <= 2 ^ 35 ->
  (forall v, In v vs -> v <> None) ->
  (forall k, (k < length vs)%nat -> exists w, f (b64_ofZ (a + Z.of_nat k * h)) (firstn n (rev (firstn (S k) vs))) = Ok w) ->
  grid_small a h (length vs) -> watch64 a h m ip (map_tf64 m n f fuel0) (fun w => w) vs src q -> (length vs < fuel)%nat ->
  (forall k, (k < length vs)%nat -> snd (y64 m (map_tf64 m n f fuel0) (fun w => w) fuel src q (b64_ofZ (a + Z.of_nat k * h)))
     = f (b64_ofZ (a + Z.of_nat k * h)) (firstn n (rev (firstn (S k) vs)))) /\
  (forall x, valid_binary 53 1024 x = true -> i_contains (p_dom src) x = false -> snd (y64 m (map_tf64 m n f fuel0) (fun w => w) fuel src q x) = Ok None).
Proof. exact (fun a h m ip n f fuel0 fuel vs src q ST NP HH SO OK SM => trailing64 a h m ip n f fuel0 ST NP HH vs src q fuel (conj SO OK) SM). Qed.
Print Assumptions C82_window.
Example C82_window_ex : step_ok 3600 n_minstep /\ (forall v, In v (map Some ema_ys) -> v <> None) /\ grid_small 1600000000 3600 (length (map Some ema_ys)) /\
  (forall k, (k < length (map Some ema_ys))%nat -> exists w, sel64 true (b64_ofZ (1600000000 + Z.of_nat k * 3600)) (firstn 2 (rev (firstn (S k) (map Some ema_ys)))) = Ok w) /\
  watch64 1600000000 3600 n_minstep ILinear (map_tf64 n_minstep 2 (sel64 true) 9) (fun v => v) (map Some ema_ys) ema_src (two_q true).
Proof.
  split; [exact default_step_ok|]. split; [intros v I; apply in_map_iff in I as (y & <- & _); discriminate|]. split; [exact ema_small|].
  split; [exact (proj2 (sel_ok 1600000000 3600 true 2 ema_ys (le_S 1 1 (le_n 1)) ys_finite))|exact (two_watch true)].
Qed.

(** the maximum: a value of the last [n] points, and none of them is greater *)
Theorem C82_max : forall (a h : Z) (m : b64) (ip : interp) (n fuel0 : nat) (ys : list b64) (src : pts b64 (option b64)) (q : acc b64 (option b64)) (fuel : nat),
  step_ok h m -> h <= 2 ^ 35 -> (0 < n)%nat -> grid_small a h (length ys) -> Forall finite64 ys ->
  watch64 a h m ip (map_tf64 m n (fun _ => py_max) fuel0) (fun w => w) (map Some ys) src q -> (length ys < fuel)%nat -> forall k, (k < length ys)%nat ->
  exists r, snd (y64 m (map_tf64 m n (fun _ => py_max) fuel0) (fun w => w) fuel src q (b64_ofZ (a + Z.of_nat k * h))) = Ok (Some r) /\
    (exists j, (j <= k < j + n)%nat /\ nth_error ys j = Some r) /\
    (forall j y, (j <= k < j + n)%nat -> nth_error ys j = Some y -> (val64 y <= val64 r)%R).
Proof. exact (fun a h m ip => extreme64 a h m ip true). Qed.
Print Assumptions C82_max.
Example C82_max_ex : step_ok 3600 n_minstep /\ grid_small 1600000000 3600 (length ema_ys) /\ Forall finite64 ema_ys /\
  watch64 1600000000 3600 n_minstep ILinear (map_tf64 n_minstep 2 (fun _ => py_max) 9) (fun v => v) (map Some ema_ys) ema_src (two_q true) /\
  snd (y64 n_minstep (map_tf64 n_minstep 2 (fun _ => py_max) 9) (fun v => v) 9 ema_src (two_q true) (b64_ofZ 1600014400)) = Ok (bn 9).
Proof. split; [exact default_step_ok|]. split; [exact ema_small|]. split; [exact ys_finite|]. split; [exact (two_watch true)|vm_compute; reflexivity]. Qed.

(** the minimum *)
Theorem C82_min : forall (a h : Z) (m : b64) (ip : interp) (n fuel0 : nat) (ys : list b64) (src : pts b64 (option b64)) (q : acc b64 (option b64)) (fuel : nat),
  step_ok h m -> h <= 2 ^ 35 -> (0 < n)%nat -> grid_small a h (length ys) -> Forall finite64 ys ->
  watch64 a h m ip (map_tf64 m n (fun _ => py_min) fuel0) (fun w => w) (map Some ys) src q -> (length ys < fuel)%nat -> forall k, (k < length ys)%nat ->
  exists r, snd (y64 m (map_tf64 m n (fun _ => py_min) fuel0) (fun w => w) fuel src q (b64_ofZ (a + Z.of_nat k * h))) = Ok (Some r) /\
    (exists j, (j <= k < j + n)%nat /\ nth_error ys j = Some r) /\
    (forall j y, (j <= k < j + n)%nat -> nth_error ys j = Some y -> (val64 r <= val64 y)%R).
Proof. exact (fun a h m ip => extreme64 a h m ip false). Qed.
Print Assumptions C82_min.
Example C82_min_ex : step_ok 3600 n_minstep /\ grid_small 1600000000 3600 (length ema_ys) /\ Forall finite64 ema_ys /\
  watch64 1600000000 3600 n_minstep ILinear (map_tf64 n_minstep 2 (fun _ => py_min) 9) (fun v => v) (map Some ema_ys) ema_src (two_q false) /\
  snd (y64 n_minstep (map_tf64 n_minstep 2 (fun _ => py_min) 9) (fun v => v) 9 ema_src (two_q false) (b64_ofZ 1600014400)) = Ok (bn 2).
Proof. split; [exact default_step_ok|]. split; [exact ema_small|]. split; [exact ys_finite|]. split; [exact (two_watch false)|vm_compute; reflexivity]. Qed.

(** between two points: near the line between the two extremes *)
Theorem C82_between : forall (a h : Z) (m : b64) (mx : bool) (n fuel0 : nat) (ys : list b64) (src : pts b64 (option b64)) (q : acc b64 (option b64)) (fuel : nat) (M : R),
  let y x := snd (y64 m (map_tf64 m n (fun _ => if mx then py_max else py_min) fuel0) (fun w => w) fuel src q x) in
  step_ok h m -> h <= 2 ^ 35 -> (0 < n)%nat -> grid_small a h (length ys) -> Forall finite64 ys ->
  watch64 a h m ILinear (map_tf64 m n (fun _ => if mx then py_max else py_min) fuel0) (fun w => w) (map Some ys) src q -> (length ys < fuel)%nat ->
  (forall y, In y ys -> (Rabs (val64 y) <= M)%R) -> (M <= bpow radix2 1020)%R ->
  forall i x, (S i < length ys)%nat -> finite64 x -> (IZR (a + Z.of_nat i * h) < val64 x <= IZR (a + Z.of_nat (S i) * h))%R ->
  exists y0 y1 r, y (b64_ofZ (a + Z.of_nat i * h)) = Ok (Some y0) /\ y (b64_ofZ (a + Z.of_nat (S i) * h)) = Ok (Some y1) /\ y x = Ok (Some r) /\ finite64 r /\
    (Rabs (val64 r - (val64 y0 + (val64 x - IZR (a + Z.of_nat i * h)) / IZR h * (val64 y1 - val64 y0)))
       <= (2 * INR i + 3) * eps * Rabs (val64 y1 - val64 y0) + (5 * eps * M + 4 * tiny))%R /\
    (Rmin (val64 y0) (val64 y1) - (5 * eps * M + 4 * tiny) <= val64 r <= Rmax (val64 y0) (val64 y1) + (5 * eps * M + 4 * tiny))%R.
Proof. exact (fun a h m mx => extreme_between a h m mx). Qed.
Print Assumptions C82_between.
Example C82_between_ex : step_ok 3600 n_minstep /\ grid_small 1600000000 3600 (length ema_ys) /\ Forall finite64 ema_ys /\
  (forall y, In y ema_ys -> (Rabs (val64 y) <= 9)%R) /\ (9 <= bpow radix2 1020)%R /\ finite64 (b64_ofZ 1600001800) /\
  (IZR (1600000000 + Z.of_nat 0 * 3600) < val64 (b64_ofZ 1600001800) <= IZR (1600000000 + Z.of_nat 1 * 3600))%R /\
  snd (y64 n_minstep (map_tf64 n_minstep 2 (fun _ => py_max) 9) (fun v => v) 9 ema_src (two_q true) (b64_ofZ 1600001800)) = Ok (bn 6).
Proof.
  split; [exact default_step_ok|]. split; [exact ema_small|]. split; [exact ys_finite|]. split; [exact ys_bounded|]. split; [apply big_bound; lia|].
  split; [apply val_ofZ; lia|]. split; [rewrite (proj2 (val_ofZ 1600001800 ltac:(lia))); cbn; lra|]. vm_compute. reflexivity.
Qed.

(** not a number among the values: the maximum is not a number or ignores it,
    depending on its place in the window *)
Theorem C82_nan_refuted : exists (vs : list (option b64)) (src : pts b64 (option b64)) (q : acc b64 (option b64)),
  nth_error vs 1 = Some (Some S754_nan) /\
  watch64 0 1 n_minstep ILinear (map_tf64 n_minstep 2 (fun _ => py_max) 9) (fun v => v) vs src q /\
  snd (y64 n_minstep (map_tf64 n_minstep 2 (fun _ => py_max) 9) (fun v => v) 9 src q (b64_ofZ 1)) = Ok (Some S754_nan) /\
  snd (y64 n_minstep (map_tf64 n_minstep 2 (fun _ => py_max) 9) (fun v => v) 9 src q (b64_ofZ 2)) = Ok (Some (b64_ofZ 1)).
Proof. exact (ex_intro _ nan_vs (ex_intro _ nan_src (ex_intro _ _ (conj eq_refl (conj nan_watch (conj nan_at_1 nan_at_2)))))). Qed.
Print Assumptions C82_nan_refuted.
