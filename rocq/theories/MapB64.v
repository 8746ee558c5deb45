(** Trailing windows in binary64: AccumulatorMap with a number of points. *)
From Coq Require Import List ZArith Reals Lia Lra Bool SpecFloat.
From Flocq Require Import Core BinarySingleNaN.
From Verif Require Import Base Num Interval Curve Points Combine Scan B64Facts GridFacts StepB64 IrregB64 ErrB64 InterpB64 AccB64 EmaB64 SumB64 ProdB64 BetweenB64.
Import ListNotations.
Open Scope Z_scope.
#[local] Existing Instances Hprec Hmax Hval Hexp.

(** the value at point [k] and those before it, [n] in all, the latest first *)
Definition window64 {A} (n : nat) (vs : list A) (k : nat) : list A := firstn n (rev (firstn (S k) vs)).

Section Window.
Variables (a h : Z) (m : b64) (ip : interp) (n : nat) (tfm : b64 -> list (option b64) -> res (option b64)) (fuel0 : nat).
Notation V := (option b64).
Notation X i := (fnum (at_i a h i) 0).
Hypothesis ST : step_ok h m.
Hypothesis NP : (0 < n)%nat.
Hypothesis HH : h <= 2 ^ 35.
(** accumulator_map.py:42-68 over a Points object *)
Definition map_tf64 (src : pts b64 V) (p : pts b64 V) (x : b64) (y e : V) : res V :=
  map_scan (MapDegree (Z.of_nat n)) (map_from_x (p_crv src) (Some m)) (fun d => p_sample_points fuel0 src (Some d) (Some m) None) tfm x y.

Lemma prev_single (v : V) src lim : grid_small a h 1 -> on_grid a h 0 [v] src -> p_x_previous src (X 0) (Some m) lim = Ok None.
Proof.
  intros SM O. destruct (dom_k a h [v] [v] SM ltac:(cbn; lia) eq_refl 0 [v] src eq_refl ltac:(cbn; lia) O) as [D E]. unfold p_x_previous. rewrite E. cbn [resolve_min_step].
  assert (i_contains_gen true false (p_dom src) (n_sub (X 0) m) = false) as ->; [|reflexivity].
  pose proof SM as (P & A & B & C).
  destruct (step_real h m (conj P HH) ST) as (mb & -> & FM & RM). destruct (xr a h [v] [v] SM ltac:(cbn; lia) eq_refl 0 ltac:(cbn; lia)) as (xb & EX & FX & RX & AX). rewrite EX in *.
  assert (MU : (0 < bpow radix2 (-17))%R) by apply bpow_gt_0.
  assert (AXR : (Rabs (IZR (at_i a h 0)) <= IZR (2 ^ 35))%R) by (rewrite <- abs_IZR; apply IZR_le; exact AX). apply Rabs_le_inv in AXR.
  assert (HR : (IZR h <= IZR (2 ^ 35))%R) by (apply IZR_le; exact HH). assert (P36 : (IZR (2 ^ 35) + IZR (2 ^ 35) <= IZR (2 ^ 36))%R) by (rewrite <- plus_IZR; apply IZR_le; lia).
  change (@n_sub b64 B64) with (SFsub 53 1024). destruct (sub_val xb mb FX FM) as (y & EY & FY & RY).
  { apply abs_le_100 with (2 ^ 36); [|lia]. rewrite RX. apply Rabs_le. lra. }
  rewrite EY. assert (YB : (B2R y <= IZR (at_i a h 0) - bpow radix2 (-17))%R).
  { rewrite RY, RX. apply round_le_generic; [apply Hexp|apply valid_rnd_N| |].
    - replace (IZR (at_i a h 0) - bpow radix2 (-17))%R with (IZR (at_i a h 0) + IZR (-1) * bpow radix2 (-17))%R by ring. apply format_near; auto.
    - lra. }
  unfold i_contains_gen. rewrite E. rewrite D. unfold above_start. cbn [i_start i_so negb andb orb]. unfold n_gtb. change (@n_ltb b64 B64) with SFltb. change (@n_eqb b64 B64) with SFeqb.
  rewrite ?ltb_val, ?eqb_val by assumption. rewrite Rlt_bool_false, Req_bool_false by lra. reflexivity.
Qed.

Lemma prev_at (vs : list V) (src : pts b64 V) k lim : grid_small a h (length vs) -> on_grid a h 0 vs src -> (k < length vs)%nat ->
  p_x_previous src (X k) (Some m) lim = Ok (match k with O => None | S j => Some (X j) end).
Proof.
  intros SM ON K. destruct (Nat.le_gt_cases 2 (length vs)) as [L2|L1]; [exact (prev_knot a h vs src SM L2 ON k m lim K ST)|].
  destruct vs as [|v [|u vs]]; cbn [length] in *; [lia| |lia]. assert (k = 0%nat) as -> by lia. exact (prev_single v src lim SM ON).
Qed.
(** the points before point [k] *)
Lemma from_x (vs : list V) (src : pts b64 V) : grid_small a h (length vs) -> on_grid a h 0 vs src -> (forall v, In v vs -> v <> None) -> forall j k, (k < length vs)%nat ->
  exists l, spfx_loop py_none (p_crv src) true (Some m) j (X k) = Ok l /\ map snd l = firstn j (rev (firstn k vs)).
Proof.
  intros SM ON SO. induction j as [|j IH]; intros k K; cbn [spfx_loop]; [exists []; split; reflexivity|].
  cbn [p_crv c_prev c_y]. rewrite (prev_at vs src k None SM ON K). cbn [rbind]. destruct k as [|k]; [exists []; split; reflexivity|].
  destruct (nth_error vs k) as [v|] eqn:E; [|apply nth_error_None in E; lia]. rewrite (grid_y a h 0 vs src k v (small_fits a h _ SM) ON E). cbn [rbind].
  assert (NN : py_none v = false) by (destruct v; [reflexivity|exfalso; exact (SO None (nth_error_In _ _ E) eq_refl)]). rewrite NN.
  destruct (IH k ltac:(lia)) as (l & EL & ML). cbn [p_crv] in EL. rewrite EL. cbn [rbind]. eexists. split; [reflexivity|].
  rewrite (firstn_snoc vs k v E), rev_app_distr. cbn [rev app firstn map snd]. rewrite ML. reflexivity.
Qed.
Definition out64 (vs : list V) (k : nat) : V := match tfm (X k) (window64 n vs k) with Ok w => w | Err _ => None end.
Definition outs64 (vs : list V) : list V := map (out64 vs) (seq 0 (length vs)).
Definition ok64 (vs : list V) : Prop := (forall v, In v vs -> v <> None) /\ forall k, (k < length vs)%nat -> exists w, tfm (X k) (window64 n vs k) = Ok w.
Lemma window_app (vs us : list V) k : (k < length vs)%nat -> window64 n (vs ++ us) k = window64 n vs k.
Proof. intros K. unfold window64. rewrite firstn_app. replace (S k - length vs)%nat with O by lia. cbn [firstn]. rewrite app_nil_r. reflexivity. Qed.
Lemma outs_length vs : length (outs64 vs) = length vs.
Proof. unfold outs64. rewrite map_length, seq_length. reflexivity. Qed.
Lemma outs_nth vs k : (k < length vs)%nat -> nth_error (outs64 vs) k = Some (out64 vs k).
Proof. intros K. unfold outs64. rewrite (map_nth_error (out64 vs) k (seq 0 (length vs)) (d := k)); [reflexivity|]. rewrite (nth_error_nth' _ 0%nat) by (rewrite seq_length; exact K). rewrite seq_nth by exact K. reflexivity. Qed.
Lemma outs_prefix vs us k : (k <= length vs)%nat -> firstn k (outs64 (vs ++ us)) = firstn k (outs64 vs).
Proof.
  intros K. unfold outs64. rewrite app_length, seq_app, map_app, firstn_app, map_length, seq_length. replace (k - length vs)%nat with O by lia. cbn [firstn]. rewrite app_nil_r. f_equal.
  apply map_ext_in. intros j J. apply in_seq in J. unfold out64. rewrite window_app by lia. reflexivity.
Qed.
Lemma ok_prefix vs us : ok64 (vs ++ us) -> ok64 vs.
Proof.
  intros [A B]. split; [intros v I; apply A, in_or_app; left; exact I|]. intros k K. destruct (B k) as (w & E); [rewrite app_length; lia|]. rewrite window_app in E by exact K. exists w. exact E.
Qed.
Lemma window_head (vs : list V) k v : nth_error vs k = Some v -> window64 n vs k = v :: firstn (n - 1) (rev (firstn k vs)).
Proof. intros E. unfold window64. rewrite (firstn_snoc vs k v E), rev_app_distr. cbn [rev app]. destruct n as [|n']; [lia|]. cbn [firstn]. replace (S n' - 1)%nat with n' by lia. reflexivity. Qed.
Lemma map_tf_next vs src : ok64 vs -> grid_small a h (length vs) -> on_grid a h 0 vs src ->
  forall k v w p, nth_error vs k = Some v -> nth_error (outs64 vs) k = Some w -> on_grid a h 0 (firstn k (outs64 vs)) p ->
  map_tf64 src p (X k) v (before (outs64 vs) k) = Ok w.
Proof.
  intros [SO OK] SM ON k v w p E EW _. assert (K : (k < length vs)%nat) by (apply nth_error_Some; congruence). rewrite outs_nth in EW by exact K. injection EW as <-.
  destruct (OK k K) as (w & TW). unfold out64. rewrite TW. rewrite (window_head vs k v E) in TW. unfold map_tf64, map_scan.
  assert (MS : resolve_min_step (c_ms (p_crv src)) (Some m) = Some m) by reflexivity.
  destruct (Z.eqb_spec (Z.of_nat n) 1) as [N1|N1]; cbn [negb rbind].
  - replace (n - 1)%nat with O in TW by lia. exact TW.
  - unfold map_from_x, sample_points_from_x. rewrite MS. cbn [negb]. replace (Z.of_nat n - 1 <? 0) with false by (symmetry; apply Z.ltb_ge; lia).
    replace (Z.to_nat (Z.of_nat n - 1)) with (n - 1)%nat by lia. destruct (from_x vs src SM ON SO (n - 1) k K) as (l & -> & ML). cbn [rbind]. rewrite ML. exact TW.
Qed.
Lemma trailing64 vs src q fuel : ok64 vs -> grid_small a h (length vs) -> watch64 a h m ip map_tf64 (fun w => w) vs src q -> (length vs < fuel)%nat ->
  (forall k, (k < length vs)%nat -> snd (y64 m map_tf64 (fun w => w) fuel src q (b64_ofZ (a + Z.of_nat k * h))) = tfm (b64_ofZ (a + Z.of_nat k * h)) (window64 n vs k)) /\
  (forall x, valid_binary 53 1024 x = true -> i_contains (p_dom src) x = false -> snd (y64 m map_tf64 (fun w => w) fuel src q x) = Ok None).
Proof.
  intros OK SM R L. split.
  - intros k K. destruct (proj2 OK k K) as (w & TW). change (b64_ofZ (a + Z.of_nat k * h)) with (X k). rewrite TW.
    apply (watched_knot a h m ip map_tf64 (fun w => w) outs64 ok64 outs_length outs_prefix map_tf_next ok_prefix ST vs src q fuel k w R OK SM L).
    rewrite outs_nth by exact K. unfold out64. rewrite TW. reflexivity.
  - intros x VX C. exact (watched_outside a h m ip map_tf64 (fun w => w) outs64 ok64 outs_length outs_prefix map_tf_next ok_prefix ST vs src q fuel x R OK SM L VX C).
Qed.
End Window.
(** ** min and max of the values in a window *)
Lemma min_fold l : forall b, finite64 b -> Forall finite64 l -> exists r, fold_cmp n_ltb (Some b) (map Some l) = Ok (Some r) /\ In r (b :: l) /\ (val64 r <= val64 b)%R /\ forall y, In y l -> (val64 r <= val64 y)%R.
Proof.
  induction l as [|y l IH]; intros b FB F; cbn [map fold_cmp].
  - exists b. split; [reflexivity|]. split; [left; reflexivity|]. split; [lra|intros y []].
  - inversion_clear F. change (@n_ltb b64 B64) with SFltb in *. destruct (real_of _ FB) as (bb & EB & Fb). destruct (real_of _ H) as (yb & EY & Fy). rewrite EB, EY, ltb_val by assumption. rewrite <- EB, <- EY.
    assert (VB : val64 b = B2R bb) by (rewrite EB; apply val_B2R). assert (VY : val64 y = B2R yb) by (rewrite EY; apply val_B2R).
    destruct (Rlt_bool_spec (B2R yb) (B2R bb)) as [Q|Q].
    + destruct (IH y H H0) as (r & E1 & I1 & L1 & A1). exists r. split; [exact E1|]. split; [right; exact I1|]. split; [lra|]. intros z [<-|Z]; [exact L1|apply A1, Z].
    + destruct (IH b FB H0) as (r & E1 & I1 & L1 & A1). exists r. split; [exact E1|]. split; [destruct I1 as [->|I1]; [left; reflexivity|right; right; exact I1]|]. split; [exact L1|]. intros z [<-|Z]; [lra|apply A1, Z].
Qed.
Lemma max_fold l : forall b, finite64 b -> Forall finite64 l -> exists r, fold_cmp n_gtb (Some b) (map Some l) = Ok (Some r) /\ In r (b :: l) /\ (val64 b <= val64 r)%R /\ forall y, In y l -> (val64 y <= val64 r)%R.
Proof.
  induction l as [|y l IH]; intros b FB F; cbn [map fold_cmp].
  - exists b. split; [reflexivity|]. split; [left; reflexivity|]. split; [lra|intros y []].
  - inversion_clear F. unfold n_gtb in *. change (@n_ltb b64 B64) with SFltb in *. destruct (real_of _ FB) as (bb & EB & Fb). destruct (real_of _ H) as (yb & EY & Fy). rewrite EB, EY, ltb_val by assumption. rewrite <- EB, <- EY.
    assert (VB : val64 b = B2R bb) by (rewrite EB; apply val_B2R). assert (VY : val64 y = B2R yb) by (rewrite EY; apply val_B2R).
    destruct (Rlt_bool_spec (B2R bb) (B2R yb)) as [Q|Q].
    + destruct (IH y H H0) as (r & E1 & I1 & L1 & A1). exists r. split; [exact E1|]. split; [right; exact I1|]. split; [lra|]. intros z [<-|Z]; [exact L1|apply A1, Z].
    + destruct (IH b FB H0) as (r & E1 & I1 & L1 & A1). exists r. split; [exact E1|]. split; [destruct I1 as [->|I1]; [left; reflexivity|right; right; exact I1]|]. split; [exact L1|]. intros z [<-|Z]; [lra|apply A1, Z].
Qed.
Lemma window_map {A B} (f : A -> B) n vs k : window64 n (map f vs) k = map f (window64 n vs k).
Proof. unfold window64. rewrite firstn_map, <- map_rev, firstn_map. reflexivity. Qed.
Lemma firstn_incl {A} k (l : list A) y : In y (firstn k l) -> In y l.
Proof. intros I. rewrite <- (firstn_skipn k l). apply in_or_app. left. exact I. Qed.
Lemma window_incl {A} n (vs : list A) k y : In y (window64 n vs k) -> In y vs.
Proof. unfold window64. intros I. apply firstn_incl in I. apply in_rev in I. exact (firstn_incl _ _ _ I). Qed.
Lemma window_full {A} n (vs : list A) k : (0 < n)%nat -> (k < length vs)%nat -> exists b l, window64 n vs k = b :: l.
Proof.
  intros N K. destruct (nth_error vs k) as [v|] eqn:E; [|apply nth_error_None in E; lia]. unfold window64. rewrite (firstn_snoc vs k v E), rev_app_distr. cbn [rev app].
  destruct n as [|n]; [lia|]. eexists. eexists. reflexivity.
Qed.
(** the window of point [k]: positions [k], [k-1], ..., [n] at most *)
Lemma window_nth {A} n (vs : list A) k y : (k < length vs)%nat -> (In y (window64 n vs k) <-> exists j, (j <= k < j + n)%nat /\ nth_error vs j = Some y).
Proof.
  intros K. unfold window64. split.
  - intros I. apply In_nth_error in I as (i & E). assert (L : (i < length (firstn n (rev (firstn (S k) vs))))%nat) by (apply nth_error_Some; congruence).
    rewrite firstn_length, rev_length, firstn_length in L. rewrite nth_firstn_lt in E by lia. exists (k - i)%nat. split; [lia|].
    apply nth_error_nth with (d := y) in E. rewrite rev_nth in E by (rewrite firstn_length; lia).
    rewrite firstn_length in E. replace (Nat.min (S k) (length vs) - S i)%nat with (k - i)%nat in E by lia.
    rewrite <- (nth_firstn_lt vs (k - i) (S k)) by lia. rewrite nth_error_nth' with (d := y) by (rewrite firstn_length; lia). rewrite E. reflexivity.
  - intros (j & J & E). apply nth_error_In with (k - j)%nat. rewrite nth_firstn_lt by lia.
    rewrite nth_error_nth' with (d := y) by (rewrite rev_length, firstn_length; lia). rewrite rev_nth by (rewrite firstn_length; lia).
    rewrite firstn_length. replace (Nat.min (S k) (length vs) - S (k - j))%nat with j by lia. f_equal. apply nth_error_nth. rewrite nth_firstn_lt by lia. exact E.
Qed.
Definition sel64 (mx : bool) : b64 -> list (option b64) -> res (option b64) := fun _ => if mx then py_max else py_min.
Lemma sel_spec mx x l : l <> [] -> Forall finite64 l -> exists r, sel64 mx x (map Some l) = Ok (Some r) /\ In r l /\ forall y, In y l -> if mx then (val64 y <= val64 r)%R else (val64 r <= val64 y)%R.
Proof.
  destruct l as [|b l]; [contradiction|]. intros _ F. inversion_clear F. destruct mx; cbn [sel64 map py_max py_min].
  - destruct (max_fold l b H H0) as (r & -> & I & L & A). exists r. split; [reflexivity|]. split; [exact I|]. intros y [<-|Y]; auto.
  - destruct (min_fold l b H H0) as (r & -> & I & L & A). exists r. split; [reflexivity|]. split; [exact I|]. intros y [<-|Y]; auto.
Qed.
Lemma sel_ok a h mx n ys : (0 < n)%nat -> Forall finite64 ys -> ok64 a h n (sel64 mx) (map Some ys).
Proof.
  intros NP F. split.
  - intros v I. apply in_map_iff in I as (y & <- & _). discriminate.
  - intros k K. rewrite map_length in K. rewrite window_map. destruct (window_full n ys k NP K) as (b & l & E).
    destruct (sel_spec mx (fnum (at_i a h k) 0) (window64 n ys k)) as (r & ER & _); [rewrite E; discriminate| |eexists; exact ER].
    apply Forall_forall. intros y I. apply (proj1 (Forall_forall _ _) F). exact (window_incl n ys k y I).
Qed.
(** the extreme of the last [n] points, exactly, and attained *)
Lemma extreme64 a h m ip mx n fuel0 ys src q fuel : step_ok h m -> h <= 2 ^ 35 -> (0 < n)%nat -> grid_small a h (length ys) -> Forall finite64 ys ->
  watch64 a h m ip (map_tf64 m n (sel64 mx) fuel0) (fun w => w) (map Some ys) src q -> (length ys < fuel)%nat -> forall k, (k < length ys)%nat ->
  exists r, snd (y64 m (map_tf64 m n (sel64 mx) fuel0) (fun w => w) fuel src q (b64_ofZ (a + Z.of_nat k * h))) = Ok (Some r) /\
    (exists j, (j <= k < j + n)%nat /\ nth_error ys j = Some r) /\
    (forall j y, (j <= k < j + n)%nat -> nth_error ys j = Some y -> if mx then (val64 y <= val64 r)%R else (val64 r <= val64 y)%R).
Proof.
  intros ST HH NP SM F R L k K.
  assert (SM' : grid_small a h (length (map Some ys))) by (rewrite map_length; exact SM). assert (L' : (length (map Some ys) < fuel)%nat) by (rewrite map_length; exact L).
  pose proof (proj1 (trailing64 a h m ip n (sel64 mx) fuel0 ST NP HH (map Some ys) src q fuel (sel_ok a h mx n ys NP F) SM' R L') k ltac:(rewrite map_length; exact K)) as E.
  rewrite E, window_map. destruct (window_full n ys k NP K) as (b & l & EW).
  destruct (sel_spec mx (b64_ofZ (a + Z.of_nat k * h)) (window64 n ys k)) as (r & ER & IR & AR).
  { rewrite EW. discriminate. }
  { apply Forall_forall. intros y I. apply (proj1 (Forall_forall _ _) F). exact (window_incl n ys k y I). }
  exists r. split; [exact ER|]. split; [exact (proj1 (window_nth n ys k r K) IR)|]. intros j y J E'. apply AR. apply (window_nth n ys k y K). exists j. split; assumption.
Qed.
(** between two points a linear curve of extremes stays near the line *)
Lemma extreme_between a h m mx n fuel0 ys src q fuel M : step_ok h m -> h <= 2 ^ 35 -> (0 < n)%nat -> grid_small a h (length ys) -> Forall finite64 ys ->
  watch64 a h m ILinear (map_tf64 m n (sel64 mx) fuel0) (fun w => w) (map Some ys) src q -> (length ys < fuel)%nat ->
  (forall y, In y ys -> (Rabs (val64 y) <= M)%R) -> (M <= bpow radix2 1020)%R ->
  forall i x, (S i < length ys)%nat -> finite64 x -> (IZR (a + Z.of_nat i * h) < val64 x <= IZR (a + Z.of_nat (S i) * h))%R ->
  exists y0 y1 r, snd (y64 m (map_tf64 m n (sel64 mx) fuel0) (fun w => w) fuel src q (b64_ofZ (a + Z.of_nat i * h))) = Ok (Some y0) /\
    snd (y64 m (map_tf64 m n (sel64 mx) fuel0) (fun w => w) fuel src q (b64_ofZ (a + Z.of_nat (S i) * h))) = Ok (Some y1) /\
    snd (y64 m (map_tf64 m n (sel64 mx) fuel0) (fun w => w) fuel src q x) = Ok (Some r) /\ finite64 r /\
    near (2 * INR i + 3) (val64 y0) (val64 y1) ((val64 x - IZR (a + Z.of_nat i * h)) / IZR h) M (val64 r).
Proof.
  intros ST HH NP SM F R L B HM i x I FX XB.
  assert (SM' : grid_small a h (length (map Some ys))) by (rewrite map_length; exact SM). assert (L' : (length (map Some ys) < fuel)%nat) by (rewrite map_length; exact L).
  pose proof (sel_ok a h mx n ys NP F) as OK.
  destruct (extreme64 a h m ILinear mx n fuel0 ys src q fuel ST HH NP SM F R L i ltac:(lia)) as (y0 & E0 & (j0 & _ & J0) & _).
  destruct (extreme64 a h m ILinear mx n fuel0 ys src q fuel ST HH NP SM F R L (S i) I) as (y1 & E1 & (j1 & _ & J1) & _).
  assert (O : forall k y, (k < length ys)%nat -> snd (y64 m (map_tf64 m n (sel64 mx) fuel0) (fun w => w) fuel src q (b64_ofZ (a + Z.of_nat k * h))) = Ok (Some y) -> nth_error (outs64 a h n (sel64 mx) (map Some ys)) k = Some (Some y)).
  { intros k y K E. rewrite outs_nth by (rewrite map_length; exact K). f_equal. unfold out64.
    rewrite (proj1 (trailing64 a h m ILinear n (sel64 mx) fuel0 ST NP HH (map Some ys) src q fuel OK SM' R L') k ltac:(rewrite map_length; exact K)) in E.
    change (fnum (at_i a h k) 0) with (b64_ofZ (a + Z.of_nat k * h)). rewrite E. reflexivity. }
  apply nth_error_In in J0, J1.
  destruct (watched_between a h m (map_tf64 m n (sel64 mx) fuel0) (fun w => w) (outs64 a h n (sel64 mx)) (ok64 a h n (sel64 mx)) (outs_length a h n (sel64 mx)) (outs_prefix a h n (sel64 mx) NP)
    (map_tf_next a h m n (sel64 mx) fuel0 ST NP HH) (ok_prefix a h n (sel64 mx) NP) ST (map Some ys) src q fuel i x y0 y1 M R OK SM' L' (O i y0 ltac:(lia) E0) (O (S i) y1 I E1) FX
    (proj1 (Forall_forall _ _) F _ J0) (proj1 (Forall_forall _ _) F _ J1) XB (B _ J0) (B _ J1) HM) as (r & ER & FR & NR).
  exists y0, y1, r. auto.
Qed.
