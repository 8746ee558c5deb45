(** The golden degrees are the Lucas numbers. *)
From Coq Require Import List ZArith Reals Lra Lia.
From Flocq Require Import Core.
From Verif Require Import Base Harmonic.
Import ListNotations.
Open Scope R_scope.

(** Lucas numbers: 2, 1, 3, 4, 7, 11, ... *)
Fixpoint lucas (n : nat) : Z :=
  match n with
  | O => 2
  | S n' => match n' with O => 1 | S n'' => (lucas n' + lucas n'')%Z end
  end.
(** The nearest integer to the [n]th power of the golden ratio. *)
Definition gold_degree (n : nat) : Z := match n with O => 1%Z | 1%nat => 2%Z | _ => lucas n end.

Definition conj_gold : R := (1 - sqrt 5) / 2.
Lemma sqrt5 : sqrt 5 * sqrt 5 = 5.
Proof. apply sqrt_sqrt. lra. Qed.
Lemma sqrt5_bounds : 2.2 < sqrt 5 < 2.3.
Proof.
  split.
  - rewrite <- (sqrt_Rsqr 2.2) by lra. apply sqrt_lt_1_alt. unfold Rsqr. lra.
  - rewrite <- (sqrt_Rsqr 2.3) by lra. apply sqrt_lt_1_alt. unfold Rsqr. lra.
Qed.
Lemma golden_sq : golden * golden = golden + 1.
Proof. unfold golden. pose proof sqrt5. lra. Qed.
Lemma conj_sq : conj_gold * conj_gold = conj_gold + 1.
Proof. unfold conj_gold. pose proof sqrt5. lra. Qed.
Lemma golden_bounds : 1.6 < golden < 1.65.
Proof. unfold golden. pose proof sqrt5_bounds. lra. Qed.
Lemma conj_bounds : -0.65 < conj_gold < -0.6.
Proof. unfold conj_gold. pose proof sqrt5_bounds. lra. Qed.

Lemma binet n : golden ^ n + conj_gold ^ n = IZR (lucas n) /\ golden ^ S n + conj_gold ^ S n = IZR (lucas (S n)).
Proof.
  induction n as [|n [ A B ]].
  - cbn. unfold golden, conj_gold. split; lra.
  - split; [ exact B | ]. change (lucas (S (S n))) with (lucas (S n) + lucas n)%Z. rewrite plus_IZR, <- A, <- B.
    change (golden ^ S (S n)) with (golden * (golden * golden ^ n)). change (conj_gold ^ S (S n)) with (conj_gold * (conj_gold * conj_gold ^ n)).
    cbn [pow]. rewrite <- !Rmult_assoc, golden_sq, conj_sq. ring.
Qed.
Lemma conj_small n : Rabs (conj_gold ^ S (S n)) < / 2.
Proof.
  pose proof conj_bounds as B.
  assert (Q : 0 <= conj_gold * conj_gold <= 0.4225).
  { rewrite conj_sq. lra. }
  assert (H : Rabs (conj_gold ^ n) <= 1).
  { rewrite <- RPow_abs. assert (0 <= Rabs conj_gold <= 1) by (rewrite Rabs_left by lra; lra).
    clear -H. induction n as [|n IH]; cbn [pow]; [ lra | ]. pose proof (pow_le (Rabs conj_gold) n (proj1 H)). nra. }
  change (conj_gold ^ S (S n)) with (conj_gold * (conj_gold * conj_gold ^ n)). rewrite <- Rmult_assoc, Rabs_mult.
  rewrite (Rabs_pos_eq (conj_gold * conj_gold)) by apply Q. pose proof (Rabs_pos (conj_gold ^ n)). nra.
Qed.
Lemma gold_near n : Rabs (golden ^ n - IZR (gold_degree n)) < / 2.
Proof.
  destruct n as [|[|n]].
  - cbn. rewrite Rminus_diag_eq, Rabs_R0 by reflexivity. lra.
  - cbn. pose proof golden_bounds. apply Rabs_def1; lra.
  - change (gold_degree (S (S n))) with (lucas (S (S n))). rewrite <- (proj1 (binet (S (S n)))).
    replace (golden ^ S (S n) - (golden ^ S (S n) + conj_gold ^ S (S n))) with (- conj_gold ^ S (S n)) by ring.
    rewrite Rabs_Ropp. apply conj_small.
Qed.
Lemma gold_round n : ZnearestE (golden ^ n) = gold_degree n.
Proof. apply Znearest_imp, gold_near. Qed.

(** *** Growth *)
Lemma lucas_pos n : (1 <= lucas n)%Z /\ (1 <= lucas (S n))%Z.
Proof. induction n as [|n [ A B ]]; [ cbn; lia | ]. split; [ exact B | ]. change (lucas (S (S n))) with (lucas (S n) + lucas n)%Z. lia. Qed.
Lemma gold_step n : (gold_degree n < gold_degree (S n))%Z.
Proof.
  destruct n as [|[|n]]; [ reflexivity | reflexivity | ].
  change (gold_degree (S (S (S n)))) with (lucas (S (S n)) + lucas (S n))%Z. change (gold_degree (S (S n))) with (lucas (S (S n))).
  pose proof (lucas_pos n). lia.
Qed.
Lemma gold_mono n m : (n < m)%nat -> (gold_degree n < gold_degree m)%Z.
Proof. induction 1 as [|m H IH]; [ apply gold_step | ]. pose proof (gold_step m). lia. Qed.
Lemma gold_pos n : (1 <= gold_degree n)%Z.
Proof. induction n as [|n IH]; [ cbn; lia | ]. pose proof (gold_step n). lia. Qed.

(** *** The degrees *)
Lemma period_ok base (s i : nat) : base <> 0 -> period_of base (Z.of_nat i * (Z.of_nat s + 1)) = Ok (IZR (gold_degree (i * (s + 1))) * base).
Proof.
  intro H. unfold period_of. destruct (Req_EM_T base 0); [ contradiction | ].
  replace (Z.of_nat i * (Z.of_nat s + 1))%Z with (Z.of_nat (i * (s + 1))) by lia. rewrite <- pow_powerRZ.
  replace (base * golden ^ (i * (s + 1)) / base) with (golden ^ (i * (s + 1))) by (field; exact H).
  now rewrite gold_round.
Qed.
Lemma rmapM_ok {A B} (f : A -> res B) (h : A -> B) l : (forall a, In a l -> f a = Ok (h a)) -> rmapM f l = Ok (map h l).
Proof.
  induction l as [|a l IH]; intro H; [ reflexivity | ]. cbn [rmapM map]. rewrite (H a (or_introl eq_refl)). cbn [rbind].
  rewrite IH by (intros; apply H; now right). reflexivity.
Qed.
Lemma harmonic_points (b : Z) (count s : nat) : (1 <= b)%Z ->
  harmonic_smas (IZR b) count (Z.of_nat s) false = Ok (map (fun i => Points (b * gold_degree (i * (s + 1)))) (seq 0 count)).
Proof.
  intro H. unfold harmonic_smas. rewrite (rmapM_ok _ (fun i => IZR (gold_degree (i * (s + 1))) * IZR b)).
  2:{ intros i _. apply period_ok. apply not_0_IZR. lia. }
  cbn [rbind]. rewrite (rmapM_ok _ (fun d => Points (Ztrunc d))).
  - f_equal. rewrite List.map_map. apply map_ext. intro i. f_equal. rewrite <- mult_IZR, Ztrunc_IZR. ring.
  - intros d Hd. apply in_map_iff in Hd. destruct Hd as (i & <- & _). unfold new_sma. rewrite <- mult_IZR, Ztrunc_IZR.
    pose proof (gold_pos (i * (s + 1))). replace (_ <=? 0)%Z with false by (symmetry; apply Z.leb_gt; nia). reflexivity.
Qed.
Lemma harmonic_periods (b : R) (count s : nat) : 0 < b ->
  harmonic_smas b count (Z.of_nat s) true = Ok (map (fun i => Period (IZR (gold_degree (i * (s + 1))) * b)) (seq 0 count)).
Proof.
  intro H. unfold harmonic_smas. rewrite (rmapM_ok _ (fun i => IZR (gold_degree (i * (s + 1))) * b)).
  2:{ intros i _. apply period_ok. lra. }
  cbn [rbind]. rewrite (rmapM_ok _ Period).
  - f_equal. now rewrite List.map_map.
  - intros d Hd. apply in_map_iff in Hd. destruct Hd as (i & <- & _). unfold new_sma.
    pose proof (gold_pos (i * (s + 1))) as P. apply IZR_le in P. destruct (Rle_dec _ 0) as [ K | ]; [ exfalso; nra | reflexivity ].
Qed.

(** *** centered_macs is the other way round *)
Lemma inserted_rev base step : forall is acc,
  inserted base step acc is = let! ps := rmapM (fun i => period_of base (Z.of_nat i * step)) is in Ok (rev ps ++ acc).
Proof.
  induction is as [|i is IH]; intro acc; [ reflexivity | ]. cbn [inserted rmapM].
  destruct (period_of base (Z.of_nat i * step)) as [ p | e ]; [ | reflexivity ]. cbn [rbind]. rewrite IH.
  destruct (rmapM _ is) as [ ps | e ]; [ | reflexivity ]. cbn [rbind rev]. now rewrite <- app_assoc.
Qed.
Lemma rmapM_app {A B} (f : A -> res B) l m : rmapM f (l ++ m) = let! a := rmapM f l in let! b := rmapM f m in Ok (a ++ b).
Proof.
  induction l as [|x l IH]; cbn [app rmapM rbind]; [ now destruct (rmapM f m) | ].
  destruct (f x) as [ y | e ]; [ | reflexivity ]. cbn [rbind]. rewrite IH. destruct (rmapM f l); [ | reflexivity ]. cbn [rbind].
  now destruct (rmapM f m).
Qed.
Lemma rmapM_rev {A B} (f : A -> res B) l r : rmapM f l = Ok r <-> rmapM f (rev l) = Ok (rev r).
Proof.
  assert (G : forall l r, rmapM f l = Ok r -> rmapM f (rev l) = Ok (rev r)).
  { clear. induction l as [|x l IH]; intros r H; [ now injection H as <- | ]. cbn [rmapM] in H.
    destruct (f x) as [ y | ] eqn:E; [ | discriminate ]. cbn [rbind] in H. destruct (rmapM f l) as [ s | ] eqn:El; [ | discriminate ].
    injection H as <-. cbn [rev]. rewrite rmapM_app, (IH s eq_refl). cbn [rmapM rbind]. rewrite E. reflexivity. }
  split; [ apply G | ]. intro H. rewrite <- (rev_involutive l), <- (rev_involutive r). now apply G.
Qed.
Lemma centered_reversed base count stride p r :
  harmonic_smas base count stride p = Ok r <-> centered_macs base count stride p = Ok (rev r).
Proof.
  unfold harmonic_smas, centered_macs. rewrite inserted_rev. destruct (rmapM _ (seq 0 count)) as [ ps | e ]; cbn [rbind]; [ | split; discriminate ].
  rewrite app_nil_r. apply rmapM_rev.
Qed.

(** *** Strides that count backwards *)
Lemma powerRZ_inv_golden : powerRZ golden (-2) < / 2.
Proof.
  pose proof golden_bounds. change (powerRZ golden (-2)) with (/ (golden ^ 2)). replace (golden ^ 2) with (golden + 1) by (rewrite <- golden_sq; ring).
  apply Rinv_lt_contravar; lra.
Qed.
Lemma backwards_raises base count p : base <> 0 -> (3 <= count)%nat -> exists e, harmonic_smas base count (-2) p = Err e.
Proof.
  intros H C. unfold harmonic_smas.
  assert (G : forall l, exists ps, rmapM (fun i => period_of base (Z.of_nat i * (-2 + 1))) l = Ok ps).
  { induction l as [|i l (ps & IH)]; [ now exists [] | ]. cbn [rmapM]. unfold period_of at 1. destruct (Req_EM_T base 0); [ contradiction | ].
    cbn [rbind]. rewrite IH. cbn [rbind]. eauto. }
  destruct count as [|[|[|count]]]; try lia. cbn [seq rmapM].
  destruct (G (seq 3 count)) as (ps & E).
  unfold period_of at 1 2 3. destruct (Req_EM_T base 0); [ contradiction | ]. cbn [rbind]. rewrite E. cbn [rbind].
  assert (Z : IZR (ZnearestE (base * powerRZ golden (Z.of_nat 2 * (-2 + 1)) / base)) * base = 0).
  { change (Z.of_nat 2 * (-2 + 1))%Z with (-2)%Z. replace (base * powerRZ golden (-2) / base) with (powerRZ golden (-2)) by (field; exact H).
    rewrite (Znearest_imp _ (powerRZ golden (-2)) 0); [ ring | ]. rewrite Rminus_0_r, Rabs_pos_eq; [ apply powerRZ_inv_golden | ].
    apply powerRZ_le. pose proof golden_bounds. lra. }
  rewrite Z. cbn [rmapM]. destruct (new_sma p _) as [ a | e ]; cbn [rbind]; [ | eauto ]. destruct (new_sma p _) as [ b | e ]; cbn [rbind]; [ | eauto ].
  assert (N0 : new_sma p 0 = Err EExc).
  { unfold new_sma. destruct p; [ destruct (Rle_dec 0 0); [ reflexivity | lra ] | ]. now rewrite Ztrunc_IZR. }
  rewrite N0. cbn [rbind]. eauto.
Qed.

(** *** From small to large *)
Definition degree_of (a : sma_arg) : R := match a with Period p => p | Points n => IZR n end.
Lemma harmonic_increasing (base : R) count (s : nat) (p : bool) r : (if p then 0 < base else exists b, base = IZR b /\ (1 <= b)%Z) ->
  harmonic_smas base count (Z.of_nat s) p = Ok r ->
  forall i j a b, (i < j)%nat -> nth_error r i = Some a -> nth_error r j = Some b -> degree_of a < degree_of b.
Proof.
  intros H E i j a b Hij Ha Hb.
  assert (G : exists k : R, 0 < k /\ map degree_of r = map (fun i => IZR (gold_degree (i * (s + 1))) * k) (seq 0 count)).
  { destruct p.
    - rewrite harmonic_periods in E by exact H. injection E as <-. exists base. split; [ exact H | ]. now rewrite List.map_map.
    - destruct H as (z & -> & Hz). rewrite harmonic_points in E by exact Hz. injection E as <-. exists (IZR z). split; [ apply IZR_lt; lia | ].
      rewrite List.map_map. apply map_ext. intro n. cbn [degree_of]. rewrite mult_IZR. ring. }
  destruct G as (k & Hk & G).
  assert (N : forall n c, nth_error r n = Some c -> degree_of c = IZR (gold_degree (n * (s + 1))) * k).
  { intros n c Hc. pose proof (map_nth_error degree_of n r Hc) as M. rewrite G in M.
    assert (Hn : (n < count)%nat).
    { assert (Q : nth_error (map (fun i => IZR (gold_degree (i * (s + 1))) * k) (seq 0 count)) n <> None) by (rewrite M; discriminate).
      apply nth_error_Some in Q. now rewrite map_length, seq_length in Q. }
    rewrite (map_nth_error _ n (seq 0 count) (d := n)) in M; [ congruence | ].
    rewrite (nth_error_nth' _ 0%nat) by now rewrite seq_length. now rewrite seq_nth. }
  rewrite (N i a Ha), (N j b Hb). apply Rmult_lt_compat_r; [ exact Hk | ]. apply IZR_lt, gold_mono. nia.
Qed.
Lemma harmonic_zero count stride p : (1 <= count)%nat -> harmonic_smas 0 count stride p = Err EZeroDiv.
Proof. intro H. destruct count; [ lia | ]. unfold harmonic_smas. cbn [seq rmapM]. unfold period_of. destruct (Req_EM_T 0 0); [ reflexivity | congruence ]. Qed.
Lemma harmonic_fraction base count (s : nat) : 0 < base < 1 -> (1 <= count)%nat -> harmonic_smas base count (Z.of_nat s) false = Err EExc.
Proof.
  intros H C. unfold harmonic_smas. rewrite (rmapM_ok _ (fun i => IZR (gold_degree (i * (s + 1))) * base)).
  2:{ intros i _. apply period_ok. lra. }
  cbn [rbind]. destruct count; [ lia | ]. cbn [seq map rmapM]. change (0 * (s + 1))%nat with 0%nat. cbn [gold_degree].
  unfold new_sma at 1. rewrite Ztrunc_floor by lra. rewrite (Zfloor_imp 0) by (cbn; lra). reflexivity.
Qed.
