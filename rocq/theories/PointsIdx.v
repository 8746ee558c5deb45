(** Facts about the index arithmetic of Points over exact numbers. *)
From Coq Require Import List ZArith QArith Qcanon Bool Lia Lqa Sorting.Sorted Zify ZifyBool.
From Verif Require Import Base Num NumFacts Interval IntervalFacts Curve Points.
Import ListNotations.

(** ** Python indexing *)
Lemma py_nth_pos {A} (l : list A) (i : nat) a :
  nth_error l i = Some a -> py_nth l (Z.of_nat i) = Ok a.
Proof.
  intro H. unfold py_nth.
  assert (i < length l)%nat by (apply nth_error_Some; congruence).
  replace (Z.of_nat i <? 0)%Z with false by lia.
  replace ((Z.of_nat i <? 0) || (Z.of_nat (length l) <=? Z.of_nat i))%Z with false by lia.
  rewrite Nat2Z.id, H. reflexivity.
Qed.

Lemma last_opt_app {A} (l : list A) a : last_opt (l ++ [a]) = Some a.
Proof. unfold last_opt. rewrite rev_app_distr. reflexivity. Qed.

Lemma last_opt_nth {A} (l : list A) : last_opt l = nth_error l (length l - 1).
Proof.
  destruct l as [|a l0] using rev_ind; [reflexivity|].
  rewrite last_opt_app, app_length. simpl.
  rewrite nth_error_app2 by lia. replace (_ - _)%nat with 0%nat by lia. reflexivity.
Qed.

Lemma last_opt_none {A} (l : list A) : last_opt l = None -> l = [].
Proof.
  rewrite last_opt_nth, nth_error_None. destruct l; auto. simpl. lia.
Qed.

Lemma last_opt_cons {A} (a : A) l : exists z, last_opt (a :: l) = Some z.
Proof.
  destruct (last_opt (a :: l)) eqn:E; eauto. apply last_opt_none in E. discriminate.
Qed.

Lemma py_nth_m1 {A} (l : list A) a : last_opt l = Some a -> py_nth l (-1) = Ok a.
Proof.
  intro H. unfold py_nth. rewrite last_opt_nth in H.
  assert (length l - 1 < length l)%nat by (apply nth_error_Some; congruence).
  replace (-1 <? 0)%Z with true by lia.
  replace ((-1 + Z.of_nat (length l) <? 0) || (Z.of_nat (length l) <=? -1 + Z.of_nat (length l)))%Z with false by lia.
  replace (Z.to_nat (-1 + Z.of_nat (length l))) with (length l - 1)%nat by lia.
  rewrite H. reflexivity.
Qed.

(** ** Sorted lists of rationals, by index *)
Definition kq (qs : list Qc) (i : nat) : Qc := nth i qs 0%Qc.
Definition asc (qs : list Qc) : Prop := forall i j, (i < j < length qs)%nat -> (kq qs i < kq qs j)%Qc.

Lemma asc_le qs i j : asc qs -> (i <= j < length qs)%nat -> (kq qs i <= kq qs j)%Qc.
Proof.
  intros H L. destruct (Nat.eq_dec i j) as [->|Hn]; [apply Qcle_refl|].
  apply Qclt_le_weak, H. lia.
Qed.
Lemma asc_inv qs i j : asc qs -> (i < length qs)%nat -> (j < length qs)%nat -> (kq qs i < kq qs j)%Qc -> (i < j)%nat.
Proof.
  intros H Hi Hj L. destruct (Nat.lt_ge_cases i j) as [|G]; auto.
  exfalso. assert (kq qs j <= kq qs i)%Qc by (apply asc_le; auto).
  apply (Qclt_not_le _ _ L). assumption.
Qed.

(** Every number is placed relative to the knots. *)
Lemma locate qs q : (0 < length qs)%nat -> asc qs ->
  (q < kq qs 0)%Qc \/ (kq qs (length qs - 1) < q)%Qc \/
  (exists i, (i < length qs)%nat /\ q = kq qs i) \/
  (exists i, (S i < length qs)%nat /\ (kq qs i < q < kq qs (S i))%Qc).
Proof.
  intros Hn Ha.
  destruct (Qclt_le_dec q (kq qs 0)) as [L|L]; auto.
  destruct (Qclt_le_dec (kq qs (length qs - 1)) q) as [R|R]; auto.
  right; right.
  (* least index whose knot is >= q *)
  assert (E: exists i, (i < length qs)%nat /\ (q <= kq qs i)%Qc /\ forall j, (j < i)%nat -> (kq qs j < q)%Qc).
  { assert (X : forall n, (n < length qs)%nat -> (q <= kq qs n)%Qc ->
       exists i, (i <= n)%nat /\ (q <= kq qs i)%Qc /\ forall j, (j < i)%nat -> (kq qs j < q)%Qc).
    { induction n; intros Hl Hq.
      - exists 0%nat. repeat split; auto. intros; lia.
      - destruct (Qclt_le_dec (kq qs n) q) as [C|C].
        + exists (S n). repeat split; auto. intros j Hj.
          apply Qcle_lt_trans with (kq qs n); auto. apply asc_le; auto. lia.
        + destruct IHn as [i [I1 [I2 I3]]]; auto; try lia. exists i. repeat split; auto. }
    destruct (X (length qs - 1)%nat) as [i [I1 [I2 I3]]]; auto; try lia.
    exists i. repeat split; auto. lia. }
  destruct E as [i [I1 [I2 I3]]].
  apply Qcle_lt_or_eq in I2. destruct I2 as [I2|I2].
  - right. destruct i as [|i].
    + exfalso. apply (Qclt_not_le _ _ I2). exact L.
    + exists i. repeat split; auto.
  - left. exists i. auto.
Qed.

(** ** Points lists with finite, strictly ascending x values *)
Definition knots {V} (l : list (xq * V)) (qs : list Qc) : Prop :=
  map fst l = map Fin qs /\ asc qs.

Lemma knots_len {V} (l : list (xq * V)) qs : knots l qs -> length l = length qs.
Proof. intros [H _]. rewrite <- (map_length fst), H, map_length. reflexivity. Qed.

Lemma knots_nth {V} (l : list (xq * V)) qs i : knots l qs -> (i < length qs)%nat ->
  exists v, nth_error l i = Some (Fin (kq qs i), v).
Proof.
  intros H Hi. pose proof (knots_len _ _ H) as L. destruct H as [H _].
  assert (nth_error (map fst l) i = Some (Fin (kq qs i))).
  { rewrite H. apply map_nth_error. apply nth_error_nth'. exact Hi. }
  rewrite nth_error_map in H0. destruct (nth_error l i) as [[x v]|]; simpl in H0; try discriminate.
  inversion H0. subst. eauto.
Qed.

Lemma knots_nth_inv {V} (l : list (xq * V)) qs i x v : knots l qs ->
  nth_error l i = Some (x, v) -> (i < length qs)%nat /\ x = Fin (kq qs i).
Proof.
  intros H E. assert (i < length l)%nat by (apply nth_error_Some; congruence).
  rewrite (knots_len _ _ H) in H0. split; auto.
  destruct (knots_nth l qs i H H0) as [v' E']. congruence.
Qed.

Lemma knots_py {V} (l : list (xq * V)) qs i : knots l qs -> (i < length qs)%nat ->
  exists v, py_nth l (Z.of_nat i) = Ok (Fin (kq qs i), v) /\ nth_error l i = Some (Fin (kq qs i), v).
Proof.
  intros H Hi. destruct (knots_nth l qs i H Hi) as [v E]. exists v. split; auto.
  now apply py_nth_pos.
Qed.

(** ** Bisection *)
Lemma bisect_loop_spec {V} (l : list (xq * V)) qs q :
  knots l qs -> forall fuel lo hi,
  (Z.to_nat (hi - lo) < fuel)%nat -> (0 <= lo <= hi)%Z -> (hi <= Z.of_nat (length qs))%Z ->
  (forall j, (Z.of_nat j < lo)%Z -> (kq qs j < q)%Qc) ->
  (forall j, (hi <= Z.of_nat j)%Z -> (j < length qs)%nat -> (q <= kq qs j)%Qc) ->
  exists i, bisect_loop fuel l (Fin q) lo hi = Ok (Z.of_nat i) /\ (i <= length qs)%nat /\
     (forall j, (j < i)%nat -> (kq qs j < q)%Qc) /\
     (forall j, (i <= j < length qs)%nat -> (q <= kq qs j)%Qc).
Proof.
  intros K. induction fuel as [|f IH]; intros lo hi Hf Hb Hh Hl Hr; [lia|].
  cbn [bisect_loop]. destruct (lo <? hi)%Z eqn:E.
  - apply Z.ltb_lt in E.
    assert (M : (lo <= (lo + hi) / 2 < hi)%Z) by (split; [apply Z.div_le_lower_bound|apply Z.div_lt_upper_bound]; lia).
    set (mid := ((lo + hi) / 2)%Z) in *. clearbody mid.
    destruct (knots_py l qs (Z.to_nat mid) K) as [v [P _]]; [lia|].
    rewrite Z2Nat.id in P by lia. rewrite P. cbn [rbind fst]. cbn [n_ltb XQ xq_ltb].
    destruct (Qcltb (kq qs (Z.to_nat mid)) q) eqn:C; qb_simpl.
    + apply IH; try lia.
      * intros j Hj. apply Qcle_lt_trans with (kq qs (Z.to_nat mid)); auto.
        apply asc_le; [apply K|]. lia.
      * auto.
    + apply IH; try lia; auto.
      intros j Hj Hj2. apply Qcle_trans with (kq qs (Z.to_nat mid)); auto.
      apply asc_le; [apply K|]. lia.
  - exists (Z.to_nat lo). rewrite Z2Nat.id by lia. repeat split; auto.
    + lia.
    + intros j Hj. apply Hl. lia.
    + intros j Hj. apply Hr; lia.
Qed.

Lemma bisect_spec {V} (l : list (xq * V)) qs q : knots l qs ->
  exists i, bisect_points l (Fin q) = Ok (Z.of_nat i) /\ (i <= length qs)%nat /\
     (forall j, (j < i)%nat -> (kq qs j < q)%Qc) /\
     (forall j, (i <= j < length qs)%nat -> (q <= kq qs j)%Qc).
Proof.
  intros K. unfold bisect_points. rewrite (knots_len _ _ K).
  apply bisect_loop_spec; auto; try lia.
Qed.

(** ** Equal spacing *)
Definition eqspaced (qs : list Qc) : Prop :=
  exists x0 h, (0 < h)%Qc /\ forall i, (i < length qs)%nat -> kq qs i = (x0 + QcofZ (Z.of_nat i) * h)%Qc.

(** ** The index of a number among the knots *)
Inductive idx_rel (qs : list Qc) (q r : Qc) : Prop :=
| ir_below : (q < kq qs 0)%Qc -> (r <= 0)%Qc -> idx_rel qs q r
| ir_above : (kq qs (length qs - 1) < q)%Qc -> (QcofZ (Z.of_nat (length qs) - 1) <= r)%Qc -> idx_rel qs q r
| ir_at i : (i < length qs)%nat -> q = kq qs i -> r = QcofZ (Z.of_nat i) -> idx_rel qs q r
| ir_mid i : (S i < length qs)%nat -> (kq qs i < q < kq qs (S i))%Qc ->
    r = (QcofZ (Z.of_nat i) + (q - kq qs i) / (kq qs (S i) - kq qs i))%Qc -> idx_rel qs q r.

Lemma Qc_div_pos a b : (0 < a)%Qc -> (0 < b)%Qc -> (0 < a / b)%Qc.
Proof.
  intros Ha Hb. unfold Qclt in *. rewrite this_div. apply Qlt_shift_div_l; [exact Hb|]. 
  rewrite Qmult_0_l. exact Ha.
Qed.
Lemma Qc_div_lt1 a b : (a < b)%Qc -> (0 < b)%Qc -> (a / b < 1)%Qc.
Proof.
  intros Ha Hb. unfold Qclt in *. rewrite this_div. apply Qlt_shift_div_r; [exact Hb|].
  rewrite this_1, Qmult_1_l. exact Ha.
Qed.
Lemma Qc_div_le a b c : (0 < b)%Qc -> (a / b <= c <-> a <= c * b)%Qc.
Proof.
  intros Hb. unfold Qcle, Qclt in *. rewrite this_div, this_mul. split; intro H.
  - assert (X : (this a == this a / this b * this b)%Q) by (field; intro E; rewrite E in Hb; revert Hb; apply Qlt_irrefl).
    rewrite X. apply Qmult_le_compat_r; auto. apply Qlt_le_weak; exact Hb.
  - apply Qle_shift_div_r; auto.
Qed.
Lemma Qc_le_div a b c : (0 < b)%Qc -> (c <= a / b <-> c * b <= a)%Qc.
Proof.
  intros Hb. unfold Qcle, Qclt in *. rewrite this_div, this_mul. split; intro H.
  - assert (X : (this a == this a / this b * this b)%Q) by (field; intro E; rewrite E in Hb; revert Hb; apply Qlt_irrefl).
    rewrite X. apply Qmult_le_compat_r; auto. apply Qlt_le_weak; exact Hb.
  - apply Qle_shift_div_l; auto.
Qed.

Lemma Qc_pos_neq0 b : (0 < b)%Qc -> b <> 0%Qc.
Proof. intros H ->. qc_lra. Qed.

Definition n_of_len (n : nat) : Qc := QcofZ (Z.of_nat n).

Lemma span_interval_knots {V} (l : list (xq * V)) qs : knots l qs ->
  span_interval l = Ok (if (length qs <? 2)%nat then None
    else Some (Fin ((kq qs (length qs - 1) - kq qs 0) / QcofZ (Z.of_nat (length qs) - 1)))).
Proof.
  intros K. pose proof (knots_len _ _ K) as L.
  destruct l as [|a [|b l]]; simpl in L.
  - rewrite <- L. reflexivity.
  - rewrite <- L. reflexivity.
  - replace (length qs <? 2)%nat with false by (symmetry; apply Nat.ltb_ge; lia).
    unfold span_interval. rewrite last_opt_nth.
    destruct (knots_nth (a :: b :: l) qs (length (a :: b :: l) - 1) K) as [v E]; [simpl; lia|].
    rewrite E.
    destruct (knots_nth (a :: b :: l) qs 0 K) as [v0 E0]; [simpl; lia|].
    simpl in E0. inversion E0; subst.
    assert (Hlen : length ((Fin (kq qs 0), v0) :: b :: l) = length qs) by (simpl; lia).
    rewrite Hlen in *. cbn [fst n_sub n_ofZ n_div XQ xq_sub xq_div].
    replace (Qceqb (QcofZ (Z.of_nat (length qs) - 1)) 0%Qc) with false.
    + reflexivity.
    + symmetry. apply Qceqb_false. rewrite <- QcofZ_0. rewrite QcofZ_eq. lia.
Qed.

Record pinv {V} (s : pts xq V) (qs : list Qc) : Prop := {
  pi_knots : knots (p_pts s) qs;
  pi_int : span_interval (p_pts s) = Ok (p_int s);
  pi_eq : p_uniform s = true -> eqspaced qs
}.

Lemma x_index_spec {V} (s : pts xq V) qs q : pinv s qs -> (0 < length qs)%nat ->
  exists r, x_index s (Fin q) = Ok (Fin r) /\ idx_rel qs q r.
Proof.
  intros [K I E] Hn. pose proof (knots_len _ _ K) as L.
  rewrite (span_interval_knots _ _ K) in I. injection I as I.
  unfold x_index. destruct (p_uniform s) eqn:U.
  - specialize (E eq_refl). destruct (length qs <? 2)%nat eqn:C.
    + apply Nat.ltb_lt in C. rewrite <- I. exists 0%Qc.
      cbn [n_zero n_ofZ XQ]. split; [unfold n_zero; cbn; now rewrite QcofZ_0|].
      destruct (locate qs q Hn (proj2 K)) as [H|[H|[[i [H1 H2]]|[i [H1 _]]]]].
      * apply ir_below; auto. apply Qcle_refl.
      * apply ir_above; auto. rewrite <- QcofZ_0. apply QcofZ_le. lia.
      * apply (ir_at _ _ _ i); auto. rewrite <- QcofZ_0. f_equal. lia.
      * lia.
    + apply Nat.ltb_ge in C. rewrite <- I.
      destruct E as [x0 [h [Hh Ek]]].
      assert (K0 : kq qs 0 = x0). { rewrite (Ek 0%nat) by lia. change (Z.of_nat 0) with 0%Z. rewrite QcofZ_0. ring. }
      assert (Hd : ((kq qs (length qs - 1) - kq qs 0) / QcofZ (Z.of_nat (length qs) - 1))%Qc = h).
      { rewrite K0, (Ek (length qs - 1)%nat) by lia.
        replace (Z.of_nat (length qs - 1)) with (Z.of_nat (length qs) - 1)%Z by lia.
        field. rewrite <- QcofZ_0. rewrite QcofZ_eq. lia. }
      rewrite Hd. destruct (knots_py _ _ 0 K Hn) as [v [P _]].
      change (Z.of_nat 0) with 0%Z in P. rewrite P. cbn [rbind fst n_sub n_div XQ xq_sub xq_div].
      replace (Qceqb h 0%Qc) with false by (symmetry; apply Qceqb_false; now apply Qc_pos_neq0).
      eexists. split; [reflexivity|].
      assert (Hne : h <> 0%Qc) by now apply Qc_pos_neq0.
      destruct (locate qs q Hn (proj2 K)) as [H|[H|[[i [H1 H2]]|[i [H1 H2]]]]].
      * apply ir_below; auto. apply Qc_div_le; auto. rewrite Qcmult_0_l. qc_lra.
      * apply ir_above; auto. apply Qc_le_div; auto.
        rewrite (Ek (length qs - 1)%nat) in H by lia.
        replace (Z.of_nat (length qs - 1)) with (Z.of_nat (length qs) - 1)%Z in H by lia.
        rewrite K0. set (z := (QcofZ _ * h)%Qc) in *. clearbody z. qc_lra.
      * apply (ir_at _ _ _ i); auto. subst q. rewrite K0, (Ek i) by auto. field. auto.
      * apply (ir_mid _ _ _ i); auto. rewrite K0.
        rewrite (Ek i), (Ek (S i)) by lia.
        replace (Z.of_nat (S i)) with (Z.of_nat i + 1)%Z by lia.
        rewrite QcofZ_add, QcofZ_1.
        replace (x0 + (QcofZ (Z.of_nat i) + 1) * h - (x0 + QcofZ (Z.of_nat i) * h))%Qc with h by ring.
        field. auto.
  - destruct (bisect_spec _ _ q K) as [i1 [B1 [B2 [B3 B4]]]]. rewrite B1. cbn [rbind].
    destruct i1 as [|i].
    + replace (Z.of_nat 0 - 1 <? 0)%Z with true by lia.
      exists (QcofZ 0). split; [reflexivity|].
      assert (q <= kq qs 0)%Qc by (apply B4; lia).
      apply Qcle_lt_or_eq in H. destruct H as [H|H].
      * apply ir_below; auto. rewrite QcofZ_0. apply Qcle_refl.
      * apply (ir_at _ _ _ 0%nat); auto.
    + replace (Z.of_nat (S i) - 1 <? 0)%Z with false by lia.
      rewrite L. destruct (Z.of_nat (length qs) <=? Z.of_nat (S i))%Z eqn:C.
      * eexists. split; [reflexivity|]. apply ir_above.
        -- apply B3. lia.
        -- apply QcofZ_le. lia.
      * replace (Z.of_nat (S i) - 1)%Z with (Z.of_nat i) by lia.
        destruct (knots_py _ _ i K) as [v0 [P0 _]]; [lia|].
        destruct (knots_py _ _ (S i) K) as [v1 [P1 _]]; [lia|].
        rewrite P0, P1. cbn [rbind fst n_sub n_div n_add n_ofZ XQ xq_sub xq_div xq_add].
        assert (D : (0 < kq qs (S i) - kq qs i)%Qc).
        { assert (kq qs i < kq qs (S i))%Qc by (apply K; lia). qc_lra. }
        replace (Qceqb (kq qs (S i) - kq qs i) 0%Qc) with false by (symmetry; apply Qceqb_false; now apply Qc_pos_neq0).
        cbn [rbind]. eexists. split; [reflexivity|].
        assert (H0 : (kq qs i < q)%Qc) by (apply B3; lia).
        assert (H1 : (q <= kq qs (S i))%Qc) by (apply B4; lia).
        apply Qcle_lt_or_eq in H1. destruct H1 as [H1|H1].
        -- apply (ir_mid _ _ _ i); auto. lia.
        -- apply (ir_at _ _ _ (S i)); auto; [lia|]. subst q.
           replace (Z.of_nat (S i)) with (Z.of_nat i + 1)%Z by lia.
           rewrite QcofZ_add, QcofZ_1. field. now apply Qc_pos_neq0.
Qed.

(** floor and ceiling of an index *)
Lemma mid_frac a b q : (a < q < b)%Qc -> (0 < (q - a) / (b - a) < 1)%Qc.
Proof.
  intros [H1 H2]. split; [apply Qc_div_pos | apply Qc_div_lt1]; qc_lra.
Qed.

Lemma floor_mid i u : (0 < u < 1)%Qc -> Qcfloor (QcofZ i + u) = i.
Proof.
  intros [H1 H2]. apply Qcfloor_unique; rewrite ?QcofZ_add, ?QcofZ_1; set (z := QcofZ i) in *; clearbody z; qc_lra.
Qed.
Lemma ceil_mid i u : (0 < u < 1)%Qc -> Qcceiling (QcofZ i + u) = (i + 1)%Z.
Proof.
  intros [H1 H2]. apply Qcceiling_unique.
  - rewrite QcofZ_add, QcofZ_1; set (z := QcofZ i) in *; clearbody z; qc_lra.
  - replace (i + 1 - 1)%Z with i by lia. set (z := QcofZ i) in *; clearbody z; qc_lra.
Qed.
