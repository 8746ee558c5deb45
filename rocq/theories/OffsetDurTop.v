(** Offsets by calendar steps as curves of points. *)
From Coq Require Import List ZArith QArith Qround Qcanon Bool Lia.
From Verif Require Import Base Num NumFacts Interval IntervalFacts Curve Points PointsSpec PointsOps PointsDec PointsDom Combine CombineFacts.
From Verif Require Import Scan ScanFacts ScanSource ScanInv ScanTf SmaFacts SmaInv ScanTop OffsetDur OffsetDurFacts.
Import ListNotations.

(** the points at the boundaries [a + p], ..., [a + len - 1] *)
Definition placed (g : Z -> Qc) (a : Z) (v : nat -> Qc) (p len : nat) : list (Qc * Qc) :=
  map (fun k => (g (a + Z.of_nat k)%Z, v k)) (seq p (len - p)).
Lemma placed_len g a v p len : length (placed g a v p len) = (len - p)%nat.
Proof. unfold placed. now rewrite map_length, seq_length. Qed.
Lemma placed_nth g a v p len k : (k < len - p)%nat -> nth_error (placed g a v p len) k = Some (g (a + Z.of_nat (p + k))%Z, v (p + k)%nat).
Proof.
  intros L. unfold placed. rewrite nth_error_map. rewrite (nth_error_nth' _ 0%nat) by now rewrite seq_length. now rewrite seq_nth.
Qed.
Lemma placed_x g a v p len k : (k < len - p)%nat -> at_x (placed g a v p len) k = g (a + Z.of_nat (p + k))%Z.
Proof. intros L. unfold at_x. now rewrite (nth_error_nth _ _ _ (placed_nth g a v p len k L)). Qed.
Lemma placed_y g a v p len k : (k < len - p)%nat -> at_y (placed g a v p len) k = v (p + k)%nat.
Proof. intros L. unfold at_y. now rewrite (nth_error_nth _ _ _ (placed_nth g a v p len k L)). Qed.

Section Top.
Context (K : calendar xq) (g : Z -> Qc) (TK : ticks K g) (n : Z) (Hn : n <> 0%Z).

Lemma g_lt x y : (g x < g y)%Qc <-> (x < y)%Z.
Proof.
  split; [|apply (tk_inc _ _ TK)]. intros L. destruct (Z.lt_trichotomy x y) as [H|[H|H]]; auto; exfalso.
  - subst. apply Qclt_not_le in L. apply L, Qcle_refl.
  - apply (tk_inc _ _ TK) in H. apply Qclt_le_weak in H. now apply Qclt_not_le in L.
Qed.
Lemma g_le x y : (g x <= g y)%Qc <-> (x <= y)%Z.
Proof.
  split; intros H.
  - destruct (Z_le_gt_dec x y) as [C|C]; auto. assert (y < x)%Z by lia. apply g_lt in H0. now apply Qclt_not_le in H0.
  - destruct (Z.eq_dec x y) as [->|C]; [apply Qcle_refl|]. apply Qclt_le_weak, g_lt. lia.
Qed.
Lemma g_in a b i : i_contains (mkI (Fin (g a)) (Fin (g b)) false false) (Fin (g i)) = ((a <=? i) && (i <=? b))%Z.
Proof. apply eq_true_iff_eq. rewrite contains_inq, andb_true_iff, !Z.leb_le. unfold inq. rewrite !g_le. reflexivity. Qed.

(** a curve that is None at the first [p] boundaries of its domain and has the
    values [v] at the others *)
Lemma off_traces (c : ncrv) a v p len : (1 <= len)%nat -> (p <= len)%nat ->
  c_dom c = mkI (Fin (g a)) (Fin (g (a + Z.of_nat (len - 1))%Z)) false false ->
  (forall k, (k < p)%nat -> c_y c (Fin (g (a + Z.of_nat k)%Z)) = Ok None) ->
  (forall k, (p <= k < len)%nat -> c_y c (Fin (g (a + Z.of_nat k)%Z)) = Ok (Some (Fin (v k)))) ->
  traces ILinear (placed g (a + n) v p len) (c_y (d_offset_curve K n c)).
Proof.
  intros L P D NO SO. split; [|split].
  - intros k Hk. rewrite placed_len in Hk. rewrite placed_x, placed_y by auto.
    rewrite (off_tick K g TK), D, g_in. replace (a + n + Z.of_nat (p + k) - n)%Z with (a + Z.of_nat (p + k))%Z by lia.
    rewrite (proj2 (andb_true_iff _ _)) by (rewrite !Z.leb_le; lia). apply SO. lia.
  - intros j q Hj A B. rewrite placed_len in Hj. unfold blend_at. rewrite !placed_x, !placed_y in * by lia.
    replace (a + n + Z.of_nat (p + S j))%Z with (a + n + Z.of_nat (p + j) + 1)%Z in * by lia.
    rewrite (off_cell K g TK n Hn c _ q A B), D, !g_in.
    replace (a + n + Z.of_nat (p + j) - n)%Z with (a + Z.of_nat (p + j))%Z by lia.
    replace (a + n + Z.of_nat (p + j) + 1 - n)%Z with (a + Z.of_nat (p + S j))%Z by lia.
    rewrite (proj2 (andb_true_iff _ _)) by (rewrite !andb_true_iff, !Z.leb_le; lia).
    rewrite !SO by lia. cbn [rbind]. cbv zeta. set (u := (_ / _)%Qc). change (@n_one xq XQ) with (Fin 1%Qc). cbn [n_mul n_sub n_add XQ xq_mul xq_sub xq_add].
    do 3 f_equal. ring.
  - intros q X. destruct (tk_all _ _ TK q) as (i & A & B).
    destruct (Qc_eq_dec (g i) q) as [E|E].
    + subst q. rewrite (off_tick K g TK), D, g_in.
      destruct ((a <=? i - n) && (i - n <=? a + Z.of_nat (len - 1)))%Z eqn:C; [|reflexivity].
      rewrite andb_true_iff, !Z.leb_le in C. replace (i - n)%Z with (a + Z.of_nat (Z.to_nat (i - n - a)))%Z by lia.
      apply NO. rewrite placed_len in X.
      destruct (Nat.lt_ge_cases (Z.to_nat (i - n - a)) p) as [|G]; auto. exfalso.
      assert (S : (Z.to_nat (i - n - a) - p < len - p)%nat) by lia.
      destruct X as [X|X]; specialize (X _ S); rewrite placed_x in X by auto; apply (proj1 (g_lt _ _)) in X; lia.
    + assert (A' : (g i < q)%Qc) by (destruct (Qcle_lt_or_eq _ _ A); auto; contradiction).
      rewrite (off_cell K g TK n Hn c _ q A' B), D, !g_in.
      destruct ((a <=? i - n) && (i - n <=? a + Z.of_nat (len - 1)))%Z eqn:C; [|reflexivity]. cbn [andb].
      destruct ((a <=? i + 1 - n) && (i + 1 - n <=? a + Z.of_nat (len - 1)))%Z eqn:C'; [|reflexivity].
      rewrite andb_true_iff, !Z.leb_le in C, C'.
      replace (i + 1 - n)%Z with (a + Z.of_nat (Z.to_nat (i + 1 - n - a)))%Z by lia.
      replace (i - n)%Z with (a + Z.of_nat (Z.to_nat (i - n - a)))%Z by lia.
      assert (LO : (Z.to_nat (i - n - a) < p)%nat).
      { destruct (Nat.lt_ge_cases (Z.to_nat (i - n - a)) p) as [|G]; auto. exfalso. rewrite placed_len in X.
        destruct X as [X|X].
        - specialize (X (Z.to_nat (i - n - a) - p)%nat ltac:(lia)). rewrite placed_x in X by lia.
          replace (a + n + Z.of_nat (p + (Z.to_nat (i - n - a) - p)))%Z with i in X by lia. now apply Qclt_not_le in X.
        - specialize (X (Z.to_nat (i + 1 - n - a) - p)%nat ltac:(lia)). rewrite placed_x in X by lia.
          replace (a + n + Z.of_nat (p + (Z.to_nat (i + 1 - n - a) - p)))%Z with (i + 1)%Z in X by lia.
          apply Qclt_le_weak in X. now apply Qclt_not_le in B. }
      rewrite (NO _ LO). cbn [rbind].
      destruct (Nat.lt_ge_cases (Z.to_nat (i + 1 - n - a)) p) as [G|G]; [rewrite NO by lia|rewrite SO by lia]; reflexivity.
Qed.

(** if the source only changed inside [D], the offset curve keeps its value
    wherever the surrounding boundaries are outside the announced interval *)
Lemma off_announced (c c' : ncrv) a b so eo i x :
  (forall j, i_contains (mkI (Fin (g a)) (Fin (g b)) so eo) (Fin (g j)) = false ->
     i_contains (c_dom c) (Fin (g j)) = i_contains (c_dom c') (Fin (g j)) /\ c_y c (Fin (g j)) = c_y c' (Fin (g j))) ->
  let A := d_offset_interval K n (mkI (Fin (g a)) (Fin (g b)) so eo) in
  (g i <= x)%Qc -> (x < g (i + 1)%Z)%Qc -> i_contains A (Fin (g i)) = false ->
  (g i = x \/ i_contains A (Fin (g (i + 1)%Z)) = false) ->
  c_y (d_offset_curve K n c') (Fin x) = c_y (d_offset_curve K n c) (Fin x).
Proof.
  intros SAME A L U O1 O2. unfold A in *. rewrite (off_upd K g TK) in O1, O2.
  assert (TR : forall j, i_contains (mkI (Fin (g (a + n)%Z)) (Fin (g (b + n)%Z)) so eo) (Fin (g j)) =
                         i_contains (mkI (Fin (g a)) (Fin (g b)) so eo) (Fin (g (j - n)%Z))).
  { intros j. apply eq_true_iff_eq. rewrite !contains_inq. unfold inq. destruct so, eo; rewrite ?g_lt, ?g_le; lia. }
  rewrite TR in O1. destruct (SAME _ O1) as [D1 Y1].
  destruct (Qc_eq_dec (g i) x) as [E|E].
  - subst x. rewrite !(off_tick K g TK), D1, Y1. reflexivity.
  - destruct O2 as [O2|O2]; [contradiction|]. rewrite TR in O2. destruct (SAME _ O2) as [D2 Y2].
    assert (L' : (g i < x)%Qc) by (destruct (Qcle_lt_or_eq _ _ L); auto; contradiction).
    rewrite !(off_cell K g TK n Hn _ _ x L' U), D1, Y1, D2, Y2. reflexivity.
Qed.
Lemma off_slope (c : ncrv) i fw ms lim : d_offset_d_y K n c (Fin (g i)) fw ms lim =
  if i_contains (c_dom c) (Fin (g (i - n)%Z)) then d_y c (Fin (g (i - n)%Z)) fw ms lim else Ok None.
Proof.
  unfold d_offset_d_y, d_offset_eval, d_unoffset_x. cbn [n_isinf XQ]. rewrite !(res_tick K g TK).
  change (i + - n)%Z with (i - n)%Z. destruct (i_contains _ _); [|reflexivity]. cbn [negb orb]. rewrite fin_eq.
  destruct (Qc_eq_dec _ _) as [_|X]; [reflexivity|congruence].
Qed.
End Top.
