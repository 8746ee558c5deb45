(** Offsets by steps of a calendar. *)
From Coq Require Import List ZArith QArith Qround Qcanon Bool Lia.
From Verif Require Import Base Num NumFacts Interval IntervalFacts Curve Points PointsSpec PointsDom Combine CombineFacts OffsetDur.
Import ListNotations.

Notation ncrv := (crv xq (option xq)).

(** [g] lists the boundaries of the calendar: floor and ceil go to the nearest
    boundary, step, next and previous move along them *)
Record ticks (K : calendar xq) (g : Z -> Qc) : Prop := {
  tk_inc : forall i j, (i < j)%Z -> (g i < g j)%Qc;
  tk_floor : forall i x, (g i <= x)%Qc -> (x < g (i + 1)%Z)%Qc -> k_floor K (Fin x) = Fin (g i);
  tk_ceil : forall i x, (g (i - 1)%Z < x)%Qc -> (x <= g i)%Qc -> k_ceil K (Fin x) = Fin (g i);
  tk_step : forall i n, k_step K (Fin (g i)) n = Fin (g (i + n)%Z);
  tk_next : forall i, k_next K (Fin (g i)) = Fin (g (i + 1)%Z);
  tk_prev : forall i, k_prev K (Fin (g i)) = Fin (g (i - 1)%Z);
  tk_all : forall x, exists i, (g i <= x)%Qc /\ (x < g (i + 1)%Z)%Qc
}.

Section Facts.
Context (K : calendar xq) (g : Z -> Qc) (TK : ticks K g) (n : Z) (Hn : n <> 0%Z) (c : ncrv).

Lemma res_floor i x k : (g i <= x)%Qc -> (x < g (i + 1)%Z)%Qc -> k <> 0%Z -> res_step K (Fin x) k true = Fin (g (i + k)%Z).
Proof.
  intros A B H. unfold res_step. apply Z.eqb_neq in H. rewrite H, (tk_floor _ _ TK i x A B). apply (tk_step _ _ TK).
Qed.
Lemma res_ceil i x k : (g (i - 1)%Z < x)%Qc -> (x <= g i)%Qc -> k <> 0%Z -> res_step K (Fin x) k false = Fin (g (i + k)%Z).
Proof.
  intros A B H. unfold res_step. apply Z.eqb_neq in H. rewrite H, (tk_ceil _ _ TK i x A B). apply (tk_step _ _ TK).
Qed.
Lemma res_tick i k fl : res_step K (Fin (g i)) k fl = Fin (g (i + k)%Z).
Proof.
  destruct (Z.eq_dec k 0) as [->|H]; [cbn; now rewrite Z.add_0_r|].
  destruct fl; [apply res_floor|apply res_ceil]; auto; try apply Qcle_refl; apply (tk_inc _ _ TK); lia.
Qed.
Lemma g_inj i j : g i = g j -> i = j.
Proof.
  intros E. destruct (Z.lt_trichotomy i j) as [H|[H|H]]; auto; apply (tk_inc _ _ TK) in H; rewrite E in H; exfalso;
    apply Qclt_not_le in H; apply H, Qcle_refl.
Qed.
Lemma fin_eq (a b : Qc) : n_eqb (Fin a) (Fin b) = if Qc_eq_dec a b then true else false.
Proof.
  destruct (Qc_eq_dec a b) as [->|N]; cbn [n_eqb XQ xq_eqb]; [apply Qceqb_true; reflexivity|now apply Qceqb_false].
Qed.

Lemma off_tick i : c_y (d_offset_curve K n c) (Fin (g i)) =
  if i_contains (c_dom c) (Fin (g (i - n)%Z)) then c_y c (Fin (g (i - n)%Z)) else Ok None.
Proof.
  cbn [c_y d_offset_curve]. unfold d_offset_eval, d_unoffset_x. cbn [n_isinf XQ]. rewrite !res_tick.
  change (i + - n)%Z with (i - n)%Z. destruct (i_contains _ _); [|reflexivity]. cbn [negb orb]. rewrite fin_eq.
  destruct (Qc_eq_dec _ _) as [_|X]; [reflexivity|congruence].
Qed.
Lemma off_cell i x : (g i < x)%Qc -> (x < g (i + 1)%Z)%Qc ->
  c_y (d_offset_curve K n c) (Fin x) =
  if i_contains (c_dom c) (Fin (g (i - n)%Z)) && i_contains (c_dom c) (Fin (g (i + 1 - n)%Z)) then
    (let! y0 := c_y c (Fin (g (i - n)%Z)) in
     let! y1 := c_y c (Fin (g (i + 1 - n)%Z)) in
     match y0, y1 with
     | Some y0, Some y1 => let u := Fin ((x - g i) / (g (i + 1)%Z - g i))%Qc in Ok (Some (y0 * (n_one - u) + y1 * u)%num)
     | _, _ => Ok None
     end)
  else Ok None.
Proof.
  intros A B. cbn [c_y d_offset_curve]. unfold d_offset_eval, d_unoffset_x. cbn [n_isinf XQ].
  rewrite (res_floor i x) by (auto using Qclt_le_weak; lia).
  rewrite (res_ceil (i + 1) x) by (try (replace (i + 1 - 1)%Z with i by lia); auto using Qclt_le_weak; lia).
  change (i + - n)%Z with (i - n)%Z. change (i + 1 + - n)%Z with (i + 1 - n)%Z. rewrite <- negb_andb.
  destruct (i_contains (c_dom c) (Fin (g (i - n)%Z)) && i_contains (c_dom c) (Fin (g (i + 1 - n)%Z))); [|reflexivity]. cbn [negb].
  rewrite fin_eq. destruct (Qc_eq_dec _ _) as [X|_]; [apply g_inj in X; lia|].
  destruct (c_y c (Fin (g (i - n)%Z))) as [y0|]; [|reflexivity]. cbn [rbind].
  destruct (c_y c (Fin (g (i + 1 - n)%Z))) as [y1|]; [|reflexivity]. cbn [rbind].
  destruct y0 as [y0|]; [|reflexivity]. destruct y1 as [y1|]; [|reflexivity].
  unfold d_offset_x. cbn [n_isinf XQ]. rewrite !res_tick. replace (i - n + n)%Z with i by lia. replace (i + 1 - n + n)%Z with (i + 1)%Z by lia.
  cbn [n_sub XQ xq_sub n_div]. unfold xq_div.
  rewrite (proj2 (Qceqb_false (g (i + 1)%Z - g i) 0)); [reflexivity|]. intros Z. clear -Z A B. qc_lra.
Qed.
Lemma off_next i x ms lim : (g i <= x)%Qc -> (x < g (i + 1)%Z)%Qc ->
  c_next (d_offset_curve K n c) (Fin x) ms lim =
  Ok (if i_contains (c_dom c) (Fin (g (i + 1 - n)%Z)) then Some (Fin (g (i + 1)%Z)) else None).
Proof.
  intros A B. cbn [c_next d_offset_curve]. unfold d_unoffset_x, d_offset_x. cbn [n_isinf XQ].
  rewrite (res_floor i x) by (auto; lia). rewrite (tk_next _ _ TK). replace (i + - n + 1)%Z with (i + 1 - n)%Z by lia.
  destruct (i_contains _ _); [|reflexivity]. cbn [n_isinf XQ]. rewrite res_tick. now replace (i + 1 - n + n)%Z with (i + 1)%Z by lia.
Qed.
Lemma off_prev i x ms lim : (g (i - 1)%Z < x)%Qc -> (x <= g i)%Qc ->
  c_prev (d_offset_curve K n c) (Fin x) ms lim =
  Ok (if i_contains (c_dom c) (Fin (g (i - 1 - n)%Z)) then Some (Fin (g (i - 1)%Z)) else None).
Proof.
  intros A B. cbn [c_prev d_offset_curve]. unfold d_unoffset_x, d_offset_x. cbn [n_isinf XQ].
  rewrite (res_ceil i x) by (auto; lia). rewrite (tk_prev _ _ TK). replace (i + - n - 1)%Z with (i - 1 - n)%Z by lia.
  destruct (i_contains _ _); [|reflexivity]. cbn [n_isinf XQ]. rewrite res_tick. now replace (i - 1 - n + n)%Z with (i - 1)%Z by lia.
Qed.
Lemma off_dom a b so eo : c_dom c = mkI (Fin (g a)) (Fin (g b)) so eo ->
  c_dom (d_offset_curve K n c) = mkI (Fin (g (a + n)%Z)) (Fin (g (b + n)%Z)) so eo.
Proof.
  intros E. cbn [c_dom d_offset_curve]. rewrite E. unfold d_offset_interval, d_offset_x. cbn [i_start i_end i_so i_eo n_isinf XQ].
  now rewrite !res_tick.
Qed.
Lemma off_upd a b so eo : d_offset_interval K n (mkI (Fin (g a)) (Fin (g b)) so eo) = mkI (Fin (g (a + n)%Z)) (Fin (g (b + n)%Z)) so eo.
Proof. unfold d_offset_interval, d_offset_x. cbn [i_start i_end i_so i_eo n_isinf XQ]. now rewrite !res_tick. Qed.
End Facts.

Lemma off_zero (K : calendar xq) (c : ncrv) x :
  c_y (d_offset_curve K 0 c) (Fin x) = (if i_contains (c_dom c) (Fin x) then c_y c (Fin x) else Ok None) /\
  c_dom (d_offset_curve K 0 c) = mkI (i_start (c_dom c)) (i_end (c_dom c)) (i_so (c_dom c)) (i_eo (c_dom c)).
Proof.
  split.
  - cbn [c_y d_offset_curve]. unfold d_offset_eval, d_unoffset_x, res_step. cbn [n_isinf XQ Z.opp Z.eqb].
    destruct (i_contains _ _); [|reflexivity]. cbn [negb orb]. rewrite fin_eq.
    destruct (Qc_eq_dec _ _) as [_|X]; [reflexivity|congruence].
  - cbn [c_dom d_offset_curve]. unfold d_offset_interval, d_offset_x, res_step. cbn [Z.eqb].
    f_equal; match goal with |- context [if ?b then _ else _] => now destruct b end.
Qed.

(** offsets add up on the boundaries *)
Lemma off_twice K g n k (c : ncrv) a b so eo i : ticks K g -> c_dom c = mkI (Fin (g a)) (Fin (g b)) so eo ->
  c_y (d_offset_curve K k (d_offset_curve K n c)) (Fin (g i)) = c_y (d_offset_curve K (n + k) c) (Fin (g i)).
Proof.
  intros TK D. rewrite !(off_tick K g TK). rewrite (off_dom K g TK n c a b so eo D).
  replace (i - k - n)%Z with (i - (n + k))%Z by lia. rewrite D.
  assert (E : i_contains (mkI (Fin (g (a + n)%Z)) (Fin (g (b + n)%Z)) so eo) (Fin (g (i - k)%Z)) =
              i_contains (mkI (Fin (g a)) (Fin (g b)) so eo) (Fin (g (i - (n + k))%Z))).
  { assert (M : forall x y, (g x < g y)%Qc <-> (x < y)%Z).
    { intros x y. split; [|apply (tk_inc _ _ TK)]. intros L. destruct (Z.lt_trichotomy x y) as [H|[H|H]]; auto; exfalso.
      - subst. apply Qclt_not_le in L. apply L, Qcle_refl.
      - apply (tk_inc _ _ TK) in H. apply Qclt_le_weak in H. now apply Qclt_not_le in L. }
    assert (M' : forall x y, (g x <= g y)%Qc <-> (x <= y)%Z).
    { intros x y. split; intros H.
      - destruct (Z_le_gt_dec x y) as [C|C]; auto. assert (y < x)%Z by lia. apply M in H0. now apply Qclt_not_le in H0.
      - destruct (Z.eq_dec x y) as [->|C]; [apply Qcle_refl|]. apply Qclt_le_weak, M. lia. }
    apply eq_true_iff_eq. rewrite !contains_inq. unfold inq. destruct so, eo; rewrite ?M, ?M'; lia. }
  rewrite E. destruct (i_contains (mkI (Fin (g a)) (Fin (g b)) so eo) _) eqn:F; rewrite ?F; reflexivity.
Qed.

(** ** Durations of a fixed length *)
Definition fixed (o L : Qc) : calendar xq :=
  let fl q := (o + L * QcofZ (Qcfloor ((q - o) / L)))%Qc in
  let ce q := (o + L * QcofZ (Qcceiling ((q - o) / L)))%Qc in
  let on (f : Qc -> Qc) (x : xq) := match x with Fin q => Fin (f q) | _ => x end in
  mkCal (on fl) (on ce) (fun x n => on (fun q => q + L * QcofZ n)%Qc x) (on (fun q => fl q + L)%Qc) (on (fun q => ce q - L)%Qc).

Lemma fixed_ticks o L : (0 < L)%Qc -> ticks (fixed o L) (fun i => o + L * QcofZ i)%Qc.
Proof.
  intros H. assert (NZ : L <> 0%Qc) by (intros Z; rewrite Z in H; qc_lra).
  assert (DV : forall q, (L * ((q - o) / L) = q - o)%Qc) by (intros q; field; auto).
  assert (LT : forall a b, (L * a < L * b)%Qc <-> (a < b)%Qc).
  { intros a b. split; intros X.
    - destruct (Qclt_le_dec a b) as [C|C]; auto. exfalso. qc_nra.
    - qc_nra. }
  assert (LE : forall a b, (L * a <= L * b)%Qc <-> (a <= b)%Qc).
  { intros a b. split; intros X.
    - destruct (Qclt_le_dec b a) as [C|C]; auto. exfalso. qc_nra.
    - qc_nra. }
  assert (FL : forall i x, (o + L * QcofZ i <= x)%Qc -> (x < o + L * QcofZ (i + 1))%Qc -> Qcfloor ((x - o) / L) = i).
  { intros i x A B. specialize (DV x). apply Qcfloor_unique; [apply LE; rewrite DV|apply LT; rewrite DV]; qc_lra. }
  assert (CE : forall i x, (o + L * QcofZ (i - 1) < x)%Qc -> (x <= o + L * QcofZ i)%Qc -> Qcceiling ((x - o) / L) = i).
  { intros i x A B. specialize (DV x). apply Qcceiling_unique; [apply LE; rewrite DV|apply LT; rewrite DV]; qc_lra. }
  assert (IN : forall i j, (i < j)%Z -> (o + L * QcofZ i < o + L * QcofZ j)%Qc).
  { intros i j X. apply QcofZ_lt in X. apply LT in X. qc_lra. }
  split; auto.
  - intros i x A B. cbn [k_floor fixed]. now rewrite (FL i).
  - intros i x A B. cbn [k_ceil fixed]. now rewrite (CE i).
  - intros i n. cbn [k_step fixed]. f_equal. rewrite QcofZ_add. ring.
  - intros i. cbn [k_next fixed]. rewrite (FL i); [|apply Qcle_refl|apply IN; lia]. f_equal. rewrite QcofZ_add, QcofZ_1. ring.
  - intros i. cbn [k_prev fixed]. rewrite (CE i); [|apply IN; lia|apply Qcle_refl]. f_equal.
    replace (i - 1)%Z with (i + - 1)%Z by lia. rewrite QcofZ_add. replace (QcofZ (- 1)) with (- (1))%Qc by (apply Qc_is_canon; reflexivity). ring.
  - intros x. exists (Qcfloor ((x - o) / L)). destruct (Qcfloor_spec ((x - o) / L)) as [A B].
    apply LE in A. apply LT in B. rewrite DV in A, B. split; qc_lra.
Qed.
