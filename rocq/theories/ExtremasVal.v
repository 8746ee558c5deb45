(** Reading the extremas: the interval, the interpolated value, the index and the
    steps between extremas. *)
From Coq Require Import List ZArith QArith Qcanon Bool Lia Sorting.Sorted.
From Verif Require Import Base Num NumFacts Interval Curve Points PointsSpec PointsIdx PointsOps PointsQuery PointsReset Combine Scan ScanInv Extremas ExtremasFold ExtremasUniq.
Import ListNotations.
Open Scope Qc_scope.

Definition fop (p : Qc * Qc) : xq * option xq := (Fin (fst p), Some (Fin (snd p))).
Definition qx (es : list (Qc * Qc)) : list Qc := map fst es.

Lemma sorted_asc es : StronglySorted xlt es -> asc (qx es).
Proof.
  unfold asc, kq, qx. induction 1 as [|p es H IH F]; cbn; intros i j L; [lia|].
  destruct j as [|j]; [lia|]. destruct i as [|i].
  - rewrite Forall_forall in F. rewrite map_length in L.
    destruct (nth_error es j) as [q|] eqn:E; [|apply nth_error_None in E; lia].
    rewrite (nth_error_nth _ j 0 (map_nth_error fst _ _ E)). apply F. eapply nth_error_In; eauto.
  - apply IH. lia.
Qed.
Lemma ext_knots es : StronglySorted xlt es -> knots (map fqp es) (qx es).
Proof. intros A. split; [|now apply sorted_asc]. unfold qx. rewrite !List.map_map. reflexivity. Qed.

Lemma head_map {A B} (f : A -> B) l : head_opt (map f l) = option_map f (head_opt l).
Proof. destruct l; reflexivity. Qed.
Lemma last_map {A B} (f : A -> B) l : last_opt (map f l) = option_map f (last_opt l).
Proof. unfold last_opt. rewrite <- map_rev. apply head_map. Qed.
Lemma first_le_last es a z : StronglySorted xlt es -> head_opt es = Some a -> last_opt es = Some z -> fst a <= fst z.
Proof.
  intros S A Z. destruct es as [|p es]; [discriminate|]. injection A as ->. apply last_opt_in in Z.
  inversion S; subst. rewrite Forall_forall in H2. destruct Z as [->|I]; [apply Qcle_refl|].
  apply Qclt_le_weak. now apply H2.
Qed.

Lemma int_ends es a z : head_opt es = Some a -> last_opt es = Some z ->
  ext_interval (map fqp es) = mkI (Fin (fst a)) (Fin (fst z)) false false.
Proof. intros A Z. unfold ext_interval. rewrite head_map, last_map, A, Z. reflexivity. Qed.
Lemma closed_contains a z q : a <= z -> i_contains (mkI (Fin a) (Fin z) false false) (Fin q) = true <-> a <= q /\ q <= z.
Proof.
  intros L. unfold i_contains, i_contains_gen, i_is_empty, above_start, below_end, n_gtb. cbn.
  destruct (Qcltb z a) eqn:E1; qb_simpl; [exfalso; qc_lra|]. rewrite !andb_false_r. cbn.
  rewrite andb_true_iff, !orb_true_iff, !Qcltb_true, !Qceqb_true. split.
  - intros [[?| ->] [?| ->]]; split; try apply Qcle_refl; qc_lra.
  - intros [X Y]. apply Qcle_lt_or_eq in X, Y. tauto.
Qed.
Lemma closed_upto a z q : a <= z -> i_contains_gen false true (mkI (Fin a) (Fin z) false false) (Fin q) = true <-> q <= z.
Proof.
  intros L. unfold i_contains_gen, i_is_empty, above_start, below_end, n_gtb. cbn.
  destruct (Qcltb z a) eqn:E1; qb_simpl; [exfalso; qc_lra|]. rewrite !andb_false_r. cbn.
  rewrite !orb_true_iff, !Qcltb_true, !Qceqb_true. split.
  - intros [?| ->]; try apply Qcle_refl; qc_lra.
  - intros X. apply Qcle_lt_or_eq in X. tauto.
Qed.
Lemma int_contains es q : StronglySorted xlt es ->
  i_contains (ext_interval (map fqp es)) (Fin q) = true <->
  exists a z, head_opt es = Some a /\ last_opt es = Some z /\ fst a <= q /\ q <= fst z.
Proof.
  intros S. destruct es as [|p es].
  - cbn. split; [discriminate|]. intros (a & _ & E & _). discriminate.
  - destruct (last_opt_some (p :: es)) as [z Z]; [discriminate|].
    rewrite (int_ends (p :: es) p z eq_refl Z), closed_contains by (eapply first_le_last; eauto; reflexivity). split.
    + intros [X Y]. exists p, z. auto.
    + intros (a & z' & E & E' & X & Y). injection E as <-. rewrite Z in E'. injection E' as <-. auto.
Qed.
Lemma int_upto es q : StronglySorted xlt es ->
  i_contains_gen false true (ext_interval (map fqp es)) (Fin q) = true <-> exists z, last_opt es = Some z /\ q <= fst z.
Proof.
  intros S. destruct es as [|p es].
  - cbn. split; [discriminate|]. intros (a & E & _). discriminate.
  - destruct (last_opt_some (p :: es)) as [z Z]; [discriminate|].
    rewrite (int_ends (p :: es) p z eq_refl Z), closed_upto by (eapply first_le_last; eauto; reflexivity). split.
    + intros X. exists z. auto.
    + intros (z' & E' & Y). rewrite Z in E'. injection E' as <-. auto.
Qed.
Lemma last_max es z p : StronglySorted xlt es -> last_opt es = Some z -> In p es -> fst p <= fst z.
Proof.
  intros S Z I. apply in_split in I. destruct I as (a & b & ->). apply sorted_app in S. destruct S as (_ & S & _).
  rewrite last_opt_app2 in Z by discriminate. eapply first_le_last; eauto.
Qed.
Lemma first_min es z p : StronglySorted xlt es -> head_opt es = Some z -> In p es -> fst z <= fst p.
Proof.
  intros S Z I. destruct es as [|p0 es]; [destruct I|]. injection Z as ->. inversion S; subst. rewrite Forall_forall in H2.
  destruct I as [->|I]; [apply Qcle_refl|]. apply Qclt_le_weak. now apply H2.
Qed.

(** ** bisect_right *)
Lemma bisect_right_spec (es : list (Qc * Qc)) q : StronglySorted xlt es ->
  exists i, bisect_right (map fqp es) (Fin q) = Ok (Z.of_nat i) /\ (i <= length es)%nat /\
    (forall j p, nth_error es j = Some p -> (j < i)%nat -> fst p <= q) /\
    (forall j p, nth_error es j = Some p -> (i <= j)%nat -> q < fst p).
Proof.
  intros A. pose proof (ext_knots es A) as K. unfold bisect_right. rewrite map_length.
  assert (G : forall fuel lo hi, (Z.to_nat (hi - lo) < fuel)%nat -> (0 <= lo <= hi)%Z -> (hi <= Z.of_nat (length (qx es)))%Z ->
    (forall j, (Z.of_nat j < lo)%Z -> kq (qx es) j <= q) ->
    (forall j, (hi <= Z.of_nat j)%Z -> (j < length (qx es))%nat -> q < kq (qx es) j) ->
    exists i, bisect_right_loop fuel (map fqp es) (Fin q) lo hi = Ok (Z.of_nat i) /\ (i <= length (qx es))%nat /\
     (forall j, (j < i)%nat -> kq (qx es) j <= q) /\ (forall j, (i <= j < length (qx es))%nat -> q < kq (qx es) j)).
  { induction fuel as [|f IH]; intros lo hi Hf Hb Hh Hl Hr; [lia|].
    cbn [bisect_right_loop]. destruct (lo <? hi)%Z eqn:E.
    - apply Z.ltb_lt in E.
      assert (M : (lo <= (lo + hi) / 2 < hi)%Z) by (split; [apply Z.div_le_lower_bound|apply Z.div_lt_upper_bound]; lia).
      set (mid := ((lo + hi) / 2)%Z) in *. clearbody mid.
      destruct (knots_py _ _ (Z.to_nat mid) K) as [v [P _]]; [lia|].
      rewrite Z2Nat.id in P by lia. rewrite P. cbn [rbind fst]. cbn [n_ltb XQ xq_ltb].
      destruct (Qcltb q (kq (qx es) (Z.to_nat mid))) eqn:C; qb_simpl.
      + apply IH; try lia; auto. intros j Hj Hj2. apply Qclt_le_trans with (kq (qx es) (Z.to_nat mid)); auto.
        apply asc_le; [apply K|]. lia.
      + apply IH; try lia; auto. intros j Hj. apply Qcle_trans with (kq (qx es) (Z.to_nat mid)); auto.
        apply asc_le; [apply K|]. lia.
    - exists (Z.to_nat lo). rewrite Z2Nat.id by lia. repeat split; auto.
      + lia.
      + intros j Hj. apply Hl. lia.
      + intros j Hj. apply Hr; lia. }
  assert (LQ : length (qx es) = length es) by apply map_length.
  destruct (G (S (length es)) 0%Z (Z.of_nat (length es))) as (i & E & L & B1 & B2); try lia.
  assert (KN : forall j p, nth_error es j = Some p -> kq (qx es) j = fst p).
  { intros j p N. unfold kq, qx. apply nth_error_nth. now apply map_nth_error. }
  exists i. rewrite LQ in *. repeat split; auto.
  - intros j p N Lj. rewrite <- (KN j p N). auto.
  - intros j p N Lj. rewrite <- (KN j p N). apply B2. split; auto. apply nth_error_Some. congruence.
Qed.

(** The extremas around a number strictly inside the interval. *)
Lemma around es q a z : StronglySorted xlt es -> head_opt es = Some a -> last_opt es = Some z -> fst a < q -> q < fst z ->
  exists i p1 p2, bisect_right (map fqp es) (Fin q) = Ok (Z.of_nat (S i)) /\ nth_error es i = Some p1 /\ nth_error es (S i) = Some p2 /\
    fst p1 <= q /\ q < fst p2.
Proof.
  intros S A Z L1 L2. destruct (bisect_right_spec es q S) as (i & E & Li & B1 & B2).
  destruct i as [|i].
  - exfalso. destruct es as [|p es]; [discriminate|]. injection A as ->. specialize (B2 0%nat a eq_refl ltac:(lia)). qc_lra.
  - assert (Ni : (Datatypes.S i < length es)%nat).
    { destruct (Nat.eq_dec (Datatypes.S i) (length es)) as [X|]; [|lia]. exfalso. rewrite last_opt_nth in Z.
      specialize (B1 _ _ Z ltac:(lia)). qc_lra. }
    destruct (nth_error es i) as [p1|] eqn:N1; [|apply nth_error_None in N1; lia].
    destruct (nth_error es (Datatypes.S i)) as [p2|] eqn:N2; [|apply nth_error_None in N2; lia].
    exists i, p1, p2. repeat split; auto; [eapply B1|eapply B2]; eauto.
Qed.
Lemma head_py (es : list (Qc * Qc)) a : head_opt es = Some a -> py_nth (map fqp es) 0 = Ok (fqp a).
Proof. intros A. apply (py_nth_pos _ 0). destruct es; [discriminate|]. now injection A as ->. Qed.
Lemma last_py (es : list (Qc * Qc)) z : last_opt es = Some z -> py_nth (map fqp es) (-1) = Ok (fqp z).
Proof. intros A. apply py_nth_m1. now rewrite last_map, A. Qed.
Lemma nth_split2 {A} (l : list A) i a b : nth_error l i = Some a -> nth_error l (S i) = Some b -> exists l1 l2, l = l1 ++ a :: b :: l2.
Proof.
  intros E1 E2. apply nth_error_split in E1. destruct E1 as (l1 & l2 & -> & L). exists l1.
  rewrite nth_error_app2 in E2 by lia. replace (S i - length l1)%nat with 1%nat in E2 by lia. destruct l2 as [|c l2]; [discriminate|].
  injection E2 as ->. exists l2. reflexivity.
Qed.

(** scanned_y: linear interpolation between the extremas, None outside. *)
Theorem scanned_value e es q : StronglySorted xlt es -> x_ext e = map fqp es -> x_int e = ext_interval (x_ext e) ->
  exists v, ex_scanned e (Fin q) = Ok v /\ value ILinear (map fop es) q v.
Proof.
  intros S E I. unfold ex_scanned. rewrite I, E.
  destruct (i_contains (ext_interval (map fqp es)) (Fin q)) eqn:C; cbn [negb].
  - apply int_contains in C; auto. destruct C as (a & z & A & Z & L1 & L2).
    rewrite (int_ends es a z A Z). cbn [i_start i_end n_eqb XQ xq_eqb].
    destruct (Qceqb q (fst a)) eqn:Q1; qb_simpl.
    { rewrite (head_py es a A). cbn [rbind]. eexists. split; [reflexivity|]. apply val_knot. subst q. 
      change (In (fop a) (map fop es)). apply in_map. now apply head_opt_in. }
    destruct (Qceqb q (fst z)) eqn:Q2; qb_simpl.
    { rewrite (last_py es z Z). cbn [rbind]. eexists. split; [reflexivity|]. apply val_knot. subst q.
      change (In (fop z) (map fop es)). apply in_map. now apply last_opt_in. }
    apply Qcle_lt_or_eq in L1, L2. destruct L1 as [L1|L1]; [|congruence]. destruct L2 as [L2|L2]; [|congruence].
    destruct (around es q a z S A Z L1 L2) as (i & p1 & p2 & B & N1 & N2 & X1 & X2).
    rewrite B. cbn [rbind]. replace (Z.of_nat (Datatypes.S i) - 1)%Z with (Z.of_nat i) by lia.
    rewrite (py_nth_pos _ i (fqp p1)) by now apply map_nth_error. rewrite (py_nth_pos _ (Datatypes.S i) (fqp p2)) by now apply map_nth_error.
    cbn [rbind fqp fst snd n_div n_sub XQ xq_sub xq_div].
    destruct (Qceqb (fst p2 - fst p1) 0) eqn:D; qb_simpl.
    { exfalso. qc_lra. }
    cbn [rbind]. eexists. split; [reflexivity|].
    apply Qcle_lt_or_eq in X1. destruct X1 as [X1|X1].
    + destruct (nth_split2 _ _ _ _ N1 N2) as (l1 & l2 & ->).
      apply (val_lerp _ _ _ _ (map fop l1) (fst p1) (Some (Fin (snd p1))) (fst p2) (Some (Fin (snd p2))) (map fop l2)); auto.
      rewrite map_app. reflexivity.
    + match goal with |- value _ _ _ (Some ?v) => replace v with (Fin (snd p1)) end.
      * apply val_knot. subst q. change (In (fop p1) (map fop es)). apply in_map. eapply nth_error_In; eauto.
      * unfold n_one. cbn. f_equal. change (QcofZ 1) with 1. subst q. field. auto.
  - exists None. split; [reflexivity|]. change (@None xq) with (@v_none xq (option xq) NumVal). apply val_outside.
    destruct es as [|p es0]; [left; intros p []|]. set (es := p :: es0) in *.
    destruct (last_opt_some es) as [z Z]; [discriminate|].
    destruct (Qclt_le_dec q (fst p)) as [L|L].
    + left. intros x X. apply in_map_iff in X. destruct X as (y & <- & Iy). apply lt_x_fin.
      apply (Qclt_le_trans _ (fst p)); auto. apply (first_min es); auto.
    + right. intros x X. apply in_map_iff in X. destruct X as (y & <- & Iy). apply lt_x_fin.
      destruct (Qclt_le_dec (fst z) q) as [L2|L2].
      * apply (Qcle_lt_trans _ (fst z)); auto. apply (last_max es); auto.
      * exfalso. assert (i_contains (ext_interval (map fqp es)) (Fin q) = true) by (apply int_contains; auto; exists p, z; auto). congruence.
Qed.

(** _i: zero at the first extrema and the count less one at the last, but between
    two extremas one more than the fractional position. *)
Theorem index_value e es q i p1 p2 : StronglySorted xlt es -> x_ext e = map fqp es -> x_int e = ext_interval (x_ext e) ->
  nth_error es i = Some p1 -> nth_error es (S i) = Some p2 -> fst p1 < q -> q < fst p2 ->
  ex_index e (Fin q) = Ok (Some (Fin (QcofZ (Z.of_nat i) + 1 + (q - fst p1) / (fst p2 - fst p1)))).
Proof.
  intros S E I N1 N2 L1 L2. unfold ex_index. rewrite I, E.
  destruct (head_opt_some es) as [a A]; [intros ->; destruct i; discriminate|].
  destruct (last_opt_some es) as [z Z]; [intros ->; destruct i; discriminate|].
  assert (LA : fst a < q) by (apply (Qcle_lt_trans _ (fst p1)); auto; apply (first_min es); auto; eapply nth_error_In; eauto).
  assert (LZ : q < fst z) by (apply (Qclt_le_trans _ (fst p2)); auto; apply (last_max es); auto; eapply nth_error_In; eauto).
  assert (C : i_contains (ext_interval (map fqp es)) (Fin q) = true).
  { apply int_contains; auto. exists a, z. repeat split; auto; apply Qclt_le_weak; auto. }
  rewrite C. cbn [negb]. rewrite (int_ends es a z A Z). cbn [i_start i_end n_eqb XQ xq_eqb].
  destruct (Qceqb q (fst a)) eqn:Q1; qb_simpl; [exfalso; qc_lra|].
  destruct (Qceqb q (fst z)) eqn:Q2; qb_simpl; [exfalso; qc_lra|].
  destruct (bisect_right_spec es q S) as (j & B & Lj & B1 & B2).
  assert (j = Datatypes.S i) as ->.
  { destruct (Nat.lt_trichotomy j (Datatypes.S i)) as [X|[X|X]]; auto; exfalso.
    - specialize (B2 _ _ N1 ltac:(lia)). qc_lra.
    - specialize (B1 _ _ N2 ltac:(lia)). qc_lra. }
  rewrite B. cbn [rbind]. replace (Z.of_nat (Datatypes.S i) - 1)%Z with (Z.of_nat i) by lia.
  rewrite (py_nth_pos _ i (fqp p1)) by now apply map_nth_error. rewrite (py_nth_pos _ (Datatypes.S i) (fqp p2)) by now apply map_nth_error.
  cbn [rbind fqp fst snd n_div n_sub XQ xq_sub xq_div].
  destruct (Qceqb (fst p2 - fst p1) 0) eqn:D; qb_simpl; [exfalso; qc_lra|].
  cbn [rbind n_add n_ofZ XQ xq_add]. do 3 f_equal.
  replace (Z.of_nat (Datatypes.S i)) with (Z.of_nat i + 1)%Z by lia.
  now rewrite QcofZ_add, QcofZ_1.
Qed.

(** ** Steps between extremas *)
Lemma bisect_left_spec (es : list (Qc * Qc)) q : StronglySorted xlt es ->
  exists i, bisect_points (map fqp es) (Fin q) = Ok (Z.of_nat i) /\ (i <= length es)%nat /\
    (forall j p, nth_error es j = Some p -> (j < i)%nat -> fst p < q) /\
    (forall j p, nth_error es j = Some p -> (i <= j)%nat -> q <= fst p).
Proof.
  intros A. destruct (bisect_spec _ _ q (ext_knots es A)) as (i & E & L & B1 & B2).
  assert (LQ : length (qx es) = length es) by apply map_length.
  assert (KN : forall j p, nth_error es j = Some p -> kq (qx es) j = fst p).
  { intros j p N. unfold kq, qx. apply nth_error_nth. now apply map_nth_error. }
  exists i. rewrite LQ in *. repeat split; auto.
  - intros j p N Lj. rewrite <- (KN j p N). auto.
  - intros j p N Lj. rewrite <- (KN j p N). apply B2. split; auto. apply nth_error_Some. congruence.
Qed.
(** inside the interval x_next finds the first extrema at x + min_step or later *)
Theorem next_extrema c own e es x ms lim m : StronglySorted xlt es -> x_ext e = map fqp es -> x_int e = ext_interval (x_ext e) ->
  resolve_min_step own ms = Some (Fin m) ->
  (forall a z, head_opt es = Some a -> last_opt es = Some z -> fst a <= x + m /\ x + m <= fst z) -> es <> [] ->
  exists p, ex_next c own e (Fin x) ms lim = Ok (Some (Fin (fst p))) /\ In p es /\ x + m <= fst p /\
    forall p', In p' es -> x + m <= fst p' -> fst p <= fst p'.
Proof.
  intros S E I RM B NE. unfold ex_next. rewrite RM, I, E. cbn [n_add XQ xq_add].
  destruct (head_opt_some es NE) as [a A]. destruct (last_opt_some es NE) as [z Z]. destruct (B a z A Z) as [L1 L2].
  assert (C : i_contains (ext_interval (map fqp es)) (Fin (x + m)) = true) by (apply int_contains; auto; exists a, z; auto).
  rewrite C. destruct (bisect_left_spec es (x + m) S) as (i & Bi & Li & B1 & B2). rewrite Bi. cbn [rbind].
  assert (Ni : (i < length es)%nat).
  { destruct (Nat.eq_dec i (length es)) as [X|]; [|lia]. exfalso. rewrite last_opt_nth in Z.
    assert (length es <> 0)%nat by (destruct es; [congruence|discriminate]). specialize (B1 _ _ Z ltac:(lia)). qc_lra. }
  destruct (nth_error es i) as [p|] eqn:N; [|apply nth_error_None in N; lia].
  rewrite (py_nth_pos _ i (fqp p)) by now apply map_nth_error. cbn [rbind fqp fst n_ltb XQ xq_ltb].
  pose proof (B2 _ _ N ltac:(lia)) as LP.
  destruct (Qcltb (fst p) (x + m)) eqn:D; qb_simpl; [exfalso; qc_lra|].
  exists p. repeat split; auto; [eapply nth_error_In; eauto|].
  intros p' I' L'. apply In_nth_error in I'. destruct I' as [j Nj].
  destruct (Nat.lt_ge_cases j i) as [X|X]; [specialize (B1 _ _ Nj X); exfalso; qc_lra|].
  destruct (Nat.eq_dec i j) as [<-|Ne]; [rewrite N in Nj; injection Nj as <-; apply Qcle_refl|].
  apply Qclt_le_weak. 
  pose proof (sorted_asc es S i j) as AS. unfold kq, qx in AS.
  rewrite (nth_error_nth _ i 0 (map_nth_error fst _ _ N)), (nth_error_nth _ j 0 (map_nth_error fst _ _ Nj)) in AS.
  apply AS. split; [lia|]. rewrite map_length. apply nth_error_Some. congruence.
Qed.
(** and x_previous the last one at x - min_step or earlier *)
Theorem prev_extrema c own e es x ms lim m : StronglySorted xlt es -> x_ext e = map fqp es -> x_int e = ext_interval (x_ext e) ->
  resolve_min_step own ms = Some (Fin m) ->
  (forall a z, head_opt es = Some a -> last_opt es = Some z -> fst a <= x - m /\ x - m <= fst z) -> es <> [] ->
  exists p, ex_prev c own e (Fin x) ms lim = Ok (Some (Fin (fst p))) /\ In p es /\ fst p <= x - m /\
    forall p', In p' es -> fst p' <= x - m -> fst p' <= fst p.
Proof.
  intros S E I RM B NE. unfold ex_prev. rewrite RM, I, E. cbn [n_sub XQ xq_sub].
  destruct (head_opt_some es NE) as [a A]. destruct (last_opt_some es NE) as [z Z]. destruct (B a z A Z) as [L1 L2].
  assert (C : i_contains (ext_interval (map fqp es)) (Fin (x - m)) = true) by (apply int_contains; auto; exists a, z; auto).
  rewrite C. destruct (bisect_left_spec es (x - m) S) as (i & Bi & Li & B1 & B2). rewrite Bi. cbn [rbind].
  assert (Ni : (i < length es)%nat).
  { destruct (Nat.eq_dec i (length es)) as [X|]; [|lia]. exfalso. rewrite last_opt_nth in Z.
    assert (length es <> 0)%nat by (destruct es; [congruence|discriminate]). specialize (B1 _ _ Z ltac:(lia)). qc_lra. }
  assert (MN : forall j1 j2 q1 q2, nth_error es j1 = Some q1 -> nth_error es j2 = Some q2 -> (j1 <= j2)%nat -> fst q1 <= fst q2).
  { intros j1 j2 q1 q2 N1 N2 L. destruct (Nat.eq_dec j1 j2) as [<-|Ne]; [rewrite N1 in N2; injection N2 as <-; apply Qcle_refl|].
    apply Qclt_le_weak. pose proof (sorted_asc es S j1 j2) as AS. unfold kq, qx in AS.
    rewrite (nth_error_nth _ j1 0 (map_nth_error fst _ _ N1)), (nth_error_nth _ j2 0 (map_nth_error fst _ _ N2)) in AS.
    apply AS. split; [lia|]. rewrite map_length. apply nth_error_Some. congruence. }
  destruct (nth_error es i) as [p|] eqn:N; [|apply nth_error_None in N; lia].
  rewrite (py_nth_pos _ i (fqp p)) by now apply map_nth_error. unfold n_gtb. cbn [rbind fqp fst n_ltb XQ xq_ltb].
  pose proof (B2 _ _ N ltac:(lia)) as LP.
  destruct (Qcltb (x - m) (fst p)) eqn:D; qb_simpl.
  - destruct i as [|i].
    { exfalso. destruct es as [|p0 es]; [discriminate|]. injection N as ->. injection A as ->. qc_lra. }
    replace (Z.of_nat (Datatypes.S i) - 1)%Z with (Z.of_nat i) by lia.
    destruct (nth_error es i) as [p1|] eqn:N1; [|apply nth_error_None in N1; lia].
    rewrite (py_nth_pos _ i (fqp p1)) by now apply map_nth_error. cbn [rbind fqp fst].
    exists p1. pose proof (B1 _ _ N1 ltac:(lia)) as LQ. repeat split; auto; [eapply nth_error_In; eauto|apply Qclt_le_weak; auto|].
    intros p' I' L'. apply In_nth_error in I'. destruct I' as [j Nj].
    destruct (Nat.lt_ge_cases i j) as [X|X]; [|eapply MN; eauto].
    exfalso. assert (fst p <= fst p') by (eapply (MN (Datatypes.S i) j); eauto). qc_lra.
  - assert (PX : fst p = x - m) by (apply Qcle_antisym; auto).
    exists p. repeat split; auto; [eapply nth_error_In; eauto|]. intros p' I' L'. rewrite PX. exact L'.
Qed.
