(** Facts about the queries of Points (y, x_next, x_previous, domain). *)
From Coq Require Import List ZArith QArith Qcanon Bool Lia Lqa Sorting.Sorted Zify ZifyBool.
From Verif Require Import Base Num NumFacts Interval IntervalFacts Curve Points PointsSpec PointsIdx.
Import ListNotations.

Section Query.
Context {V : Type} {W : Val xq V}.
Implicit Type l : list (xq * V).

Lemma ascending_knots l : ascending l <-> exists qs, knots l qs.
Proof.
  split.
  - intros [Hf Hs]. induction l as [|[x v] l IH].
    + exists []. split; [reflexivity|]. intros i j Hij. simpl in Hij. lia.
    + inversion Hf; subst. inversion Hs; subst. destruct IH as [qs K]; auto.
      destruct H1 as [q Hq]. simpl in Hq. subst x.
      exists (q :: qs). pose proof (knots_len _ _ K) as L. split.
      * simpl. f_equal. apply K.
      * intros i j [Hij Hj]. simpl in Hj. destruct j as [|j]; [lia|].
        destruct i as [|i].
        -- unfold kq; simpl. destruct (knots_nth _ _ j K) as [w E]; [lia|].
           apply nth_error_In in E. rewrite Forall_forall in H4. apply H4 in E.
           simpl in E. unfold lt_x in E; simpl in E. apply Qcltb_true in E. exact E.
        -- apply K. lia.
  - intros [qs K]. revert qs K. induction l as [|[x v] l IH]; intros qs K.
    + split; constructor.
    + destruct qs as [|q qs]; [destruct K as [K _]; discriminate|].
      assert (K' : knots l qs).
      { destruct K as [K1 K2]. split.
        - simpl in K1. now inversion K1.
        - intros i j Hij. apply (K2 (S i) (S j)). simpl. lia. }
      destruct (IH _ K') as [I1 I2]. destruct K as [K1 K2]. simpl in K1. inversion K1; subst.
      split; constructor; auto.
      * eexists; reflexivity.
      * rewrite Forall_forall. intros [y w] Hin. apply In_nth_error in Hin. destruct Hin as [j E].
        destruct (knots_nth_inv _ _ _ _ _ K' E) as [E1 E2]. simpl. subst y.
        unfold lt_x. simpl. apply Qcltb_true. apply (K2 0%nat (S j)). simpl. lia.
Qed.

Lemma equally_knots l qs : knots l qs -> equally_spaced l -> eqspaced qs.
Proof.
  intros K [x0 [h [H1 H2]]]. exists x0, h. split; auto. intros i Hi.
  destruct (knots_nth _ _ i K Hi) as [v E]. apply H2 in E. simpl in E. now inversion E.
Qed.
Lemma knots_equally l qs : knots l qs -> eqspaced qs -> equally_spaced l.
Proof.
  intros K [x0 [h [H1 H2]]]. exists x0, h. split; auto. intros i [x v] E.
  destruct (knots_nth_inv _ _ _ _ _ K E) as [E1 ->]. simpl. now rewrite H2.
Qed.

(** domain *)
Lemma pts_domain_knots l qs : knots l qs ->
  pts_domain l = if (length qs =? 0)%nat then i_empty
                 else mkI (Fin (kq qs 0)) (Fin (kq qs (length qs - 1))) false false.
Proof.
  intros K. pose proof (knots_len _ _ K) as L. unfold pts_domain.
  destruct l as [|a l]; simpl in L.
  - rewrite <- L. reflexivity.
  - replace (length qs =? 0)%nat with false by (symmetry; apply Nat.eqb_neq; lia).
    rewrite last_opt_nth.
    destruct (knots_nth (a :: l) qs (length (a :: l) - 1) K) as [v E]; [simpl; lia|]. rewrite E.
    destruct (knots_nth (a :: l) qs 0 K) as [v0 E0]; [simpl; lia|]. simpl in E0. inversion E0; subst.
    simpl head_opt. cbn [fst]. replace (length ((Fin (kq qs 0), v0) :: l)) with (length qs) by (simpl; lia).
    reflexivity.
Qed.

Lemma imem_closed a b q : imem (mkI (Fin a) (Fin b) false false) (Fin q) <-> (a <= q)%Qc /\ (q <= b)%Qc.
Proof.
  unfold imem, le_x. cbn [i_so i_eo i_start i_end xq_leb]. rewrite !Qcleb_true. tauto.
Qed.

Lemma contains_closed a b q :
  i_contains (mkI (Fin a) (Fin b) false false) (Fin q) = true <-> (a <= q)%Qc /\ (q <= b)%Qc.
Proof. rewrite contains_iff by (repeat constructor; discriminate). apply imem_closed. Qed.

Lemma closed_nonempty a b : (a <= b)%Qc -> i_is_empty (mkI (Fin a) (Fin b) false false) = false.
Proof.
  intro H. destruct (i_is_empty _) eqn:E; auto.
  rewrite is_empty_iff in E by (split; discriminate).
  exfalso. apply (E (Fin a)); [discriminate|]. apply imem_closed. split; auto. apply Qcle_refl.
Qed.

(** The static facts behind [good]. *)
Record sgood (s : pts xq V) (qs : list Qc) : Prop := {
  sg_pinv : pinv s qs;
  sg_dom : p_dom s = pts_domain (p_pts s)
}.

Lemma good_sgood s : good s -> exists qs, sgood s qs.
Proof.
  intros [H1 [H2 [H3 [H4 [H5 H6]]]]]. apply ascending_knots in H1. destruct H1 as [qs K].
  exists qs. constructor.
  - constructor; auto. intro U. eapply equally_knots; eauto.
  - unfold p_dom. destruct H6 as [->| ->]; reflexivity.
Qed.

Lemma sg_dom_val s qs : sgood s qs -> (0 < length qs)%nat ->
  p_dom s = mkI (Fin (kq qs 0)) (Fin (kq qs (length qs - 1))) false false.
Proof.
  intros [P D] Hn. rewrite D, (pts_domain_knots _ _ (pi_knots _ _ P)).
  replace (length qs =? 0)%nat with false by (symmetry; apply Nat.eqb_neq; lia). reflexivity.
Qed.
Lemma sg_dom_empty s qs : sgood s qs -> length qs = 0%nat -> p_dom s = i_empty.
Proof.
  intros [P D] Hn. rewrite D, (pts_domain_knots _ _ (pi_knots _ _ P)), Hn. reflexivity.
Qed.
Lemma sg_first_le_last s qs : sgood s qs -> (0 < length qs)%nat -> (kq qs 0 <= kq qs (length qs - 1))%Qc.
Proof. intros [P D] Hn. apply asc_le; [apply P|lia]. Qed.

Lemma QcofZ_floor0 z : (QcofZ z - QcofZ (Qcfloor (QcofZ z)))%Qc = 0%Qc.
Proof. rewrite Qcfloor_ofZ. ring. Qed.

Lemma split_at_nth l i a b : nth_error l i = Some a -> nth_error l (S i) = Some b ->
  exists l1 l2, l = l1 ++ a :: b :: l2.
Proof.
  intros Ha Hb. apply nth_error_split in Ha. destruct Ha as [l1 [l2 [-> Hl]]].
  rewrite nth_error_app2 in Hb by lia. replace (S i - length l1)%nat with 1%nat in Hb by lia.
  destruct l2; simpl in Hb; inversion Hb; subst. eauto.
Qed.

Definition lerp_total : Prop := forall u a b, exists v, v_lerp (T:=xq) (V:=V) u a b = Ok v.

Lemma n_zero_eqb0 : n_eqb (Fin 0%Qc) (n_zero (T:=xq)) = true.
Proof. reflexivity. Qed.

Theorem p_y_value s q : (p_interp s = ILinear -> lerp_total) -> good s -> exists v, p_y s (Fin q) = Ok v /\ value (p_interp s) (p_pts s) q v.
Proof.
  intros LT G. destruct (good_sgood s G) as [qs SG]. destruct SG as [P D] eqn:EQ.
  pose proof (pi_knots _ _ P) as K. pose proof (knots_len _ _ K) as L.
  assert (Hout : forall x, In x (p_pts s) -> exists i v, (i < length qs)%nat /\ x = (Fin (kq qs i), v)).
  { intros [x v] Hin. apply In_nth_error in Hin. destruct Hin as [i E].
    destruct (knots_nth_inv _ _ _ _ _ K E) as [E1 ->]. eauto. }
  unfold p_y.
  destruct (Nat.eq_dec (length qs) 0) as [Z|Z].
  { rewrite (sg_dom_empty s qs SG Z). exists v_none. split; [reflexivity|].
    apply val_outside. left. intros p Hp. destruct (Hout p Hp) as [i [v [Hi _]]]. lia. }
  assert (Hn : (0 < length qs)%nat) by lia.
  rewrite (sg_dom_val s qs SG Hn).
  destruct (i_contains _ (Fin q)) eqn:C; cbn [negb].
  2:{ exists v_none. split; [reflexivity|]. apply val_outside.
      assert (C' : ~ ((kq qs 0 <= q)%Qc /\ (q <= kq qs (length qs - 1))%Qc)).
      { rewrite <- contains_closed. congruence. }
      destruct (Qclt_le_dec q (kq qs 0)) as [H|H].
      - left. intros p Hp. destruct (Hout p Hp) as [i [v [Hi ->]]].
        unfold lt_x; simpl. apply Qcltb_true. eapply Qclt_le_trans; eauto. apply asc_le; [apply K|lia].
      - right. intros p Hp. destruct (Hout p Hp) as [i [v [Hi ->]]].
        unfold lt_x; simpl. apply Qcltb_true.
        assert (kq qs (length qs - 1) < q)%Qc.
        { destruct (Qclt_le_dec (kq qs (length qs - 1)) q); auto. exfalso; auto. }
        eapply Qcle_lt_trans; [|eauto]. apply asc_le; [apply K|lia]. }
  apply contains_closed in C. destruct C as [C1 C2].
  destruct (x_index_spec s qs q P Hn) as [r [X R]]. rewrite X. cbn [rbind].
  destruct R as [H1 H2|H1 H2|i Hi Hq Hr|i Hi [Hq1 Hq2] Hr].
  - exfalso. apply (Qclt_not_le _ _ H1); auto.
  - exfalso. apply (Qclt_not_le _ _ H1); auto.
  - subst r. cbn [n_mod1 n_trunc XQ xq_toZ]. rewrite QcofZ_floor0, n_zero_eqb0.
    assert (Hz : (0 <= QcofZ (Z.of_nat i))%Qc) by (rewrite <- QcofZ_0; apply QcofZ_le; lia).
    rewrite (Qctrunc_nonneg _ Hz), Qcfloor_ofZ. cbn [rbind].
    destruct (knots_py _ _ i K Hi) as [v [P1 P2]]. rewrite P1. cbn [rbind snd].
    exists v. split; auto. apply val_knot. rewrite Hq. eapply nth_error_In; eauto.
  - pose proof (mid_frac _ _ _ (conj Hq1 Hq2)) as F.
    cbn [n_mod1 n_trunc XQ xq_toZ].
    assert (Hz : (0 <= r)%Qc).
    { subst r. assert (0 <= QcofZ (Z.of_nat i))%Qc by (rewrite <- QcofZ_0; apply QcofZ_le; lia).
      set (z := QcofZ _) in *. clearbody z. set (u := ((_) / (_))%Qc) in *. clearbody u.
      destruct F as [F _]. clear - F H. qc_lra. }
    rewrite (Qctrunc_nonneg _ Hz). rewrite Hr. rewrite (floor_mid _ _ F). cbn [rbind].
    replace (QcofZ (Z.of_nat i) + (q - kq qs i) / (kq qs (S i) - kq qs i) - QcofZ (Z.of_nat i))%Qc
      with ((q - kq qs i) / (kq qs (S i) - kq qs i))%Qc by ring.
    replace (n_eqb _ _) with false.
    2:{ symmetry. cbn [n_eqb n_zero n_ofZ XQ]. unfold n_zero. cbn. apply Qceqb_false. rewrite QcofZ_0.
        apply Qc_pos_neq0. apply F. }
    destruct (knots_py _ _ i K) as [v0 [P1 P2]]; [lia|].
    destruct (knots_py _ _ (S i) K Hi) as [v1 [P3 P4]].
    replace (Z.of_nat i + 1)%Z with (Z.of_nat (S i)) by lia. rewrite P1, P3. cbn [rbind snd].
    destruct (split_at_nth _ _ _ _ P2 P4) as [l1 [l2 El]].
    destruct (p_interp s) eqn:Ip.
    + exists v0. split; auto. eapply val_before; eauto.
    + destruct (LT eq_refl (Fin ((q - kq qs i) / (kq qs (S i) - kq qs i))%Qc) v0 v1) as [v Hv].
      exists v. split; auto. eapply val_lerp; eauto.
    + exists v1. split; auto. eapply val_after; eauto.
Qed.

(** ** x_next, x_previous *)
Lemma in_knots_inv l qs x v : knots l qs -> In (x, v) l -> exists i, (i < length qs)%nat /\ x = Fin (kq qs i).
Proof.
  intros K Hin. apply In_nth_error in Hin. destruct Hin as [i E].
  destruct (knots_nth_inv _ _ _ _ _ K E). eauto.
Qed.
Lemma in_knots l qs i : knots l qs -> (i < length qs)%nat -> exists v, In (Fin (kq qs i), v) l.
Proof.
  intros K Hi. destruct (knots_nth _ _ i K Hi) as [v E]. apply nth_error_In in E. eauto.
Qed.

Lemma le_x_fin a b : le_x (Fin a) (Fin b) <-> (a <= b)%Qc.
Proof. unfold le_x; simpl. apply Qcleb_true. Qed.
Lemma lt_x_fin a b : lt_x (Fin a) (Fin b) <-> (a < b)%Qc.
Proof. unfold lt_x; simpl. apply Qcltb_true. Qed.

Lemma contains_upper a b x : (a <= b)%Qc -> notnan x ->
  i_contains_gen false true (mkI (Fin a) (Fin b) false false) x = true <-> le_x x (Fin b).
Proof.
  intros H Hx. unfold i_contains_gen. rewrite closed_nonempty by auto. cbn [negb andb orb].
  rewrite below_end_e by (auto; split; discriminate). cbn [i_eo i_end].
  rewrite le_x_emb by nn. reflexivity.
Qed.
Lemma contains_lower a b x : (a <= b)%Qc -> notnan x ->
  i_contains_gen true false (mkI (Fin a) (Fin b) false false) x = true <-> le_x (Fin a) x.
Proof.
  intros H Hx. unfold i_contains_gen. rewrite closed_nonempty by auto. cbn [negb andb orb].
  rewrite andb_true_r.
  rewrite above_start_e by (auto; split; discriminate). cbn [i_so i_start].
  rewrite le_x_emb by nn. reflexivity.
Qed.

Lemma good_nil_or (s : pts xq V) : good s -> p_pts s = [] \/ exists qs, sgood s qs /\ (0 < length qs)%nat.
Proof.
  intros G. destruct (good_sgood s G) as [qs SG].
  pose proof (knots_len _ _ (pi_knots _ _ (sg_pinv _ _ SG))) as L.
  destruct (p_pts s) eqn:E; auto. right. exists qs. split; auto. simpl in L. lia.
Qed.
Lemma good_nil_dom (s : pts xq V) : good s -> p_pts s = [] -> p_dom s = i_empty.
Proof.
  intros [_ [_ [_ [_ [_ H]]]]] E. unfold p_dom. destruct H as [->| ->]; rewrite E; reflexivity.
Qed.

Lemma ceil_idx qs q r : asc qs -> (0 < length qs)%nat -> idx_rel qs q r -> (q <= kq qs (length qs - 1))%Qc ->
  exists i, (i < length qs)%nat /\ Z.max 0 (Qcceiling r) = Z.of_nat i /\
    (q <= kq qs i)%Qc /\ (forall j, (j < i)%nat -> (kq qs j < q)%Qc).
Proof.
  intros A Hn R Hq. destruct R as [H1 H2|H1 H2|i Hi Hqi Hr|i Hi [Hq1 Hq2] Hr].
  - exists 0%nat. repeat split; auto; try (intros; lia).
    + destruct (Qcceiling_spec r) as [_ C].
      assert (QcofZ (Qcceiling r - 1) < QcofZ 0)%Qc by (rewrite QcofZ_0; eapply Qclt_le_trans; eauto).
      apply (proj1 (QcofZ_lt _ _)) in H. lia.
    + now apply Qclt_le_weak.
  - exfalso. apply (Qclt_not_le _ _ H1); auto.
  - exists i. subst r. rewrite Qcceiling_ofZ. repeat split; auto; try lia.
    + subst q. apply Qcle_refl.
    + intros j Hj. subst q. apply A. lia.
  - exists (S i). rewrite Hr, ceil_mid by (now apply mid_frac). repeat split; auto; try lia.
    + now apply Qclt_le_weak.
    + intros j Hj. eapply Qcle_lt_trans; [|eauto]. apply asc_le; auto. lia.
Qed.

Lemma floor_idx qs q r : asc qs -> (0 < length qs)%nat -> idx_rel qs q r -> (kq qs 0 <= q)%Qc ->
  exists i, (i < length qs)%nat /\ Z.min (Z.of_nat (length qs) - 1) (Qcfloor r) = Z.of_nat i /\
    (kq qs i <= q)%Qc /\ (forall j, (i < j < length qs)%nat -> (q < kq qs j)%Qc).
Proof.
  intros A Hn R Hq. destruct R as [H1 H2|H1 H2|i Hi Hqi Hr|i Hi [Hq1 Hq2] Hr].
  - exfalso. apply (Qclt_not_le _ _ H1); auto.
  - exists (length qs - 1)%nat. repeat split; try (intros; lia).
    + destruct (Qcfloor_spec r) as [_ C].
      assert (QcofZ (Z.of_nat (length qs) - 1) < QcofZ (Qcfloor r + 1))%Qc by (eapply Qcle_lt_trans; eauto).
      apply (proj1 (QcofZ_lt _ _)) in H. lia.
    + now apply Qclt_le_weak.
  - exists i. subst r. rewrite Qcfloor_ofZ. repeat split; auto; try lia.
    + subst q. apply Qcle_refl.
    + intros j Hj. subst q. apply A. lia.
  - exists i. rewrite Hr, floor_mid by (now apply mid_frac). repeat split; auto; try lia.
    + now apply Qclt_le_weak.
    + intros j Hj. eapply Qclt_le_trans; [eauto|]. apply asc_le; [auto|lia].
Qed.

Theorem p_x_next_spec (s : pts xq V) x m lim : good s -> notnan x ->
  exists y, p_x_next s x (Some (Fin m)) lim = Ok y /\ least_from (p_pts s) (xq_add x (Fin m)) y.
Proof.
  intros G Hx. unfold p_x_next.
  destruct (good_nil_or s G) as [E|[qs [SG Hn]]].
  { rewrite (good_nil_dom s G E). exists None. split; [reflexivity|]. rewrite E. intros ? ? []. }
  pose proof (pi_knots _ _ (sg_pinv _ _ SG)) as K. pose proof (sg_first_le_last _ _ SG Hn) as FL.
  rewrite (sg_dom_val s qs SG Hn). rewrite closed_nonempty by auto.
  cbn [resolve_min_step]. cbn [n_add n_isinf n_ltb XQ].
  assert (Hb : notnan (xq_add x (Fin m))) by (destruct x; simpl; auto with nn; now destruct Hx).
  destruct (i_contains_gen false true _ _) eqn:C; cbn [negb].
  2:{ exists None. split; [reflexivity|]. intros y v Hin Hle.
      destruct (in_knots_inv _ _ _ _ K Hin) as [i [Hi ->]].
      assert (~ le_x (xq_add x (Fin m)) (Fin (kq qs (length qs - 1)))).
      { rewrite <- (contains_upper (kq qs 0)) by auto. congruence. }
      apply H. rewrite le_x_emb in * by nn. apply Qle_trans with (emb (Fin (kq qs i))); auto.
      apply le_x_emb; try nn. apply le_x_fin. apply asc_le; [apply K|lia]. }
  apply contains_upper in C; auto.
  destruct x as [x| | |]; try (now destruct Hx).
  - cbn [andb xq_add] in *. apply le_x_fin in C.
    destruct (x_index_spec s qs (x + m)%Qc (sg_pinv _ _ SG) Hn) as [r [X R]]. rewrite X. cbn [rbind].
    destruct (ceil_idx qs _ r (proj2 K) Hn R C) as [i [Hi [Ei [I1 I2]]]].
    cbn [n_ceil XQ xq_toZ rbind]. rewrite Ei.
    destruct (knots_py _ _ i K Hi) as [v [P1 P2]]. rewrite P1. cbn [rbind fst].
    eexists. split; [reflexivity|]. split; [|split].
    + eexists. eapply nth_error_In; eauto.
    + now apply le_x_fin.
    + intros y w Hin Hle. destruct (in_knots_inv _ _ _ _ K Hin) as [j [Hj ->]].
      rewrite le_x_fin in *. apply asc_le; [apply K|].
      destruct (Nat.lt_ge_cases j i) as [Q|Q]; [|lia].
      exfalso. apply I2 in Q. apply (Qclt_not_le _ _ Q); auto.
  - cbn [andb]. change (xq_ltb NInf n_zero) with true.
    exists (Some (Fin (kq qs 0))). split; [reflexivity|]. split; [|split].
    + apply in_knots; auto.
    + reflexivity.
    + intros y w Hin Hle. destruct (in_knots_inv _ _ _ _ K Hin) as [j [Hj ->]].
      apply le_x_fin. apply asc_le; [apply K|lia].
Qed.

Theorem p_x_previous_spec (s : pts xq V) x m lim : good s -> notnan x ->
  exists y, p_x_previous s x (Some (Fin m)) lim = Ok y /\ greatest_upto (p_pts s) (xq_sub x (Fin m)) y.
Proof.
  intros G Hx. unfold p_x_previous.
  destruct (good_nil_or s G) as [E|[qs [SG Hn]]].
  { rewrite (good_nil_dom s G E). exists None. split; [reflexivity|]. rewrite E. intros ? ? []. }
  pose proof (pi_knots _ _ (sg_pinv _ _ SG)) as K. pose proof (sg_first_le_last _ _ SG Hn) as FL.
  rewrite (sg_dom_val s qs SG Hn). rewrite closed_nonempty by auto.
  cbn [resolve_min_step]. unfold n_gtb. cbn [n_sub n_isinf n_ltb XQ].
  assert (Hb : notnan (xq_sub x (Fin m))) by (destruct x; simpl; auto with nn; now destruct Hx).
  destruct (i_contains_gen true false _ _) eqn:C; cbn [negb].
  2:{ exists None. split; [reflexivity|]. intros y v Hin Hle.
      destruct (in_knots_inv _ _ _ _ K Hin) as [i [Hi ->]].
      assert (~ le_x (Fin (kq qs 0)) (xq_sub x (Fin m))).
      { rewrite <- (contains_lower _ (kq qs (length qs - 1))) by auto. congruence. }
      apply H. rewrite le_x_emb in * by nn. apply Qle_trans with (emb (Fin (kq qs i))); auto.
      apply le_x_emb; try nn. apply le_x_fin. apply asc_le; [apply K|lia]. }
  apply contains_lower in C; auto.
  destruct x as [x| | |]; try (now destruct Hx).
  - cbn [andb xq_sub] in *. apply le_x_fin in C.
    destruct (x_index_spec s qs (x - m)%Qc (sg_pinv _ _ SG) Hn) as [r [X R]]. rewrite X. cbn [rbind].
    destruct (floor_idx qs _ r (proj2 K) Hn R C) as [i [Hi [Ei [I1 I2]]]].
    cbn [n_floor XQ xq_toZ rbind]. rewrite (knots_len _ _ K), Ei.
    destruct (knots_py _ _ i K Hi) as [v [P1 P2]]. rewrite P1. cbn [rbind fst].
    eexists. split; [reflexivity|]. split; [|split].
    + eexists. eapply nth_error_In; eauto.
    + now apply le_x_fin.
    + intros y w Hin Hle. destruct (in_knots_inv _ _ _ _ K Hin) as [j [Hj ->]].
      rewrite le_x_fin in *. apply asc_le; [apply K|].
      destruct (Nat.lt_ge_cases i j) as [Q|Q]; [|lia].
      exfalso. assert (Q' : (x - m < kq qs j)%Qc) by (apply I2; lia). apply (Qclt_not_le _ _ Q'); auto.
  - cbn [andb]. change (xq_ltb n_zero PInf) with true.
    exists (Some (Fin (kq qs (length qs - 1)))). split; [reflexivity|]. split; [|split].
    + apply in_knots; auto. lia.
    + reflexivity.
    + intros y w Hin Hle. destruct (in_knots_inv _ _ _ _ K Hin) as [j [Hj ->]].
      apply le_x_fin. apply asc_le; [apply K|lia].
Qed.
End Query.
