(** Facts about Points._domain_indexes, sample_points and the list surgery of
    reset, over exact numbers. *)
From Coq Require Import List ZArith QArith Qcanon Bool Lia Lqa Sorting.Sorted Zify ZifyBool.
From Verif Require Import Base Num NumFacts Interval IntervalFacts Curve Points PointsSpec PointsIdx PointsQuery.
Import ListNotations.

Section Dom.
Context {V : Type} {W : Val xq V}.
Implicit Type l : list (xq * V).

(** Membership in an interval with finite ends *)
Definition inq (sa eb : Qc) (so eo : bool) (x : Qc) : Prop :=
  (if so then sa < x else sa <= x)%Qc /\ (if eo then x < eb else x <= eb)%Qc.

Lemma contains_inq sa eb so eo x :
  i_contains (mkI (Fin sa) (Fin eb) so eo) (Fin x) = true <-> inq sa eb so eo x.
Proof.
  rewrite contains_iff by (repeat constructor; discriminate).
  unfold imem, inq. cbn [i_so i_eo i_start i_end].
  destruct so, eo; rewrite ?lt_x_fin, ?le_x_fin; tauto.
Qed.
Lemma contains_inq_false sa eb so eo x :
  i_contains (mkI (Fin sa) (Fin eb) so eo) (Fin x) = false <-> ~ inq sa eb so eo x.
Proof. rewrite <- contains_inq. destruct (i_contains _ _); split; congruence. Qed.

Lemma fin_between a b x : notnan x -> (emb (Fin a) <= emb x <= emb (Fin b))%Q -> exists q, x = Fin q.
Proof.
  intros Hx [H1 H2]. destruct x as [q| | |]; eauto.
  - pose proof (emb_fin_bound b). cbn [emb] in *. lra.
  - pose proof (emb_fin_bound a). cbn [emb] in *. lra.
  - now destruct Hx.
Qed.

Lemma emb_fin_le a b : (emb (Fin a) <= emb (Fin b))%Q <-> (a <= b)%Qc.
Proof. rewrite <- le_x_emb by nn. apply le_x_fin. Qed.
Lemma emb_fin_lt a b : (emb (Fin a) < emb (Fin b))%Q <-> (a < b)%Qc.
Proof. rewrite <- lt_x_emb by nn. apply lt_x_fin. Qed.

(** A non-empty part of a finite closed interval has finite ends inside it. *)
Lemma inter_fin d a b : iok d -> i_is_empty (i_inter2 d (mkI (Fin a) (Fin b) false false)) = false ->
  exists sa eb so eo, i_inter2 d (mkI (Fin a) (Fin b) false false) = mkI (Fin sa) (Fin eb) so eo /\
    (a <= sa)%Qc /\ (sa <= eb)%Qc /\ (eb <= b)%Qc /\ (sa = eb -> so = false /\ eo = false).
Proof.
  intros Hd Hne. set (c := mkI (Fin a) (Fin b) false false) in *.
  assert (Hc : iok c) by (split; discriminate).
  pose proof (iok_inter2 d c Hd Hc) as Hi.
  assert (S : i_superset c (i_inter2 d c) = true).
  { apply emem_superset; auto. intros x Hx Hm. apply inter2_emem in Hm; tauto. }
  apply superset_e in S; auto. apply is_empty_e_false in Hne; auto.
  destruct S as [S|[_ [S1 S2]]]; [contradiction|].
  destruct (i_inter2 d c) as [s e so eo] eqn:E. destruct Hi as [Hs He].
  cbn [i_start i_end i_so i_eo] in *. unfold c in S1, S2. cbn [i_start i_end i_so i_eo negb orb] in S1, S2.
  unfold eempty in Hne; cbn [i_start i_end i_so i_eo] in Hne.
  assert (L : (emb s <= emb e)%Q) by (apply Qnot_lt_le; intro; apply Hne; now left).
  destruct (fin_between a b s Hs) as [sa ->]; [lra|].
  destruct (fin_between a b e He) as [eb ->]; [lra|].
  exists sa, eb, so, eo. rewrite emb_fin_le in *. repeat split; auto.
  - destruct so; auto. exfalso. apply Hne. right. split; [now subst|now left].
  - destruct eo; auto. exfalso. apply Hne. right. split; [now subst|now right].
Qed.

Section Loops.
Context (l : list (xq * V)) (qs : list Qc) (K : knots l qs).
Context (sa eb : Qc) (so eo : bool).
Let d := mkI (Fin sa) (Fin eb) so eo.

Lemma di_start_spec fuel : forall i, (i <= length qs)%nat -> (length qs - i < fuel)%nat ->
  exists a, di_start_loop fuel l d (Z.of_nat i) = Ok (Z.of_nat a) /\ (i <= a <= length qs)%nat /\
    (forall j, (i <= j < a)%nat -> (kq qs j < eb)%Qc /\ ~ inq sa eb so eo (kq qs j)) /\
    (a = length qs \/ (eb <= kq qs a)%Qc \/ inq sa eb so eo (kq qs a)).
Proof.
  induction fuel as [|f IH]; intros i Hi Hf; [lia|].
  cbn [di_start_loop]. rewrite (knots_len _ _ K).
  destruct (Z.of_nat i <? Z.of_nat (length qs))%Z eqn:E.
  - apply Z.ltb_lt in E. destruct (knots_py _ _ i K) as [v [P _]]; [lia|]. rewrite P. cbn [rbind fst].
    unfold n_geb. cbn [n_leb XQ i_end d xq_leb].
    destruct (Qcleb eb (kq qs i)) eqn:C1; qb_simpl.
    { exists i. repeat split; auto; try lia. all: intros; lia. }
    destruct (i_contains d (Fin (kq qs i))) eqn:C2.
    { apply contains_inq in C2. exists i. repeat split; auto; try lia. all: intros; lia. }
    apply contains_inq_false in C2.
    destruct (IH (S i)) as [a [A1 [A2 [A3 A4]]]]; try lia.
    exists a. replace (Z.of_nat i + 1)%Z with (Z.of_nat (S i)) by lia.
    split; auto. split; [lia|]. split; auto. intros j Hj.
    destruct (Nat.eq_dec j i) as [->|]; auto. apply A3. lia.
  - exists i. apply Z.ltb_ge in E. repeat split; auto; try lia; intros; lia.
Qed.

Lemma di_end_spec fuel : forall i : nat, (i < length qs)%nat -> (S i < fuel)%nat ->
  exists e, di_end_loop fuel l d (Z.of_nat i) = Ok (Z.of_nat e - 1)%Z /\ (e <= S i)%nat /\
    (forall j, (e <= j <= i)%nat -> (sa < kq qs j)%Qc /\ ~ inq sa eb so eo (kq qs j)) /\
    (e = 0%nat \/ (kq qs (e - 1) <= sa)%Qc \/ inq sa eb so eo (kq qs (e - 1))).
Proof.
  induction fuel as [|f IH]; intros i Hi Hf; [lia|].
  cbn [di_end_loop]. replace (0 <=? Z.of_nat i)%Z with true by lia.
  destruct (knots_py _ _ i K) as [v [P _]]; [lia|]. rewrite P. cbn [rbind fst].
  cbn [n_leb XQ i_start d xq_leb].
  assert (X : (kq qs i <= sa)%Qc \/ inq sa eb so eo (kq qs i) ->
    exists e, (Z.of_nat i = Z.of_nat e - 1)%Z /\ (e <= S i)%nat /\
    (forall j, (e <= j <= i)%nat -> (sa < kq qs j)%Qc /\ ~ inq sa eb so eo (kq qs j)) /\
    (e = 0%nat \/ (kq qs (e - 1) <= sa)%Qc \/ inq sa eb so eo (kq qs (e - 1)))).
  { intro C. exists (S i). split; [lia|]. split; [lia|]. split; [intros; lia|].
    right. replace (S i - 1)%nat with i by lia. auto. }
  destruct (Qcleb (kq qs i) sa) eqn:C1; qb_simpl.
  { destruct X as [e [E1 E2]]; auto. exists e. rewrite <- E1. auto. }
  destruct (i_contains d (Fin (kq qs i))) eqn:C2.
  { apply contains_inq in C2. destruct X as [e [E1 E2]]; auto. exists e. rewrite <- E1. auto. }
  apply contains_inq_false in C2.
  destruct i as [|i].
  - exists 0%nat. split.
    + destruct f; [lia|]. reflexivity.
    + split; [lia|]. split; auto. intros j Hj. replace j with 0%nat by lia. auto.
  - destruct (IH i) as [e [E1 [E2 [E3 E4]]]]; try lia.
    replace (Z.of_nat (S i) - 1)%Z with (Z.of_nat i) by lia.
    exists e. split; auto. split; [lia|]. split; auto. intros j Hj.
    destruct (Nat.eq_dec j (S i)) as [->|]; auto. apply E3. lia.
Qed.

(** The two loops together select exactly the indexes inside the interval. *)
Lemma di_bounds i0 i1 a e : (sa <= eb)%Qc -> (sa = eb -> so = false /\ eo = false) ->
  (i0 <= a <= length qs)%nat -> (i1 < length qs)%nat -> (e <= S i1)%nat ->
  (forall j, (j < i0)%nat -> (kq qs j < sa)%Qc) ->
  (forall j, (i1 < j < length qs)%nat -> (eb < kq qs j)%Qc) ->
  (forall j, (i0 <= j < a)%nat -> (kq qs j < eb)%Qc /\ ~ inq sa eb so eo (kq qs j)) ->
  (a = length qs \/ (eb <= kq qs a)%Qc \/ inq sa eb so eo (kq qs a)) ->
  (forall j, (e <= j <= i1)%nat -> (sa < kq qs j)%Qc /\ ~ inq sa eb so eo (kq qs j)) ->
  (e = 0%nat \/ (kq qs (e - 1) <= sa)%Qc \/ inq sa eb so eo (kq qs (e - 1))) ->
  (a <= e <= length qs)%nat /\
  forall j, (j < length qs)%nat -> (a <= j < e)%nat <-> inq sa eb so eo (kq qs j).
Proof.
  intros Hse Hpt Ha Hi1 He Hlo Hhi Hs1 Hs2 He1 He2.
  assert (A : asc qs) by apply K.
  assert (Na : forall j, (j < a)%nat -> ~ inq sa eb so eo (kq qs j)).
  { intros j Hj. destruct (Nat.lt_ge_cases j i0) as [L|L].
    - apply Hlo in L. unfold inq. destruct so; intros [Q _].
      + apply (Qclt_not_le _ _ L). now apply Qclt_le_weak.
      + apply (Qclt_not_le _ _ L). auto.
    - apply Hs1. lia. }
  assert (Ne : forall j, (e <= j < length qs)%nat -> ~ inq sa eb so eo (kq qs j)).
  { intros j Hj. destruct (Nat.lt_ge_cases i1 j) as [L|L].
    - assert (L' : (eb < kq qs j)%Qc) by (apply Hhi; lia). unfold inq. destruct eo; intros [_ Q].
      + apply (Qclt_not_le _ _ L'). now apply Qclt_le_weak.
      + apply (Qclt_not_le _ _ L'). auto.
    - apply He1. lia. }
  assert (AE : (a <= e)%nat).
  { destruct (Nat.le_gt_cases a e) as [|G]; auto. exfalso.
    assert (X1 : (kq qs e < eb)%Qc).
    { destruct (Nat.lt_ge_cases e i0) as [L|L].
      - eapply Qclt_le_trans; [apply Hlo; auto|auto].
      - apply Hs1. lia. }
    assert (X2 : (sa < kq qs e)%Qc).
    { destruct (Nat.lt_ge_cases i1 e) as [L|L].
      - exfalso. assert (Q : (eb < kq qs e)%Qc) by (apply Hhi; lia). apply (Qclt_not_le _ _ Q).
        now apply Qclt_le_weak.
      - apply He1. lia. }
    apply (Na e G). split; [destruct so | destruct eo]; auto; now apply Qclt_le_weak. }
  assert (EN : (e <= length qs)%nat) by lia.
  split; [lia|].
  intros j Hj. split.
  2:{ intro Q. split.
      - destruct (Nat.le_gt_cases a j); auto. exfalso. eapply Na; eauto.
      - destruct (Nat.lt_ge_cases j e); auto. exfalso. eapply Ne; eauto. }
  intros Hr.
  destruct Hs2 as [Hs2|Hs2]; [lia|]. destruct He2 as [He2|He2]; [lia|].
  assert (Mono : (kq qs a <= kq qs j)%Qc /\ (kq qs j <= kq qs (e - 1))%Qc) by (split; apply asc_le; auto; lia).
  assert (Mae : (kq qs a <= kq qs (e - 1))%Qc) by (apply asc_le; auto; lia).
  assert (Ia : inq sa eb so eo (kq qs a) /\ inq sa eb so eo (kq qs (e - 1))).
  { destruct Hs2 as [Hs2|Hs2], He2 as [He2|He2].
    - (* eb <= x_a <= x_e <= sa <= eb *)
      assert (sa = eb). { apply Qcle_antisym; auto. eapply Qcle_trans; [exact Hs2|]. eapply Qcle_trans; eauto. }
      destruct (Hpt H) as [-> ->]. subst eb. unfold inq. repeat split; auto.
      + eapply Qcle_trans; eauto.
      + eapply Qcle_trans; eauto.
    - (* x_e in d, x_a >= eb *)
      destruct He2 as [Q1 Q2].
      assert (kq qs (e - 1) <= eb)%Qc by (destruct eo; auto; now apply Qclt_le_weak).
      assert (E1 : kq qs (e - 1) = eb). { apply Qcle_antisym; auto. eapply Qcle_trans; eauto. }
      assert (E2 : kq qs a = eb). { apply Qcle_antisym; auto. eapply Qcle_trans; eauto. }
      rewrite E2. rewrite E1 in *. split; split; auto.
    - destruct Hs2 as [Q1 Q2].
      assert (sa <= kq qs a)%Qc by (destruct so; auto; now apply Qclt_le_weak).
      assert (E1 : kq qs (e - 1) = sa). { apply Qcle_antisym; auto. eapply Qcle_trans; eauto. }
      assert (E2 : kq qs a = sa). { apply Qcle_antisym; auto. eapply Qcle_trans; eauto. }
      rewrite E1. rewrite E2 in *. split; split; auto.
    - auto. }
  destruct Ia as [[Ia1 Ia2] [Ie1 Ie2]]. destruct Mono as [M1 M2]. split.
  - destruct so; [eapply Qclt_le_trans with (kq qs a) | eapply Qcle_trans with (kq qs a)]; auto.
  - destruct eo; [eapply Qcle_lt_trans with (kq qs (e - 1)) | eapply Qcle_trans with (kq qs (e - 1))]; auto.
Qed.
End Loops.

Theorem domain_indexes_spec (s : pts xq V) qs d : sgood s qs -> (0 < length qs)%nat -> iok d ->
  exists a b, domain_indexes s d = Ok (Z.of_nat a, Z.of_nat b) /\ (a <= b <= length qs)%nat /\
    forall j, (j < length qs)%nat -> (a <= j < b)%nat <-> i_contains d (Fin (kq qs j)) = true.
Proof.
  intros SG Hn Hd. unfold domain_indexes.
  pose proof (pi_knots _ _ (sg_pinv _ _ SG)) as K. pose proof (knots_len _ _ K) as L.
  pose proof (sg_first_le_last _ _ SG Hn) as FL.
  rewrite (sg_dom_val s qs SG Hn). rewrite L.
  set (c := mkI (Fin (kq qs 0)) (Fin (kq qs (length qs - 1))) false false).
  assert (Hc : iok c) by (split; discriminate).
  assert (Hin : forall j, (j < length qs)%nat -> emem c (emb (Fin (kq qs j)))).
  { intros j Hj. apply imem_emem; auto; [nn|]. apply imem_closed. split; apply asc_le; try apply K; lia. }
  destruct (i_superset d c) eqn:Sup.
  { exists 0%nat, (length qs). split; [reflexivity|]. split; [lia|]. intros j Hj.
    split; [intros _|lia]. apply contains_e; auto; [nn|].
    eapply superset_emem with (b := c); eauto. }
  destruct (i_is_empty (i_inter2 d c)) eqn:E.
  { exists 0%nat, 0%nat. split; [reflexivity|]. split; [lia|]. intros j Hj.
    split; [lia|]. intro C. exfalso. apply contains_e in C; auto; [|nn].
    apply is_empty_e in E; [|now apply iok_inter2].
    apply (empty_no_emem _ (emb (Fin (kq qs j))) E). apply inter2_emem; auto. }
  assert (Eq : forall j, (j < length qs)%nat ->
     i_contains d (Fin (kq qs j)) = true <-> i_contains (i_inter2 d c) (Fin (kq qs j)) = true).
  { intros j Hj. rewrite !contains_e by (auto using iok_inter2; nn). rewrite inter2_emem by auto.
    specialize (Hin j Hj). tauto. }
  destruct (inter_fin d (kq qs 0) (kq qs (length qs - 1)) Hd E) as [sa [eb [so [eo [Ei [B1 [B2 [B3 B4]]]]]]]].
  fold c in Ei. rewrite Ei in *. cbn [i_is_negative_infinite i_is_positive_infinite].
  unfold i_is_negative_infinite, i_is_positive_infinite. cbn [i_start i_end n_isinf XQ andb].
  assert (A : asc qs) by apply K.
  (* start *)
  destruct (x_index_spec s qs sa (sg_pinv _ _ SG) Hn) as [r0 [X0 R0]].
  destruct (x_index_spec s qs eb (sg_pinv _ _ SG) Hn) as [r1 [X1 R1]].
  rewrite X0, X1. cbn [rbind n_floor n_ceil XQ xq_toZ].
  destruct (floor_idx qs sa r0 A Hn R0 B1) as [i0 [I1 [I2 [I3 I4]]]].
  assert (F0 : Z.max 0 (Qcfloor r0) = Z.of_nat i0).
  { assert (Qcfloor r0 <= Z.of_nat (length qs) - 1)%Z.
    { destruct R0 as [Q1 Q2|Q1 Q2|i Hi Hq Hr|i Hi Hq Hr].
      - exfalso. apply (Qclt_not_le _ _ Q1); auto.
      - exfalso. apply (Qclt_not_le _ _ Q1). eapply Qcle_trans; eauto.
      - subst r0. rewrite Qcfloor_ofZ. lia.
      - subst r0. rewrite floor_mid by now apply mid_frac. lia. }
    lia. }
  rewrite F0.
  destruct (ceil_idx qs eb r1 A Hn R1 B3) as [i1 [J1 [J2 [J3 J4]]]].
  assert (C1 : Z.min (Z.of_nat (length qs)) (Qcceiling r1) = Z.of_nat i1).
  { assert (0 <= Qcceiling r1)%Z.
    { destruct R1 as [Q1 Q2|Q1 Q2|i Hi Hq Hr|i Hi Hq Hr].
      - exfalso. apply (Qclt_not_le _ _ Q1). eapply Qcle_trans; eauto.
      - exfalso. apply (Qclt_not_le _ _ Q1); auto.
      - subst r1. rewrite Qcceiling_ofZ. lia.
      - subst r1. rewrite ceil_mid by now apply mid_frac. lia. }
    lia. }
  rewrite C1.
  destruct (di_start_spec _ _ K sa eb so eo (S (S (length qs))) i0) as [a [A1 [A2 [A3 A4]]]]; try lia.
  destruct (di_end_spec _ _ K sa eb so eo (S (S (length qs))) i1) as [e [E1 [E2 [E3 E4]]]]; try lia.
  rewrite A1, E1. cbn [rbind].
  assert (Lo : forall j, (j < i0)%nat -> (kq qs j < sa)%Qc).
  { intros j Hj. eapply Qclt_le_trans; [|exact I3]. apply A. lia. }
  assert (Hi : forall j, (i1 < j < length qs)%nat -> (eb < kq qs j)%Qc).
  { intros j Hj. eapply Qcle_lt_trans; [exact J3|]. apply A. lia. }
  destruct (di_bounds _ _ K sa eb so eo i0 i1 a e B2 B4 A2 J1 E2 Lo Hi A3 A4 E3 E4) as [Z1 Z2].
  exists a, e. split; [f_equal; f_equal; lia|]. split; [lia|].
  intros j Hj. rewrite (Z2 j Hj), Eq by auto. symmetry. apply contains_inq.
Qed.

(** ** slices are filters *)
Lemma filter_firstn_skipn {A} (f : A -> bool) (l : list A) a b :
  (a <= b <= length l)%nat ->
  (forall j x, nth_error l j = Some x -> f x = true <-> (a <= j < b)%nat) ->
  filter f l = skipn a (firstn b l) /\
  filter (fun x => negb (f x)) l = firstn a l ++ skipn b l.
Proof.
  revert a b. induction l as [|x l IH]; intros a b Hab H.
  - destruct a, b; simpl in *; try lia; auto.
  - simpl in Hab.
    assert (Hx : f x = true <-> (a <= 0 < b)%nat) by (apply (H 0%nat x); reflexivity).
    assert (H' : forall a' b', (a' = pred a) -> (b' = pred b) ->
        (forall j y, nth_error l j = Some y -> f y = true <-> (a <= S j < b)%nat)).
    { intros a' b' _ _ j y Hy. apply (H (S j)). exact Hy. }
    specialize (H' _ _ eq_refl eq_refl).
    destruct a as [|a].
    + destruct b as [|b].
      * assert (f x = false) by (destruct (f x); auto; destruct Hx as [Hx _]; specialize (Hx eq_refl); lia).
        simpl. rewrite H0. simpl.
        destruct (IH 0%nat 0%nat) as [I1 I2]; [lia| |].
        { intros j y Hy. rewrite (H' j y Hy). lia. }
        simpl in I1, I2. rewrite I1, I2. auto.
      * assert (f x = true) by (apply Hx; lia). simpl. rewrite H0. simpl.
        destruct (IH 0%nat b) as [I1 I2]; [lia| |].
        { intros j y Hy. rewrite (H' j y Hy). lia. }
        simpl in I1, I2. rewrite I1, I2. auto.
    + assert (f x = false) by (destruct (f x); auto; destruct Hx as [Hx _]; specialize (Hx eq_refl); lia).
      destruct b as [|b]; [lia|]. simpl. rewrite H0. simpl.
      destruct (IH a b) as [I1 I2]; [lia| |].
      { intros j y Hy. rewrite (H' j y Hy). lia. }
      rewrite I1, I2. auto.
Qed.

Lemma py_clip_id n i : (i <= n)%nat -> py_clip (Z.of_nat n) (Z.of_nat i) = i.
Proof. intros. unfold py_clip. replace (Z.of_nat i <? 0)%Z with false by lia. lia. Qed.

Lemma filter_all {A} (f : A -> bool) (l : list A) : (forall x, In x l -> f x = true) -> filter f l = l.
Proof. induction l; simpl; intros; auto. rewrite H by auto. f_equal; auto. Qed.
Lemma filter_none {A} (f : A -> bool) (l : list A) : (forall x, In x l -> f x = false) -> filter f l = [].
Proof. induction l; simpl; intros; auto. rewrite H by auto. auto. Qed.

Definition inside (d : ival xq) (p : xq * V) : bool := i_contains d (fst p).

Lemma domain_indexes_filter (s : pts xq V) qs d : sgood s qs -> (0 < length qs)%nat -> iok d ->
  exists a b, domain_indexes s d = Ok (Z.of_nat a, Z.of_nat b) /\ (a <= b <= length (p_pts s))%nat /\
    filter (inside d) (p_pts s) = skipn a (firstn b (p_pts s)) /\
    filter (fun p => negb (inside d p)) (p_pts s) = firstn a (p_pts s) ++ skipn b (p_pts s).
Proof.
  intros SG Hn Hd. destruct (domain_indexes_spec s qs d SG Hn Hd) as [a [b [E [Hab H]]]].
  pose proof (pi_knots _ _ (sg_pinv _ _ SG)) as K. rewrite <- (knots_len _ _ K) in Hab.
  exists a, b. split; auto. split; auto. apply filter_firstn_skipn; auto.
  intros j [x v] Hj. destruct (knots_nth_inv _ _ _ _ _ K Hj) as [Hl ->].
  unfold inside; simpl. rewrite <- (H j Hl). tauto.
Qed.

(** ** sample_points (regular branch) *)
Definition regular (s : pts xq V) (ms step : option xq) : Prop :=
  forall h, p_int s = Some h ->
    (forall m, ms = Some m -> xq_ltb h m = false) /\
    (forall k, step = Some k -> xq_eqb k h = true).

Theorem p_sample_points_spec fuel (s : pts xq V) dom ms step : good s -> regular s ms step ->
  (forall d, dom = Some d -> iok d) ->
  p_sample_points fuel s dom ms step =
    Ok (filter (fun p => match dom with Some d => inside d p | None => true end) (p_pts s)).
Proof.
  intros G R Hd. unfold p_sample_points.
  destruct (good_nil_or s G) as [E|[qs [SG Hn]]].
  { rewrite (good_nil_dom s G E), E. reflexivity. }
  pose proof (pi_knots _ _ (sg_pinv _ _ SG)) as K. pose proof (sg_first_le_last _ _ SG Hn) as FL.
  rewrite (sg_dom_val s qs SG Hn). rewrite closed_nonempty by auto.
  replace (match p_int s with Some h => _ | None => false end) with false.
  2:{ symmetry. destruct (p_int s) as [h|] eqn:Eh; auto. destruct (R h Eh) as [R1 R2].
      unfold n_gtb. cbn [n_ltb n_eqb XQ].
      destruct ms as [m|], step as [k|]; rewrite ?(R1 _ eq_refl), ?(R2 _ eq_refl); reflexivity. }
  set (c := mkI (Fin (kq qs 0)) (Fin (kq qs (length qs - 1))) false false).
  assert (Hc : iok c) by (split; discriminate).
  assert (Hin : forall p, In p (p_pts s) -> exists q, fst p = Fin q /\ emem c (emb (Fin q))).
  { intros [x v] Hp. destruct (in_knots_inv _ _ _ _ K Hp) as [j [Hj ->]]. exists (kq qs j). split; auto.
    apply imem_emem; auto; [nn|]. apply imem_closed. split; apply asc_le; try apply K; lia. }
  assert (Hpd : iok (i_parse dom)) by (destruct dom; simpl; auto with nn).
  assert (Ef : filter (fun p => match dom with Some d => inside d p | None => true end) (p_pts s)
             = filter (inside (i_parse dom)) (p_pts s)).
  { apply filter_ext_in. intros p Hp. destruct dom as [d|]; auto. simpl. symmetry.
    destruct (Hin p Hp) as [q [E _]]. unfold inside. rewrite E. apply contains_iff; auto with nn.
    split; reflexivity. }
  rewrite Ef. clear Ef Hd. set (d := i_parse dom) in *. clearbody d.
  destruct (i_superset d c) eqn:Sup.
  { f_equal. symmetry. apply filter_all. intros p Hp. destruct (Hin p Hp) as [q [Ep Hq]].
    unfold inside. rewrite Ep. apply contains_e; auto; [nn|]. eapply superset_emem with (b := c); eauto. }
  assert (Hcd : iok (i_inter2 c d)) by auto using iok_inter2.
  destruct (i_is_empty (i_inter2 c d)) eqn:Em.
  { f_equal. symmetry. apply filter_none. intros p Hp. destruct (Hin p Hp) as [q [Ep Hq]].
    unfold inside. rewrite Ep. apply contains_false_e; auto; [nn|]. intro Q.
    apply is_empty_e in Em; auto. apply (empty_no_emem _ (emb (Fin q)) Em). apply inter2_emem; auto. }
  destruct (domain_indexes_filter s qs (i_inter2 c d) SG Hn Hcd) as [a [b [D [Hab [F _]]]]].
  rewrite D. cbn [rbind]. unfold py_slice. rewrite !py_clip_id by lia. rewrite <- F. f_equal.
  apply filter_ext_in. intros p Hp. destruct (Hin p Hp) as [q [Ep Hq]].
  unfold inside. rewrite Ep. apply eq_true_iff_eq. rewrite !contains_e by (auto; nn).
  rewrite inter2_emem by auto. tauto.
Qed.
End Dom.
