(** Concrete offsets with a duration. *)
From Coq Require Import List ZArith QArith Qcanon Bool Lia.
From Verif Require Import Base Num NumFacts Interval Curve Points PointsSpec PointsOps PointsDec PointsHist PointsRefute PointsTop PointsEx BaseEx Combine CombineEx.
From Verif Require Import Scan ScanFacts ScanSource ScanInv ScanTf SmaFacts SmaInv ScanTop OffsetDur OffsetDurFacts OffsetDurTop.
Import ListNotations.

(** a duration of one second *)
Definition sec : calendar xq := fixed (QcofZ 0) (QcofZ 1).
Definition sec_g (i : Z) : Qc := (QcofZ 0 + QcofZ 1 * QcofZ i)%Qc.
Lemma sec_ticks : ticks sec sec_g.
Proof. apply fixed_ticks. reflexivity. Qed.

(** any strictly increasing sequence of boundaries is a calendar *)
Definition boundaries (g : Z -> Qc) (loc : Qc -> Z) : calendar xq :=
  let on (f : Qc -> Qc) (x : xq) := match x with Fin q => Fin (f q) | _ => x end in
  let up q := if Qc_eq_dec (g (loc q)) q then loc q else (loc q + 1)%Z in
  mkCal (on (fun q => g (loc q))) (on (fun q => g (up q))) (fun x n => on (fun q => g (loc q + n)%Z) x)
    (on (fun q => g (loc q + 1)%Z)) (on (fun q => g (up q - 1)%Z)).
Lemma boundaries_ticks g loc : (forall i j, (i < j)%Z -> (g i < g j)%Qc) ->
  (forall x, (g (loc x) <= x)%Qc /\ (x < g (loc x + 1)%Z)%Qc) -> ticks (boundaries g loc) g.
Proof.
  intros INC LOC.
  assert (LE : forall i j, (g i < g j)%Qc -> (i < j)%Z).
  { intros i j H. destruct (Z.lt_trichotomy i j) as [C|[C|C]]; auto; exfalso.
    - subst. apply Qclt_not_le in H. apply H, Qcle_refl.
    - apply INC in C. apply Qclt_le_weak in C. now apply Qclt_not_le in H. }
  assert (LU : forall i x, (g i <= x)%Qc -> (x < g (i + 1)%Z)%Qc -> loc x = i).
  { intros i x A B. destruct (LOC x) as [C D]. assert (H1 : (g i < g (loc x + 1)%Z)%Qc) by (eapply Qcle_lt_trans; eauto).
    assert (H2 : (g (loc x) < g (i + 1)%Z)%Qc) by (eapply Qcle_lt_trans; eauto). apply LE in H1, H2. lia. }
  assert (LG : forall i, loc (g i) = i) by (intros i; apply LU; [apply Qcle_refl|apply INC; lia]).
  split; auto; cbn.
  - intros i x A B. now rewrite (LU i x).
  - intros i x A B. destruct (Qc_eq_dec x (g i)) as [->|NE].
    + rewrite LG. destruct (Qc_eq_dec (g i) (g i)); congruence.
    + assert (B' : (x < g (i - 1 + 1)%Z)%Qc).
      { replace (i - 1 + 1)%Z with i by lia. destruct (Qcle_lt_or_eq _ _ B); auto; contradiction. }
      rewrite (LU (i - 1)%Z x (Qclt_le_weak _ _ A) B'). destruct (Qc_eq_dec _ _) as [E|E].
      * exfalso. rewrite E in A. apply Qclt_not_le in A. apply A, Qcle_refl.
      * now replace (i - 1 + 1)%Z with i by lia.
  - intros i n. now rewrite LG.
  - intros i. now rewrite LG.
  - intros i. rewrite LG. destruct (Qc_eq_dec (g i) (g i)); congruence.
  - intros x. exists (loc x). apply LOC.
Qed.

(** the tests' 20 hours: 0h, 20h, then the next day *)
Definition day_g (i : Z) : Qc := QcofZ (24 * (i / 2) + 20 * (i mod 2)).
Definition day_loc (q : Qc) : Z :=
  let d := Qcfloor (q / QcofZ 24)%Qc in (2 * d + (if Qcltb q (QcofZ (24 * d + 20)) then 0 else 1))%Z.
Lemma day_ticks : ticks (boundaries day_g day_loc) day_g.
Proof.
  apply boundaries_ticks.
  - intros i j H. apply QcofZ_lt. pose proof (Z.div_mod i 2). pose proof (Z.div_mod j 2).
    pose proof (Z.mod_pos_bound i 2). pose proof (Z.mod_pos_bound j 2). lia.
  - intros x. unfold day_loc. set (d := Qcfloor (x / QcofZ 24)).
    assert (A : (QcofZ (24 * d) <= x)%Qc /\ (x < QcofZ (24 * d + 24))%Qc).
    { destruct (Qcfloor_spec (x / QcofZ 24)) as [A B]. fold d in A, B.
      assert (E : (QcofZ 24 * (x / QcofZ 24) = x)%Qc) by (field; intros Z; apply (f_equal this) in Z; vm_compute in Z; discriminate).
      replace (24 * d + 24)%Z with (24 * (d + 1))%Z by lia. rewrite !QcofZ_mul.
      split; rewrite <- E.
      - rewrite E. clear -A E. assert (0 < QcofZ 24)%Qc by reflexivity. qc_nra.
      - rewrite E. clear -B E. assert (0 < QcofZ 24)%Qc by reflexivity. qc_nra. }
    destruct A as [A B]. unfold day_g. destruct (Qcltb x (QcofZ (24 * d + 20))) eqn:C.
    + apply Qcltb_true in C. replace (2 * d + 0)%Z with (d * 2)%Z by lia. rewrite Z_div_mult, Z_mod_mult by lia.
      replace (24 * d + 20 * 0)%Z with (24 * d)%Z by lia. split; auto.
      rewrite Z.div_add_l, (Z.add_comm (d * 2) 1), Z_mod_plus_full by lia. change (1 / 2)%Z with 0%Z. change (1 mod 2)%Z with 1%Z.
      now replace (24 * (d + 0) + 20 * 1)%Z with (24 * d + 20)%Z by lia.
    + apply Qcltb_false in C. replace (2 * d + 1)%Z with (d * 2 + 1)%Z by lia.
      replace (d * 2 + 1 + 1)%Z with ((d + 1) * 2)%Z by lia. rewrite Z_div_mult, Z_mod_mult by lia.
      rewrite Z.div_add_l, (Z.add_comm (d * 2) 1), Z_mod_plus_full by lia. change (1 / 2)%Z with 0%Z. change (1 mod 2)%Z with 1%Z.
      replace (24 * (d + 0) + 20 * 1)%Z with (24 * d + 20)%Z by lia. replace (24 * (d + 1) + 20 * 0)%Z with (24 * d + 24)%Z by lia. auto.
Qed.

(** between the boundaries the offset is a straight line, whatever the source is *)
Lemma off_not_translate : exists K g n (s : npts) x, ticks K g /\ honest_history s /\ n <> 0%Z /\
  (exists i j, c_dom (p_crv s) = mkI (Fin (g i)) (Fin (g j)) false false) /\
  c_y (d_offset_curve K n (p_crv s)) (Fin x) = Ok (Some (fz 6)) /\
  c_y (p_crv s) (Fin (x - (g n - g 0%Z))%Qc) = Ok (Some (fz 5)).
Proof.
  exists sec, sec_g, 1%Z, ex_n0, (QcofZ 3 / QcofZ 2)%Qc. split; [exact sec_ticks|]. split; [exact ex_n0_hist|]. split; [lia|].
  split; [exists 0%Z, 4%Z; vm_compute; f_equal; f_equal; apply Qc_is_canon; reflexivity|]. split; val.
Qed.
(** x_next looks one boundary ahead only *)
Lemma off_next_short : exists K g n (s : npts) x ms y, ticks K g /\ honest_history s /\ n <> 0%Z /\
  (x < g n)%Qc /\ c_next (d_offset_curve K n (p_crv s)) (Fin x) ms None = Ok None /\
  i_contains (c_dom (d_offset_curve K n (p_crv s))) (Fin (g n)) = true /\
  c_y (d_offset_curve K n (p_crv s)) (Fin (g n)) = Ok (Some y).
Proof.
  exists sec, sec_g, 2%Z, ex_u, (QcofZ 0), None, (fz 0). split; [exact sec_ticks|]. split; [exact ex_u_honest|]. split; [lia|].
  split; [reflexivity|]. split; [val|]. split; [vm_compute; reflexivity|val].
Qed.
(** both ends of the domain are rounded up *)
Definition l_half := [(fz 0, nv 1); (fz 1, nv 2); (fr 5 2, nv 3)].
Definition s_half : npts := st (p_init l_half ILinear false).
Lemma s_half_hist : honest_history s_half.
Proof.
  apply hh_init with (l := l_half) (ip := ILinear) (u := false) (evs := evs_of (p_init l_half ILinear false)).
  - apply ascb_sound; vm_compute; reflexivity.
  - unfold s_half, st, evs_of. apply pair3. vm_compute. reflexivity.
  - intros H. exfalso. vm_compute in H. discriminate.
Qed.
Lemma off_dom_wide : exists K g n (s : npts) x, ticks K g /\ honest_history s /\ n <> 0%Z /\
  i_contains (c_dom (d_offset_curve K n (p_crv s))) (Fin x) = true /\
  c_y (d_offset_curve K n (p_crv s)) (Fin x) = Ok None.
Proof.
  exists sec, sec_g, 1%Z, s_half, (QcofZ 4). split; [exact sec_ticks|]. split; [exact s_half_hist|]. split; [lia|].
  split; [vm_compute; reflexivity|val].
Qed.
(** the line before a replaced value changes as well, unannounced *)
Definition s_new : npts := st (p_replace (p_touch ex_n0) (fz 4, nv 8) false).
Lemma off_unannounced : exists K g n (s s' : npts) o D x, ticks K g /\ honest_history s /\ n <> 0%Z /\ op_ok o /\
  run_op s o = (s', [EvBegin D; EvEnd D], Ok tt) /\
  i_contains (d_offset_interval K n D) (Fin x) = false /\
  c_y (d_offset_curve K n (p_crv s)) (Fin x) = Ok (Some (fr 9 2)) /\
  c_y (d_offset_curve K n (p_crv s')) (Fin x) = Ok (Some (fr 15 2)).
Proof.
  exists sec, sec_g, 1%Z, (p_touch ex_n0), s_new, (OReplace (QcofZ 4) (nv 8) false).
  exists (mkI (fz 4) (fz 4) false false), (QcofZ 9 / QcofZ 2)%Qc. split; [exact sec_ticks|]. split; [apply hh_read, ex_n0_hist|]. split; [lia|]. split; [exact I|].
  split; [vm_compute; reflexivity|]. split; [vm_compute; reflexivity|]. split; val.
Qed.
