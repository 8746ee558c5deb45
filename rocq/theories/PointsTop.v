(** The statements about Points over histories, as exported by Properties_Points.v. *)
From Coq Require Import List ZArith QArith Qcanon Bool Lia Lqa Sorting.Sorted Zify ZifyBool.
From Verif Require Import Base Num NumFacts Interval IntervalFacts Curve Points PointsSpec PointsIdx PointsQuery PointsDom PointsOps PointsMut PointsReset PointsReplace PointsCover PointsHist PointsDec.
Import ListNotations.

Section Top.
Context {V : Type} {W : Val xq V}.
Implicit Types l head mid tail : list (xq * V).
Implicit Type s : pts xq V.

Lemma top_y s q : honest_history s -> (p_interp s = ILinear -> lerp_total (V := V)) ->
  exists v, p_y s (Fin q) = Ok v /\ value (p_interp s) (p_pts s) q v /\
            forall v', value (p_interp s) (p_pts s) q v' -> v' = v.
Proof.
  intros H LT. pose proof (honest_history_good s H) as G. destruct (p_y_value s q LT G) as [v [E Hv]].
  exists v. split; auto. split; auto. intros v' Hv'. eapply value_unique; eauto. apply G.
Qed.

Lemma top_y_nonfinite s x : honest_history s -> ~ xfin x -> p_y s x = Ok v_none.
Proof.
  intros H Hx. pose proof (honest_history_good s H) as G. unfold p_y.
  destruct (good_nil_or s G) as [E|[qs [SG Hn]]].
  - rewrite (good_nil_dom s G E). destruct x; reflexivity.
  - rewrite (sg_dom_val s qs SG Hn). unfold i_contains, i_contains_gen.
    destruct x; [exfalso; apply Hx; eexists; eauto|..]; destruct (i_is_empty _); reflexivity.
Qed.

Lemma top_domain s : honest_history s ->
  is_updating (p_upd s) = false /\
  (i_is_empty (p_dom s) = true <-> p_pts s = []) /\
  (forall a z, head_opt (p_pts s) = Some a -> last_opt (p_pts s) = Some z -> p_dom s = i_closed (fst a) (fst z)) /\
  (forall q, i_contains (p_dom s) (Fin q) = true <-> span (p_pts s) q).
Proof.
  intros H. pose proof (honest_history_good s H) as G. pose proof (proj1 (good_calm s) G) as [C T].
  pose proof C as [A [SI [[U1 U2] D]]].
  split; [unfold is_updating; now rewrite U1|]. split; [rewrite calm_dom by auto; now apply pts_domain_empty_iff|].
  split; [intros a z E1 E2; rewrite calm_dom by auto; now apply ends_ok|]. intros q. now apply span_contains.
Qed.

Lemma top_next s x m lim : honest_history s -> notnan x ->
  exists y, p_x_next s x (Some (Fin m)) lim = Ok y /\ least_from (p_pts s) (xq_add x (Fin m)) y.
Proof. intros H. apply p_x_next_spec. now apply honest_history_good. Qed.
Lemma top_previous s x m lim : honest_history s -> notnan x ->
  exists y, p_x_previous s x (Some (Fin m)) lim = Ok y /\ greatest_upto (p_pts s) (xq_sub x (Fin m)) y.
Proof. intros H. apply p_x_previous_spec. now apply honest_history_good. Qed.

Lemma top_sample s fuel dom ms step : honest_history s -> regular s ms step -> (forall d, dom = Some d -> iok d) ->
  p_sample_points fuel s dom ms step =
    Ok (filter (fun p => match dom with Some d => i_contains d (fst p) | None => true end) (p_pts s)).
Proof. intros H R Hd. rewrite p_sample_points_spec; auto. now apply honest_history_good. Qed.

(** reset *)
Lemma top_reset_nonuniform s d : honest_history s -> p_force s = false -> iok d ->
  exists s' evs, p_reset s (Some d) = (s', evs, Ok tt) /\
    p_pts s' = filter (fun p => negb (i_contains d (fst p))) (p_pts s).
Proof.
  intros H F Hd. pose proof (honest_history_good s H) as G.
  destruct (p_reset s (Some d)) as [[s' evs] r] eqn:E. exists s', evs.
  destruct (p_reset_some _ _ _ _ _ G Hd E) as [Hs _ -> Hf| -> Hf K _|head mid tail b Hp Hm Hn Hf P K].
  - split; auto. unfold outside, inside in Hf. rewrite Hf. now destruct Hs as [->| ->].
  - split; auto. unfold outside, inside in Hf. rewrite Hf. apply K.
  - rewrite F in K. cbn [andb] in K. destruct K as [-> [K _]]. split; auto.
    unfold outside, inside in Hf. rewrite Hf. apply K.
Qed.

Lemma top_reset_uniform s d s' evs r : honest_history s -> p_uniform s = true -> iok d ->
  p_reset s (Some d) = (s', evs, r) ->
  (r = Ok tt /\ p_pts s' = filter (fun p => negb (i_contains d (fst p))) (p_pts s)) \/
  (r = Err EExc /\ p_force s = true /\ p_pts s' = p_pts s /\
   exists head mid tail, p_pts s = head ++ mid ++ tail /\ head <> [] /\ mid <> [] /\ tail <> [] /\
     filter (fun p => negb (i_contains d (fst p))) (p_pts s) = head ++ tail).
Proof.
  intros H U Hd E. pose proof (honest_history_good s H) as G. pose proof (proj1 (good_calm s) G) as [C T].
  destruct (p_reset_some _ _ _ _ _ G Hd E) as [Hs _ -> Hf| -> Hf K _|head mid tail b Hp Hm Hn Hf P K].
  - left. split; auto. unfold outside, inside in Hf. rewrite Hf. now destruct Hs as [->| ->].
  - left. split; auto. unfold outside, inside in Hf. rewrite Hf. apply K.
  - destruct (p_force s && negb b) eqn:F.
    + right. apply andb_true_iff in F. destruct F as [F1 F2]. apply negb_true_iff in F2. subst b.
      destruct K as [K1 [K2 _]]. repeat split; auto. exists head, mid, tail. repeat split; auto.
      * intros N. subst head. specialize (T U). rewrite Hp in T. simpl in *.
        pose proof C as [A [SI _]]. rewrite Hp in A. simpl in A.
        (* a tail of an equally spaced list is accepted *)
        assert (X : points_equally_spaced (p_int s) [] tail = Ok true); [|congruence].
        destruct T as [x0 [h [Hh T]]].
        destruct (Nat.lt_ge_cases (length tail) 2) as [L|L].
        { unfold points_equally_spaced. cbn [length]. replace (0 + length tail <? 2)%nat with true by (symmetry; apply Nat.ltb_lt; lia).
          now rewrite orb_true_r. }
        rewrite Hp in SI. simpl in SI.
        pose proof (span_eq (mid ++ tail) x0 h (p_int s) A Hh T SI) as EI. rewrite app_length in EI. rewrite EI by lia.
        unfold points_equally_spaced. cbn [length].
        destruct (Nat.eqb_spec (length tail) 0); [lia|]. destruct (Nat.ltb_spec (0 + length tail) 2); [lia|].
        cbn [orb Nat.eqb negb].
        destruct tail as [|t0 tl]; [simpl in L; lia|]. remember (t0 :: tl) as tl0.
        destruct (last_opt_some tl0) as [z Ez]; [congruence|].
        assert (P0 : py_nth tl0 0 = Ok t0) by (change 0%Z with (Z.of_nat 0); apply py_nth_pos; subst; reflexivity).
        rewrite P0, (py_nth_m1 _ _ Ez). cbn [rbind].
        rewrite (T (length mid) t0) by (rewrite nth_error_app2, Nat.sub_diag by lia; subst; reflexivity).
        rewrite last_opt_nth in Ez.
        rewrite (T (length mid + (length tl0 - 1))%nat z) by (rewrite nth_error_app2 by lia; now replace (length mid + (length tl0 - 1) - length mid)%nat with (length tl0 - 1)%nat by lia).
        cbn [n_eqb n_add n_mul n_ofZ XQ xq_eqb xq_add xq_mul]. f_equal. apply Qceqb_true.
        rewrite Nat2Z.inj_add, QcofZ_add. replace (Z.of_nat (length tl0 - 1)) with (Z.of_nat (length tl0) - 1)%Z by lia. ring.
      * intros N. subst tail. specialize (T U). rewrite Hp in T. rewrite app_nil_r in *.
        pose proof C as [A [SI _]]. rewrite Hp in A.
        assert (X : points_equally_spaced (p_int s) [] head = Ok true); [|congruence].
        destruct T as [x0 [h [Hh T]]].
        destruct (Nat.lt_ge_cases (length head) 2) as [L|L].
        { unfold points_equally_spaced. cbn [length]. replace (0 + length head <? 2)%nat with true by (symmetry; apply Nat.ltb_lt; lia).
          now rewrite orb_true_r. }
        rewrite Hp in SI.
        pose proof (span_eq (head ++ mid) x0 h (p_int s) A Hh T SI) as EI. rewrite app_length in EI. rewrite EI by lia.
        unfold points_equally_spaced. cbn [length].
        destruct (Nat.eqb_spec (length head) 0); [lia|]. destruct (Nat.ltb_spec (0 + length head) 2); [lia|].
        cbn [orb Nat.eqb negb].
        destruct head as [|t0 tl]; [simpl in L; lia|]. remember (t0 :: tl) as tl0.
        destruct (last_opt_some tl0) as [z Ez]; [congruence|].
        assert (P0 : py_nth tl0 0 = Ok t0) by (change 0%Z with (Z.of_nat 0); apply py_nth_pos; subst; reflexivity).
        rewrite P0, (py_nth_m1 _ _ Ez). cbn [rbind].
        rewrite (T 0%nat t0) by (subst; reflexivity).
        rewrite last_opt_nth in Ez.
        rewrite (T (length tl0 - 1)%nat z) by (rewrite nth_error_app1 by lia; exact Ez).
        cbn [n_eqb n_add n_mul n_ofZ XQ xq_eqb xq_add xq_mul]. f_equal. apply Qceqb_true.
        change (QcofZ (Z.of_nat 0)) with (QcofZ 0). rewrite QcofZ_0.
        replace (Z.of_nat (length tl0 - 1)) with (Z.of_nat (length tl0) - 1)%Z by lia. ring.
    + left. destruct K as [-> [K _]]. split; auto. unfold outside, inside in Hf. rewrite Hf. apply K.
Qed.

Lemma top_reset_all s : honest_history s -> exists s' evs, p_reset s None = (s', evs, Ok tt) /\ p_pts s' = [].
Proof.
  intros H. pose proof (honest_history_good s H) as G. destruct (p_reset s None) as [[s' evs] r] eqn:E.
  destruct (p_reset_none _ _ _ _ G E) as [-> [K _]]. eauto.
Qed.

(** replace *)
Lemma top_replace s q v oa s' evs r : honest_history s -> p_replace s (Fin q, v) oa = (s', evs, r) ->
  (* x is a stored x: only its value changes *)
  (forall l1 v0 l2, p_pts s = l1 ++ (Fin q, v0) :: l2 -> r = Ok tt /\ p_pts s' = l1 ++ (Fin q, v) :: l2) /\
  (* x is strictly between two neighbours *)
  (forall l1 a b l2, p_pts s = l1 ++ a :: b :: l2 -> lt_x (fst a) (Fin q) -> lt_x (Fin q) (fst b) ->
     if p_force s then r = Err EExc /\ p_pts s' = p_pts s
     else r = Ok tt /\ p_pts s' = l1 ++ a :: (Fin q, v) :: b :: l2) /\
  (* x is outside the span *)
  (~ span (p_pts s) q ->
     if oa then p_append (p_touch s) (Fin q, v) = (s', evs, r) else r = Err EExc /\ evs = [] /\ s' = p_touch s).
Proof.
  intros H E. pose proof (honest_history_good s H) as G. pose proof (proj1 (good_calm s) G) as [C T]. pose proof C as [A _].
  split; [|split].
  - intros l1 v0 l2 Hp.
    assert (Hs : span (p_pts s) q).
    { exists q, q, v0, v0. rewrite Hp. repeat split; try (apply in_elt); apply Qcle_refl. }
    destruct (p_replace_in _ _ _ _ _ _ _ G Hs E) as [m1 w m2 Hq -> K _|m1 a b m2 Hq L1 L2 K].
    + split; auto. rewrite (so_pts _ _ _ _ _ K).
      assert (X : length l1 = length m1).
      { pose proof (proj1 (ascending_knots _) A) as [qs Kn].
        assert (N1 : nth_error (p_pts s) (length l1) = Some (Fin q, v0)) by (rewrite Hp, nth_error_app2, Nat.sub_diag by lia; reflexivity).
        assert (N2 : nth_error (p_pts s) (length m1) = Some (Fin q, w)) by (rewrite Hq, nth_error_app2, Nat.sub_diag by lia; reflexivity).
        destruct (knots_nth_inv _ _ _ _ _ Kn N1) as [B1 E1]. destruct (knots_nth_inv _ _ _ _ _ Kn N2) as [B2 E2].
        injection E1 as E1. injection E2 as E2.
        destruct (lt_eq_lt_dec (length l1) (length m1)) as [[Q|Q]|Q]; auto; exfalso.
        - assert (X : (kq qs (length l1) < kq qs (length m1))%Qc) by (apply Kn; lia). rewrite <- E1, <- E2 in X. apply (Qclt_not_le _ _ X), Qcle_refl.
        - assert (X : (kq qs (length m1) < kq qs (length l1))%Qc) by (apply Kn; lia). rewrite <- E1, <- E2 in X. apply (Qclt_not_le _ _ X), Qcle_refl. }
      rewrite Hp in Hq. apply app_inj_tail_iff in Hq || idtac.
      assert (Y : l1 = m1 /\ (Fin q, v0) :: l2 = (Fin q, w) :: m2).
      { clear -X Hq. revert m1 X Hq. induction l1 as [|x l1 IH]; intros [|y m1] X Hq; simpl in *; try discriminate; auto.
        injection Hq as -> Hq. injection X as X. destruct (IH m1 X Hq) as [-> Z]. auto. }
      destruct Y as [-> Y]. injection Y as _ ->. reflexivity.
    + exfalso. assert (I : In (Fin q, v0) (p_pts s)) by (rewrite Hp; apply in_elt).
      pose proof A as A0. rewrite Hq in A0. pose proof (proj1 (ascending_app_iff _ _) A0) as [A1 [A2 _]].
      rewrite Hq in I. apply in_app_iff in I. destruct I as [I|I].
      * pose proof (ascending_last_ge _ a _ A1 (last_opt_app _ _) I) as Y. cbn [fst] in Y.
        destruct (ascending_fin _ a A1) as [qa [va ->]]; [apply in_or_app; simpl; auto|]. cbn [fst] in *.
        rewrite lt_x_fin in L1. rewrite le_x_fin in Y. qc_lra.
      * pose proof (ascending_head_le _ b _ A2 eq_refl I) as Y. cbn [fst] in Y.
        destruct (ascending_fin _ b A2) as [qb [vb ->]]; [simpl; auto|]. cbn [fst] in *.
        rewrite lt_x_fin in L2. rewrite le_x_fin in Y. qc_lra.
  - intros l1 a b l2 Hp L1 L2.
    assert (Ia : In a (p_pts s)) by (rewrite Hp; apply in_elt).
    assert (Ib : In b (p_pts s)) by (rewrite Hp; apply in_or_app; right; simpl; auto).
    destruct (ascending_fin _ a A Ia) as [qa [va Ha]]. destruct (ascending_fin _ b A Ib) as [qb [vb Hb]].
    assert (La : (qa < q)%Qc) by (rewrite Ha in L1; now apply lt_x_fin). assert (Lb : (q < qb)%Qc) by (rewrite Hb in L2; now apply lt_x_fin).
    assert (Hs : span (p_pts s) q).
    { exists qa, qb, va, vb. subst a b. repeat split; auto; now apply Qclt_le_weak. }
    pose proof (proj1 (ascending_knots _) A) as [qs Kn].
    assert (N1 : nth_error (p_pts s) (length l1) = Some a) by (rewrite Hp, nth_error_app2, Nat.sub_diag by lia; reflexivity).
    assert (N2 : nth_error (p_pts s) (S (length l1)) = Some b).
    { rewrite Hp, nth_error_app2 by lia. now replace (S (length l1) - length l1)%nat with 1%nat by lia. }
    rewrite Ha in N1. rewrite Hb in N2.
    destruct (knots_nth_inv _ _ _ _ _ Kn N1) as [B1 E1]. destruct (knots_nth_inv _ _ _ _ _ Kn N2) as [B2 E2].
    injection E1 as E1. injection E2 as E2.
    destruct (p_replace_in _ _ _ _ _ _ _ G Hs E) as [m1 w m2 Hq Hr K _|m1 a' b' m2 Hq L1' L2' K].
    + exfalso.
      assert (N3 : nth_error (p_pts s) (length m1) = Some (Fin q, w)) by (rewrite Hq, nth_error_app2, Nat.sub_diag by lia; reflexivity).
      destruct (knots_nth_inv _ _ _ _ _ Kn N3) as [B3 E3]. injection E3 as E3. subst qa qb q.
      apply asc_inv in La; auto; [|apply Kn]. apply asc_inv in Lb; auto; [|apply Kn]. lia.
    + assert (N3 : nth_error (p_pts s) (length m1) = Some a').
      { rewrite Hq, <- app_assoc, nth_error_app2, Nat.sub_diag by lia. reflexivity. }
      assert (N4 : nth_error (p_pts s) (S (length m1)) = Some b').
      { rewrite Hq, <- app_assoc, nth_error_app2 by lia. now replace (S (length m1) - length m1)%nat with 1%nat by lia. }
      destruct (ascending_fin _ a' A (nth_error_In _ _ N3)) as [qa' [va' Ha']].
      destruct (ascending_fin _ b' A (nth_error_In _ _ N4)) as [qb' [vb' Hb']].
      rewrite Ha' in N3, L1'. rewrite Hb' in N4, L2'. cbn [fst] in L1', L2'. rewrite lt_x_fin in L1', L2'.
      destruct (knots_nth_inv _ _ _ _ _ Kn N3) as [B3 E3]. destruct (knots_nth_inv _ _ _ _ _ Kn N4) as [B4 E4].
      injection E3 as E3. injection E4 as E4.
      assert (X : length l1 = length m1).
      { assert (X1 : (kq qs (length l1) < kq qs (S (length m1)))%Qc) by (rewrite <- E1, <- E4; qc_lra).
        assert (X2 : (kq qs (length m1) < kq qs (S (length l1)))%Qc) by (rewrite <- E3, <- E2; qc_lra).
        apply asc_inv in X1; auto; [|apply Kn]. apply asc_inv in X2; auto; [|apply Kn]. lia. }
      destruct (p_force s).
      * destruct K as [K1 [K2 _]]. auto.
      * destruct K as [-> [K _]]. split; auto. rewrite (so_pts _ _ _ _ _ K). rewrite <- app_assoc. simpl.
        rewrite <- app_assoc in Hq. simpl in Hq. rewrite Hp in Hq.
        assert (Y : l1 = m1 /\ a :: b :: l2 = a' :: b' :: m2).
        { clear -X Hq. revert m1 X Hq. induction l1 as [|x l1 IH]; intros [|y m1] X Hq; simpl in *; try discriminate; auto.
          injection Hq as -> Hq. injection X as X. destruct (IH m1 X Hq) as [-> Z]. auto. }
        destruct Y as [-> Y]. injection Y as -> -> ->. reflexivity.
  - intros Hs. rewrite (p_replace_out _ _ _ _ G Hs) in E. destruct oa; auto. injection E as <- <- <-. auto.
Qed.

(** append *)
Lemma top_append s m s' evs r : honest_history s -> ascending m -> p_append_list s m = (s', evs, r) ->
  (r = Ok tt /\ p_pts s' = p_pts s ++ m /\ ascending (p_pts s')) \/ (r = Err EExc /\ p_pts s' = p_pts s).
Proof.
  intros H Am E. pose proof (honest_history_good s H) as G. pose proof (proj1 (good_calm s) G) as [C T].
  destruct (p_pts s) as [|p0 ps] eqn:Ep.
  - unfold p_append_list in E. rewrite Ep in E. destruct (p_set_cases s m None C Am) as [b [_ K]]; [discriminate|].
    destruct (p_force s && negb b).
    + destruct K as [s2 [K [K1 _]]]. rewrite K in E. injection E as <- _ <-. right. rewrite K1, Ep. auto.
    + destruct K as [s2 [K [K1 _]]]. rewrite K in E. injection E as <- _ <-. left. rewrite (so_pts _ _ _ _ _ K1). auto.
  - destruct m as [|b m].
    + unfold p_append_list in E. rewrite Ep in E. cbn [head_opt] in E. injection E as <- _ <-. left.
      rewrite Ep, app_nil_r. split; auto. split; auto. rewrite <- Ep. apply C.
    + rewrite <- Ep.
      destruct (p_append_list_cases s (b :: m) C) as [[a [z [_ [_ [_ K]]]]]|[AA [q [_ [_ [_ K]]]]]]; auto; try congruence.
      * rewrite K in E. injection E as <- _ <-. auto.
      * destruct (p_force s && negb q).
        -- destruct K as [s2 [K [K1 _]]]. rewrite K in E. injection E as <- _ <-. auto.
        -- destruct K as [s2 [K [K1 _]]]. rewrite K in E. injection E as <- _ <-. left.
           rewrite (so_pts _ _ _ _ _ K1). auto.
Qed.

Lemma top_append_nonuniform s q v : honest_history s -> p_force s = false ->
  (forall p, In p (p_pts s) -> lt_x (fst p) (Fin q)) ->
  exists s' evs, p_append s (Fin q, v) = (s', evs, Ok tt) /\ p_pts s' = p_pts s ++ [(Fin q, v)].
Proof.
  intros H F Hlt. destruct (p_append s (Fin q, v)) as [[s' evs] r] eqn:E.
  pose proof (honest_history_good s H) as G. pose proof (proj1 (good_calm s) G) as [C T].
  assert (r = Ok tt) as ->.
  { unfold p_append in E. destruct (p_pts s) as [|p0 ps] eqn:Ep.
    - unfold p_append_list in E. rewrite Ep in E. destruct (p_set_cases s [(Fin q, v)] None C (ascending_one q v)) as [b [_ K]]; [discriminate|].
      rewrite F in K. cbn [andb] in K. destruct K as [s2 [K _]]. congruence.
    - rewrite <- Ep in *.
      destruct (p_append_list_cases s [(Fin q, v)] C) as [[a [z [Ha [Ez [L _]]]]]|[AA [b [_ [_ [_ K]]]]]]; auto using ascending_one; try congruence.
      + exfalso. injection Ha as <-. specialize (Hlt z (last_opt_in _ _ Ez)).
        destruct (ascending_fin _ z (proj1 C) (last_opt_in _ _ Ez)) as [qz [vz ->]]. cbn [fst] in *.
        rewrite lt_x_fin in Hlt. rewrite le_x_fin in L. qc_lra.
      + rewrite F in K. cbn [andb] in K. destruct K as [s2 [K _]]. congruence. }
  exists s', evs. split; auto. destruct (top_append s [(Fin q, v)] s' evs (Ok tt) H (ascending_one q v) E) as [K|K]; [tauto|destruct K; discriminate].
Qed.

Lemma top_append_refused s m a z : honest_history s -> head_opt m = Some a -> last_opt (p_pts s) = Some z ->
  xfin (fst a) -> le_x (fst a) (fst z) -> p_append_list s m = (s, [], Err EExc).
Proof.
  intros H Ha Hz Fa L. unfold p_append_list. destruct (p_pts s) eqn:Ep; [discriminate|]. rewrite Hz, Ha.
  destruct m as [|a' m]; [discriminate|]. destruct (last_opt_cons a' m) as [y ->]. unfold le_x in L. cbn [n_leb XQ]. now rewrite L.
Qed.

Lemma uniform_honest s : uniform_history s -> honest_history s.
Proof.
  induction 1 as [l ip s evs A E H|s H IH|s o s' evs H IH Ho Hb E|s o s' e H IH Ho E].
  - eapply hh_init; eauto. intros _.
    destruct (uniform_history_good s) as [G F]; [eapply uh_init; eauto|]. apply good_calm in G. apply G. unfold p_uniform. now rewrite F.
  - now apply hh_read.
  - eapply hh_op; eauto. destruct (uniform_history_good s') as [G F]; [eapply uh_op; eauto|]. apply good_calm in G. apply G.
  - eapply hh_refused; eauto.
Qed.

Lemma top_uniform s : uniform_history s -> equally_spaced (p_pts s) /\ p_uniform s = true /\ honest_history s.
Proof.
  intros H. destruct (uniform_history_good s H) as [G F].
  assert (U : p_uniform s = true) by (unfold p_uniform; now rewrite F).
  split; [|split; [auto|now apply uniform_honest]]. apply good_calm in G. now apply G.
Qed.

Lemma top_append_step s q v s' evs : uniform_history s -> p_append s (Fin q, v) = (s', evs, Ok tt) -> uniform_history s'.
Proof. intros H E. eapply uh_op with (o := OAppend q v); eauto; exact I. Qed.

Lemma top_append_accepts s m : uniform_history s -> p_pts s <> [] -> ascending (p_pts s ++ m) -> equally_spaced (p_pts s ++ m) ->
  exists s' evs, p_append_list s m = (s', evs, Ok tt) /\ p_pts s' = p_pts s ++ m.
Proof.
  intros H Hp A E. destruct (uniform_history_good s H) as [G F].
  destruct (p_append_accepts s m G Hp A E) as [s' [evs [K1 [K2 _]]]]. eauto.
Qed.

Lemma append_list_covers s m s' evs q : (p_interp s = ILinear -> lerp_total (V := V)) -> good s -> good s' -> ascending m ->
  p_append_list s m = (s', evs, Ok tt) ->
  ~ (exists D, In (EvEnd D) evs /\ imem D (Fin q)) -> p_y s' (Fin q) = p_y s (Fin q).
Proof.
  intros LT G G' Am E N. pose proof (proj1 (good_calm s) G) as [C T]. pose proof C as [A _].
  destruct (p_pts s) as [|p0 ps] eqn:Ep.
  { eapply (set_covers s m s' evs q); eauto. unfold p_append_list in E. now rewrite Ep in E. }
  assert (Hp : p_pts s <> []) by congruence. rewrite <- Ep in A.
  destruct m as [|b m].
  { unfold p_append_list in E. rewrite Ep in E. cbn [head_opt] in E. injection E as <- _. reflexivity. }
  remember (b :: m) as m0 eqn:Em. assert (Hm : m0 <> []) by congruence. clear Em b m.
  destruct (p_append_list_cases s m0 C Hp Hm Am) as [[? [? [_ [_ [_ K]]]]]|[AA [b [_ [OD [ND K]]]]]]; [congruence|].
  destruct (p_force s && negb b); [destruct K as [? [K _]]; congruence|].
  destruct K as [s2 [K1 [K _]]]. rewrite K1 in E.
  assert (s2 = s') by congruence. assert (HE : notify (append_domain s m0) = evs) by congruence. subst s2. clear E.
  apply p_y_agree; auto; [apply K|]. rewrite (so_pts _ _ _ _ _ K).
  destruct (last_opt_some _ Hp) as [z Ez]. destruct (last_opt_some _ Hm) as [y Ey].
  destruct (ascending_fin _ z A (last_opt_in _ _ Ez)) as [qz [vz Hz]]. subst z.
  destruct (ascending_fin _ y Am (last_opt_in _ _ Ey)) as [q0 [v0 Hy]]. subst y.
  assert (N' : ~ imem (append_domain s m0) (Fin q)).
  { intros M. apply N. exists (append_domain s m0). split; auto. rewrite <- HE. unfold notify. rewrite ND. simpl. auto. }
  unfold append_domain in N'. rewrite Ez, Ey in N'. cbn [fst] in N'.
  intros v Hv. destruct (Qclt_le_dec qz q) as [L|L].
  - assert (L0 : (q0 < q)%Qc).
    { destruct (Qclt_le_dec q0 q); auto. exfalso. apply N'. split; cbn; [now apply lt_x_fin|now apply le_x_fin]. }
    assert (v = v_none).
    { eapply value_unique; [exact A|exact Hv|]. apply value_none; auto. intros S.
      destruct (head_opt_some (p_pts s) Hp) as [a Ea].
      apply (span_closed _ _ _ _ A Ea Ez) in S. cbn [fst] in S. rewrite (le_x_fin q qz) in S. qc_lra. }
    subst v. apply value_none; auto. intros S.
    destruct (head_opt_some (p_pts s ++ m0)) as [a Ea]; [rewrite Ep; discriminate|].
    assert (EL : last_opt (p_pts s ++ m0) = Some (Fin q0, v0)) by (rewrite last_opt_app2; auto).
    apply (span_closed _ _ _ _ AA Ea EL) in S. cbn [fst] in S. rewrite (le_x_fin q q0) in S. qc_lra.
  - rewrite <- (app_nil_r (p_pts s)) in Hv, A.
    eapply value_head; [exact A|exact AA|exact Ez|cbn [fst]; now apply le_x_fin|exact Hv].
Qed.

(** notified intervals *)
Lemma top_covers s o s' evs q : honest_history s -> (p_interp s = ILinear -> lerp_total (V := V)) -> op_ok o ->
  (forall q v oa, o <> OReplace q v oa) ->
  run_op s o = (s', evs, Ok tt) -> (p_uniform s' = true -> equally_spaced (p_pts s')) ->
  p_y s' (Fin q) <> p_y s (Fin q) -> exists D, In (EvBegin D) evs /\ In (EvEnd D) evs /\ imem D (Fin q).
Proof.
  intros H LT Ho N1 E T' Hne. pose proof (honest_history_good s H) as G. pose proof (proj1 (good_calm s) G) as [C T].
  assert (G' : good s') by (apply good_calm; split; [eapply step_calm; eauto|exact T']).
  assert (NT : forall D, In (EvEnd D) (notify D) -> In (EvBegin D) (notify D)).
  { intros D. unfold notify. destruct (i_is_empty D); simpl; tauto. }
  assert (DEC : forall D, {imem D (Fin q)} + {~ imem D (Fin q)}).
  { intros D. unfold imem, lt_x, le_x.
    destruct (i_so D), (i_eo D);
      match goal with |- {?a = true /\ ?b = true} + {_} => destruct (bool_dec a true), (bool_dec b true) end;
      try (left; split; assumption); right; intros [? ?]; contradiction. }
  destruct o as [x v|l|x v oa|d|l]; cbn [run_op op_ok] in *.
  - destruct (DEC (append1_domain s (Fin x))) as [M|M].
    + exists (append1_domain s (Fin x)). destruct (p_append_ok s x v s' evs C E) as [K _]. rewrite (so_evs _ _ _ _ _ K).
      assert (Em : i_is_empty (append1_domain s (Fin x)) = false).
      { destruct (i_is_empty (append1_domain s (Fin x))) eqn:Em; auto. exfalso.
        assert (iok (append1_domain s (Fin x))).
        { unfold append1_domain. destruct (last_opt (p_pts s)) as [z|] eqn:Ez; [|split; discriminate].
          destruct (ascending_fin _ z (proj1 C) (last_opt_in _ _ Ez)) as [qz [vz ->]]. split; discriminate. }
        rewrite is_empty_iff in Em by auto. apply (Em (Fin q)); auto. discriminate. }
      unfold notify. rewrite Em. simpl. auto.
    + exfalso. apply Hne. eapply append_covers; eauto.
  - assert (DX : (exists D, In (EvEnd D) evs /\ imem D (Fin q)) \/ ~ (exists D, In (EvEnd D) evs /\ imem D (Fin q))).
    { clear -DEC. induction evs as [|e evs IH]; [right; intros [D [[] _]]|].
      destruct IH as [[D [I M]]|IH]; [left; exists D; simpl; auto|].
      destruct e as [D|D].
      - right. intros [D' [[I|I] M]]; [discriminate|]. apply IH. eauto.
      - destruct (DEC D) as [M|M]; [left; exists D; simpl; auto|].
        right. intros [D' [[I|I] M']]; [injection I as ->; contradiction|]. apply IH. eauto. }
    destruct DX as [[D [I M]]|DX].
    + exists D. repeat split; auto; try apply M.
      assert (W0 : exists D0, evs = notify D0).
      { destruct (p_pts s) as [|p0 ps] eqn:Ep.
        - unfold p_append_list in E. rewrite Ep in E.
          destruct (p_set_ok s l None s' evs C Ho) as [K _]; auto; [discriminate|]. eexists. apply K.
        - destruct l as [|b l].
          + unfold p_append_list in E. rewrite Ep in E. cbn [head_opt] in E. injection E as _ <-. contradiction.
          + destruct (p_append_list_cases s (b :: l) C) as [[? [? [_ [_ [_ K]]]]]|[AA [b0 [_ [_ [_ K]]]]]]; auto; try congruence.
            destruct (p_force s && negb b0); destruct K as [? [K _]]; [congruence|].
            eexists. assert (X : evs = notify (append_domain s (b :: l))) by congruence. exact X. }
      destruct W0 as [D0 ->]. unfold notify in *. destruct (i_is_empty D0); [contradiction|].
      destruct I as [I|[I|[]]]; [discriminate|]. injection I as <-. simpl; auto.
    + exfalso. apply Hne. eapply append_list_covers; eauto.
  - exfalso. eapply N1; eauto.
  - assert (EX : (exists D, In (EvEnd D) evs /\ imem D (Fin q)) -> exists D, In (EvBegin D) evs /\ In (EvEnd D) evs /\ imem D (Fin q)).
    { intros [D [I M]]. exists D. repeat split; auto; try apply M. destruct d as [d|].
      - destruct (p_reset_some _ _ _ _ _ G Ho E) as [_ -> _ _|_ _ K _|head mid tail b Hp Hm Hn F P K]; [contradiction| |].
        + rewrite (so_evs _ _ _ _ _ K) in *. unfold notify in *. destruct (i_is_empty _); [contradiction|].
          destruct I as [I|[I|[]]]; [discriminate|]. injection I as <-. simpl; auto.
        + destruct (p_force s && negb b); [destruct K as [X _]; discriminate|]. destruct K as [_ [K _]].
          rewrite (so_evs _ _ _ _ _ K) in *. unfold notify in *. destruct (i_is_empty _); [contradiction|].
          destruct I as [I|[I|[]]]; [discriminate|]. injection I as <-. simpl; auto.
      - destruct (p_reset_none _ _ _ _ G E) as [_ [_ [_ [_ [_ ->]]]]]. unfold notify in *. destruct (i_is_empty _); [contradiction|].
        destruct I as [I|[I|[]]]; [discriminate|]. injection I as <-. simpl; auto. }
    apply EX. clear EX.
    assert (DX : (exists D, In (EvEnd D) evs /\ imem D (Fin q)) \/ ~ (exists D, In (EvEnd D) evs /\ imem D (Fin q))).
    { clear -DEC. induction evs as [|e evs IH]; [right; intros [D [[] _]]|].
      destruct IH as [[D [I M]]|IH]; [left; exists D; simpl; auto|].
      destruct e as [D|D].
      - right. intros [D' [[I|I] M]]; [discriminate|]. apply IH. eauto.
      - destruct (DEC D) as [M|M]; [left; exists D; simpl; auto|].
        right. intros [D' [[I|I] M']]; [injection I as ->; contradiction|]. apply IH. eauto. }
    destruct DX as [DX|DX]; auto. exfalso. apply Hne. destruct d as [d|].
    + eapply reset_covers; eauto.
    + unfold p_reset in E. destruct (p_pts s) eqn:Ep.
      * injection E as <- <-. reflexivity.
      * eapply set_covers; eauto using ascending_nil.
  - assert (DX : (exists D, In (EvEnd D) evs /\ imem D (Fin q)) \/ ~ (exists D, In (EvEnd D) evs /\ imem D (Fin q))).
    { clear -DEC. induction evs as [|e evs IH]; [right; intros [D [[] _]]|].
      destruct IH as [[D [I M]]|IH]; [left; exists D; simpl; auto|].
      destruct e as [D|D].
      - right. intros [D' [[I|I] M]]; [discriminate|]. apply IH. eauto.
      - destruct (DEC D) as [M|M]; [left; exists D; simpl; auto|].
        right. intros [D' [[I|I] M']]; [injection I as ->; contradiction|]. apply IH. eauto. }
    destruct DX as [[D [I M]]|DX].
    + exists D. repeat split; auto; try apply M. destruct (p_set_ok s l None s' evs C Ho) as [K _]; auto; [discriminate|].
      rewrite (so_evs _ _ _ _ _ K) in *. unfold notify in *. destruct (i_is_empty _); [contradiction|].
      destruct I as [I|[I|[]]]; [discriminate|]. injection I as <-. simpl; auto.
    + exfalso. apply Hne. eapply set_covers; eauto.
Qed.

Lemma top_replace_knots s q0 v0 oa s' evs q v : honest_history s -> span (p_pts s) q0 ->
  p_replace s (Fin q0, v0) oa = (s', evs, Ok tt) -> q <> q0 ->
  In (Fin q, v) (p_pts s) <-> In (Fin q, v) (p_pts s').
Proof.
  intros H Hs E N. pose proof (honest_history_good s H) as G. eapply replace_covers_knots; eauto.
  eapply p_replace_good; eauto.
Qed.

Lemma top_refused s o s' e : honest_history s -> op_ok o -> run_op s o = (s', [], Err e) -> s' = s \/ s' = p_touch s.
Proof. intros H. apply refused_same. now apply honest_history_good. Qed.

Lemma top_offgrid s x0 h q v : uniform_history s -> (2 <= length (p_pts s))%nat -> (0 < h)%Qc ->
  (forall i p, nth_error (p_pts s) i = Some p -> fst p = Fin (x0 + QcofZ (Z.of_nat i) * h)%Qc) ->
  (x0 + QcofZ (Z.of_nat (length (p_pts s)) - 1) * h < q)%Qc ->
  q <> (x0 + QcofZ (Z.of_nat (length (p_pts s))) * h)%Qc ->
  exists s' D, p_append s (Fin q, v) = (s', [EvBegin D], Err EExc) /\ p_pts s' = p_pts s /\ is_updating (p_upd s') = true.
Proof. intros H. destruct (uniform_history_good s H) as [G F]. now apply p_append_offgrid. Qed.

End Top.

(** Linear interpolation of numbers, spelled out. *)
Lemma top_linear (s : pts xq (option xq)) l1 a ya b yb l2 q : honest_history s -> p_interp s = ILinear ->
  p_pts s = l1 ++ (Fin a, ya) :: (Fin b, yb) :: l2 -> (a < q)%Qc -> (q < b)%Qc ->
  (forall u v, ya = Some (Fin u) -> yb = Some (Fin v) ->
     p_y s (Fin q) = Ok (Some (Fin (u + (v - u) * ((q - a) / (b - a)))%Qc))) /\
  (ya = None \/ yb = None -> p_y s (Fin q) = Ok None).
Proof.
  intros H HI Hp L1 L2. destruct (top_y s q H (fun _ => lerp_total_num)) as [v [E [Hv U]]]. rewrite E.
  assert (X : forall w, v_lerp (T := xq) (Fin ((q - a) / (b - a))%Qc) ya yb = Ok w -> v = w).
  { intros w Hw. symmetry. apply U. eapply val_lerp; eauto. }
  split.
  - intros u w -> ->. f_equal. apply X. cbn [v_lerp NumVal]. f_equal. f_equal.
    change (Fin (((1 - (q - a) / (b - a)) * u + (q - a) / (b - a) * w)%Qc) = Fin (u + (w - u) * ((q - a) / (b - a)))%Qc). f_equal. ring.
  - intros D. f_equal. apply X. destruct D as [-> | ->]; [reflexivity|destruct ya; reflexivity].
Qed.
