(** replace of Points; is_uniform after reset and replace. *)
From Coq Require Import List ZArith QArith Qcanon Bool Lia Lqa Sorting.Sorted Zify ZifyBool.
From Verif Require Import Base Num NumFacts Interval IntervalFacts Curve Points PointsSpec PointsIdx PointsQuery PointsDom PointsOps PointsMut PointsReset.
Import ListNotations.

Lemma list_set_split {A} (l1 l2 : list A) a b : list_set (l1 ++ a :: l2) (length l1) b = l1 ++ b :: l2.
Proof. induction l1; simpl; congruence. Qed.
Lemma list_insert_split {A} (l1 l2 : list A) b : list_insert (l1 ++ l2) (length l1) b = l1 ++ b :: l2.
Proof.
  unfold list_insert. rewrite firstn_app, Nat.sub_diag, firstn_all, skipn_app, Nat.sub_diag, skipn_all. simpl.
  now rewrite app_nil_r.
Qed.

Section Replace.
Context {V : Type} {W : Val xq V}.
Implicit Types l head mid tail : list (xq * V).
Implicit Type s : pts xq V.

Lemma ascending_swap l1 l2 q (v v' : V) : ascending (l1 ++ (Fin q, v) :: l2) -> ascending (l1 ++ (Fin q, v') :: l2).
Proof.
  intros [F H]. split.
  - apply Forall_app in F. destruct F as [F1 F2]. apply Forall_app. split; auto. inversion F2; subst. constructor; auto.
  - apply SSorted_app_inv in H. destruct H as [H1 [H2 H3]]. apply SSorted_app; auto.
    + inversion H2; subst. constructor; auto.
    + intros x y Hx [<-|Hy]; [apply (H3 x (Fin q, v)); simpl; auto|apply H3; simpl; auto].
Qed.

Inductive replace_result s (q : Qc) (v : V) (s' : pts xq V) (evs : list (ev xq)) (r : res unit) : Prop :=
| rp_set l1 v0 l2 : p_pts s = l1 ++ (Fin q, v0) :: l2 -> r = Ok tt ->
    step_ok s (l1 ++ (Fin q, v) :: l2) (i_point (Fin q)) s' evs -> p_eq s' = p_eq s ->
    replace_result s q v s' evs r
| rp_between l1 a b l2 : p_pts s = (l1 ++ [a]) ++ (b :: l2) -> lt_x (fst a) (Fin q) -> lt_x (Fin q) (fst b) ->
    (if p_force s then r = Err EExc /\ p_pts s' = p_pts s /\ is_updating (p_upd s') = true /\ evs = [EvBegin (i_point (Fin q))]
     else r = Ok tt /\ step_ok s ((l1 ++ [a]) ++ (Fin q, v) :: (b :: l2)) (i_point (Fin q)) s' evs /\ p_eq s' = false) ->
    replace_result s q v s' evs r.

Lemma span_contains s q : calm s -> i_contains (p_dom s) (Fin q) = true <-> span (p_pts s) q.
Proof.
  intros C. pose proof C as [A _]. rewrite calm_dom by auto. split.
  - intros H. pose proof (proj1 (ascending_knots _) A) as [qs K]. rewrite (pts_domain_knots _ _ K) in H.
    destruct (Nat.eqb_spec (length qs) 0) as [E|E].
    + exfalso. apply contains_e in H; [|apply iok_empty|nn]. apply (empty_no_emem i_empty _ eempty_empty H).
    + apply contains_closed in H.
      destruct (in_knots _ _ 0 K) as [v0 I0]; [lia|]. destruct (in_knots _ _ (length qs - 1) K) as [v1 I1]; [lia|].
      exists (kq qs 0), (kq qs (length qs - 1)), v0, v1. tauto.
  - intros [a [b [va [vb [Ia [Ib [La Lb]]]]]]].
    assert (Hl : p_pts s <> []) by (intros N; rewrite N in Ia; contradiction).
    destruct (head_opt_some _ Hl) as [f Ef]. destruct (last_opt_some _ Hl) as [z Ez].
    rewrite (ends_ok _ f z A Ef Ez).
    pose proof (ascending_head_le _ _ _ A Ef Ia) as H1. pose proof (ascending_last_ge _ _ _ A Ez Ib) as H2.
    destruct (ascending_fin _ f A (head_opt_in _ _ Ef)) as [qf [vf ->]].
    destruct (ascending_fin _ z A (last_opt_in _ _ Ez)) as [qz [vz ->]].
    cbn [fst] in *. rewrite le_x_fin in *. apply contains_closed. split; qc_lra.
Qed.

Lemma point_nonempty q : i_is_empty (i_point (Fin q)) = false.
Proof. apply closed_nonempty. qc_lra. Qed.

Lemma good_upd s u : good s -> u_dom u = Some (p_dom s) -> exists qs, sgood (set_upd s u) qs.
Proof.
  intros G Hu. destruct (good_sgood s G) as [qs [P D]]. exists qs. constructor.
  - destruct P. constructor; auto.
  - unfold p_dom at 1. simpl. rewrite Hu. exact D.
Qed.

Theorem p_replace_in s q v oa s' evs r : good s -> span (p_pts s) q -> p_replace s (Fin q, v) oa = (s', evs, r) ->
  replace_result s q v s' evs r.
Proof.
  intros G Hs E. pose proof (proj1 (good_calm s) G) as [C T]. pose proof (calm_touch s C) as C'.
  unfold p_replace in E. cbn [fst] in E. rewrite p_touch_dom in E.
  rewrite (proj2 (span_contains s q C) Hs) in E. cbn [negb] in E.
  set (D := i_point (Fin q)) in *. assert (OD : iok D) by (split; discriminate).
  assert (ND : i_is_empty D = false) by apply point_nonempty.
  destruct (p_begin (p_touch s) D) as [s1 ev1] eqn:EB.
  pose proof EB as EB0. unfold p_begin in EB. rewrite begin_idle in EB by (auto; apply C'). injection EB as Es1 Eev1.
  assert (S1 : p_pts s1 = p_pts s /\ p_force s1 = p_force s /\ p_eq s1 = p_eq s) by (rewrite <- Es1; auto).
  destruct S1 as [Sp [Sf Sq]].
  destruct (good_upd s (mkU D i_empty (u_dom (p_upd (p_touch s)))) G eq_refl) as [qs SG].
  assert (Es : set_upd s (mkU D i_empty (u_dom (p_upd (p_touch s)))) = s1) by (rewrite <- Es1; reflexivity).
  rewrite Es in SG. pose proof (pi_knots _ _ (sg_pinv _ _ SG)) as K. rewrite Sp in K.
  pose proof (knots_len _ _ K) as L.
  assert (Hn : (0 < length qs)%nat).
  { destruct Hs as [a [b [va [vb [Ia _]]]]]. destruct (p_pts s); [contradiction|simpl in L; lia]. }
  destruct (x_index_spec s1 qs q (sg_pinv _ _ SG) Hn) as [x [X R]].
  rewrite X in E. cbn [rbind n_ceil XQ xq_toZ] in E.
  assert (Hb : (kq qs 0 <= q <= kq qs (length qs - 1))%Qc).
  { pose proof (proj2 (span_contains s q C) Hs) as H. rewrite calm_dom, (pts_domain_knots _ _ K) in H by auto.
    destruct (Nat.eqb_spec (length qs) 0); [lia|]. now apply contains_closed in H. }
  destruct C as [A [SI _]]. rewrite Sp in E.
  (* the finishing step *)
  assert (FIN : forall l' b, ascending l' -> p_finish (set_eq s1 b) l' D ev1 = (settled s l' b, [EvBegin D; EvEnd D], Ok tt)).
  { intros l' b A'. pose proof (finish_ok (p_touch s) l' D b) as F. rewrite EB0 in F. rewrite F; auto. apply C'. }
  assert (EQ : set_eq s1 (p_eq s) = s1) by (rewrite <- Es1; reflexivity).
  assert (NTF : [EvBegin D; EvEnd D] = notify D) by (unfold notify; now rewrite ND).
  destruct R as [H1 H2|H1 H2|i Hi Hq Hr|i Hi Hq Hr].
  - exfalso. destruct Hb. apply (Qclt_not_le _ _ H1); auto.
  - exfalso. destruct Hb. apply (Qclt_not_le _ _ H1); auto.
  - subst x. rewrite Qcceiling_ofZ in E. destruct (knots_py _ _ i K Hi) as [v0 [PY NE]]. rewrite PY in E.
    cbn [rbind fst] in E. rewrite <- Hq in *. cbn [n_eqb XQ xq_eqb] in E.
    replace (Qceqb q q) with true in E by (symmetry; now apply Qceqb_true). cbn [negb] in E.
    apply nth_error_split in NE. destruct NE as [l1 [l2 [Hl Hlen]]].
    rewrite Hl, Nat2Z.id, <- Hlen, list_set_split in E. rewrite Hl in A. pose proof (ascending_swap _ _ _ _ v A) as A'.
    rewrite <- EQ, FIN in E by auto. injection E as <- <- <-.
    apply (rp_set _ _ _ _ _ _ l1 v0 l2); auto. constructor; auto. now apply settled_calm.
  - rewrite Hr, ceil_mid in E by (now apply mid_frac).
    replace (Z.of_nat i + 1)%Z with (Z.of_nat (S i)) in E by lia.
    destruct (knots_py _ _ (S i) K Hi) as [v1 [PY NE]]. rewrite PY in E. cbn [rbind fst] in E.
    cbn [n_eqb XQ xq_eqb] in E.
    replace (Qceqb q (kq qs (S i))) with false in E.
    2:{ symmetry. apply Qceqb_false. destruct Hq as [_ Hq]. intros ->. apply (Qclt_not_le _ _ Hq), Qcle_refl. }
    cbn [negb] in E. rewrite Sf in E.
    destruct (knots_nth _ _ i K) as [v0 NE0]; [lia|].
    pose proof (split_at_nth _ _ _ _ NE0 NE) as [l1 [l2 Hl]].
    assert (Hl' : p_pts s = (l1 ++ [(Fin (kq qs i), v0)]) ++ (Fin (kq qs (S i)), v1) :: l2) by (rewrite Hl, <- app_assoc; reflexivity).
    assert (Hlen : length l1 = i).
    { pose proof A as A0. rewrite Hl in A0.
      assert (N : nth_error (p_pts s) (length l1) = Some (Fin (kq qs i), v0)) by (rewrite Hl, nth_error_app2, Nat.sub_diag by lia; reflexivity).
      destruct (knots_nth_inv _ _ _ _ _ K N) as [B1 B2]. injection B2 as B2.
      destruct (lt_eq_lt_dec (length l1) i) as [[Q|Q]|Q]; auto; exfalso.
      - assert (kq qs (length l1) < kq qs i)%Qc by (apply K; lia). rewrite B2 in H. apply (Qclt_not_le _ _ H), Qcle_refl.
      - assert (kq qs i < kq qs (length l1))%Qc by (apply K; lia). rewrite <- B2 in H. apply (Qclt_not_le _ _ H), Qcle_refl. }
    eapply (rp_between _ _ _ _ _ _ l1 _ _ l2); [exact Hl'| | |].
    + cbn [fst]. apply lt_x_fin. tauto.
    + cbn [fst]. apply lt_x_fin. tauto.
    + destruct (p_force s) eqn:PF.
      * injection E as <- <- <-. rewrite Sp. unfold is_updating. rewrite <- Es1. cbn [p_upd set_upd u_begin]. rewrite ND, <- Eev1. auto.
      * assert (LL : length (l1 ++ [(Fin (kq qs i), v0)]) = S i) by (rewrite app_length; simpl; lia).
        pose proof (list_insert_split (l1 ++ [(Fin (kq qs i), v0)]) ((Fin (kq qs (S i)), v1) :: l2) (Fin q, v)) as INS.
        rewrite LL, <- Hl' in INS. rewrite Nat2Z.id, INS in E.
        assert (A' : ascending ((l1 ++ [(Fin (kq qs i), v0)]) ++ (Fin q, v) :: (Fin (kq qs (S i)), v1) :: l2)).
        { rewrite Hl' in A. pose proof (proj1 (ascending_app_iff _ _) A) as [A1 [A2 A3]].
          eapply ascending_join; [exact A1| | apply last_opt_app | reflexivity | cbn [fst]; apply lt_x_fin; tauto].
          change ((Fin q, v) :: (Fin (kq qs (S i)), v1) :: l2) with ([(Fin q, v)] ++ ((Fin (kq qs (S i)), v1) :: l2)).
          eapply ascending_join; [apply ascending_one | exact A2 | reflexivity | reflexivity | cbn [fst]; apply lt_x_fin; tauto]. }
        rewrite FIN in E by auto. injection E as <- <- <-. split; auto. split; auto.
        constructor; auto. now apply settled_calm.
Qed.

Theorem p_replace_out s q v oa : good s -> ~ span (p_pts s) q ->
  p_replace s (Fin q, v) oa = if oa then p_append (p_touch s) (Fin q, v) else (p_touch s, [], Err EExc).
Proof.
  intros G Hs. pose proof (proj1 (good_calm s) G) as [C T]. unfold p_replace. cbn [fst]. rewrite p_touch_dom.
  destruct (i_contains (p_dom s) (Fin q)) eqn:E; [|reflexivity].
  apply span_contains in E; auto. contradiction.
Qed.

(** ** Equal spacing of parts *)
Lemma equally_part l1 m l2 : equally_spaced (l1 ++ m ++ l2) -> equally_spaced m.
Proof.
  intros [x0 [h [Hh E]]]. exists (x0 + QcofZ (Z.of_nat (length l1)) * h)%Qc, h. split; auto.
  intros i p H. rewrite (E (length l1 + i)%nat p).
  - f_equal. rewrite Nat2Z.inj_add, QcofZ_add. ring.
  - rewrite nth_error_app2 by lia. rewrite nth_error_app1.
    + now replace (length l1 + i - length l1)%nat with i by lia.
    + replace (length l1 + i - length l1)%nat with i by lia. apply nth_error_Some. congruence.
Qed.

(** On an equally spaced list the check accepts what remains exactly when the
    removed part is at one end. *)
Lemma pes_gap head mid tail iv : ascending (head ++ mid ++ tail) -> equally_spaced (head ++ mid ++ tail) ->
  span_interval (head ++ mid ++ tail) = Ok iv -> mid <> [] -> head ++ tail <> [] ->
  points_equally_spaced iv [] (head ++ tail) = Ok true -> head = [] \/ tail = [].
Proof.
  intros A E S Hm Hn P. destruct head as [|h0 hd]; [auto|]. destruct tail as [|t0 tl]; [auto|]. exfalso.
  remember (h0 :: hd) as head eqn:Ehd. remember (t0 :: tl) as tail eqn:Etl.
  assert (Ht : tail <> []) by congruence.
  assert (L1 : (0 < length head)%nat) by (subst; simpl; lia). assert (L2 : (0 < length tail)%nat) by (subst; simpl; lia).
  assert (L3 : (0 < length mid)%nat) by (destruct mid; [congruence|simpl; lia]).
  destruct E as [x0 [h [Hh E]]].
  assert (HL : length (head ++ mid ++ tail) = (length head + length mid + length tail)%nat) by (rewrite !app_length; lia).
  pose proof (span_eq _ x0 h iv A Hh E S) as HI. rewrite HI in P by lia.
  unfold points_equally_spaced in P. cbn [length] in P. rewrite app_length in P.
  destruct (Nat.eqb_spec (length head + length tail) 0); [lia|].
  destruct (Nat.ltb_spec (0 + (length head + length tail)) 2); [lia|]. cbn [orb Nat.eqb negb] in P.
  assert (P0 : py_nth (head ++ tail) 0 = Ok h0).
  { change 0%Z with (Z.of_nat 0). apply py_nth_pos. subst head. reflexivity. }
  destruct (last_opt_some tail Ht) as [z Ez].
  assert (Pm : py_nth (head ++ tail) (-1) = Ok z) by (apply py_nth_m1; rewrite last_opt_app2; auto).
  rewrite P0, Pm in P. cbn [rbind] in P.
  rewrite (E 0%nat h0) in P by (subst head; reflexivity).
  rewrite (E (length head + length mid + length tail - 1)%nat z) in P.
  2:{ rewrite <- HL, <- last_opt_nth, last_opt_app2, last_opt_app2; auto.
      intros N. apply app_eq_nil in N. destruct N; congruence. }
  injection P as P. cbn [n_eqb n_add n_mul n_ofZ XQ xq_eqb xq_add xq_mul] in P. apply Qceqb_true in P.
  assert (Q : (QcofZ (Z.of_nat (length head + length mid + length tail - 1)) * h = QcofZ (Z.of_nat (length head + length tail) - 1) * h)%Qc).
  { change (QcofZ (Z.of_nat 0)) with (QcofZ 0) in P. rewrite QcofZ_0 in P.
    replace (QcofZ (Z.of_nat (length head + length tail) - 1) * h)%Qc with ((x0 + 0 * h + h * QcofZ (Z.of_nat (length head + length tail) - 1)) - x0)%Qc by ring.
    rewrite <- P. ring. }
  assert (Hz : h <> 0%Qc) by now apply Qc_pos_neq0.
  assert (X : QcofZ (Z.of_nat (length head + length mid + length tail - 1)) = QcofZ (Z.of_nat (length head + length tail) - 1)).
  { apply (f_equal (fun a => (a / h)%Qc)) in Q. field_simplify in Q; auto. }
  apply (proj1 (QcofZ_eq _ _)) in X. lia.
Qed.

Lemma equally_xs l l' : map fst l = map fst l' -> equally_spaced l -> equally_spaced l'.
Proof.
  intros M [x0 [h [Hh E]]]. exists x0, h. split; auto. intros i p Hi.
  assert (H : nth_error (map fst l') i = Some (fst p)) by (apply map_nth_error; auto).
  rewrite <- M, nth_error_map in H. destruct (nth_error l i) as [p'|] eqn:Hp; simpl in H; [|discriminate].
  injection H as <-. now apply E.
Qed.

(** reset keeps an equally spaced curve consistent. *)
Theorem p_reset_good s d s' evs : good s -> p_uniform s = true -> iok d ->
  p_reset s (Some d) = (s', evs, Ok tt) -> good s'.
Proof.
  intros G U Hd E. pose proof (proj1 (good_calm s) G) as [C T].
  destruct (p_reset_some _ _ _ _ _ G Hd E) as [[->| ->] _ _ _|_ _ K _|head mid tail b Hp Hm Hn F P K]; auto using good_touch.
  - apply good_calm. split; [apply K|]. intros _. rewrite (so_pts _ _ _ _ _ K). apply equally_short; [apply ascending_nil|simpl; lia].
  - destruct (p_force s && negb b) eqn:PF; [destruct K; discriminate|]. destruct K as [_ [K Kb]].
    apply good_calm. split; [apply K|]. intros U'. rewrite (so_pts _ _ _ _ _ K).
    assert (b = true).
    { unfold p_uniform in U'. rewrite (so_force _ _ _ _ _ K) in U'. destruct (p_force s); [now destruct b|]. congruence. }
    rewrite H in P. specialize (T U). destruct C as [A [SI _]]. rewrite Hp in A, T, SI.
    destruct (pes_gap head mid tail (p_int s) A T SI Hm Hn P) as [->| ->].
    + simpl. apply (equally_part mid tail []). rewrite app_nil_r. exact T.
    + rewrite app_nil_r in *. apply (equally_part [] head mid). exact T.
Qed.

Theorem p_reset_none s s' evs r : good s -> p_reset s None = (s', evs, r) ->
  r = Ok tt /\ p_pts s' = [] /\ good s' /\ p_force s' = p_force s /\ p_interp s' = p_interp s /\ evs = notify (pts_domain (p_pts s)).
Proof.
  intros G E. pose proof (proj1 (good_calm s) G) as [C T]. unfold p_reset in E.
  destruct (p_pts s) as [|p0 ps] eqn:Ep.
  - injection E as <- <- <-. rewrite Ep. repeat split; auto; apply G.
  - destruct (p_set_nil s C) as [s2 [K1 [K2 K3]]]. rewrite K1 in E. injection E as <- <- <-.
    split; auto. destruct K2 as [Q1 Q2 Q3 Q4 Q5]. split; auto. split; [|repeat split; auto; now rewrite calm_dom, Ep by auto].
    apply good_calm. split; auto. intros _. rewrite Q2. apply equally_short; [apply ascending_nil|simpl; lia].
Qed.

Theorem p_replace_good s q v oa s' evs : good s -> p_replace s (Fin q, v) oa = (s', evs, Ok tt) ->
  span (p_pts s) q -> good s'.
Proof.
  intros G E Hs. pose proof (proj1 (good_calm s) G) as [C T].
  destruct (p_replace_in _ _ _ _ _ _ _ G Hs E) as [l1 v0 l2 Hp _ K Ke|l1 a b l2 Hp L1 L2 K].
  - apply good_calm. split; [apply K|]. intros U. rewrite (so_pts _ _ _ _ _ K).
    apply equally_xs with (l := p_pts s).
    + rewrite Hp, !map_app. reflexivity.
    + apply T. unfold p_uniform in *. rewrite (so_force _ _ _ _ _ K), Ke in U. exact U.
  - destruct (p_force s) eqn:PF; [destruct K; discriminate|]. destruct K as [_ [K Ke]].
    apply good_calm. split; [apply K|]. intros U. unfold p_uniform in U.
    rewrite (so_force _ _ _ _ _ K), PF, Ke in U. discriminate.
Qed.
End Replace.
