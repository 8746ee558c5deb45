(** Histories of operations on a Points object. *)
From Coq Require Import List ZArith QArith Qcanon Bool Lia Lqa Sorting.Sorted Zify ZifyBool.
From Verif Require Import Base Num NumFacts Interval IntervalFacts Curve Points PointsSpec PointsIdx PointsQuery PointsDom PointsOps PointsMut PointsReset PointsReplace.
Import ListNotations.

Section Hist.
Context {V : Type} {W : Val xq V}.
Implicit Types l head mid tail : list (xq * V).
Implicit Type s : pts xq V.

Lemma set_fail_events s l s' evs e : calm s -> ascending l -> p_set s l None = (s', evs, Err e) -> evs <> [].
Proof.
  intros C A E. destruct (p_set_cases s l None C A) as [b [Eb K]]; [discriminate|].
  destruct (p_force s && negb b) eqn:F.
  - destruct K as [s2 [K [_ _]]]. assert (EV : evs = begun (set_domain s l None)) by congruence. rewrite EV. unfold begun.
    destruct (i_is_empty (set_domain s l None)) eqn:Em; [|discriminate]. exfalso.
    apply andb_true_iff in F. destruct F as [_ F]. destruct b; [discriminate|].
    assert (O : iok (p_dom s)) by (rewrite calm_dom by auto; apply iok_pts_domain, C).
    unfold set_domain in Em. destruct l as [|a l]; [discriminate|].
    destruct (last_opt_cons a l) as [z Ez]. cbn [head_opt] in Em. rewrite Ez in Em.
    rewrite <- (ends_ok (a :: l) a z) in Em by auto.
    rewrite union2_is_empty in Em by (auto using iok_pts_domain).
    apply andb_true_iff in Em. destruct Em as [_ Em]. apply pts_domain_empty_iff in Em; auto. discriminate.
  - destruct K as [s2 [K _]]. rewrite K in E. discriminate.
Qed.

(** A failing operation that notified nobody left the curve as it was. *)
Lemma refused_same s o s' e : good s -> op_ok o -> run_op s o = (s', [], Err e) -> s' = s \/ s' = p_touch s.
Proof.
  intros G Ho E. pose proof (proj1 (good_calm s) G) as [C T].
  assert (APP : forall s0 m, calm s0 -> ascending m -> p_append_list s0 m = (s', [], Err e) -> s' = s0).
  { intros s0 m C0 A0 E0. destruct (p_pts s0) as [|p0 ps] eqn:Ep.
    - unfold p_append_list in E0. rewrite Ep in E0. apply set_fail_events in E0; auto. congruence.
    - destruct m as [|b m].
      + unfold p_append_list in E0. rewrite Ep in E0. discriminate.
      + destruct (p_append_list_cases s0 (b :: m) C0) as [[a [z [_ [_ [_ K]]]]]|[_ [q [_ [_ [_ K]]]]]]; auto; try congruence.
        destruct (p_force s0 && negb q).
        * destruct K as [s2 [K _]]. rewrite K in E0. discriminate.
        * destruct K as [s2 [K _]]. rewrite K in E0. discriminate. }
  destruct o as [q v|l|q v oa|d|l]; cbn [run_op op_ok] in *.
  - left. eapply APP; eauto. apply ascending_one.
  - left. eapply APP; eauto.
  - destruct (i_contains (p_dom s) (Fin q)) eqn:IC.
    + apply span_contains in IC; auto.
      destruct (p_replace_in _ _ _ _ _ _ _ G IC E) as [? ? ? _ X _ _|l1 a b l2 Hp L1 L2 K]; [discriminate|].
      destruct (p_force s); destruct K as [X K]; [|discriminate]. destruct K as [_ [_ K]]. discriminate.
    + assert (NS : ~ span (p_pts s) q) by (rewrite <- span_contains by auto; congruence).
      rewrite (p_replace_out _ _ _ _ G NS) in E. destruct oa.
      * right. eapply APP; eauto using calm_touch. apply ascending_one.
      * right. congruence.
  - destruct d as [d|].
    + destruct (p_reset_some _ _ _ _ _ G Ho E) as [H _ _ _|X _ _ _|head mid tail b Hp Hm Hn F P K]; auto; [discriminate|].
      destruct (p_force s && negb b); destruct K as [X K]; [|discriminate]. destruct K as [_ [_ K]]. discriminate.
    + destruct (p_reset_none _ _ _ _ G E) as [X _]. discriminate.
  - exfalso. eapply set_fail_events in E; eauto.
Qed.

Lemma empty_calm ip u : calm (p_empty ip u : pts xq V).
Proof. split; [apply ascending_nil|]. split; [reflexivity|]. split; [split; reflexivity|]. now left. Qed.

Lemma step_force s o s' evs : good s -> op_ok o -> run_op s o = (s', evs, Ok tt) -> p_force s' = p_force s /\ p_interp s' = p_interp s.
Proof.
  intros G Ho E. pose proof (proj1 (good_calm s) G) as [C T].
  assert (SET : forall s0 m, calm s0 -> ascending m -> p_set s0 m None = (s', evs, Ok tt) -> p_force s' = p_force s0 /\ p_interp s' = p_interp s0).
  { intros s0 m C0 A0 E0. destruct (p_set_ok s0 m None s' evs C0 A0) as [K _]; auto; [discriminate|]. split; apply K. }
  assert (APP : forall s0 m, calm s0 -> ascending m -> p_append_list s0 m = (s', evs, Ok tt) -> p_force s' = p_force s0 /\ p_interp s' = p_interp s0).
  { intros s0 m C0 A0 E0. destruct (p_pts s0) as [|p0 ps] eqn:Ep.
    - unfold p_append_list in E0. rewrite Ep in E0. eauto.
    - destruct m as [|b m].
      + unfold p_append_list in E0. rewrite Ep in E0. cbn [head_opt] in E0. injection E0 as <- _. auto.
      + destruct (p_append_list_cases s0 (b :: m) C0) as [[a [z [_ [_ [_ K]]]]]|[_ [q [_ [_ [_ K]]]]]]; auto; try congruence.
        destruct (p_force s0 && negb q).
        * destruct K as [s2 [K _]]. rewrite K in E0. discriminate.
        * destruct K as [s2 [K [K1 _]]]. rewrite K in E0. injection E0 as <- _. split; apply K1. }
  destruct o as [q v|l|q v oa|d|l]; cbn [run_op op_ok] in *.
  - eapply APP; eauto. apply ascending_one.
  - eapply APP; eauto.
  - destruct (i_contains (p_dom s) (Fin q)) eqn:IC.
    + apply span_contains in IC; auto.
      destruct (p_replace_in _ _ _ _ _ _ _ G IC E) as [? ? ? _ X K _|l1 a b l2 Hp L1 L2 K]; [split; apply K|].
      destruct (p_force s) eqn:PF; destruct K as [X K]; [discriminate|]. destruct K as [K _]. rewrite <- PF. split; apply K.
    + assert (NS : ~ span (p_pts s) q) by (rewrite <- span_contains by auto; congruence).
      rewrite (p_replace_out _ _ _ _ G NS) in E. destruct oa; [|discriminate].
      apply (APP (p_touch s)) in E; auto using calm_touch. apply ascending_one.
  - destruct d as [d|].
    + destruct (p_reset_some _ _ _ _ _ G Ho E) as [[->| ->] _ _ _|X _ K _|head mid tail b Hp Hm Hn F P K]; auto; [split; apply K|].
      destruct (p_force s && negb b); destruct K as [X K]; [discriminate|]. destruct K as [K _]. split; apply K.
    + destruct (p_reset_none _ _ _ _ G E) as [_ [_ [_ [X1 [X2 _]]]]]. auto.
  - eapply SET; eauto.
Qed.

Theorem uniform_history_good s : uniform_history s -> good s /\ p_force s = true.
Proof.
  induction 1 as [l ip s evs A E H|s H [G F]|s o s' evs H [G F] Ho Hb E|s o s' e H [G F] Ho E].
  - unfold p_init in H. destruct (p_set_ok _ _ None _ _ (empty_calm ip true) A ltac:(discriminate) H) as [K _].
    split; [|apply K]. apply good_calm. split; [apply K|]. intros _. now rewrite (so_pts _ _ _ _ _ K).
  - split; [now apply good_touch|exact F].
  - destruct (step_force _ _ _ _ G Ho E) as [F' _]. split; [|congruence].
    pose proof (proj1 (good_calm s) G) as [C T].
    destruct o as [q v|l|q v oa|d|l]; cbn [run_op op_ok bulk_ok] in *.
    + eapply p_append_good; eauto.
    + destruct (p_pts s) as [|p0 ps] eqn:Ep.
      * unfold p_append_list in E. rewrite Ep in E.
        destruct (p_set_ok s l None s' evs C Ho) as [K _]; auto; [discriminate|].
        apply good_calm. split; [apply K|]. intros _. now rewrite (so_pts _ _ _ _ _ K).
      * destruct l as [|b m].
        -- unfold p_append_list in E. rewrite Ep in E. cbn [head_opt] in E. injection E as <- _. auto.
        -- rewrite <- Ep in *.
           destruct (p_append_list_cases s (b :: m) C) as [[a [z [_ [_ [_ K]]]]]|[_ [q [_ [_ [_ K]]]]]]; auto; try congruence.
           destruct (p_force s && negb q).
           ++ destruct K as [s2 [K _]]. congruence.
           ++ destruct K as [s2 [K [K1 _]]]. rewrite K in E. injection E as <- _.
              apply good_calm. split; [apply K1|]. intros _. now rewrite (so_pts _ _ _ _ _ K1).
    + destruct (i_contains (p_dom s) (Fin q)) eqn:IC.
      * apply span_contains in IC; auto. eapply p_replace_good; eauto.
      * assert (NS : ~ span (p_pts s) q) by (rewrite <- span_contains by auto; congruence).
        rewrite (p_replace_out _ _ _ _ G NS) in E. destruct oa; [|discriminate].
        eapply (p_append_good (p_touch s)); eauto using good_touch.
    + destruct d as [d|].
      * eapply p_reset_good; eauto. unfold p_uniform. now rewrite F.
      * now apply p_reset_none in E.
    + destruct (p_set_ok s l None s' evs C Ho) as [K _]; auto; [discriminate|].
      apply good_calm. split; [apply K|]. intros _. now rewrite (so_pts _ _ _ _ _ K).
  - destruct (refused_same _ _ _ _ G Ho E) as [->| ->]; split; auto using good_touch.
Qed.

Lemma step_calm s o s' evs : good s -> op_ok o -> run_op s o = (s', evs, Ok tt) -> calm s'.
Proof.
  intros G Ho E. pose proof (proj1 (good_calm s) G) as [C T].
  assert (APP : forall s0 m, calm s0 -> ascending m -> p_append_list s0 m = (s', evs, Ok tt) -> calm s').
  { intros s0 m C0 A0 E0. destruct (p_pts s0) as [|p0 ps] eqn:Ep.
    - unfold p_append_list in E0. rewrite Ep in E0. destruct (p_set_ok s0 m None s' evs C0 A0) as [K _]; auto; [discriminate|]. apply K.
    - destruct m as [|b m].
      + unfold p_append_list in E0. rewrite Ep in E0. cbn [head_opt] in E0. injection E0 as <- _. auto.
      + destruct (p_append_list_cases s0 (b :: m) C0) as [[a [z [_ [_ [_ K]]]]]|[_ [q [_ [_ [_ K]]]]]]; auto; try congruence.
        destruct (p_force s0 && negb q).
        * destruct K as [s2 [K _]]. rewrite K in E0. discriminate.
        * destruct K as [s2 [K [K1 _]]]. rewrite K in E0. injection E0 as <- _. apply K1. }
  destruct o as [q v|l|q v oa|d|l]; cbn [run_op op_ok] in *.
  - eapply APP; eauto. apply ascending_one.
  - eapply APP; eauto.
  - destruct (i_contains (p_dom s) (Fin q)) eqn:IC.
    + apply span_contains in IC; auto.
      destruct (p_replace_in _ _ _ _ _ _ _ G IC E) as [? ? ? _ X K _|l1 a b l2 Hp L1 L2 K]; [apply K|].
      destruct (p_force s); destruct K as [X K]; [discriminate|]. destruct K as [K _]. apply K.
    + assert (NS : ~ span (p_pts s) q) by (rewrite <- span_contains by auto; congruence).
      rewrite (p_replace_out _ _ _ _ G NS) in E. destruct oa; [|discriminate].
      apply (APP (p_touch s)) in E; auto using calm_touch. apply ascending_one.
  - destruct d as [d|].
    + destruct (p_reset_some _ _ _ _ _ G Ho E) as [[->| ->] _ _ _|X _ K _|head mid tail b Hp Hm Hn F P K]; auto using calm_touch; [apply K|].
      destruct (p_force s && negb b); destruct K as [X K]; [discriminate|]. destruct K as [K _]. apply K.
    + destruct (p_reset_none _ _ _ _ G E) as [_ [_ [X _]]]. now apply good_calm in X.
  - destruct (p_set_ok s l None s' evs C Ho) as [K _]; auto; [discriminate|]. apply K.
Qed.

Theorem honest_history_good s : honest_history s -> good s.
Proof.
  induction 1 as [l ip u s evs A H T|s H G|s o s' evs H G Ho E T|s o s' e H G Ho E].
  - unfold p_init in H. destruct (p_set_ok _ _ None _ _ (empty_calm ip u) A ltac:(discriminate) H) as [K _].
    apply good_calm. split; [apply K|exact T].
  - now apply good_touch.
  - apply good_calm. split; [eapply step_calm; eauto|exact T].
  - destruct (refused_same _ _ _ _ G Ho E) as [->| ->]; auto using good_touch.
Qed.

(** A state between begin and end never survives a successful operation. *)
Theorem step_not_updating s o s' evs : good s -> op_ok o -> run_op s o = (s', evs, Ok tt) -> is_updating (p_upd s') = false.
Proof.
  intros G Ho E. destruct (step_calm _ _ _ _ G Ho E) as [_ [_ [[H _] _]]]. unfold is_updating. rewrite H. reflexivity.
Qed.

(** uniform=True: any x beyond the end that is not the next grid position is
    rejected after the update was begun. *)
Theorem p_append_offgrid s x0 h q v : good s -> p_force s = true -> (2 <= length (p_pts s))%nat -> (0 < h)%Qc ->
  (forall i p, nth_error (p_pts s) i = Some p -> fst p = Fin (x0 + QcofZ (Z.of_nat i) * h)%Qc) ->
  (x0 + QcofZ (Z.of_nat (length (p_pts s)) - 1) * h < q)%Qc ->
  q <> (x0 + QcofZ (Z.of_nat (length (p_pts s))) * h)%Qc ->
  exists s' D, p_append s (Fin q, v) = (s', [EvBegin D], Err EExc) /\ p_pts s' = p_pts s /\ is_updating (p_upd s') = true.
Proof.
  intros G F L Hh X Lq Nq. pose proof (proj1 (good_calm s) G) as [C T]. pose proof C as [A [SI _]].
  assert (Hp : p_pts s <> []) by (intros N; rewrite N in L; simpl in L; lia).
  destruct (last_opt_some _ Hp) as [z Ez].
  assert (Xz : fst z = Fin (x0 + QcofZ (Z.of_nat (length (p_pts s)) - 1) * h)%Qc).
  { rewrite last_opt_nth in Ez. replace (Z.of_nat (length (p_pts s)) - 1)%Z with (Z.of_nat (length (p_pts s) - 1)) by lia. now apply X. }
  destruct (p_append_list_cases s [(Fin q, v)] C Hp) as [[a [z' [Ha [Ez' [Lz _]]]]]|[A' [b [Eb [OD [ND K]]]]]]; try discriminate.
  - apply ascending_one.
  - exfalso. injection Ha as <-. rewrite Ez in Ez'. injection Ez' as <-. cbn [fst] in Lz. rewrite Xz in Lz. apply le_x_fin in Lz. qc_lra.
  - assert (b = false).
    { destruct b; auto. exfalso. apply Nq.
      assert (ES : equally_spaced (p_pts s)) by (exists x0, h; auto).
      pose proof (span_eq _ x0 h (p_int s) A Hh X SI L) as EI.
      unfold points_equally_spaced in Eb. cbn [length Nat.eqb orb] in Eb.
      replace (length (p_pts s) + 1 <? 2)%nat with false in Eb by (symmetry; apply Nat.ltb_ge; lia).
      replace (negb (length (p_pts s) =? 0)%nat) with true in Eb by (destruct (Nat.eqb_spec (length (p_pts s)) 0); auto; lia).
      rewrite (py_nth_m1 _ _ Ez), EI in Eb. cbn [rbind] in Eb.
      change (py_nth [(Fin q, v)] (-1)) with (Ok (Fin q, v)) in Eb. cbn [rbind fst] in Eb.
      rewrite Xz in Eb. injection Eb as Eb. cbn [n_eqb n_add n_mul n_ofZ XQ xq_eqb xq_add xq_mul] in Eb.
      apply Qceqb_true in Eb. rewrite Eb. change (QcofZ (Z.of_nat 1)) with (QcofZ 1). rewrite QcofZ_1, QcofZ_sub, QcofZ_1. ring. }
    subst b. rewrite F in K. cbn [andb negb] in K. destruct K as [s' [K1 [K2 K3]]].
    exists s', (append_domain s [(Fin q, v)]). unfold p_append. split; auto. split; auto.
    unfold is_updating. now rewrite K3, ND.
Qed.

End Hist.
