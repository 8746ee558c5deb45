(** Points curves as the sources of a network: their notifications tell every
    change of value and of domain. *)
From Coq Require Import List ZArith QArith Qcanon Bool Lia Lqa Arith Permutation.
From Verif Require Import Base Num NumFacts Interval IntervalFacts Curve Points PointsSpec PointsIdx PointsQuery PointsDom PointsOps UpdFacts PointsDec PointsMut PointsReset PointsReplace PointsHist PointsTop Graph Combine GraphFacts GraphSettle GraphTop Live LiveNet LiveSpec LiveFacts LiveTop.
Import ListNotations.

(** ** Membership of the domain, by values that give it away *)
Lemma fresh_value (l : list (option xq)) : exists m : Qc, forall z, In (Some (Fin z)) l -> (z <= m)%Qc.
Proof.
  induction l as [|a l [m IH]]; [exists 0%Qc; contradiction|]. destruct a as [[z| | |]|].
  - destruct (Qclt_le_dec z m) as [L|L].
    + exists m. intros w [E|I]; [injection E as <-; qc_lra|auto].
    + exists z. intros w [E|I]; [injection E as <-; qc_lra|]. specialize (IH w I). qc_lra.
  - exists m. intros w [E|I]; [discriminate|auto].
  - exists m. intros w [E|I]; [discriminate|auto].
  - exists m. intros w [E|I]; [discriminate|auto].
  - exists m. intros w [E|I]; [discriminate|auto].
Qed.

Definition marked (z : Qc) : Val xq (option xq) := {| v_none := Some (Fin z); v_lerp := fun _ _ _ => Ok None |}.

Lemma marked_total z : @lerp_total _ (marked z).
Proof. intros u a b. exists None. reflexivity. Qed.

Lemma marked_y z (s : pts xq (option xq)) q : good s -> ~ In (Some (Fin z)) (map snd (p_pts s)) ->
  (@p_y _ _ _ (marked z) s (Fin q) = Ok (Some (Fin z)) <-> i_contains (p_dom s) (Fin q) = false).
Proof.
  intros G Nz. split.
  - intros E. destruct (i_contains (p_dom s) (Fin q)) eqn:X; auto. exfalso.
    destruct (@p_y_value _ (marked z) s q (fun _ => marked_total z) G) as [v [Ev Hv]]. rewrite E in Ev. injection Ev as <-.
    assert (K : forall w, In (w, Some (Fin z)) (p_pts s) -> False).
    { intros w I. apply Nz. apply in_map_iff. exists (w, Some (Fin z)). auto. }
    inversion Hv as [v I|v l1 a b vb l2 _ El L1 L2|v l1 a b va l2 _ El L1 L2|v l1 a va b vb l2 _ El L1 L2 Lp|O]; subst.
    + eapply K; eauto.
    + eapply K. rewrite El. apply in_or_app. right. left. reflexivity.
    + eapply K. rewrite El. apply in_or_app. right. right. left. reflexivity.
    + discriminate.
    + assert (C : calm s) by (apply good_calm; auto).
      rewrite calm_dom in X by auto. unfold pts_domain in X.
      destruct (head_opt (p_pts s)) as [a|] eqn:Ea; [|discriminate].
      destruct (last_opt (p_pts s)) as [b|] eqn:Eb; [|discriminate].
      pose proof (head_opt_in _ _ Ea) as Ia. pose proof (last_opt_in _ _ Eb) as Ib.
      destruct (ascending_fin _ a (proj1 C) Ia) as [qa [va ->]]. destruct (ascending_fin _ b (proj1 C) Ib) as [qb [vb ->]].
      apply contains_iff in X; [|split; discriminate|discriminate]. destruct X as [X1 X2]. cbn in X1, X2.
      unfold le_x in X1, X2. cbn in X1, X2. rewrite Qcleb_true in X1, X2.
      destruct O as [O|O]; [specialize (O _ Ia)|specialize (O _ Ib)]; unfold lt_x in O; cbn in O; rewrite Qcltb_true in O; qc_lra.
  - intros X. unfold p_y. rewrite X. reflexivity.
Qed.

(** ** The events of one operation *)
Definition fin_ival (D : ival xq) : Prop := exists a b, i_start D = Fin a /\ i_end D = Fin b.
Lemma fin_iok D : fin_ival D -> iok D.
Proof. intros [a [b [E1 E2]]]. split; [rewrite E1|rewrite E2]; discriminate. Qed.
Lemma fin_union2 a b : fin_ival a -> fin_ival b -> fin_ival (i_union2 a b).
Proof.
  intros [a1 [a2 [A1 A2]]] [b1 [b2 [B1 B2]]]. unfold i_union2.
  destruct (i_is_empty a), (i_is_empty b); try (eexists; eexists; eauto; fail); [exists 0%Qc, 0%Qc; split; reflexivity|].
  unfold earlier_start, later_end.
  destruct (i_start a <? i_start b)%num, (i_start b <? i_start a)%num, (i_end a <? i_end b)%num, (i_end b <? i_end a)%num; eexists; eexists; cbn; eauto.
Qed.
Lemma fin_pts_domain (l : list (xq * option xq)) : ascending l -> fin_ival (pts_domain l).
Proof.
  intros A. unfold pts_domain. destruct (head_opt l) as [a|] eqn:Ea; [destruct (last_opt l) as [b|] eqn:Eb|]; try (exists 0%Qc, 0%Qc; split; reflexivity).
  destruct (ascending_fin _ a A (head_opt_in _ _ Ea)) as [qa [va ->]]. destruct (ascending_fin _ b A (last_opt_in _ _ Eb)) as [qb [vb ->]].
  exists qa, qb. split; reflexivity.
Qed.
Lemma fin_hit D : fin_ival D -> i_is_empty D = false -> i_intersects D i_infinite = true.
Proof.
  intros FD E. pose proof (fin_iok D FD) as O. destruct FD as [a [b [E1 E2]]]. apply is_empty_e_false in E; auto.
  destruct (nonempty_emem D O E) as [y [Hy M]]. apply imem_emem in M; auto.
  apply intersects_iff; auto using iok_infinite. exists y. split; auto. split; auto.
  destruct D as [ds de so eo]. cbn in E1, E2. subst. destruct y as [q| | |]; [split; reflexivity| | |congruence];
  destruct M as [M1 M2]; cbn in M1, M2; destruct so, eo; discriminate.
Qed.

Lemma op_notifies (s : pts xq (option xq)) o s' evs : honest_history s -> op_ok o -> (forall q v oa, o <> OReplace q v oa) ->
  run_op s o = (s', evs, Ok tt) -> exists D, fin_ival D /\ evs = notify D.
Proof.
  intros H Ho N1 E. pose proof (honest_history_good s H) as G. pose proof (proj1 (good_calm s) G) as [C T].
  assert (E0 : exists D, fin_ival D /\ [] = notify D) by (exists i_empty; split; [exists 0%Qc, 0%Qc; split; reflexivity|reflexivity]).
  assert (FS : forall l, ascending l -> fin_ival (set_domain s l None)).
  { intros l A. unfold set_domain. assert (F0 : fin_ival (p_dom s)) by (rewrite calm_dom by auto; apply fin_pts_domain, C).
    destruct (head_opt l) as [a|] eqn:Ea; [destruct (last_opt l) as [b|] eqn:Eb|]; auto. apply fin_union2; auto.
    destruct (ascending_fin _ a A (head_opt_in _ _ Ea)) as [qa [va ->]]. destruct (ascending_fin _ b A (last_opt_in _ _ Eb)) as [qb [vb ->]].
    exists qa, qb. split; reflexivity. }
  assert (FG : forall l head tail : list (xq * option xq), ascending l -> (forall p, In p head \/ In p tail -> In p l) -> fin_ival (gap_domain l head tail)).
  { intros l head tail A Hin. unfold gap_domain. destruct (head_opt l) as [a|] eqn:Ea; [destruct (last_opt l) as [b|] eqn:Eb|]; try (exists 0%Qc, 0%Qc; split; reflexivity).
    destruct (ascending_fin _ a A (head_opt_in _ _ Ea)) as [qa [va ->]]. destruct (ascending_fin _ b A (last_opt_in _ _ Eb)) as [qb [vb ->]].
    destruct (last_opt head) as [h|] eqn:Eh; [destruct (ascending_fin _ h A (Hin _ (or_introl (last_opt_in _ _ Eh)))) as [qh [vh ->]]|];
    (destruct (head_opt tail) as [t|] eqn:Et; [destruct (ascending_fin _ t A (Hin _ (or_intror (head_opt_in _ _ Et)))) as [qt [vt ->]]|]);
    eexists; eexists; split; reflexivity. }
  destruct o as [x v|l|x v oa|d|l]; cbn [run_op op_ok] in *.
  - destruct (p_append_ok s x v s' evs C E) as [K _]. rewrite (so_evs _ _ _ _ _ K). eexists. split; [|reflexivity].
    unfold append1_domain. destruct (last_opt (p_pts s)) as [z|] eqn:Ez.
    + destruct (ascending_fin _ z (proj1 C) (last_opt_in _ _ Ez)) as [qz [vz ->]]. exists qz, x. split; reflexivity.
    + exists x, x. split; reflexivity.
  - destruct (p_pts s) as [|p0 ps] eqn:Ep.
    + unfold p_append_list in E. rewrite Ep in E.
      destruct (p_set_ok s l None s' evs C Ho) as [K _]; auto; [discriminate|]. rewrite (so_evs _ _ _ _ _ K). eauto.
    + destruct l as [|b l].
      * unfold p_append_list in E. rewrite Ep in E. cbn [head_opt] in E. injection E as _ <-. exact E0.
      * destruct (p_append_list_cases s (b :: l) C) as [[? [? [_ [_ [_ K]]]]]|[AA [b0 [_ [_ [_ K]]]]]]; auto; try congruence.
        destruct (p_force s && negb b0); destruct K as [? [K _]]; [congruence|].
        exists (append_domain s (b :: l)). split; [|congruence]. unfold append_domain.
        destruct (last_opt (p_pts s)) as [z|] eqn:Ez; [destruct (last_opt (b :: l)) as [w|] eqn:Ew|]; try (exists 0%Qc, 0%Qc; split; reflexivity).
        destruct (ascending_fin _ z (proj1 C) (last_opt_in _ _ Ez)) as [qz [vz ->]]. destruct (ascending_fin _ w Ho (last_opt_in _ _ Ew)) as [qw [vw ->]].
        exists qz, qw. split; reflexivity.
  - exfalso. eapply N1; eauto.
  - destruct d as [d|].
    + destruct (p_reset_some _ _ _ _ _ G Ho E) as [_ -> _ _|_ _ K _|head mid tail b Hp Hm Hn F P K]; [exact E0| |].
      * rewrite (so_evs _ _ _ _ _ K). eexists. split; [|reflexivity]. apply fin_pts_domain, C.
      * destruct (p_force s && negb b); [destruct K as [X _]; discriminate|]. destruct K as [_ [K _]].
        rewrite (so_evs _ _ _ _ _ K). eexists. split; [|reflexivity]. apply FG; [apply C|].
        intros p I. rewrite Hp. rewrite !in_app_iff. tauto.
    + destruct (p_reset_none _ _ _ _ G E) as [_ [_ [_ [_ [_ ->]]]]]. eexists. split; [|reflexivity]. apply fin_pts_domain, C.
  - destruct (p_set_ok s l None s' evs C Ho) as [K _]; auto; [discriminate|]. rewrite (so_evs _ _ _ _ _ K). eauto.
Qed.

(** ** The events tell the change *)
Lemma points_tell (s : pts xq (option xq)) o s' evs : honest_history s -> op_ok o -> (forall q v oa, o <> OReplace q v oa) ->
  run_op s o = (s', evs, Ok tt) -> (p_uniform s' = true -> equally_spaced (p_pts s')) ->
  (evs = [] /\ forall q, ~ y_changes (p_crv s) (p_crv s') q /\ ~ dom_changes (p_crv s) (p_crv s') q) \/
  exists D, evs = [EvBegin D; EvEnd D] /\ iok D /\ i_intersects D i_infinite = true /\ tells D (p_crv s) (p_crv s').
Proof.
  intros H Ho N1 E U. destruct (op_notifies s o s' evs H Ho N1 E) as [D [FD Ev]].
  assert (TL : forall q, y_changes (p_crv s) (p_crv s') q \/ dom_changes (p_crv s) (p_crv s') q -> exists D', In (EvBegin D') evs /\ In (EvEnd D') evs /\ imem D' (Fin q)).
  { intros q [Hy|Hd].
    - apply (top_covers s o s' evs q); auto. intros _. exact lerp_total_num.
    - assert (H' : honest_history s') by (eapply hh_op; eauto).
      pose proof (honest_history_good s H) as G. pose proof (honest_history_good s' H') as G'.
      destruct (fresh_value (map snd (p_pts s) ++ map snd (p_pts s'))) as [m Fm].
      assert (N0 : forall l, (forall z, In (Some (Fin z)) l -> (z <= m)%Qc) -> ~ In (Some (Fin (m + 1)%Qc)) l).
      { intros l Hl I. specialize (Hl _ I). qc_lra. }
      pose proof (marked_y (m + 1)%Qc s q G (N0 _ (fun z I => Fm z (in_or_app _ _ _ (or_introl I))))) as M.
      pose proof (marked_y (m + 1)%Qc s' q G' (N0 _ (fun z I => Fm z (in_or_app _ _ _ (or_intror I))))) as M'.
      apply (@top_covers _ (marked (m + 1)%Qc) s o s' evs q); auto.
      + intros _. apply marked_total.
      + intros Eq. apply Hd. cbn [c_dom p_crv].
        destruct (i_contains (p_dom s') (Fin q)) eqn:X', (i_contains (p_dom s) (Fin q)) eqn:X; auto.
        * rewrite (proj2 M eq_refl) in Eq. apply M' in Eq. discriminate.
        * rewrite (proj2 M' eq_refl) in Eq. symmetry in Eq. apply M in Eq. discriminate. }
  unfold notify in Ev. destruct (i_is_empty D) eqn:Em.
  - left. split; auto. intros q. split; intros K; destruct (TL q) as [D' [I _]]; auto; rewrite Ev in I; destruct I.
  - right. exists D. split; auto. split; [now apply fin_iok|]. split; [now apply fin_hit|].
    intros q K. destruct (TL q K) as [D' [_ [I M]]]. rewrite Ev in I. destruct I as [I|[I|[]]]; [discriminate|]. now injection I as <-.
Qed.
Lemma points_none_outside (s : pts xq (option xq)) : none_outside (p_crv s).
Proof. intros q E. cbn [c_dom p_crv c_y] in *. unfold p_y. now rewrite E. Qed.
Lemma points_dom_ok (s : pts xq (option xq)) : honest_history s -> iok (c_dom (p_crv s)).
Proof.
  intros H. pose proof (honest_history_good s H) as G. pose proof (proj1 (good_calm s) G) as [C _]. cbn [c_dom p_crv].
  rewrite calm_dom by auto. apply iok_pts_domain, C.
Qed.
