(** Which queries can be affected by an operation: the notified interval. *)
From Coq Require Import List ZArith QArith Qcanon Bool Lia Lqa Sorting.Sorted Zify ZifyBool.
From Verif Require Import Base Num NumFacts Interval IntervalFacts Curve Points PointsSpec PointsIdx PointsQuery PointsDom PointsOps PointsMut PointsReset PointsReplace.
Import ListNotations.

Section Cover.
Context {V : Type} {W : Val xq V}.
Implicit Types l head mid tail : list (xq * V).
Implicit Type s : pts xq V.

(** The value between two neighbours. *)
Definition between (ip : interp) (a : Qc) (va : V) (b : Qc) (vb : V) (q : Qc) (v : V) : Prop :=
  match ip with
  | IPrevious => v = va
  | INext => v = vb
  | ILinear => v_lerp (Fin ((q - a) / (b - a))%Qc) va vb = Ok v
  end.

Inductive vidx (ip : interp) l (q : Qc) (v : V) : Prop :=
| vi_knot i : nth_error l i = Some (Fin q, v) -> vidx ip l q v
| vi_mid i a va b vb : nth_error l i = Some (Fin a, va) -> nth_error l (S i) = Some (Fin b, vb) ->
    (a < q)%Qc -> (q < b)%Qc -> between ip a va b vb q v -> vidx ip l q v
| vi_out : ((forall p, In p l -> lt_x (Fin q) (fst p)) \/ (forall p, In p l -> lt_x (fst p) (Fin q))) ->
    v = v_none -> vidx ip l q v.

Lemma value_vidx ip l q v : value ip l q v <-> vidx ip l q v.
Proof.
  split.
  - intros [v0 H|v0 l1 a b vb l2 -> -> H1 H2|v0 l1 a b va l2 -> -> H1 H2|v0 l1 a va b vb l2 -> -> H1 H2 H3|H].
    + apply In_nth_error in H. destruct H as [i H]. eapply vi_knot; eauto.
    + eapply (vi_mid _ _ _ _ (length l1)); eauto; [rewrite nth_error_app2, Nat.sub_diag by lia; reflexivity| |reflexivity].
      rewrite nth_error_app2 by lia. replace (S (length l1) - length l1)%nat with 1%nat by lia. reflexivity.
    + eapply (vi_mid _ _ _ _ (length l1)); eauto; [rewrite nth_error_app2, Nat.sub_diag by lia; reflexivity| |reflexivity].
      rewrite nth_error_app2 by lia. replace (S (length l1) - length l1)%nat with 1%nat by lia. reflexivity.
    + eapply (vi_mid _ _ _ _ (length l1)); eauto; [rewrite nth_error_app2, Nat.sub_diag by lia; reflexivity|].
      rewrite nth_error_app2 by lia. replace (S (length l1) - length l1)%nat with 1%nat by lia. reflexivity.
    + now apply vi_out.
  - intros [i H|i a va b vb Ha Hb H1 H2 H3|H ->].
    + apply val_knot. eapply nth_error_In; eauto.
    + destruct (split_at_nth _ _ _ _ Ha Hb) as [l1 [l2 E]]. destruct ip; simpl in H3.
      * subst v. eapply val_before; eauto.
      * eapply val_lerp; eauto.
      * subst v. eapply val_after; eauto.
    + now apply val_outside.
Qed.

Lemma vidx_knot_unique l qs i j q v v' : knots l qs -> nth_error l i = Some (Fin q, v) -> nth_error l j = Some (Fin q, v') -> v = v'.
Proof.
  intros K Hi Hj. destruct (knots_nth_inv _ _ _ _ _ K Hi) as [Li Ei]. destruct (knots_nth_inv _ _ _ _ _ K Hj) as [Lj Ej].
  injection Ei as Ei. injection Ej as Ej. destruct K as [_ A].
  destruct (lt_eq_lt_dec i j) as [[Q|Q]|Q].
  - exfalso. assert (H : (kq qs i < kq qs j)%Qc) by (apply A; lia). rewrite <- Ei, <- Ej in H. apply (Qclt_not_le _ _ H), Qcle_refl.
  - subst j. congruence.
  - exfalso. assert (H : (kq qs j < kq qs i)%Qc) by (apply A; lia). rewrite <- Ei, <- Ej in H. apply (Qclt_not_le _ _ H), Qcle_refl.
Qed.

Theorem value_unique ip l q v v' : ascending l -> value ip l q v -> value ip l q v' -> v = v'.
Proof.
  intros A. rewrite !value_vidx. pose proof (proj1 (ascending_knots _) A) as [qs K].
  assert (MK : forall i a va b vb j w, nth_error l i = Some (Fin a, va) -> nth_error l (S i) = Some (Fin b, vb) ->
     (a < q)%Qc -> (q < b)%Qc -> nth_error l j = Some (Fin q, w) -> False).
  { intros i a va b vb j w Ha Hb L1 L2 Hj.
    destruct (knots_nth_inv _ _ _ _ _ K Ha) as [La Ea]. destruct (knots_nth_inv _ _ _ _ _ K Hb) as [Lb Eb].
    destruct (knots_nth_inv _ _ _ _ _ K Hj) as [Lj Ej]. injection Ea as ->. injection Eb as ->. injection Ej as ->.
    apply asc_inv in L1; auto; [|apply K]. apply asc_inv in L2; auto; [|apply K]. lia. }
  assert (MO : forall i a va b vb, nth_error l i = Some (Fin a, va) -> nth_error l (S i) = Some (Fin b, vb) ->
     (a < q)%Qc -> (q < b)%Qc -> ((forall p, In p l -> lt_x (Fin q) (fst p)) \/ (forall p, In p l -> lt_x (fst p) (Fin q))) -> False).
  { intros i a va b vb Ha Hb L1 L2 [O|O].
    - specialize (O _ (nth_error_In _ _ Ha)). cbn [fst] in O. apply lt_x_fin in O. qc_lra.
    - specialize (O _ (nth_error_In _ _ Hb)). cbn [fst] in O. apply lt_x_fin in O. qc_lra. }
  assert (KO : forall i w, nth_error l i = Some (Fin q, w) -> ((forall p, In p l -> lt_x (Fin q) (fst p)) \/ (forall p, In p l -> lt_x (fst p) (Fin q))) -> False).
  { intros i w H [O|O]; specialize (O _ (nth_error_In _ _ H)); cbn [fst] in O; apply lt_x_fin in O; qc_lra. }
  intros [i H|i a va b vb Ha Hb L1 L2 B|O ->] [j H'|j a' va' b' vb' Ha' Hb' L1' L2' B'|O' ->]; try (exfalso; eauto; fail); auto.
  - eapply vidx_knot_unique; eauto.
  - assert (i = j).
    { destruct (knots_nth_inv _ _ _ _ _ K Ha) as [La Ea]. destruct (knots_nth_inv _ _ _ _ _ K Hb) as [Lb Eb].
      destruct (knots_nth_inv _ _ _ _ _ K Ha') as [La' Ea']. destruct (knots_nth_inv _ _ _ _ _ K Hb') as [Lb' Eb'].
      injection Ea as ->. injection Eb as ->. injection Ea' as ->. injection Eb' as ->.
      assert (X1 : (kq qs i < kq qs (S j))%Qc) by qc_lra. assert (X2 : (kq qs j < kq qs (S i))%Qc) by qc_lra.
      apply asc_inv in X1; auto; [|apply K]. apply asc_inv in X2; auto; [|apply K]. lia. }
    subst j. rewrite Ha in Ha'. rewrite Hb in Hb'. injection Ha' as <- <-. injection Hb' as <- <-.
    destruct ip; simpl in *; congruence.
Qed.

(** Values up to the last point of a common head do not depend on the tail. *)
Lemma value_head ip head t t' z q v : ascending (head ++ t) -> ascending (head ++ t') -> last_opt head = Some z -> le_x (Fin q) (fst z) ->
  value ip (head ++ t) q v -> value ip (head ++ t') q v.
Proof.
  intros A A' Ez Lq. rewrite !value_vidx.
  pose proof (proj1 (ascending_app_iff _ _) A) as [A1 [A2 A3]].
  destruct (ascending_fin _ z A1 (last_opt_in _ _ Ez)) as [qz [vz Hz]]. rewrite Hz in Lq. cbn [fst] in Lq. apply le_x_fin in Lq.
  assert (Below : forall p, In p t -> lt_x (Fin q) (fst p)).
  { intros p Hp. specialize (A3 z p (last_opt_in _ _ Ez) Hp). destruct (ascending_fin _ p A2 Hp) as [qp [vp ->]].
    rewrite Hz in A3. cbn [fst] in *. rewrite lt_x_fin in *. qc_lra. }
  intros [i H|i a va b vb Ha Hb L1 L2 B|O ->].
  - destruct (Nat.lt_ge_cases i (length head)) as [L|L].
    + apply vi_knot with i. rewrite nth_error_app1 in * by auto. exact H.
    + exfalso. rewrite nth_error_app2 in H by auto. specialize (Below _ (nth_error_In _ _ H)). cbn [fst] in Below.
      apply lt_x_fin in Below. qc_lra.
  - destruct (Nat.lt_ge_cases (S i) (length head)) as [L|L].
    + eapply vi_mid with i a va b vb; auto; rewrite nth_error_app1 in * by lia; auto.
    + exfalso. destruct (Nat.lt_ge_cases i (length head)) as [L'|L'].
      * rewrite nth_error_app1 in Ha by lia. rewrite last_opt_nth in Ez. replace (length head - 1)%nat with i in Ez by lia.
        rewrite Ha in Ez. injection Ez as <-. injection Hz as -> _. qc_lra.
      * rewrite nth_error_app2 in Ha by auto. specialize (Below _ (nth_error_In _ _ Ha)). cbn [fst] in Below.
        apply lt_x_fin in Below. qc_lra.
  - destruct O as [O|O].
    + apply vi_out; auto. left. intros p Hp. apply in_app_iff in Hp. destruct Hp as [Hp|Hp].
      * apply O. apply in_or_app. auto.
      * pose proof (proj1 (ascending_app_iff _ _) A') as [_ [A5 A6]].
        specialize (A6 z p (last_opt_in _ _ Ez) Hp). destruct (ascending_fin _ p A5 Hp) as [qp [vp ->]].
        rewrite Hz in A6. cbn [fst] in *. rewrite lt_x_fin in *. qc_lra.
    + exfalso. specialize (O z (in_or_app _ _ _ (or_introl (last_opt_in _ _ Ez)))). rewrite Hz in O. cbn [fst] in O.
      apply lt_x_fin in O. qc_lra.
Qed.

Lemma value_tail ip tail h h' z q v : ascending (h ++ tail) -> ascending (h' ++ tail) -> head_opt tail = Some z -> le_x (fst z) (Fin q) ->
  value ip (h ++ tail) q v -> value ip (h' ++ tail) q v.
Proof.
  intros A A' Ez Lq. rewrite !value_vidx.
  pose proof (proj1 (ascending_app_iff _ _) A) as [A1 [A2 A3]].
  destruct (ascending_fin _ z A2 (head_opt_in _ _ Ez)) as [qz [vz Hz]]. rewrite Hz in Lq. cbn [fst] in Lq. apply le_x_fin in Lq.
  assert (Above : forall p, In p h -> lt_x (fst p) (Fin q)).
  { intros p Hp. specialize (A3 p z Hp (head_opt_in _ _ Ez)). destruct (ascending_fin _ p A1 Hp) as [qp [vp ->]].
    rewrite Hz in A3. cbn [fst] in *. rewrite lt_x_fin in *. qc_lra. }
  assert (SH : forall i p, (length h <= i)%nat -> nth_error (h ++ tail) i = Some p -> nth_error (h' ++ tail) (length h' + (i - length h)) = Some p).
  { intros i p L H. rewrite nth_error_app2 in H by auto. rewrite nth_error_app2 by lia.
    now replace (length h' + (i - length h) - length h')%nat with (i - length h)%nat by lia. }
  intros [i H|i a va b vb Ha Hb L1 L2 B|O ->].
  - destruct (Nat.lt_ge_cases i (length h)) as [L|L].
    + exfalso. rewrite nth_error_app1 in H by auto. specialize (Above _ (nth_error_In _ _ H)). cbn [fst] in Above.
      apply lt_x_fin in Above. qc_lra.
    + eapply vi_knot. apply SH; eauto.
  - destruct (Nat.lt_ge_cases i (length h)) as [L|L].
    + exfalso. destruct (Nat.lt_ge_cases (S i) (length h)) as [L'|L'].
      * rewrite nth_error_app1 in Hb by lia. specialize (Above _ (nth_error_In _ _ Hb)). cbn [fst] in Above.
        apply lt_x_fin in Above. qc_lra.
      * rewrite nth_error_app2 in Hb by lia. replace (S i - length h)%nat with 0%nat in Hb by lia.
        destruct tail as [|t0 tl]; [discriminate|]. simpl in Hb, Ez. injection Hb as ->. injection Ez as <-. injection Hz as -> _. qc_lra.
    + eapply vi_mid with (length h' + (i - length h))%nat a va b vb; auto.
      replace (S (length h' + (i - length h))) with (length h' + (S i - length h))%nat by lia. apply SH; auto.
  - destruct O as [O|O].
    + exfalso. specialize (O z (in_or_app _ _ _ (or_intror (head_opt_in _ _ Ez)))). rewrite Hz in O. cbn [fst] in O.
      apply lt_x_fin in O. qc_lra.
    + apply vi_out; auto. right. intros p Hp. apply in_app_iff in Hp. destruct Hp as [Hp|Hp].
      * pose proof (proj1 (ascending_app_iff _ _) A') as [A4 [_ A6]].
        specialize (A6 p z Hp (head_opt_in _ _ Ez)). destruct (ascending_fin _ p A4 Hp) as [qp [vp ->]].
        rewrite Hz in A6. cbn [fst] in *. rewrite lt_x_fin in *. qc_lra.
      * apply O. apply in_or_app. auto.
Qed.

Lemma value_none ip l q : ~ span l q -> ascending l -> value ip l q v_none.
Proof.
  intros H A. destruct l as [|a l'].
  - apply val_outside. left. intros p [].
  - set (l := a :: l') in *. destruct (last_opt_cons a l') as [z Ez]. fold l in Ez.
    destruct (ascending_fin l a A) as [qa [va Ha]]; [simpl; auto|].
    destruct (ascending_fin l z A (last_opt_in _ _ Ez)) as [qz [vz Hz]].
    apply val_outside. destruct (Qclt_le_dec q qa) as [L|L].
    + left. intros p Hp. pose proof (ascending_head_le l a p A eq_refl Hp) as X.
      destruct (ascending_fin l p A Hp) as [qp [vp ->]]. subst a. cbn [fst] in *. rewrite le_x_fin in X. apply lt_x_fin. qc_lra.
    + right. intros p Hp. pose proof (ascending_last_ge l z p A Ez Hp) as X.
      destruct (ascending_fin l p A Hp) as [qp [vp ->]]. subst z. cbn [fst] in *. rewrite le_x_fin in X. apply lt_x_fin.
      destruct (Qclt_le_dec qp q) as [L2|L2]; auto. exfalso. apply H. exists qa, qp, va, vp. subst a. unfold l in *. simpl.
      repeat split; auto.
Qed.

(** y of two consistent curves agrees where their values agree. *)
Lemma p_y_agree s s' q : (p_interp s = ILinear -> lerp_total) -> p_interp s' = p_interp s -> good s -> good s' ->
  (forall v, value (p_interp s) (p_pts s) q v -> value (p_interp s) (p_pts s') q v) ->
  p_y s' (Fin q) = p_y s (Fin q).
Proof.
  intros LT EI G G' H. destruct (p_y_value s q LT G) as [v [E Hv]].
  destruct (p_y_value s' q) as [v' [E' Hv']]; auto; [now rewrite EI|].
  rewrite E, E'. f_equal. rewrite EI in Hv'. eapply value_unique; [apply G'|exact Hv'|auto].
Qed.

Lemma span_closed l q a z : ascending l -> head_opt l = Some a -> last_opt l = Some z ->
  span l q <-> (le_x (fst a) (Fin q) /\ le_x (Fin q) (fst z)).
Proof.
  intros A Ea Ez. split.
  - intros [x [y [vx [vy [Ix [Iy [L1 L2]]]]]]].
    pose proof (ascending_head_le _ _ _ A Ea Ix) as H1. pose proof (ascending_last_ge _ _ _ A Ez Iy) as H2.
    destruct (ascending_fin _ a A (head_opt_in _ _ Ea)) as [qf [vf ->]].
    destruct (ascending_fin _ z A (last_opt_in _ _ Ez)) as [qz [vz ->]].
    cbn [fst] in *. rewrite !le_x_fin in *. split; qc_lra.
  - destruct (ascending_fin _ a A (head_opt_in _ _ Ea)) as [qf [vf ->]].
    destruct (ascending_fin _ z A (last_opt_in _ _ Ez)) as [qz [vz ->]].
    cbn [fst]. rewrite !le_x_fin. intros [L1 L2].
    exists qf, qz, vf, vz. repeat split; auto; [now apply head_opt_in|now apply last_opt_in].
Qed.

(** append *)
Theorem append_covers s q0 v0 s' evs q : (p_interp s = ILinear -> lerp_total) -> good s -> good s' ->
  p_append s (Fin q0, v0) = (s', evs, Ok tt) ->
  ~ imem (append1_domain s (Fin q0)) (Fin q) -> p_y s' (Fin q) = p_y s (Fin q).
Proof.
  intros LT G G' E N. pose proof (proj1 (good_calm s) G) as [C T].
  destruct (p_append_ok s q0 v0 s' evs C E) as [K _].
  apply p_y_agree; auto; [apply K|]. rewrite (so_pts _ _ _ _ _ K).
  pose proof (so_calm _ _ _ _ _ K) as [A' _]. rewrite (so_pts _ _ _ _ _ K) in A'. pose proof C as [A _].
  unfold append1_domain in N. intros v Hv.
  destruct (last_opt (p_pts s)) as [z|] eqn:Ez.
  - destruct (ascending_fin _ z A (last_opt_in _ _ Ez)) as [qz [vz Hz]]. subst z. cbn [fst] in N.
    destruct (Qclt_le_dec qz q) as [L|L].
    + assert (L0 : (q0 < q)%Qc).
      { destruct (Qclt_le_dec q0 q); auto. exfalso. apply N. split; cbn; [now apply lt_x_fin|now apply le_x_fin]. }
      assert (v = v_none).
      { eapply value_unique; [exact A|exact Hv|]. apply value_none; auto. intros S.
        destruct (head_opt_some (p_pts s)) as [a Ea]; [intros N0; rewrite N0 in Ez; discriminate|].
        apply (span_closed _ _ _ _ A Ea Ez) in S. cbn [fst] in S. rewrite (le_x_fin q qz) in S. qc_lra. }
      subst v. apply value_none; auto. intros S.
      destruct (head_opt_some (p_pts s ++ [(Fin q0, v0)])) as [a Ea]; [destruct (p_pts s); discriminate|].
      apply (span_closed _ _ _ _ A' Ea (last_opt_app _ _)) in S. cbn [fst] in S. rewrite (le_x_fin q q0) in S. qc_lra.
    + rewrite <- (app_nil_r (p_pts s)) in Hv. rewrite <- (app_nil_r (p_pts s)) in A. rewrite app_nil_r in Ez || idtac.
      eapply value_head; [exact A|exact A'|exact Ez|cbn [fst]; now apply le_x_fin|exact Hv].
  - apply last_opt_none in Ez. rewrite Ez in *. simpl in *.
    assert (v = v_none).
    { eapply value_unique; [exact A|exact Hv|]. apply value_none; auto. intros [? [? [? [? [[] _]]]]]. }
    subst v. apply value_none; auto. intros S. apply N.
    apply (span_closed _ _ _ _ A' eq_refl eq_refl) in S. exact S.
Qed.

(** reset *)
Theorem reset_covers s d s' evs q : (p_interp s = ILinear -> lerp_total) -> good s -> good s' -> iok d ->
  p_reset s (Some d) = (s', evs, Ok tt) ->
  ~ (exists D, In (EvEnd D) evs /\ imem D (Fin q)) -> p_y s' (Fin q) = p_y s (Fin q).
Proof.
  intros LT G G' Hd E N. pose proof (proj1 (good_calm s) G) as [C T]. pose proof C as [A _].
  destruct (p_reset_some _ _ _ _ _ G Hd E) as [[->| ->] _ _ _|_ _ K _|head mid tail b Hp Hm Hn F P K]; auto.
  - apply p_y_agree; auto; [apply K|]. rewrite (so_pts _ _ _ _ _ K). intros v Hv.
    rewrite (so_evs _ _ _ _ _ K) in N. unfold notify in N.
    assert (v = v_none).
    { eapply value_unique; [exact A|exact Hv|]. apply value_none; auto. intros S. apply N.
      pose proof (proj2 (span_contains s q C) S) as X. rewrite calm_dom in X by auto.
      exists (pts_domain (p_pts s)). destruct (i_is_empty _) eqn:Em.
      - exfalso. rewrite (contains_iff _ _ (iok_pts_domain _ A)) in X by nn.
        apply pts_domain_empty_iff in Em; auto. destruct S as [? [? [? [? [I _]]]]]. rewrite Em in I. contradiction.
      - split; [simpl; auto|]. apply contains_iff; auto using iok_pts_domain. nn. }
    subst v. apply value_none; [|apply ascending_nil]. intros [? [? [? [? [[] _]]]]].
  - destruct (p_force s && negb b) eqn:PF; [destruct K; discriminate|]. destruct K as [_ [K Kb]].
    apply p_y_agree; auto; [apply K|]. rewrite (so_pts _ _ _ _ _ K). intros v Hv.
    rewrite (so_evs _ _ _ _ _ K) in N. unfold notify in N. rewrite Hp in *.
    destruct (gap_ok head mid tail A Hm Hn) as [OD ND]. rewrite ND in N.
    assert (N' : ~ imem (gap_domain (head ++ mid ++ tail) head tail) (Fin q)).
    { intros X. apply N. eexists. split; [right; left; reflexivity|exact X]. }
    pose proof (so_calm _ _ _ _ _ K) as [A' _]. rewrite (so_pts _ _ _ _ _ K) in A'.
    assert (Hl : head ++ mid ++ tail <> []). { intros Q. apply app_eq_nil in Q. destruct Q as [_ Q]. apply app_eq_nil in Q. tauto. }
    destruct (head_opt_some _ Hl) as [a Ea]. destruct (last_opt_some _ Hl) as [z Ez].
    unfold gap_domain in N'. rewrite Ea, Ez in N'.
    assert (OUT : ~ span (head ++ mid ++ tail) q -> value (p_interp s) (head ++ tail) q v) .
    { intros Q. assert (v = v_none) by (eapply value_unique; [exact A|exact Hv|apply value_none; auto]). subst v.
      apply value_none; auto. intros [x [y [vx [vy [Ix [Iy [L1 L2]]]]]]]. apply Q. exists x, y, vx, vy.
      repeat split; auto; rewrite !in_app_iff in *; tauto. }
    destruct (last_opt head) as [h|] eqn:Eh.
    + pose proof (last_opt_in _ _ Eh) as Ih.
      assert (Ihl : In h (head ++ mid ++ tail)) by (apply in_or_app; auto).
      destruct (ascending_fin _ h A Ihl) as [qh [vh Hh]]. rewrite Hh in *. cbn [fst] in *.
      destruct (Qclt_le_dec qh q) as [L|L].
      * destruct (head_opt tail) as [t|] eqn:Et.
        -- assert (Itl : In t (head ++ mid ++ tail)) by (rewrite !in_app_iff; right; right; now apply head_opt_in).
           destruct (ascending_fin _ t A Itl) as [qt [vt Ht]]. rewrite Ht in *. cbn [fst] in *.
           rewrite app_assoc in Hv, A. eapply value_tail; [exact A|exact A'|exact Et|cbn [fst]; apply le_x_fin|exact Hv].
           destruct (Qclt_le_dec q qt); auto. exfalso. apply N'. split; cbn; now apply lt_x_fin.
        -- apply OUT. intros S. apply (span_closed _ _ _ _ A Ea Ez) in S. apply N'. split; cbn; [now apply lt_x_fin|tauto].
      * eapply value_head; [exact A|exact A'|exact Eh|cbn [fst]; now apply le_x_fin|exact Hv].
    + destruct (head_opt tail) as [t|] eqn:Et.
      * assert (Itl : In t (head ++ mid ++ tail)) by (rewrite !in_app_iff; right; right; now apply head_opt_in).
        destruct (ascending_fin _ t A Itl) as [qt [vt Ht]].
        destruct (Qclt_le_dec q qt) as [L|L].
        -- apply OUT. intros S. apply (span_closed _ _ _ _ A Ea Ez) in S. apply N'. split; cbn; [tauto|]. rewrite Ht. now apply lt_x_fin.
        -- rewrite app_assoc in Hv, A. eapply value_tail; [exact A|exact A'|exact Et|rewrite Ht; cbn [fst]; now apply le_x_fin|exact Hv].
      * exfalso. apply Hn. apply last_opt_none in Eh. subst head. destruct tail; [reflexivity|discriminate].
Qed.

(** set *)
Theorem set_covers s l s' evs q : (p_interp s = ILinear -> lerp_total) -> good s -> good s' -> ascending l ->
  p_set s l None = (s', evs, Ok tt) ->
  ~ (exists D, In (EvEnd D) evs /\ imem D (Fin q)) -> p_y s' (Fin q) = p_y s (Fin q).
Proof.
  intros LT G G' Al E N. pose proof (proj1 (good_calm s) G) as [C T]. pose proof C as [A _].
  destruct (p_set_ok s l None s' evs C Al) as [K _]; auto; [discriminate|].
  apply p_y_agree; auto; [apply K|]. rewrite (so_pts _ _ _ _ _ K). intros v Hv.
  rewrite (so_evs _ _ _ _ _ K) in N.
  set (D := set_domain s l None) in *.
  assert (OD : iok D) by (apply iok_set_domain; auto; discriminate).
  assert (ND : ~ imem D (Fin q)).
  { clearbody D. intros X. apply N. exists D. split; auto. unfold notify. destruct (i_is_empty D) eqn:Em; [|simpl; auto].
    exfalso. rewrite is_empty_iff in Em by auto. apply (Em (Fin q)); auto; nn. }
  assert (OP : iok (pts_domain (p_pts s))) by now apply iok_pts_domain.
  assert (OL : iok (pts_domain l)) by now apply iok_pts_domain.
  assert (NS : ~ span (p_pts s) q /\ ~ span l q).
  { split; intros S; apply ND.
    - pose proof (proj2 (span_contains s q C) S) as X. rewrite calm_dom in X by auto. rewrite contains_e in X by (auto; nn).
      apply imem_emem; auto; [nn|]. unfold D, set_domain. rewrite calm_dom by auto.
      destruct (head_opt l) as [a|] eqn:Ea; auto. destruct (last_opt l) as [z|] eqn:Ez; auto.
      rewrite <- (ends_ok l a z) by auto. apply union2_cover; auto.
    - assert (Hl : l <> []) by (intros Q; rewrite Q in S; destruct S as [? [? [? [? [[] _]]]]]).
      destruct (head_opt_some _ Hl) as [a Ea]. destruct (last_opt_some _ Hl) as [z Ez].
      apply imem_emem; auto; [nn|]. unfold D, set_domain. rewrite calm_dom, Ea, Ez by auto.
      rewrite <- (ends_ok l a z) by auto. apply union2_cover; auto. right.
      apply imem_emem; auto; [nn|]. rewrite (ends_ok l a z) by auto. apply (span_closed l q a z) in S; auto. }
  assert (v = v_none) by (eapply value_unique; [exact A|exact Hv|apply value_none; tauto]). subst v.
  apply value_none; tauto.
Qed.

(** replace: the notified point covers the change for the points themselves. *)
Theorem replace_covers_knots s q0 v0 oa s' evs q : good s -> good s' -> span (p_pts s) q0 ->
  p_replace s (Fin q0, v0) oa = (s', evs, Ok tt) -> q <> q0 ->
  forall v, In (Fin q, v) (p_pts s) <-> In (Fin q, v) (p_pts s').
Proof.
  intros G G' Hs E N v.
  destruct (p_replace_in _ _ _ _ _ _ _ G Hs E) as [l1 w l2 Hp _ K Ke|l1 a b l2 Hp L1 L2 K].
  - rewrite (so_pts _ _ _ _ _ K), Hp, !in_app_iff. simpl.
    split; intros [H|[H|H]]; auto; exfalso; injection H as X _; congruence.
  - destruct (p_force s); [destruct K; discriminate|]. destruct K as [_ [K _]].
    rewrite (so_pts _ _ _ _ _ K), Hp, !in_app_iff. simpl.
    split; [tauto|]. intros [H|[H|H]]; auto. exfalso; injection H as X _; congruence.
Qed.

End Cover.
