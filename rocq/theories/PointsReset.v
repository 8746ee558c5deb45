(** reset and replace of Points. *)
From Coq Require Import List ZArith QArith Qcanon Bool Lia Lqa Sorting.Sorted Zify ZifyBool.
From Verif Require Import Base Num NumFacts Interval IntervalFacts Curve Points PointsSpec PointsIdx PointsQuery PointsDom PointsOps PointsMut.
Import ListNotations.

Section Reset.
Context {V : Type} {W : Val xq V}.
Implicit Types l head mid tail : list (xq * V).
Implicit Type s : pts xq V.

Definition outside (d : ival xq) (p : xq * V) : bool := negb (inside d p).

(** The interval notified when the middle of head ++ mid ++ tail is removed. *)
Definition gap_domain l head tail : ival xq :=
  match head_opt l, last_opt l with
  | Some a, Some z =>
      mkI (match last_opt head with Some h => fst h | None => fst a end)
          (match head_opt tail with Some t => fst t | None => fst z end)
          (match last_opt head with Some _ => true | None => false end)
          (match head_opt tail with Some _ => true | None => false end)
  | _, _ => i_empty
  end.

Lemma head_opt_app {A} (l m : list A) : l <> [] -> head_opt (l ++ m) = head_opt l.
Proof. destruct l; simpl; congruence. Qed.
Lemma last_opt_app2 {A} (l m : list A) : m <> [] -> last_opt (l ++ m) = last_opt m.
Proof.
  intros H. destruct (exists_last H) as [m' [z ->]]. rewrite app_assoc, !last_opt_app. reflexivity.
Qed.
Lemma last_opt_some {A} (l : list A) : l <> [] -> exists z, last_opt l = Some z.
Proof. destruct l; [congruence|]. intros _. apply last_opt_cons. Qed.
Lemma head_opt_some {A} (l : list A) : l <> [] -> exists z, head_opt l = Some z.
Proof. destruct l; [congruence|]. simpl; eauto. Qed.

Lemma gap_ok head mid tail : ascending (head ++ mid ++ tail) -> mid <> [] -> head ++ tail <> [] ->
  iok (gap_domain (head ++ mid ++ tail) head tail) /\
  i_is_empty (gap_domain (head ++ mid ++ tail) head tail) = false.
Proof.
  intros A Hm Hn. set (l := head ++ mid ++ tail) in *.
  assert (Hl : l <> []). { intros E. apply app_eq_nil in E. destruct E as [_ E]. apply app_eq_nil in E. tauto. }
  destruct (head_opt_some l Hl) as [a Ea]. destruct (last_opt_some l Hl) as [z Ez].
  unfold gap_domain. rewrite Ea, Ez.
  pose proof (proj1 (ascending_app_iff _ _) A) as [A1 [A2 A3]].
  pose proof (proj1 (ascending_app_iff _ _) A2) as [A4 [A5 A6]].
  destruct (ascending_fin _ a A (head_opt_in _ _ Ea)) as [qa [va ->]].
  destruct (ascending_fin _ z A (last_opt_in _ _ Ez)) as [qz [vz ->]].
  destruct mid as [|m0 mid']; [congruence|]. set (mid := m0 :: mid') in *.
  assert (Hm0 : In m0 mid) by (simpl; auto).
  destruct (ascending_fin _ m0 A4 Hm0) as [qm [vm Em]].
  (* bounds *)
  assert (Ga : (qa <= qm)%Qc).
  { pose proof (ascending_head_le l _ m0 A Ea) as H. subst m0. apply le_x_fin. apply H.
    unfold l. apply in_or_app. right. apply in_or_app. now left. }
  assert (Gz : (qm <= qz)%Qc).
  { pose proof (ascending_last_ge l _ m0 A Ez) as H. subst m0. apply le_x_fin. apply H.
    unfold l. apply in_or_app. right. apply in_or_app. now left. }
  destruct (last_opt head) as [h|] eqn:Eh.
  - pose proof (last_opt_in _ _ Eh) as Ih. destruct (ascending_fin _ h A1 Ih) as [qh [vh Hh]].
    assert (Lh : (qh < qm)%Qc).
    { apply lt_x_fin. specialize (A3 h m0 Ih). subst h m0. apply A3. apply in_or_app. now left. }
    destruct (head_opt tail) as [t|] eqn:Et.
    + pose proof (head_opt_in _ _ Et) as It. destruct (ascending_fin _ t A5 It) as [qt [vt Ht]].
      assert (Lt : (qm < qt)%Qc).
      { apply lt_x_fin. specialize (A6 m0 t Hm0 It). subst t m0. exact A6. }
      subst h t. cbn [fst]. split; [split; discriminate|]. apply fin_nonempty. qc_lra.
    + subst h. cbn [fst]. split; [split; discriminate|]. apply fin_nonempty. qc_lra.
  - destruct (head_opt tail) as [t|] eqn:Et.
    + pose proof (head_opt_in _ _ Et) as It. destruct (ascending_fin _ t A5 It) as [qt [vt Ht]].
      assert (Lt : (qm < qt)%Qc).
      { apply lt_x_fin. specialize (A6 m0 t Hm0 It). subst t m0. exact A6. }
      subst t. cbn [fst]. split; [split; discriminate|]. apply fin_nonempty. qc_lra.
    + exfalso. apply Hn. apply last_opt_none in Eh. subst head. destruct tail; [reflexivity|discriminate].
Qed.

(** What reset(domain) does, by cases. *)
Inductive reset_result s (d : ival xq) (s' : pts xq V) (evs : list (ev xq)) (r : res unit) : Prop :=
| rr_same : (s' = s \/ s' = p_touch s) -> evs = [] -> r = Ok tt ->
    filter (outside d) (p_pts s) = p_pts s -> reset_result s d s' evs r
| rr_all : r = Ok tt -> filter (outside d) (p_pts s) = [] -> step_ok s [] (pts_domain (p_pts s)) s' evs ->
    p_eq s' = true -> reset_result s d s' evs r
| rr_gap head mid tail b : p_pts s = head ++ mid ++ tail -> mid <> [] -> head ++ tail <> [] ->
    filter (outside d) (p_pts s) = head ++ tail ->
    points_equally_spaced (p_int s) [] (head ++ tail) = Ok b ->
    (if p_force s && negb b then r = Err EExc /\ p_pts s' = p_pts s /\ is_updating (p_upd s') = true /\
        evs = [EvBegin (gap_domain (p_pts s) head tail)]
     else r = Ok tt /\ step_ok s (head ++ tail) (gap_domain (p_pts s) head tail) s' evs /\ p_eq s' = b) ->
    reset_result s d s' evs r.

Lemma p_set_nil s : calm s -> exists s', p_set s [] None = (s', notify (p_dom s), Ok tt) /\
  step_ok s [] (p_dom s) s' (notify (p_dom s)) /\ p_eq s' = true.
Proof.
  intros C. destruct (p_set_cases s [] None C ascending_nil) as [b [Eb K]]; [discriminate|].
  injection Eb as <-. rewrite andb_false_r in K. exact K.
Qed.

Lemma outside_nil s d : calm s -> iok d -> i_superset d (p_dom s) = true -> filter (outside d) (p_pts s) = [].
Proof.
  intros C Hd H. apply filter_none. intros p Hp. unfold outside, inside. apply negb_false_iff.
  pose proof C as [A _]. destruct (ascending_fin _ p A Hp) as [q [v ->]]. cbn [fst].
  apply contains_e; auto; [nn|].
  assert (O : iok (p_dom s)) by (rewrite calm_dom by auto; now apply iok_pts_domain).
  eapply superset_emem with (b := p_dom s); eauto.
  apply imem_emem; auto; [nn|]. rewrite calm_dom by auto.
  assert (Hl : p_pts s <> []) by (intros E; rewrite E in Hp; contradiction).
  destruct (head_opt_some _ Hl) as [a Ea]. destruct (last_opt_some _ Hl) as [z Ez].
  rewrite (ends_ok _ a z A Ea Ez).
  pose proof (ascending_head_le _ _ _ A Ea Hp). pose proof (ascending_last_ge _ _ _ A Ez Hp).
  split; auto.
Qed.

Lemma outside_all s d : calm s -> iok d -> i_intersects (p_dom s) d = false -> filter (outside d) (p_pts s) = p_pts s.
Proof.
  intros C Hd H. apply filter_all. intros p Hp. unfold outside, inside. apply negb_true_iff.
  pose proof C as [A _]. destruct (ascending_fin _ p A Hp) as [q [v ->]]. cbn [fst].
  apply contains_false_e; auto; [nn|]. intros M.
  assert (O : iok (p_dom s)) by (rewrite calm_dom by auto; now apply iok_pts_domain).
  assert (T : i_intersects (p_dom s) d = true); [|congruence].
  apply intersects_iff; auto. exists (Fin q). split; [nn|]. split; [|now apply imem_emem; auto; nn].
  rewrite calm_dom by auto.
  assert (Hl : p_pts s <> []) by (intros E; rewrite E in Hp; contradiction).
  destruct (head_opt_some _ Hl) as [a Ea]. destruct (last_opt_some _ Hl) as [z Ez].
  rewrite (ends_ok _ a z A Ea Ez).
  pose proof (ascending_head_le _ _ _ A Ea Hp). pose proof (ascending_last_ge _ _ _ A Ez Hp).
  split; auto.
Qed.

Lemma filter_in_app {A} (f : A -> bool) (l a b : list A) x : filter f l = a ++ b -> In x a \/ In x b -> f x = true.
Proof. intros E H. apply in_or_app in H. rewrite <- E in H. apply filter_In in H. tauto. Qed.

Theorem p_reset_some s d s' evs r : good s -> iok d -> p_reset s (Some d) = (s', evs, r) -> reset_result s d s' evs r.
Proof.
  intros G Hd E. pose proof (proj1 (good_calm s) G) as [C T]. unfold p_reset in E.
  destruct (p_pts s) as [|p0 ps] eqn:Ep.
  { injection E as <- <- <-. apply rr_same; auto. rewrite Ep. reflexivity. }
  pose proof (calm_touch s C) as C'. pose proof (good_touch s G) as G'.
  rewrite p_touch_dom in E.
  destruct (i_intersects (p_dom s) d) eqn:EI; cbn [negb] in E.
  2:{ injection E as <- <- <-. apply rr_same; auto. apply outside_all; auto. }
  destruct (i_superset d (p_dom s)) eqn:ES.
  { destruct (p_set_nil (p_touch s) C') as [s2 [K1 [K2 K3]]]. rewrite K1 in E. injection E as <- <- <-.
    apply rr_all; auto; [apply outside_nil; auto|]. rewrite p_touch_dom, calm_dom in K2 by auto. destruct K2. constructor; auto.
    now rewrite p_touch_dom, calm_dom by auto. }
  destruct (good_nil_or _ G') as [N|[qs [SG Hn]]]; [simpl in N; congruence|].
  destruct (domain_indexes_filter _ qs d SG Hn Hd) as [a [b [DI [Hab [F1 F2]]]]].
  rewrite DI in E. change (p_pts (p_touch s)) with (p_pts s) in *.
  destruct (Z.eqb_spec (Z.of_nat a) (Z.of_nat b)) as [Eab|Eab].
  { injection E as <- <- <-. apply rr_same; auto. unfold outside. rewrite F2.
    replace b with a by lia. apply firstn_skipn. }
  unfold py_upto, py_from in E.
  rewrite !py_clip_id in E by lia.
  set (head := firstn a (p_pts s)) in *. set (tail := skipn b (p_pts s)) in *.
  set (mid := skipn a (firstn b (p_pts s))).
  assert (Hsplit : p_pts s = head ++ mid ++ tail).
  { unfold head, mid, tail. rewrite app_assoc.
    replace (firstn a (p_pts s)) with (firstn a (firstn b (p_pts s))) by (rewrite firstn_firstn; f_equal; lia).
    rewrite firstn_skipn. now rewrite firstn_skipn. }
  assert (Hmid : mid <> []).
  { unfold mid. intros N. apply (f_equal (@length _)) in N. rewrite skipn_length, firstn_length in N. simpl in N. lia. }
  assert (Oh : forall p, In p head -> i_contains d (fst p) = false).
  { intros p Hp. assert (X : negb (inside d p) = true) by (eapply (filter_in_app _ _ _ _ _ F2); eauto). now apply negb_true_iff in X. }
  assert (Ot : forall p, In p tail -> i_contains d (fst p) = false).
  { intros p Hp. assert (X : negb (inside d p) = true) by (eapply (filter_in_app _ _ _ _ _ F2); eauto). now apply negb_true_iff in X. }
  replace (match last_opt head with Some h => if i_contains d (fst h) then removelast head else head | None => head end)
    with head in E.
  2:{ destruct (last_opt head) as [h|] eqn:Eh; auto. rewrite (Oh h (last_opt_in _ _ Eh)). reflexivity. }
  replace (match tail with t :: tl => if i_contains d (fst t) then tl else tail | [] => tail end) with tail in E.
  2:{ destruct tail as [|t tl] eqn:Et; auto. rewrite (Ot t) by (simpl; auto). reflexivity. }
  pose proof C as [A [SI _]].
  assert (AHT : ascending (head ++ tail)).
  { rewrite Hsplit in A. pose proof (proj1 (ascending_app_iff _ _) A) as [A1 [A2 A3]].
    pose proof (proj1 (ascending_app_iff _ _) A2) as [A4 [A5 A6]]. apply ascending_app_iff. split; auto. split; auto.
    intros x y Hx Hy. apply A3; auto. apply in_or_app; auto. }
  destruct (head ++ tail) as [|x0 xs] eqn:EHT.
  { apply app_eq_nil in EHT. destruct EHT as [N1 N2]. rewrite N1, N2 in *. cbn [last_opt head_opt] in E.
    change (last_opt (@nil (xq * V))) with (@None (xq * V)) in E.
    destruct (p_set_nil (p_touch s) C') as [s2 [K1 [K2 K3]]]. rewrite K1 in E. injection E as <- <- <-.
    apply rr_all; auto.
    rewrite p_touch_dom, calm_dom in K2 by auto. destruct K2. constructor; auto.
    now rewrite p_touch_dom, calm_dom by auto. }
  rewrite <- EHT in *. assert (Hht : head ++ tail <> []) by congruence.
  assert (ED : exists D, p_set (p_touch s) (head ++ tail) (Some D) = (s', evs, r) /\ D = gap_domain (p_pts s) head tail).
  { unfold gap_domain. assert (head_opt (p_pts s) = Some p0) as -> by (rewrite Ep; reflexivity).
    destruct (last_opt_cons p0 ps) as [z Ez]. rewrite <- Ep in Ez. rewrite Ez in *.
    destruct (last_opt head) as [h|] eqn:Eh, (head_opt tail) as [t|] eqn:Et.
    - exists (mkI (fst h) (fst t) true true). auto.
    - exists (mkI (fst h) (fst z) true false). auto.
    - exists (mkI (fst p0) (fst t) false true). auto.
    - exfalso. apply last_opt_none in Eh. destruct tail; [|discriminate]. rewrite Eh in Hht. now apply Hht. }
  destruct ED as [D [E' HD]].
  assert (OD : iok D /\ i_is_empty D = false).
  { rewrite HD, Hsplit. apply gap_ok; auto. rewrite <- Hsplit. exact A. }
  destruct (p_set_cases (p_touch s) (head ++ tail) (Some D) C' AHT) as [bb [Eb K]].
  { intros d0 X. injection X as <-. auto. }
  eapply rr_gap with (b := bb); eauto.
  change (p_force (p_touch s)) with (p_force s) in K. rewrite E' in K.
  destruct (p_force s && negb bb).
  - destruct K as [s2 [K1 [K2 K3]]]. injection K1 as -> -> ->. cbn [set_domain] in *. destruct OD as [_ OD]. unfold begun. rewrite OD.
    unfold is_updating. rewrite (K3 OD), OD, <- HD. auto.
  - destruct K as [s2 [K1 [K2 K3]]]. injection K1 as -> -> ->. split; auto. split; auto.
    unfold set_domain in *. rewrite <- HD. destruct K2; constructor; auto.
Qed.
End Reset.
