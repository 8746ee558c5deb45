(** Every interval that ends an update at a node is covered by a notification of
    that node, and the notifications travel along the observers. *)
From Coq Require Import List ZArith QArith Qcanon Bool Lia Lqa Arith Wf_nat Permutation.
From Verif Require Import Base Num NumFacts Interval IntervalFacts Curve Graph PointsOps UpdFacts PointsDec GraphFacts GraphSettle GraphTop.
Import ListNotations.

Lemma end_cases (u : upd xq) d : iok (u_end u) -> iok d ->
  (exists u', end_update u d = (u', None) /\
     (i_is_empty d = false -> i_superset (u_end u') d = true) /\ forall e, iok e -> i_superset (u_end u) e = true -> i_superset (u_end u') e = true) \/
  (exists u' D, end_update u d = (u', Some D) /\ i_superset D d = true /\ forall e, iok e -> i_superset (u_end u) e = true -> i_superset D e = true).
Proof.
  intros Hu Hd. unfold end_update. destruct (i_is_empty d || i_superset (u_end u) d) eqn:X.
  - left. exists u. split; auto. split; auto. intros E. rewrite E in X. exact X.
  - destruct (negb _); [left|right]; eexists; [|eexists]; (split; [reflexivity|]); cbn [u_end]; split.
    + intros _. now apply union2_superset_r.
    + intros e He S. apply superset_trans with (u_end u); auto using iok_union2, union2_superset_l.
    + now apply union2_superset_r.
    + intros e He S. apply superset_trans with (u_end u); auto using iok_union2, union2_superset_l.
Qed.

Lemma ends_fired l : forall u B E e, phase u B E -> Forall iok l -> idle (ends u l) -> iok e -> i_is_empty e = false ->
  In e l \/ i_superset (u_end u) e = true ->
  exists l1 x l2 u' D, l = l1 ++ x :: l2 /\ end_update (ends u l1) x = (u', Some D) /\ iok D /\ i_superset D e = true.
Proof.
  induction l as [|d l IH]; intros u B E e H F ID He Hn K; simpl in *.
  - exfalso. destruct K as [[]|K]. destruct ID as [_ I2]. rewrite I2, superset_empty_l in K by apply i_empty_is_empty. congruence.
  - inversion F; subst. destruct (phase_inv _ _ _ H) as [O1 O2 _ _ _ _ _].
    destruct (end_cases u d O2 H2) as [[u' [Es [C1 C2]]]|[u' [D [Es [C1 C2]]]]]; rewrite Es in ID; cbn [fst] in ID.
    + assert (K' : In e l \/ i_superset (u_end u') e = true) by (destruct K as [[->|K]|K]; auto).
      destruct (IH u' B (d :: E) e (ph_wait _ _ _ _ _ H H2 Es) H3 ID He Hn K') as [l1 [x [l2 [u2 [D [-> Q]]]]]].
      exists (d :: l1), x, l2, u2, D. cbn [ends fold_left]. rewrite Es. cbn [fst]. auto.
    + destruct (fired_iok _ _ _ _ _ _ H H2 Es) as [OD _].
      assert (X : i_superset D e = true \/ In e l) by (destruct K as [[->|K]|K]; auto).
      destruct X as [X|X].
      * exists [], d, l, u', D. cbn. auto.
      * destruct (IH u' [] [] e (ph_fire _ _ _ _ _ _ H H2 Es) H3 ID He Hn (or_introl X)) as [l1 [x [l2 [u2 [D2 [-> Q]]]]]].
        exists (d :: l1), x, l2, u2, D2. cbn [ends fold_left]. rewrite Es. cbn [fst]. auto.
Qed.

Section Travel.
Variable g : net xq.
Hypothesis G : good_net g.
Variables (s s1 s2 : nstate xq) (fuel i : nat) (d : ival xq) (LB LE : list (entry xq)).
Hypothesis EB : net_op g fuel s i false d = Ok (s1, LB).
Hypothesis EE : net_op g fuel s1 i true d = Ok (s2, LE).
Hypothesis ID : forall j, idle (s j).
Hypothesis Hd : iok d.
Hypothesis Hh : inf_hit d.

Definition covered (j : nat) (x : xq) : Prop :=
  exists en D, In en LE /\ l_node en = j /\ l_not en = Some D /\ iok D /\ imem D x.

Lemma arg_covered j e q : In e (args j LE) -> imem e (Fin q) -> covered j (Fin q).
Proof.
  intros I M. pose proof (all_settled g G s s1 s2 fuel i d LB LE EB EE ID Hd Hh j) as [H1 [H2 H3]].
  pose proof (settled_fires g s s1 s2 fuel i d LB LE EB EE ID j (conj H1 (conj H2 H3))) as [S1 _].
  pose proof (s2_eq g s1 s2 fuel i d LE EE j) as E2. pose proof (s1_eq g s s1 fuel i d LB EB j) as E1.
  destruct (begins_phase (args j LB) (s j) [] [] (idle_phase _ (ID j))) as [B' [P _]].
  { apply Forall_forall. intros x Ix. now apply H1. }
  rewrite E2, E1 in S1.
  assert (NE : i_is_empty e = false).
  { destruct (i_is_empty e) eqn:X; auto. rewrite is_empty_iff in X by auto. exfalso. apply (X (Fin q)); auto. discriminate. }
  destruct (ends_fired (args j LE) _ _ _ e P) as [l1 [x [l2 [u' [D [El [Es [OD SD]]]]]]]]; auto.
  { apply Forall_forall. auto. }
  unfold args in El. destruct (map_app_inv _ _ _ _ _ El) as [q1 [en [q2 [Ep [M1 [M2 M3]]]]]].
  destruct (proj_split _ _ _ _ _ Ep) as [a [b0 [Ea [A1 A2]]]].
  destruct (net_op_log g fuel s1 i true d s2 LE EE) as [LK _].
  pose proof (lo_not _ _ _ _ _ LK a en b0 Ea) as Nn.
  assert (Ij : l_node en = j). { apply (proj_in j LE en). rewrite Ep. apply in_or_app. simpl; auto. }
  rewrite Ij, A1 in Nn. rewrite applyl_ends in Nn.
  2:{ pose proof (kinds_proj _ j _ (kinds_E g s1 s2 fuel i d LE EE)) as KP. rewrite Ep in KP. apply Forall_app in KP. apply KP. }
  change (map (l_arg (T := xq)) q1 = l1) in M1. rewrite M1, M2, E1 in Nn. unfold node_op in Nn. rewrite Es in Nn. cbn [snd] in Nn.
  assert (MD : imem D (Fin q)) by (apply (superset_iff D e); auto; discriminate).
  assert (HD : i_intersects D i_infinite = true).
  { apply intersects_iff; auto using iok_infinite. exists (Fin q). split; [discriminate|]. split; auto. split; reflexivity. }
  rewrite HD in Nn. exists en, D. repeat split; auto; try apply OD; try apply MD. rewrite Ea. apply in_or_app. simpl; auto.
Qed.

Lemma travels p c t q q' : covered p (Fin q) -> In (c, t) (deps g p) ->
  (forall D, iok D -> imem D (Fin q) -> imem (t D) (Fin q')) -> covered c (Fin q').
Proof.
  intros [en [D [I [En [Hn [OD M]]]]]] Ic K. destruct (net_op_log g fuel s1 i true d s2 LE EE) as [LK _].
  destruct (in_split _ _ I) as [l1 [l2 El]]. rewrite <- En in Ic.
  destruct (lo_closed _ _ _ _ _ LK l1 en l2 D c t El Hn Ic) as [en' [J1 [J2 J3]]].
  apply arg_covered with (t D); [|now apply K]. apply in_args. exists en'. repeat split; auto.
  rewrite El. apply in_or_app. simpl; auto.
Qed.

Lemma source_covered q : imem d (Fin q) -> covered i (Fin q).
Proof.
  intros M. destruct (net_op_log g fuel s1 i true d s2 LE EE) as [_ [[n [tl [H _]]] _]].
  apply arg_covered with d; auto. apply in_args. exists (mkL i true d n). rewrite H. simpl; auto.
Qed.

End Travel.
