(** Histories with readings from inside callbacks. *)
From Coq Require Import List ZArith QArith Qcanon Bool Lia Lqa Arith Wf_nat Permutation.
From Verif Require Import Base Num NumFacts Interval IntervalFacts Curve Graph Combine CombineFacts PointsOps UpdFacts PointsDec GraphFacts GraphSettle GraphTop Live LiveNet LiveSpec LiveFacts LiveTop LiveReads LiveCalls.
Import ListNotations.

(** Node [j] notifies its observers in one of these calls. *)
Definition fires (j : nat) (l : list (entry xq)) : Prop := exists en D, In en l /\ l_node en = j /\ l_not en = Some D.
Lemma fires_dec j l : {fires j l} + {~ fires j l}.
Proof.
  induction l as [|en l IH]; [right; intros [? [? [[] _]]]|].
  destruct IH as [H|H]; [left; destruct H as [e [D [I K]]]; exists e, D; simpl; auto|].
  destruct (Nat.eq_dec (l_node en) j) as [E|E].
  - destruct (l_not en) as [D|] eqn:X; [left; exists en, D; simpl; auto|].
    right. intros [e [D [[->|I] K]]]; [destruct K; congruence|]. apply H. exists e, D. auto.
  - right. intros [e [D [[->|I] K]]]; [destruct K; congruence|]. apply H. exists e, D. auto.
Qed.

(** Changes of the sources, with any readings from inside the callbacks, and
    readings in between. *)
Inductive live_r (ns : list (node xq)) (g : net xq) : (nat -> ncurve) -> nstate xq -> Prop :=
| lr_start env : sources_ok ns env -> live_r ns g env (fun _ => upd_init)
| lr_read env s j s' d : live_r ns g env s -> read_dom env ns (S (length ns)) s j = Ok (s', d) -> live_r ns g env s'
| lr_change env s i c d hook s' lb le : live_r ns g env s -> nth_error ns i = Some NSource -> iok (c_dom c) ->
    iok d -> i_intersects d i_infinite = true -> tells d (env i) c ->
    net_update_r ns env hook g (length ns) s i c d = Ok (s', lb, le) -> live_r ns g (set_env env i c) s'.

Section After.
Variable g : net xq.
Hypothesis G : good_net g.
Variables (s s1 s2 : nstate xq) (fuel i : nat) (d : ival xq) (LB LE : list (entry xq)).
Hypothesis EB : net_op g fuel s i false d = Ok (s1, LB).
Hypothesis EE : net_op g fuel s1 i true d = Ok (s2, LE).
Hypothesis ID : forall j, idle (s j).
Hypothesis Hd : iok d.
Hypothesis Hh : inf_hit d.

Lemma ends_phase l : forall u B E0, phase u B E0 -> Forall iok l -> exists B1 E1, phase (ends u l) B1 E1.
Proof.
  induction l as [|z l IH]; intros u B E0 Hp Fl; simpl; eauto. inversion Fl; subst.
  destruct (end_update u z) as [u' [D'|]] eqn:Ez; cbn [fst]; eapply IH; eauto; [eapply ph_fire; eauto|eapply ph_wait; eauto].
Qed.

Lemma hit_fires en l1 l2 : LE = l1 ++ en :: l2 -> inf_hit (l_arg en) -> fires (l_node en) (en :: l2).
Proof.
  intros El HI. set (j := l_node en). pose proof (all_settled g G s s1 s2 fuel i d LB LE EB EE ID Hd Hh j) as [H1 [H2 H3]].
  pose proof (settled_fires g s s1 s2 fuel i d LB LE EB EE ID j (conj H1 (conj H2 H3))) as [S1 _].
  pose proof (s2_eq g s1 s2 fuel i d LE EE j) as E2. pose proof (s1_eq g s s1 fuel i d LB EB j) as E1.
  destruct (begins_phase (args j LB) (s j) [] [] (idle_phase _ (ID j))) as [B' [P _]].
  { apply Forall_forall. intros x Ix. now apply H1. }
  assert (EA : args j LE = args j l1 ++ args j (en :: l2)) by (rewrite El; unfold args; now rewrite proj_app, map_app).
  assert (FL : Forall iok (args j LE)) by (apply Forall_forall; auto).
  rewrite EA in FL. apply Forall_app in FL. destruct FL as [F1 F2].
  rewrite E2, E1, EA, ends_app in S1.
  destruct (ends_phase (args j l1) _ _ _ P F1) as [B1 [E3 P1]].
  assert (IA : In (l_arg en) (args j (en :: l2))) by (apply in_args; exists en; simpl; auto).
  destruct (ends_fired (args j (en :: l2)) _ _ _ (l_arg en) P1 F2 S1) as [m1 [x [m2 [u' [D [Em [Es [OD SD]]]]]]]].
  { exact (proj1 (Forall_forall _ _) F2 _ IA). }
  { now apply hit_nonempty. }
  { auto. }
  unfold args in Em. destruct (map_app_inv _ _ _ _ _ Em) as [q1 [en' [q2 [Ep [M1 [M2 M3]]]]]].
  destruct (proj_split _ _ _ _ _ Ep) as [a [b0 [Ea [A1 A2]]]].
  destruct (net_op_log g fuel s1 i true d s2 LE EE) as [LK _].
  assert (Ec : LE = (l1 ++ a) ++ en' :: b0) by (rewrite El, Ea; now rewrite <- app_assoc).
  pose proof (lo_not _ _ _ _ _ LK (l1 ++ a) en' b0 Ec) as Nn.
  assert (Ij : l_node en' = j). { apply (proj_in j (en :: l2) en'). rewrite Ep. apply in_or_app. simpl; auto. }
  rewrite Ij, proj_app, A1, applyl_app in Nn.
  pose proof (kinds_proj _ j _ (kinds_E g s1 s2 fuel i d LE EE)) as KP. rewrite El, proj_app in KP. apply Forall_app in KP. destruct KP as [K1 K2].
  rewrite Ep in K2. apply Forall_app in K2. destruct K2 as [K2 _].
  rewrite (applyl_ends _ K1), (applyl_ends _ K2) in Nn. fold (args j l1) in Nn.
  change (map (l_arg (T := xq)) q1 = m1) in M1. rewrite M1, M2, E1 in Nn. unfold node_op in Nn. rewrite Es in Nn. cbn [snd] in Nn.
  assert (OA : iok (l_arg en)) by exact (proj1 (Forall_forall _ _) F2 _ IA).
  assert (HD : inf_hit D) by (apply hit_superset with (l_arg en); auto).
  unfold inf_hit in HD. rewrite HD in Nn. exists en', D. split; [rewrite Ea; apply in_or_app; simpl; auto|]. auto.
Qed.

Lemma later_fire l1 en l2 D c t : LE = l1 ++ en :: l2 -> l_not en = Some D -> In (c, t) (deps g (l_node en)) -> fires c l2.
Proof.
  intros El Hn Ic. destruct (net_op_log g fuel s1 i true d s2 LE EE) as [LK _].
  destruct (lo_closed _ _ _ _ _ LK l1 en l2 D c t El Hn Ic) as [en' [J1 [J2 J3]]].
  destruct (in_split _ _ J1) as [a [b Eb]].
  assert (IE : In en LE) by (rewrite El; apply in_or_app; simpl; auto).
  pose proof (all_settled g G s s1 s2 fuel i d LB LE EB EE ID Hd Hh (l_node en)) as SS.
  pose proof (settled_fires g s s1 s2 fuel i d LB LE EB EE ID _ SS) as [_ [_ S3]].
  pose proof (S3 en D IE eq_refl Hn) as OD.
  assert (HD : inf_hit D).
  { pose proof (lo_not _ _ _ _ _ LK l1 en l2 El) as Nn. rewrite Hn in Nn. unfold node_op in Nn.
    destruct (end_update _ _) as [u' [D'|]] in Nn; [|discriminate]. cbn [snd] in Nn. destruct (i_intersects D' i_infinite) eqn:X; [|discriminate].
    injection Nn as <-. exact X. }
  assert (HT : inf_hit (l_arg en')) by (rewrite J3; apply (proj2 G _ _ _ Ic); auto).
  destruct (hit_fires en' (l1 ++ en :: a) b) as [e [D' [I K]]]; auto.
  { rewrite El, Eb, <- app_assoc. reflexivity. }
  exists e, D'. split; [rewrite Eb; apply in_or_app; right; exact I|]. now rewrite <- J2.
Qed.

End After.

Section Hist.
Variable ns : list (node xq).
Hypothesis W : proper ns.
Variable g : net xq.
Hypothesis Wg : wired ns g.

Lemma change_reads env s i c d hook fuel : (forall j, idle (s j)) -> (forall j, right ns env s j) ->
  nth_error ns i = Some NSource -> iok d -> i_intersects d i_infinite = true -> (length ns <= fuel)%nat ->
  exists s0 LB LE s' lb le,
    net_update g fuel s i d = Ok (s0, LB, LE) /\ net_update_r ns env hook g fuel s i c d = Ok (s', lb, le) /\
    calls lb = LB /\ calls le = LE /\ same_upd s' s0 /\ (forall j, idle (s' j)) /\ (forall j, right ns (set_env env i c) s' j) /\
    (forall j x, In (IRead j x) lb -> x = c_dom (curve_of env ns j)) /\
    (forall l1 j x l2, le = l1 ++ IRead j x :: l2 -> ~ fires j (calls l2) -> x = c_dom (curve_of (set_env env i c) ns j)).
Proof.
  intros ID R Ei Hd Hh Hf. pose proof (g_good ns W g Wg) as G.
  assert (Hi : (i < length g)%nat) by (rewrite (proj1 Wg); apply nth_error_Some; congruence).
  rewrite <- (proj1 Wg) in Hf.
  destruct (net_op_total g G fuel s i false d) as [[s1 LB] EB]; [lia|auto|].
  destruct (net_op_total g G fuel s1 i true d) as [[s2 LE] EE]; [lia|auto|].
  destruct (net_op_runs ns W g env hook LB (fun _ _ => True)) with (f := fuel) (s := s) (s0 := s) (k := 0%nat) (i := i) (e := false) (d := d)
    (s0' := s1) (log := LB) (past := @nil (entry xq)) (fut := @nil (entry xq)) as [t1 [k1 [lb [E1 [S1 [C1 [R1 V1]]]]]]]; auto.
  { intros past fut _ j n p _ _ _. exact I. }
  { apply same_refl. }
  { now rewrite app_nil_r. }
  set (env' := set_env env i c).
  destruct (net_op_runs ns W g env' hook LE (fun fut j => ~ fires j fut)) with (f := fuel) (s := t1) (s0 := s1) (k := k1) (i := i) (e := true) (d := d)
    (s0' := s2) (log := LE) (past := @nil (entry xq)) (fut := @nil (entry xq)) as [t2 [k2 [le [E2 [S2 [C2 [R2 V2]]]]]]]; auto.
  { intros past fut El j n p En Ip Hj [en [D [I [En' Hn]]]]. apply Hj. destruct (in_split _ _ I) as [a [b ->]].
    destruct (later_fire g G s s1 s2 fuel i d LB LE EB EE ID Hd Hh (past ++ a) en b D j (forwards n)) as [e [D' [I' K]]]; auto.
    - now rewrite <- app_assoc.
    - rewrite En'. now apply (g_dep ns W g Wg).
    - exists e, D'. split; auto. apply in_or_app. simpl; auto. }
  { intros past en fut j El Hj. destruct (fires_dec j (en :: fut)) as [F|F]; auto. right.
    destruct F as [e [D [[->|I] [K1 K2]]]].
    - repeat split; auto; [|congruence]. assert (IE : In e LE) by (rewrite El; apply in_or_app; simpl; auto).
      exact (proj1 (Forall_forall _ _) (kinds_E g s1 s2 fuel i d LE EE) e IE).
    - exfalso. apply Hj. exists e, D. auto. }
  { now rewrite app_nil_r. }
  { intros j. rewrite app_nil_r. intros NF d0 Hd0.
    assert (ND : ~ depends g i j).
    { intros Dj. apply NF. destruct (settle g G s s1 s2 fuel i d LB LE EB EE ID Hd Hh j) as [_ [X _]].
      destruct (X Dj) as [_ [[en [b [Ib [Eb Nb]]]] X3]].
      destruct (begin_not_eq g s s1 fuel i d LB EB en b Ib Nb) as [Qa _].
      destruct (X3 b) as [en' [D [I' [E' [N' _]]]]]; [apply in_args; exists en; auto|].
      exists en', D. auto. }
    unfold env'. rewrite (not_depends_same ns W g Wg) by auto. apply (R1 j I). exact Hd0. }
  exists s2, LB, LE, t2, lb, le. unfold net_update, net_update_r. rewrite EB. cbn. rewrite EE. cbn. rewrite E1. cbn. fold env'. rewrite E2. cbn.
  split; [reflexivity|]. split; [reflexivity|]. split; [auto|]. split; [auto|]. split; [auto|].
  assert (NF : forall j, ~ fires j []) by (intros j [? [? [[] _]]]).
  split; [|split; [|split]].
  - intros j. destruct (settle g G s s1 s2 fuel i d LB LE EB EE ID Hd Hh j) as [[I1 I2] _]. destruct (S2 j). split; congruence.
  - intros j. apply R2. apply NF.
  - intros j x Ix. destruct (in_split _ _ Ix) as [a [b ->]]. exact (V1 a j x b eq_refl I).
  - intros l1 j x l2 El K. apply (V2 l1 j x l2 El). now rewrite app_nil_r.
Qed.

Lemma live_r_right env s : live_r ns g env s -> sources_ok ns env /\ (forall j, idle (s j)) /\ forall j, right ns env s j.
Proof.
  induction 1 as [env SO|env s j s' d H [SO [ID R]] E|env s i c d hook s' lb le H [SO [ID R]] Ei Oc Hd Hh K E].
  - split; auto. split; [intros j; split; reflexivity|]. intros j d. discriminate.
  - destruct (read_dom_spec ns W env (fun _ => True) (S (length ns)) ltac:(intros ? ? ? _ _ _; exact I) s j) as [s2 [d2 [E2 [S2 [R2 _]]]]]; [lia|auto|].
    rewrite E in E2. injection E2 as <- <-. split; auto. split; [|intros k; now apply R2].
    intros k. destruct (S2 k), (ID k). split; congruence.
  - destruct (change_reads env s i c d hook (length ns) ID R Ei Hd Hh (le_n _)) as [s0 [LB [LE [s2 [lb2 [le2 [_ [E2 [_ [_ [_ [I2 [R2 _]]]]]]]]]]]]].
    rewrite E in E2. injection E2 as <- <- <-. split; [now apply source_ok_set|]. auto.
Qed.

Lemma live_r_domain env s j : live_r ns g env s -> exists s', read_dom env ns (S (length ns)) s j = Ok (s', c_dom (curve_of env ns j)).
Proof.
  intros H. destruct (live_r_right env s H) as [_ [_ R]].
  destruct (read_dom_spec ns W env (fun _ => True) (S (length ns)) ltac:(intros ? ? ? _ _ _; exact I) s j) as [s2 [d2 [E2 [S2 [R2 V2]]]]]; [lia|auto|].
  exists s2. rewrite V2 in E2; auto.
Qed.

Lemma live_r_change env s i c d hook : live_r ns g env s -> nth_error ns i = Some NSource -> iok d -> i_intersects d i_infinite = true ->
  exists s0 LB LE s' lb le,
    net_update g (length ns) s i d = Ok (s0, LB, LE) /\ net_update_r ns env hook g (length ns) s i c d = Ok (s', lb, le) /\
    calls lb = LB /\ calls le = LE /\
    (forall j x, In (IRead j x) lb -> x = c_dom (curve_of env ns j)) /\
    (forall l1 j x l2, le = l1 ++ IRead j x :: l2 -> ~ fires j (calls l2) -> x = c_dom (curve_of (set_env env i c) ns j)).
Proof.
  intros H Ei Hd Hh. destruct (live_r_right env s H) as [_ [ID R]].
  destruct (change_reads env s i c d hook (length ns) ID R Ei Hd Hh (le_n _)) as [s0 [LB [LE [s2 [lb2 [le2 K]]]]]].
  exists s0, LB, LE, s2, lb2, le2. tauto.
Qed.

End Hist.
