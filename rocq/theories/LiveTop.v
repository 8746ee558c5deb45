(** End-to-end statements about networks of derived curves over changing sources. *)
From Coq Require Import List ZArith QArith Qcanon Bool Lia Lqa Arith Wf_nat Permutation.
From Verif Require Import Base Num NumFacts Interval IntervalFacts Curve Graph Combine CombineFacts Points PointsSpec PointsQuery PointsOps UpdFacts PointsDec PointsTop GraphFacts GraphSettle GraphTop Live LiveNet LiveSpec LiveFacts.
Import ListNotations.

(** ** The observers *)
Lemma in_indexed {A} (l : list A) : forall k j a, In (j, a) (combine (seq k (length l)) l) <-> (k <= j)%nat /\ nth_error l (j - k) = Some a.
Proof.
  induction l as [|x l IH]; intros k j a; simpl.
  - split; [contradiction|]. intros [_ H]. destruct (j - k)%nat; discriminate.
  - rewrite IH. split.
    + intros [H|[H1 H2]].
      * injection H as -> ->. rewrite Nat.sub_diag. auto.
      * split; [lia|]. replace (j - k)%nat with (S (j - S k)) by lia. exact H2.
    + intros [H1 H2]. destruct (j - k)%nat as [|m] eqn:E; simpl in H2.
      * left. injection H2 as ->. f_equal. lia.
      * right. split; [lia|]. replace (j - S k)%nat with m by lia. exact H2.
Qed.
Lemma in_observers (ns : list (node xq)) p j t : In (j, t) (observers ns p) <-> exists n, nth_error ns j = Some n /\ In p (reads n) /\ t = forwards n.
Proof.
  unfold observers. rewrite <- in_rev, in_flat_map. split.
  - intros [[j' n] [I H]]. apply in_indexed in I. rewrite Nat.sub_0_r in I. cbn [fst snd] in H.
    destruct (existsb (Nat.eqb p) (reads n)) eqn:X; [|destruct H]. destruct H as [H|[]]. injection H as <- <-.
    apply existsb_exists in X. destruct X as [z [Iz Ez]]. apply Nat.eqb_eq in Ez. subst z. exists n. intuition.
  - intros [n [E [I ->]]]. exists (j, n). split; [apply in_indexed; rewrite Nat.sub_0_r; split; [lia|auto]|]. cbn [fst snd].
    replace (existsb (Nat.eqb p) (reads n)) with true; [simpl; auto|]. symmetry. apply existsb_exists. exists p. rewrite Nat.eqb_refl. auto.
Qed.
Lemma network_deps (ns : list (node xq)) p j t : In (j, t) (deps (network ns) p) -> exists n, nth_error ns j = Some n /\ In p (reads n) /\ t = forwards n.
Proof.
  unfold deps, network. intros H. destruct (Nat.lt_ge_cases p (length ns)) as [L|L].
  - rewrite (nth_indep _ [] (observers ns 0)) in H by (rewrite map_length, seq_length; auto).
    rewrite map_nth, seq_nth in H by auto. now apply in_observers.
  - rewrite nth_overflow in H by (rewrite map_length, seq_length; auto). destruct H.
Qed.
Lemma network_dep (ns : list (node xq)) p j n : proper ns -> nth_error ns j = Some n -> In p (reads n) -> In (j, forwards n) (deps (network ns) p).
Proof.
  intros W E I. unfold deps, network. assert (L : (p < length ns)%nat).
  { destruct (W j n E) as [_ F]. assert (Hp : (p < j)%nat) by exact (proj1 (Forall_forall _ _) F p I). assert (j < length ns)%nat by (apply nth_error_Some; congruence). lia. }
  rewrite (nth_indep _ [] (observers ns 0)) by (rewrite map_length, seq_length; auto).
  rewrite map_nth, seq_nth by auto. apply in_observers. eauto.
Qed.
Lemma network_wired (ns : list (node xq)) : wired ns (network ns).
Proof. split; [unfold network; now rewrite map_length, seq_length|]. intros p. apply Permutation_refl. Qed.

Lemma forwards_monotone n : node_ok n -> monotone (forwards n).
Proof.
  destruct n as [|skip param tfm p|a p|u d tfm ps|nr ps]; intros O; try exact good_id.
  destruct O as [k ->]. cbn [forwards].
  assert (E : forall d, offset_interval (Fin k) d = t_shift k d).
  { intros [[x| | |] [z| | |] so eo]; reflexivity. }
  destruct (good_shift k) as [M1 [M2 M3]]. split; [|split]; intros; rewrite ?E; auto.
Qed.

Section Top.
Variable ns : list (node xq).
Hypothesis W : proper ns.
Variable g : net xq.
Hypothesis Wg : wired ns g.

Lemma g_dep p j n : nth_error ns j = Some n -> In p (reads n) -> In (j, forwards n) (deps g p).
Proof. intros E I. apply (Permutation_in _ (Permutation_sym (proj2 Wg p))). now apply network_dep. Qed.
Lemma g_deps p j t : In (j, t) (deps g p) -> exists n, nth_error ns j = Some n /\ In p (reads n) /\ t = forwards n.
Proof. intros I. apply (network_deps ns p). exact (Permutation_in _ (proj2 Wg p) I). Qed.
Lemma g_good : good_net g.
Proof.
  split.
  - intros i c t I. destruct (g_deps _ _ _ I) as [n [E [Ir _]]]. destruct (W c n E) as [_ F]. rewrite (proj1 Wg).
    pose proof (proj1 (Forall_forall _ _) F i Ir). assert (c < length ns)%nat by (apply nth_error_Some; congruence). simpl in *. lia.
  - intros i c t I. destruct (g_deps _ _ _ I) as [n [E [_ ->]]]. apply forwards_monotone, (W c n E).
Qed.

Lemma source_ok_set env i c : sources_ok ns env -> iok (c_dom c) -> sources_ok ns (set_env env i c).
Proof. intros S O j E. unfold set_env. destruct (j =? i)%nat; auto. Qed.

(** ** Every change is told *)
Lemma told_all env i c d s fuel :
  sources_ok ns env -> iok (c_dom c) -> tame ns env -> tame ns (set_env env i c) -> nth_error ns i = Some NSource ->
  tells d (env i) c -> iok d -> i_intersects d i_infinite = true -> (forall j, idle (s j)) -> (length ns <= fuel)%nat ->
  exists s' LB LE, net_update g fuel s i d = Ok (s', LB, LE) /\
  forall j q,
    (y_changes (curve_of env ns j) (curve_of (set_env env i c) ns j) q -> told LE j q) /\
    (local_domain ns j -> dom_changes (curve_of env ns j) (curve_of (set_env env i c) ns j) q -> told LE j q).
Proof.
  intros S O T T' Ei K Hd Hh ID Hf. pose proof g_good as G.
  assert (Hi : (i < length g)%nat) by (rewrite (proj1 Wg); apply nth_error_Some; congruence).
  rewrite <- (proj1 Wg) in Hf.
  destruct (net_op_total g G fuel s i false d) as [[s1 LB] EB]; [lia|auto|].
  destruct (net_op_total g G fuel s1 i true d) as [[s2 LE] EE]; [lia|auto|].
  exists s2, LB, LE. unfold net_update. rewrite EB. cbn. rewrite EE. split; [reflexivity|].
  set (env' := set_env env i c) in *.
  assert (S' : sources_ok ns env') by now apply source_ok_set.
  assert (TC : forall j q, covered LE j (Fin q) -> told LE j q).
  { intros j q [en [D [I [En [Hn [OD M]]]]]]. exists en, D. repeat split; auto; try apply M.
    exact (proj1 (Forall_forall _ _) (kinds_E g s1 s2 fuel i d LE EE) en I). }
  assert (X : forall j q,
    (y_changes (curve_of env ns j) (curve_of env' ns j) q -> covered LE j (Fin q)) /\
    (local_domain ns j -> dom_changes (curve_of env ns j) (curve_of env' ns j) q -> covered LE j (Fin q))).
  2:{ intros j q. destruct (X j q) as [X1 X2]. split; auto. }
  intros j. induction j as [j IH] using lt_wf_ind. intros q.
  destruct (nth_error ns j) as [n|] eqn:E.
  2:{ apply nth_error_None in E. unfold y_changes, dom_changes. rewrite !curve_out by auto. split; [congruence|intros _; congruence]. }
  assert (SRC : n = NSource \/ n <> NSource) by (destruct n; [left; reflexivity|right; discriminate..]).
  destruct SRC as [->|Ns].
  - assert (SC : y_changes (curve_of env ns j) (curve_of env' ns j) q \/ dom_changes (curve_of env ns j) (curve_of env' ns j) q -> covered LE j (Fin q)); [|split; auto].
    unfold y_changes, dom_changes. rewrite (curve_eq env ns j _ W E), (curve_eq env' ns j _ W E). cbn [node_curve].
    unfold env', set_env. destruct (Nat.eqb_spec j i) as [->|Nj]; [|intros [H|H]; congruence].
    intros H. apply (source_covered g G s s1 s2 fuel i d LB LE EB EE ID Hd Hh). apply K. exact H.
  - assert (FR : forall p, In p (reads n) -> (p < j)%nat) by (destruct (W j n E) as [_ F]; exact (proj1 (Forall_forall _ _) F)).
    split.
    + intros H. destruct (y_from ns W env env' S S' j n q E Ns (T j n E) (T' j n E) H) as [p [z [I [Fw C]]]].
      apply (travels g G s s1 s2 fuel i d LB LE EB EE ID Hd Hh p j (forwards n) z q); auto.
      * destruct (IH p (FR p I) z) as [I1 I2]. destruct C as [C|[C1 C2]]; auto.
      * now apply g_dep.
    + intros L H. destruct (dom_from ns W env env' S S' j n q E Ns L H) as [p [z [I [Fw [C1 C2]]]]].
      apply (travels g G s s1 s2 fuel i d LB LE EB EE ID Hd Hh p j (forwards n) z q); auto.
      * destruct (IH p (FR p I) z) as [I1 I2]. auto.
      * now apply g_dep.
Qed.

(** ** What does not depend on the source keeps its interface *)
Lemma not_depends_same env i c j : ~ depends g i j -> curve_of (set_env env i c) ns j = curve_of env ns j.
Proof.
  induction j as [j IH] using lt_wf_ind. intros H. destruct (nth_error ns j) as [n|] eqn:E.
  - rewrite (curve_eq env ns j n W E), (curve_eq (set_env env i c) ns j n W E).
    assert (Nj : j <> i) by (intros ->; apply H; constructor).
    unfold set_env at 1. destruct (Nat.eqb_spec j i); [contradiction|]. apply node_curve_ext. intros p I. apply IH.
    + destruct (W j n E) as [_ F]. exact (proj1 (Forall_forall _ _) F p I).
    + intros D. apply H. exact (dep_step g i p j (forwards n) D (g_dep p j n E I)).
  - apply nth_error_None in E. now rewrite !curve_out.
Qed.

(** ** Histories *)
Lemma live_idle env s : live ns g env s -> sources_ok ns env /\ forall j, idle (s j).
Proof.
  induction 1 as [env S|env s j H [S IH]|env s i c d s' LB LE H [S IH] Ei Oc Hd Hh K E].
  - split; auto. intros j. split; reflexivity.
  - split; auto. intros k. unfold set_node. destruct (k =? j)%nat; auto. unfold dom_read. destruct (u_dom (s j)); cbn [fst]; auto.
    destruct (IH j) as [A B]. split; auto.
  - split; [now apply source_ok_set|].
    assert (Hi : (i < length g)%nat) by (rewrite (proj1 Wg); apply nth_error_Some; congruence).
    pose proof g_good as G. unfold net_update in E.
    destruct (net_op g (length ns) s i false d) as [[s1 LB1]|] eqn:EB; [|discriminate]. cbn in E.
    destruct (net_op g (length ns) s1 i true d) as [[s2 LE1]|] eqn:EE; [|discriminate]. cbn in E. injection E as <- <- <-.
    intros j. exact (proj1 (settle g G s s1 s2 (length ns) i d LB1 LE1 EB EE IH Hd Hh j)).
Qed.
Lemma live_cache env s : live ns g env s -> forall j d, u_dom (s j) = Some d -> d = c_dom (curve_of env ns j).
Proof.
  induction 1 as [env S|env s j H IH|env s i c d s' LB LE H IH Ei Oc Hd Hh K E].
  - discriminate.
  - intros k d. unfold set_node. destruct (Nat.eqb_spec k j) as [->|]; auto. unfold dom_read.
    destruct (u_dom (s j)) as [d0|] eqn:X; cbn [fst u_dom]; intros Hd; [apply IH; congruence|]. now injection Hd.
  - intros j d0 Hj. destruct (live_idle env s H) as [S ID].
    assert (Hi : (i < length g)%nat) by (rewrite (proj1 Wg); apply nth_error_Some; congruence).
    pose proof g_good as G. unfold net_update in E.
    destruct (net_op g (length ns) s i false d) as [[s1 LB1]|] eqn:EB; [|discriminate]. cbn in E.
    destruct (net_op g (length ns) s1 i true d) as [[s2 LE1]|] eqn:EE; [|discriminate]. cbn in E. injection E as <- <- <-.
    destruct (settle g G s s1 s2 (length ns) i d LB1 LE1 EB EE ID Hd Hh j) as [_ [S2 S3]].
    assert (DD : args j LB1 <> [] \/ args j LB1 = []) by (destruct (args j LB1); [right; auto|left; discriminate]).
    destruct DD as [DD|DD].
    + assert (D : depends g i j).
      { destruct (first_begin_notifies g G s s1 s2 (length ns) i d LB1 LE1 EB EE ID Hd Hh j DD) as [en [x [I [En _]]]].
        eapply (log_depends g G (length ns) i d false s s1 LB1 EB); eauto. }
      destruct (S2 D) as [Z _]. congruence.
    + assert (ND : ~ depends g i j) by (intros D; exact (dep_reached g G s s1 s2 (length ns) i d LB1 LE1 EB EE ID Hd Hh j D DD)).
      destruct (S3 ND) as [Es _]. rewrite Es in Hj. rewrite not_depends_same by auto. now apply IH.
Qed.
Lemma live_domain env s j : live ns g env s -> snd (dom_read (s j) (curve_of env ns j)) = c_dom (curve_of env ns j).
Proof.
  intros H. unfold dom_read. destruct (u_dom (s j)) as [d|] eqn:X; cbn [snd]; auto. now apply (live_cache env s H).
Qed.

End Top.
