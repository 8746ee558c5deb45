(** Every complete update of a source settles the whole network. *)
From Coq Require Import List ZArith QArith Qcanon Bool Lia Lqa Arith Wf_nat.
From Verif Require Import Base Num NumFacts Interval IntervalFacts Curve Graph PointsOps UpdFacts PointsDec GraphFacts.
Import ListNotations.

(** ** The protocol of one node, begins first *)
Definition begins (u : upd xq) (l : list (ival xq)) : upd xq := fold_left (fun u d => fst (begin_update u d)) l u.
Definition ends (u : upd xq) (l : list (ival xq)) : upd xq := fold_left (fun u d => fst (end_update u d)) l u.

Lemma idle_phase u : idle u -> phase u [] [].
Proof. destruct u as [b e o]. intros [H1 H2]. cbn in *. subst. apply (ph_read upd_init [] [] o ph_start). Qed.
Lemma begins_phase l : forall u B E, phase u B E -> Forall iok l -> exists B', phase (begins u l) B' E /\ forall b, In b B' <-> In b l \/ In b B.
Proof.
  induction l as [|d l IH]; intros u B E H F; simpl.
  - exists B. split; auto. intuition.
  - inversion F; subst. destruct (begin_update u d) as [u' n] eqn:Es. cbn [fst].
    destruct (IH u' (d :: B) E) as [B' [P Q]]; auto; [eapply ph_begin; eauto|].
    exists B'. split; auto. intros b. rewrite Q. simpl. intuition.
Qed.

Lemma fired_iok u B E d u' D : phase u B E -> iok d -> end_update u d = (u', Some D) -> iok D /\ i_is_empty D = false.
Proof.
  intros H Hd Es. destruct (phase_inv _ _ _ H) as [O1 O2 FB FE HB HE J]. unfold end_update in Es.
  destruct (i_is_empty d || i_superset (u_end u) d) eqn:X; [discriminate|]. apply orb_false_iff in X. destruct X as [X _].
  destruct (negb _); [discriminate|]. injection Es as _ <-. split; [now apply iok_union2|].
  rewrite union2_is_empty by auto. rewrite X. apply andb_false_r.
Qed.

Lemma ends_cover l : forall u B E, phase u B E -> Forall iok l ->
  (forall b, In b B -> exists e, (In e E \/ In e l) /\ i_superset e b = true) ->
  idle (ends u l) /\
  (forall b, In b B -> i_is_empty b = false -> exists l1 e l2 u' D, l = l1 ++ e :: l2 /\
     end_update (ends u l1) e = (u', Some D) /\ u' = upd_init /\ iok D /\ forall b', In b' B -> i_superset D b' = true).
Proof.
  induction l as [|d l IH]; intros u B E H F K; simpl.
  - destruct (phase_inv _ _ _ H) as [O1 O2 FB FE HB HE J].
    assert (X : idle u).
    { destruct J as [J|J]; auto. exfalso.
      assert (i_superset (u_end u) (u_begin u) = true); [|congruence].
      apply HB; auto. intros b I. destruct (K b I) as [e [[Ie|[]] S]]. apply superset_trans with e; auto.
      + exact (proj1 (Forall_forall _ _) FE e Ie).
      + exact (proj1 (Forall_forall _ _) FB b I).
      + now apply HE. }
    split; auto. intros b I Hb. exfalso. destruct HB as [HB _]. specialize (HB b I). destruct X as [X _]. rewrite X in HB.
    rewrite superset_empty_l in HB by apply i_empty_is_empty. congruence.
  - inversion F; subst. destruct (end_update u d) as [u' [D|]] eqn:Es; cbn [fst].
    + destruct (end_fires u B E d u' D H H2 Es) as [K1 [K2 K3]]. destruct (fired_iok _ _ _ _ _ _ H H2 Es) as [OD _].
      split.
      * refine (proj1 (IH u' [] [] _ H3 _)); [exact (ph_fire _ _ _ _ _ _ H H2 Es)|contradiction].
      * intros b I Hb. exists [], d, l, u', D. cbn. auto 6.
    + destruct (IH u' B (d :: E)) as [I1 I2]; auto.
      * eapply ph_wait; eauto.
      * intros b I. destruct (K b I) as [e [[Ie|[->|Ie]] S]]; exists e; simpl; auto.
      * split; auto. intros b I Hb. destruct (I2 b I Hb) as [l1 [e [l2 [u2 [D [-> Q]]]]]].
        exists (d :: l1), e, l2, u2, D. cbn [ends fold_left]. rewrite Es. cbn [fst]. auto.
Qed.

Lemma fst_node_begin (u : upd xq) d : fst (node_op u false d) = fst (begin_update u d).
Proof. unfold node_op. destruct (begin_update u d); reflexivity. Qed.
Lemma fst_node_end (u : upd xq) d : fst (node_op u true d) = fst (end_update u d).
Proof. unfold node_op. destruct (end_update u d); reflexivity. Qed.
Lemma applyl_begins l : Forall (fun en => l_end en = false) l -> forall u, applyl u l = begins u (map (l_arg (T := xq)) l).
Proof.
  induction 1 as [|en l H F IH]; intros u; simpl; auto. unfold applyl, begins in *. simpl. rewrite IH. unfold apply1.
  now rewrite H, fst_node_begin.
Qed.
Lemma applyl_ends l : Forall (fun en => l_end en = true) l -> forall u, applyl u l = ends u (map (l_arg (T := xq)) l).
Proof.
  induction 1 as [|en l H F IH]; intros u; simpl; auto. unfold applyl, ends in *. simpl. rewrite IH. unfold apply1.
  now rewrite H, fst_node_end.
Qed.
Lemma begins_dom l : forall u, u_dom (begins u l) = u_dom u.
Proof.
  induction l as [|d l IH]; intros u; simpl; auto. unfold begins in *. simpl. rewrite IH. unfold begin_update.
  destruct (_ || _); reflexivity.
Qed.
Lemma ends_dom l : forall u, u_dom u = None -> u_dom (ends u l) = None.
Proof.
  induction l as [|d l IH]; intros u H; simpl; auto. unfold ends in *. simpl. apply IH. unfold end_update.
  destruct (_ || _); auto. destruct (negb _); auto.
Qed.
Lemma ends_app u l1 l2 : ends u (l1 ++ l2) = ends (ends u l1) l2.
Proof. apply fold_left_app. Qed.

Lemma proj_in j l en : In en (proj j l) <-> In en l /\ l_node en = j.
Proof. unfold proj. rewrite filter_In, Nat.eqb_eq. reflexivity. Qed.
Lemma proj_split j l l1 en l2 : proj j l = l1 ++ en :: l2 -> exists a b, l = a ++ en :: b /\ proj j a = l1 /\ proj j b = l2.
Proof.
  revert l1. induction l as [|x l IH]; intros l1 E; simpl in E; [destruct l1; discriminate|].
  unfold proj in *. simpl in E. destruct (l_node x =? j)%nat eqn:X.
  - destruct l1 as [|y l1]; simpl in E; injection E as <- E.
    + exists [], l. auto.
    + destruct (IH l1 E) as [a [b [-> [H1 H2]]]]. exists (x :: a), b. simpl. rewrite X, H1. auto.
  - destruct (IH l1 E) as [a [b [-> [H1 H2]]]]. exists (x :: a), b. simpl. rewrite X. auto.
Qed.
Lemma map_app_inv {A B} (f : A -> B) l a y b : map f l = a ++ y :: b -> exists l1 x l2, l = l1 ++ x :: l2 /\ map f l1 = a /\ f x = y /\ map f l2 = b.
Proof.
  revert a. induction l as [|x l IH]; intros a E; simpl in E; [destruct a; discriminate|].
  destruct a as [|z a]; simpl in E; injection E as <- E.
  - exists [], x, l. auto.
  - destruct (IH a E) as [l1 [x' [l2 [-> [H1 [H2 H3]]]]]]. exists (x :: l1), x', l2. simpl. rewrite H1. auto.
Qed.

Definition inf_hit (a : ival xq) : Prop := i_intersects a i_infinite = true.
Lemma hit_nonempty a : inf_hit a -> i_is_empty a = false.
Proof. unfold inf_hit, i_intersects, i_inter2. destruct (i_is_empty a); auto. Qed.
Lemma hit_superset a b : iok a -> iok b -> i_superset a b = true -> inf_hit b -> inf_hit a.
Proof.
  intros Ha Hb S H. unfold inf_hit in *. apply intersects_iff in H; auto using iok_infinite.
  apply intersects_iff; auto using iok_infinite. destruct H as [x [Hx [H1 H2]]]. exists x. split; auto. split; auto.
  eapply superset_iff; eauto.
Qed.

(** [j] depends on [i] (possibly i = j). *)
Inductive depends (g : net xq) (i : nat) : nat -> Prop :=
| dep_self : depends g i i
| dep_step p c t : depends g i p -> In (c, t) (deps g p) -> depends g i c.

Definition in_degree (g : net xq) (j : nat) : nat := list_sum (map (fun p => edges g p j) (seq 0 (length g))).

Definition args (j : nat) (l : list (entry xq)) : list (ival xq) := map (l_arg (T := xq)) (proj j l).
Lemma in_args j l a : In a (args j l) <-> exists en, In en l /\ l_node en = j /\ l_arg en = a.
Proof.
  unfold args. rewrite in_map_iff. split.
  - intros [en [E I]]. apply proj_in in I. exists en. intuition.
  - intros [en [I [E1 E2]]]. exists en. split; auto. now apply proj_in.
Qed.

Section Settle.
Variable g : net xq.
Hypothesis G : good_net g.
Variables (s s1 s2 : nstate xq) (fuel i : nat) (d : ival xq) (LB LE : list (entry xq)).
Hypothesis EB : net_op g fuel s i false d = Ok (s1, LB).
Hypothesis EE : net_op g fuel s1 i true d = Ok (s2, LE).
Hypothesis ID : forall j, idle (s j).
Hypothesis Hd : iok d.
Hypothesis Hh : inf_hit d.

Let FB := net_op_log g fuel s i false d s1 LB EB.
Let FE := net_op_log g fuel s1 i true d s2 LE EE.

Lemma log_ge e (s' s'' : nstate xq) L : net_op g fuel s' i e d = Ok (s'', L) -> forall n en, In en L -> l_node en = n -> (i <= n)%nat.
Proof.
  intros EL. destruct (net_op_log g fuel s' i e d s'' L EL) as [_ [_ [_ O]]].
  induction n as [n IH] using lt_wf_ind. intros en I En. destruct (O en I) as [[E1 _]|[p [P1 [x [_ [t [T1 _]]]]]]].
  - lia.
  - apply (proj1 G) in T1. rewrite En in T1. specialize (IH (l_node p) ltac:(lia) p P1 eq_refl). lia.
Qed.
Lemma src_only e (s' s'' : nstate xq) L : net_op g fuel s' i e d = Ok (s'', L) -> forall en, In en L -> l_node en = i -> l_arg en = d.
Proof.
  intros EL en I En. destruct (net_op_log g fuel s' i e d s'' L EL) as [_ [_ [_ O]]].
  destruct (O en I) as [[_ E2]|[p [P1 [x [_ [t [T1 _]]]]]]]; auto.
  apply (proj1 G) in T1. pose proof (log_ge _ _ _ _ EL _ p P1 eq_refl). lia.
Qed.

Lemma split_of {A} (x : A) l : In x l -> exists l1 l2, l = l1 ++ x :: l2.
Proof. apply in_split. Qed.

(** begin entries notify with their own argument *)
Lemma begin_not_eq en x : In en LB -> l_not en = Some x -> l_arg en = x /\ inf_hit x.
Proof.
  intros I Hn. destruct (in_split _ _ I) as [l1 [l2 E]]. destruct FB as [[K S N C] _].
  specialize (N l1 en l2 E). rewrite Hn in N. unfold node_op in N.
  remember (applyl (s (l_node en)) (proj (l_node en) l1)) as u.
  destruct (begin_update u (l_arg en)) as [u' n] eqn:Es. cbn [snd] in N.
  unfold begin_update in Es. destruct (_ || _); injection Es as _ <-; [discriminate|].
  destruct (i_intersects (l_arg en) i_infinite) eqn:X; [|discriminate]. injection N as <-. auto.
Qed.

Lemma kinds_B : Forall (fun en => l_end en = false) LB. Proof. exact (lo_kind _ _ _ _ _ (proj1 FB)). Qed.
Lemma kinds_E : Forall (fun en => l_end en = true) LE. Proof. exact (lo_kind _ _ _ _ _ (proj1 FE)). Qed.
Lemma kinds_proj (P : entry xq -> Prop) j l : Forall P l -> Forall P (proj j l).
Proof. intros F. apply Forall_forall. intros x I. apply proj_in in I. exact (proj1 (Forall_forall _ _) F x (proj1 I)). Qed.
Lemma s1_eq j : s1 j = begins (s j) (args j LB).
Proof. rewrite (lo_state _ _ _ _ _ (proj1 FB) j). apply applyl_begins, kinds_proj, kinds_B. Qed.
Lemma s2_eq j : s2 j = ends (s1 j) (args j LE).
Proof. rewrite (lo_state _ _ _ _ _ (proj1 FE) j). apply applyl_ends, kinds_proj, kinds_E. Qed.

(** Node [j] fires an end covering everything begun. *)
Definition settled (j : nat) : Prop :=
  (forall b, In b (args j LB) -> iok b /\ inf_hit b) /\
  (forall e, In e (args j LE) -> iok e) /\
  (forall b, In b (args j LB) -> exists e, In e (args j LE) /\ i_superset e b = true).

Lemma settled_fires j : settled j ->
  idle (s2 j) /\
  (forall b, In b (args j LB) -> u_dom (s2 j) = None /\
     exists en D, In en LE /\ l_node en = j /\ l_not en = Some D /\ iok D /\ i_superset D b = true) /\
  (forall en D, In en LE -> l_node en = j -> l_not en = Some D -> iok D).
Proof.
  intros [H1 [H2 H3]]. rewrite s2_eq, s1_eq.
  destruct (begins_phase (args j LB) (s j) [] [] (idle_phase _ (ID j))) as [B' [P Q]].
  { apply Forall_forall. intros x I. now apply H1. }
  assert (FI : Forall iok (args j LE)) by (apply Forall_forall; auto).
  destruct (ends_cover (args j LE) _ _ _ P FI) as [C1 C2].
  { intros b I. apply Q in I. destruct I as [I|[]]. destruct (H3 b I) as [e [E1 E2]]. eauto. }
  split; auto. split.
  - intros b I. destruct (C2 b (proj2 (Q b) (or_introl I))) as [l1 [e [l2 [u' [D [El [Es [Eu [OD K]]]]]]]]].
    { apply hit_nonempty. now apply H1. }
    split.
    + rewrite El, ends_app. cbn [ends fold_left]. rewrite Es. cbn [fst]. apply ends_dom. subst u'. reflexivity.
    + unfold args in El. destruct (map_app_inv _ _ _ _ _ El) as [q1 [en [q2 [Ep [M1 [M2 M3]]]]]].
      destruct (proj_split _ _ _ _ _ Ep) as [a [b0 [Ea [A1 A2]]]].
      pose proof (lo_not _ _ _ _ _ (proj1 FE) a en b0 Ea) as N.
      assert (Ij : l_node en = j). { apply (proj_in j LE en). rewrite Ep. apply in_or_app. simpl; auto. }
      rewrite Ij, A1 in N. rewrite applyl_ends in N.
      2:{ pose proof (kinds_proj _ j _ kinds_E) as KP. rewrite Ep in KP. apply Forall_app in KP. apply KP. }
      change (map (l_arg (T := xq)) q1 = l1) in M1. rewrite M1, M2, s1_eq in N. unfold node_op in N. rewrite Es in N. cbn [snd] in N.
      assert (SD : i_superset D b = true) by (apply K, Q; auto).
      assert (HD : inf_hit D) by (apply hit_superset with b; auto; now apply H1).
      unfold inf_hit in HD. rewrite HD in N.
      exists en, D. repeat split; auto; try apply OD. rewrite Ea. apply in_or_app. simpl; auto.
  - intros en D I Ij Hn. destruct (in_split _ _ I) as [l1 [l2 E]].
    pose proof (lo_not _ _ _ _ _ (proj1 FE) l1 en l2 E) as N. rewrite Ij, Hn in N.
    rewrite applyl_ends in N. 2:{ apply kinds_proj. pose proof kinds_E as KP. rewrite E in KP. apply Forall_app in KP. apply KP. }
    fold (args j l1) in N. rewrite s1_eq in N.
    assert (FL : Forall iok (args j l1)).
    { apply Forall_forall. intros x Ix. apply H2. rewrite in_args in Ix |- *. destruct Ix as [e0 [I0 R]]. exists e0. split; auto.
      rewrite E. apply in_or_app; auto. }
    assert (OA : iok (l_arg en)) by (apply H2, in_args; eauto).
    assert (X : forall l u B E0, phase u B E0 -> Forall iok l -> exists B1 E1, phase (ends u l) B1 E1).
    { induction l as [|z l IH]; intros u B E0 Hp Fl; simpl; eauto. inversion Fl; subst.
      destruct (end_update u z) as [u' [D'|]] eqn:Ez; cbn [fst]; eapply IH; eauto; [eapply ph_fire; eauto|eapply ph_wait; eauto]. }
    destruct (X (args j l1) _ _ _ P FL) as [B1 [E1 P1]].
    unfold node_op in N. destruct (end_update (ends (begins (s j) (args j LB)) (args j l1)) (l_arg en)) as [u' n] eqn:Es.
    cbn [snd] in N. destruct n as [D'|]; [|discriminate]. destruct (i_intersects D' i_infinite); [|discriminate]. injection N as ->.
    apply (fired_iok _ _ _ _ _ _ P1 OA Es).
Qed.

Lemma all_settled j : settled j.
Proof.
  induction j as [j IH] using lt_wf_ind.
  destruct FB as [LBk [[nB [tB [HB _]]] [_ OB]]]. destruct FE as [LEk [[nE [tE [HE _]]] [_ OE]]].
  split; [|split].
  - intros b I. apply in_args in I. destruct I as [en [I [Ij <-]]]. destruct (OB en I) as [[_ ->]|[p [P1 [x [P2 [t [T1 T2]]]]]]]; [auto|].
    destruct (begin_not_eq p x P1 P2) as [Q1 Q2]. pose proof (proj1 G _ _ _ T1) as L. rewrite Ij in L.
    destruct (IH (l_node p) ltac:(lia)) as [S1 _]. destruct (S1 x) as [Ox _]; [apply in_args; eauto|].
    destruct (proj2 G _ _ _ T1) as [M1 [_ M3]]. rewrite T2. split; [auto|apply M3; auto].
  - intros e I. apply in_args in I. destruct I as [en [I [Ij <-]]]. destruct (OE en I) as [[_ ->]|[p [P1 [x [P2 [t [T1 T2]]]]]]]; [auto|].
    pose proof (proj1 G _ _ _ T1) as L. rewrite Ij in L.
    destruct (settled_fires (l_node p) (IH (l_node p) ltac:(lia))) as [_ [_ S3]]. rewrite T2.
    apply (proj2 G _ _ _ T1). eapply S3; eauto.
  - intros b I. apply in_args in I. destruct I as [en [I [Ij <-]]]. destruct (OB en I) as [[E1 ->]|[p [P1 [x [P2 [t [T1 T2]]]]]]].
    + rewrite E1 in Ij. subst j. exists d. split; [|now apply superset_refl]. apply in_args. exists (mkL i true d nE). rewrite HE. simpl; auto.
    + destruct (begin_not_eq p x P1 P2) as [Q1 Q2]. pose proof (proj1 G _ _ _ T1) as L. rewrite Ij in L.
      pose proof (IH (l_node p) ltac:(lia)) as Sp. destruct (settled_fires _ Sp) as [_ [S2 _]].
      destruct (S2 x) as [_ [ee [D [I1 [I2 [I3 [OD SD]]]]]]]; [apply in_args; eauto|].
      destruct (in_split _ _ I1) as [l1 [l2 El]]. rewrite <- I2 in T1.
      destruct (lo_closed _ _ _ _ _ LEk l1 ee l2 D _ t El I3 T1) as [en' [J1 [J2 J3]]].
      exists (t D). split.
      * apply in_args. exists en'. rewrite <- Ij. repeat split; auto. rewrite El. apply in_or_app. simpl; auto.
      * rewrite T2. apply (proj2 G _ _ _ T1); auto; [refine (proj1 (proj1 Sp x _)); apply in_args; eauto|now apply hit_nonempty].
Qed.

(** ** Who is notified *)
Lemma first_begin_notifies j : args j LB <> [] -> exists en x, In en LB /\ l_node en = j /\ l_not en = Some x.
Proof.
  intros H. unfold args in H. destruct (proj j LB) as [|en l] eqn:Ep; [contradiction|].
  destruct (proj_split j LB [] en l Ep) as [a [b [Ea [A1 _]]]].
  assert (Ij : l_node en = j). { apply (proj_in j LB en). rewrite Ep. simpl; auto. }
  assert (I : In en LB) by (rewrite Ea; apply in_or_app; simpl; auto).
  pose proof (lo_not _ _ _ _ _ (proj1 FB) a en b Ea) as N. rewrite Ij, A1 in N. cbn [applyl fold_left] in N.
  destruct (proj1 (all_settled j) (l_arg en)) as [O Hi]; [apply in_args; eauto|].
  unfold node_op in N. rewrite begin_idle in N; auto; [|now apply hit_nonempty]. unfold inf_hit in Hi. cbn [snd] in N. rewrite Hi in N. eauto.
Qed.
Lemma dep_reached j : depends g i j -> args j LB <> [].
Proof.
  intros H. assert (X : exists a, In a (args j LB)); [|destruct X as [a X]; intros E; rewrite E in X; contradiction].
  induction H as [|p c t Hp [a IHp] I].
  - destruct FB as [_ [[nB [tB [HB _]]] _]]. exists d. apply in_args. exists (mkL i false d nB). rewrite HB. simpl; auto.
  - destruct (first_begin_notifies p) as [en [x [I1 [I2 I3]]]]; [intros E; rewrite E in IHp; contradiction|].
    destruct (in_split _ _ I1) as [l1 [l2 El]]. rewrite <- I2 in I.
    destruct (lo_closed _ _ _ _ _ (proj1 FB) l1 en l2 x c t El I3 I) as [en' [J1 [J2 J3]]].
    exists (t x). apply in_args. exists en'. repeat split; auto. rewrite El. apply in_or_app. simpl; auto.
Qed.
Lemma log_depends e (s' s'' : nstate xq) L : net_op g fuel s' i e d = Ok (s'', L) -> forall n en, In en L -> l_node en = n -> depends g i n.
Proof.
  intros EL. destruct (net_op_log g fuel s' i e d s'' L EL) as [_ [_ [_ O]]].
  induction n as [n IH] using lt_wf_ind. intros en I En. destruct (O en I) as [[E1 _]|[p [P1 [x [_ [t [T1 _]]]]]]].
  - rewrite E1 in En. subst n. constructor.
  - pose proof (proj1 G _ _ _ T1). rewrite En in T1, H. eapply dep_step; [|exact T1]. eapply IH; eauto. lia.
Qed.

Theorem settle j :
  idle (s2 j) /\
  (depends g i j -> u_dom (s2 j) = None /\
     (exists en b, In en LB /\ l_node en = j /\ l_not en = Some b) /\
     (forall b, In b (args j LB) -> exists en D, In en LE /\ l_node en = j /\ l_not en = Some D /\ i_superset D b = true)) /\
  (~ depends g i j -> s2 j = s j /\ forall en, In en (LB ++ LE) -> l_node en <> j).
Proof.
  destruct (settled_fires j (all_settled j)) as [S1 [S2 _]]. split; auto. split.
  - intros H. pose proof (dep_reached j H) as NE. destruct (args j LB) as [|b0 bs] eqn:Eb; [contradiction|].
    split; [apply (S2 b0); simpl; auto|]. split.
    + apply first_begin_notifies. rewrite Eb. discriminate.
    + intros b I. destruct (S2 b I) as [_ [en [D Q]]]. exists en, D. intuition.
  - intros H.
    assert (X : forall en, In en (LB ++ LE) -> l_node en <> j).
    { intros en I Ij. apply H. apply in_app_iff in I. destruct I as [I|I]; [eapply (log_depends _ _ _ _ EB)|eapply (log_depends _ _ _ _ EE)]; eauto. }
    split; auto.
    assert (A1 : args j LB = []). { destruct (args j LB) eqn:E0; auto. exfalso. assert (I : In i0 (args j LB)) by (rewrite E0; simpl; auto).
      apply in_args in I. destruct I as [en [I [Ij _]]]. apply (X en); auto. apply in_or_app; auto. }
    assert (A2 : args j LE = []). { destruct (args j LE) eqn:E0; auto. exfalso. assert (I : In i0 (args j LE)) by (rewrite E0; simpl; auto).
      apply in_args in I. destruct I as [en [I [Ij _]]]. apply (X en); auto. apply in_or_app; auto. }
    rewrite s2_eq, s1_eq, A1, A2. reflexivity.
Qed.

(** ** Networks without shared paths *)
Definition notified (j : nat) (l : list (entry xq)) : nat := length (filter (fun en => match l_not en with Some _ => true | None => false end) (proj j l)).
Lemma incoming_one j p l : (forall q, q <> p -> edges g q j = 0%nat) -> incoming g j l = (edges g p j * notified p l)%nat.
Proof.
  intros U. unfold incoming, notified. induction l as [|en l IH]; simpl; [lia|].
  rewrite IH. unfold proj. simpl. destruct (Nat.eqb_spec (l_node en) p) as [->|Nq]; simpl.
  - destruct (l_not en); simpl; lia.
  - destruct (l_not en); [rewrite (U _ Nq)|]; lia.
Qed.
Lemma incoming_none j l : (forall q, (exists en, In en l /\ l_node en = q) -> edges g q j = 0%nat) -> incoming g j l = 0%nat.
Proof.
  intros U. unfold incoming. induction l as [|en l IH]; simpl; auto. rewrite IH by (intros q [e [I E]]; apply U; exists e; simpl; auto).
  destruct (l_not en); auto. rewrite U; auto. exists en. simpl; auto.
Qed.
Lemma edges_pos p j : (0 < edges g p j)%nat <-> exists t, In (j, t) (deps g p).
Proof.
  unfold edges. split.
  - destruct (filter _ (deps g p)) as [|[c t] l] eqn:E; simpl; [lia|]. intros _.
    assert (I : In (c, t) (filter (fun ct => (fst ct =? j)%nat) (deps g p))) by (rewrite E; simpl; auto).
    apply filter_In in I. destruct I as [I Ec]. apply Nat.eqb_eq in Ec. cbn in Ec. subst c. eauto.
  - intros [t I]. assert (I' : In (j, t) (filter (fun ct => (fst ct =? j)%nat) (deps g p))).
    { apply filter_In. split; auto. cbn. apply Nat.eqb_refl. }
    destruct (filter _ (deps g p)); [contradiction|simpl; lia].
Qed.
Lemma edges_range p j : (0 < edges g p j)%nat -> (p < length g)%nat /\ (p < j)%nat.
Proof. intros H. apply edges_pos in H. destruct H as [t I]. pose proof (proj1 G _ _ _ I). lia. Qed.
Lemma list_sum_le1 (f : nat -> nat) l : NoDup l -> (list_sum (map f l) <= 1)%nat ->
  (forall q, In q l -> f q = 0%nat) \/ exists p, In p l /\ f p = 1%nat /\ forall q, In q l -> q <> p -> f q = 0%nat.
Proof.
  induction l as [|a l IH]; intros ND H; simpl in *; [left; contradiction|]. inversion ND; subst.
  destruct (IH H3 ltac:(lia)) as [Z|[p [P1 [P2 P3]]]].
  - destruct (f a) as [|[|k]] eqn:Ea; [left; intros q [<-|I]; auto| |lia].
    right. exists a. split; auto. split; auto. intros q [<-|I] Nq; [congruence|auto].
  - assert (f p <= list_sum (map f l))%nat.
    { clear -P1. induction l as [|x l IHl]; simpl in *; [contradiction|]. destruct P1 as [->|P1]; [lia|]. specialize (IHl P1). lia. }
    right. exists p. split; auto. split; auto. intros q [<-|I] Nq; [lia|auto].
Qed.
Lemma in_degree_one j : (in_degree g j <= 1)%nat ->
  (forall q, edges g q j = 0%nat) \/ exists p, edges g p j = 1%nat /\ (p < j)%nat /\ forall q, q <> p -> edges g q j = 0%nat.
Proof.
  intros H. assert (Out : forall q, ~ In q (seq 0 (length g)) -> edges g q j = 0%nat).
  { intros q Nq. destruct (edges g q j) eqn:E; auto. exfalso. apply Nq, in_seq. pose proof (edges_range q j ltac:(lia)). lia. }
  assert (Dec : forall q, In q (seq 0 (length g)) \/ ~ In q (seq 0 (length g))) by (intros q; destruct (in_dec Nat.eq_dec q (seq 0 (length g))); auto).
  destruct (list_sum_le1 (fun p => edges g p j) _ (seq_NoDup _ _) H) as [Z|[p [P1 [P2 P3]]]].
  - left. intros q. destruct (Dec q); auto.
  - right. exists p. split; auto. split; [apply edges_range; lia|]. intros q Nq. destruct (Dec q); auto.
Qed.

Theorem tree_once j : (forall k, (in_degree g k <= 1)%nat) -> depends g i j ->
  exists x, iok x /\ inf_hit x /\ proj j LB = [mkL j false x (Some x)] /\ proj j LE = [mkL j true x (Some x)].
Proof.
  intros TR. destruct FB as [LBk [[nB [tB [HB nBE]]] [CB OB]]]. destruct FE as [LEk [[nE [tE [HE nEE]]] [CE OE]]].
  assert (Fin1 : forall j, length (proj j LB) = 1%nat -> length (proj j LE) = 1%nat ->
     (exists x, iok x /\ inf_hit x /\ In x (args j LB) /\ In x (args j LE)) ->
     exists x, iok x /\ inf_hit x /\ proj j LB = [mkL j false x (Some x)] /\ proj j LE = [mkL j true x (Some x)]).
  { clear j. intros j L1 L2 [x [Ox [Hx [I1 I2]]]]. exists x. split; auto. split; auto.
    apply in_args in I1. destruct I1 as [e1 [I1 [J1 K1]]]. apply in_args in I2. destruct I2 as [e2 [I2 [J2 K2]]].
    assert (P1 : In e1 (proj j LB)) by (now apply proj_in). assert (P2 : In e2 (proj j LE)) by (now apply proj_in).
    destruct (proj j LB) as [|z1 [|? ?]] eqn:EpB; try discriminate. destruct P1 as [->|[]].
    destruct (proj j LE) as [|z2 [|? ?]] eqn:EpE; try discriminate. destruct P2 as [->|[]].
    destruct (proj_split j LB [] e1 [] EpB) as [a [b [Ea [A1 _]]]]. destruct (proj_split j LE [] e2 [] EpE) as [a' [b' [Ea' [A1' _]]]].
    pose proof (lo_not _ _ _ _ _ LBk a e1 b Ea) as N1. pose proof (lo_not _ _ _ _ _ LEk a' e2 b' Ea') as N2.
    rewrite J1, A1, K1 in N1. rewrite J2, A1', K2 in N2. cbn [applyl fold_left] in N1, N2.
    unfold node_op in N1, N2. rewrite begin_idle in N1 by (auto; now apply hit_nonempty).
    assert (S1 : s1 j = mkU x i_empty (u_dom (s j))).
    { rewrite s1_eq. unfold args. rewrite EpB. simpl. rewrite K1, begin_idle by (auto; now apply hit_nonempty). reflexivity. }
    rewrite S1, end_begun in N2 by (auto; now apply hit_nonempty). cbn [snd] in N1, N2. unfold inf_hit in Hx. rewrite Hx in N1, N2.
    pose proof (proj1 (Forall_forall _ _) kinds_B e1 I1) as KB. pose proof (proj1 (Forall_forall _ _) kinds_E e2 I2) as KE.
    destruct e1, e2. cbn in *. subst. auto. }
  induction 1 as [|p c t Hp [x [Ox [Hx [IHB IHE]]]] I].
  - apply Fin1.
    + rewrite CB, Nat.eqb_refl, incoming_none; auto. intros q [en [I E]]. pose proof (log_ge _ _ _ _ EB _ en I E) as L.
      destruct (edges g q i) eqn:Q; auto. pose proof (edges_range q i ltac:(lia)). lia.
    + rewrite CE, Nat.eqb_refl, incoming_none; auto. intros q [en [I E]]. pose proof (log_ge _ _ _ _ EE _ en I E) as L.
      destruct (edges g q i) eqn:Q; auto. pose proof (edges_range q i ltac:(lia)). lia.
    + exists d. split; auto. split; auto. split; apply in_args; [exists (mkL i false d nB); rewrite HB|exists (mkL i true d nE); rewrite HE]; simpl; auto.
  - assert (EP : (0 < edges g p c)%nat) by (apply edges_pos; eauto).
    destruct (in_degree_one c (TR c)) as [Z|[p' [P1 [P2 P3]]]]; [rewrite Z in EP; lia|].
    assert (p' = p) as ->. { destruct (Nat.eq_dec p p'); auto. rewrite P3 in EP; [lia|auto]. }
    assert (Nc : (i =? c)%nat = false).
    { apply Nat.eqb_neq. intros Eic. pose proof (edges_range p c EP).
      assert (In (mkL p false x (Some x)) (proj p LB)) by (rewrite IHB; simpl; auto).
      apply proj_in in H0. pose proof (log_ge _ _ _ _ EB _ _ (proj1 H0) eq_refl). simpl in H1. lia. }
    destruct (proj2 G _ _ _ I) as [M1 [_ M3]].
    assert (X : forall L e (s' s'' : nstate xq), log_ok g s' s'' e L -> proj p L = [mkL p e x (Some x)] -> In (t x) (args c L)).
    { intros L e s' s'' LK Ep. destruct (proj_split p L [] _ [] Ep) as [a [b [Ea _]]].
      destruct (lo_closed _ _ _ _ _ LK a _ b x c t Ea eq_refl I) as [en' [J1 [J2 J3]]].
      apply in_args. exists en'. repeat split; auto. rewrite Ea. apply in_or_app. simpl; auto. }
    apply Fin1.
    + rewrite CB, Nc, (incoming_one c p) by auto. unfold notified. rewrite P1, IHB. reflexivity.
    + rewrite CE, Nc, (incoming_one c p) by auto. unfold notified. rewrite P1, IHE. reflexivity.
    + exists (t x). split; auto. split; [apply M3; auto|]. split; [eapply X; [exact LBk|auto]|eapply X; [exact LEk|auto]].
Qed.

End Settle.
