(** Every session settles: each begun update is ended at every curve, and every
    end is covered by a notification. *)
From Coq Require Import List ZArith QArith Qcanon Bool Lia Lqa Arith Wf_nat Permutation.
From Verif Require Import Base Num NumFacts Interval IntervalFacts Curve Graph Combine CombineFacts PointsOps UpdFacts PointsDec GraphFacts GraphSettle GraphTop Live LiveNet LiveSpec LiveFacts LiveTop LiveReads LiveCalls LiveHist Nest NestLog.
Import ListNotations.

(** ** One node, begins and ends in any order *)
Lemma begin_end (u : upd xq) d : u_end (fst (begin_update u d)) = u_end u.
Proof. unfold begin_update. destruct (_ || _); reflexivity. Qed.
Lemma apply1_phase u B E en : phase u B E -> iok (l_arg en) ->
  (l_end en = false /\ phase (apply1 u en) (l_arg en :: B) E) \/
  (l_end en = true /\ (exists u', end_update u (l_arg en) = (u', None) /\ apply1 u en = u' /\ phase u' B (l_arg en :: E))) \/
  (l_end en = true /\ (exists u' D, end_update u (l_arg en) = (u', Some D) /\ apply1 u en = u' /\ phase u' [] [] /\ iok D)).
Proof.
  intros H O. unfold apply1. destruct (l_end en).
  - right. rewrite fst_node_end. destruct (end_update u (l_arg en)) as [u' [D|]] eqn:Es; cbn [fst].
    + right. split; auto. exists u', D. split; auto. split; auto. split; [eapply ph_fire; eauto|apply (fired_iok _ _ _ _ _ _ H O Es)].
    + left. split; auto. exists u'. split; auto. split; auto. eapply ph_wait; eauto.
  - left. split; auto. rewrite fst_node_begin. destruct (begin_update u (l_arg en)) as [u' n] eqn:Es. cbn [fst]. eapply ph_begin; eauto.
Qed.
Definition args_ok (l : list (entry xq)) : Prop := Forall (fun en => iok (l_arg en)) l.
Lemma applyl_phase l : forall u B E, phase u B E -> args_ok l -> exists B' E', phase (applyl u l) B' E'.
Proof.
  induction l as [|en l IH]; intros u B E H F; cbn [applyl fold_left]; eauto. inversion F; subst.
  destruct (apply1_phase u B E en H) as [[_ P]|[[_ [u' [_ [-> P]]]]|[_ [u' [D [_ [-> [P _]]]]]]]]; auto; eapply IH; eauto.
Qed.
Definition ended (b : ival xq) (l : list (entry xq)) : Prop := exists en, In en l /\ l_end en = true /\ i_superset (l_arg en) b = true.
Lemma mixed_idle l : forall u B E, phase u B E -> args_ok l ->
  (forall b, In b B -> (exists e, In e E /\ i_superset e b = true) \/ ended b l) ->
  (forall l1 en l2, l = l1 ++ en :: l2 -> l_end en = false -> ended (l_arg en) l2) ->
  idle (applyl u l).
Proof.
  induction l as [|en l IH]; intros u B E H F K Q; cbn [applyl fold_left].
  - destruct (phase_inv _ _ _ H) as [O1 O2 FB FE HB HE J]. destruct J as [J|J]; auto. exfalso.
    assert (i_superset (u_end u) (u_begin u) = true); [|congruence].
    apply HB; auto. intros b I. destruct (K b I) as [[e [Ie S]]|[en [[] _]]]. apply superset_trans with e; auto.
    + exact (proj1 (Forall_forall _ _) FE e Ie).
    + exact (proj1 (Forall_forall _ _) FB b I).
    + now apply HE.
  - inversion F as [|? ? Fa Fl]; subst.
    assert (Q' : forall l1 en0 l2, l = l1 ++ en0 :: l2 -> l_end en0 = false -> ended (l_arg en0) l2).
    { intros l1 en0 l2 -> He. apply (Q (en :: l1) en0 l2); auto. }
    destruct (apply1_phase u B E en H Fa) as [[Ee P]|[[Ee [u' [Es [-> P]]]]|[Ee [u' [D [Es [-> [P _]]]]]]]].
    + apply (IH _ _ _ P Fl); auto. intros b [<-|I]; [right; now apply (Q [] en l)|].
      destruct (K b I) as [X|[e [[->|Ie] [X1 X2]]]]; auto; [congruence|]. right. exists e. auto.
    + apply (IH _ _ _ P Fl); auto. intros b I. destruct (K b I) as [[e [Ie X]]|[e [[->|Ie] [X1 X2]]]].
      * left. exists e. simpl; auto.
      * left. exists (l_arg e). simpl; auto.
      * right. exists e. auto.
    + apply (IH _ _ _ P Fl); auto. contradiction.
Qed.
Lemma pend_fires l : forall u B E e, phase u B E -> args_ok l -> iok e -> i_is_empty e = false -> i_superset (u_end u) e = true ->
  idle (applyl u l) ->
  exists l1 en l2 u' D, l = l1 ++ en :: l2 /\ l_end en = true /\ end_update (applyl u l1) (l_arg en) = (u', Some D) /\ iok D /\ i_superset D e = true.
Proof.
  induction l as [|en l IH]; intros u B E e H F He Hn S ID; cbn [applyl fold_left] in ID.
  - exfalso. destruct ID as [_ I2]. rewrite I2, superset_empty_l in S by apply i_empty_is_empty. congruence.
  - inversion F as [|? ? Fa Fl]; subst. destruct (phase_inv _ _ _ H) as [O1 O2 _ _ _ _ _].
    assert (X : forall u1, apply1 u en = u1 -> (exists B1 E1, phase u1 B1 E1) -> i_superset (u_end u1) e = true ->
      exists l1 en0 l2 u' D, en :: l = l1 ++ en0 :: l2 /\ l_end en0 = true /\ end_update (applyl u l1) (l_arg en0) = (u', Some D) /\ iok D /\ i_superset D e = true).
    { intros u1 E1 [B1 [E1' P1]] S1. rewrite E1 in ID. destruct (IH u1 B1 E1' e P1 Fl He Hn S1 ID) as [l1 [en0 [l2 [u' [D [-> [K1 [K2 K3]]]]]]]].
      exists (en :: l1), en0, l2, u', D. cbn [applyl fold_left]. rewrite E1. auto. }
    destruct (apply1_phase u B E en H Fa) as [[Ee P]|[[Ee [u' [Es [E1 P]]]]|[Ee [u' [D [Es [E1 [P OD]]]]]]]].
    + apply (X _ eq_refl); eauto. unfold apply1. rewrite Ee, fst_node_begin, begin_end. exact S.
    + apply (X _ E1); eauto. destruct (end_cases u (l_arg en) O2 Fa) as [[u2 [Es2 [_ C2]]]|[u2 [D2 [Es2 _]]]]; rewrite Es in Es2; [|discriminate].
      injection Es2 as <-. now apply C2.
    + exists [], en, l, u', D. split; auto. split; auto. split; auto. split; auto.
      destruct (end_cases u (l_arg en) O2 Fa) as [[u2 [Es2 _]]|[u2 [D2 [Es2 [_ C2]]]]]; rewrite Es in Es2; [discriminate|].
      injection Es2 as <- <-. now apply C2.
Qed.
Lemma end_fires_mixed en l u B E : phase u B E -> args_ok (en :: l) -> l_end en = true -> i_is_empty (l_arg en) = false -> idle (applyl u (en :: l)) ->
  exists l1 en' l2 u' D, en :: l = l1 ++ en' :: l2 /\ l_end en' = true /\ end_update (applyl u l1) (l_arg en') = (u', Some D) /\ iok D /\ i_superset D (l_arg en) = true.
Proof.
  intros H F Ee Hn ID. inversion F as [|? ? Fa Fl]; subst. destruct (phase_inv _ _ _ H) as [O1 O2 _ _ _ _ _].
  destruct (apply1_phase u B E en H Fa) as [[X P]|[[_ [u' [Es [E1 P]]]]|[_ [u' [D [Es [E1 [P OD]]]]]]]]; [congruence| |].
  - cbn [applyl fold_left] in ID. rewrite E1 in ID.
    destruct (end_cases u (l_arg en) O2 Fa) as [[u2 [Es2 [C1 _]]]|[u2 [D2 [Es2 _]]]]; rewrite Es in Es2; [|discriminate]. injection Es2 as <-.
    destruct (pend_fires l u' _ _ (l_arg en) P Fl Fa Hn (C1 Hn) ID) as [l1 [en0 [l2 [u2 [D [-> K]]]]]].
    exists (en :: l1), en0, l2, u2, D. cbn [applyl fold_left]. rewrite E1. auto.
  - exists [], en, l, u', D. split; auto. split; auto. split; auto. split; auto.
    destruct (end_cases u (l_arg en) O2 Fa) as [[u2 [Es2 _]]|[u2 [D2 [Es2 [C1 _]]]]]; rewrite Es in Es2; [discriminate|].
    injection Es2 as <- <-. exact C1.
Qed.

(** ** The calls among the events *)
Fixpoint ecalls (l : list (event xq)) : list (entry xq) :=
  match l with [] => [] | XCall _ en :: l' => en :: ecalls l' | _ :: l' => ecalls l' end.
Lemma ecalls_app a b : ecalls (a ++ b) = ecalls a ++ ecalls b.
Proof. induction a as [|[r en|j d|i c d] a IH]; simpl; auto. now rewrite IH. Qed.
Lemma in_ecalls l en : In en (ecalls l) <-> exists r, In (XCall r en) l.
Proof.
  induction l as [|[r en'|j d|i c d] l IH]; simpl.
  - split; [contradiction|]. intros [r []].
  - rewrite IH. split.
    + intros [->|[r' I]]; [exists r|exists r']; auto.
    + intros [r' [I|I]]; [injection I as -> ->; auto|]. right. eauto.
  - rewrite IH. split; intros [r' I]; exists r'; auto. destruct I; [discriminate|auto].
  - rewrite IH. split; intros [r' I]; exists r'; auto. destruct I; [discriminate|auto].
Qed.
Lemma ecalls_split l : forall a en b, ecalls l = a ++ en :: b -> exists l1 r l2, l = l1 ++ XCall r en :: l2 /\ ecalls l1 = a /\ ecalls l2 = b.
Proof.
  induction l as [|x l IH]; intros a en b E; [destruct a; discriminate|].
  assert (X : forall y, y = x -> (forall r e, y <> XCall r e) -> ecalls l = a ++ en :: b -> exists l1 r l2, x :: l = l1 ++ XCall r en :: l2 /\ ecalls l1 = a /\ ecalls l2 = b).
  { intros y <- Ny E'. destruct (IH a en b E') as [l1 [r [l2 [-> [Ea Eb]]]]]. exists (y :: l1), r, l2. split; auto. split; auto.
    destruct y; simpl; auto. exfalso. eapply Ny; eauto. }
  destruct x as [r en'|j d|i c d]; simpl in E.
  - destruct a as [|e0 a]; injection E as <- E.
    + exists [], r, l. auto.
    + destruct (IH a en b E) as [l1 [r' [l2 [-> [Ea Eb]]]]]. exists (XCall r en' :: l1), r', l2. split; auto. simpl. now rewrite Ea.
  - apply (X _ eq_refl); [discriminate|auto].
  - apply (X _ eq_refl); [discriminate|auto].
Qed.
Lemma apply1_same u v en : u_begin u = u_begin v -> u_end u = u_end v -> u_begin (apply1 u en) = u_begin (apply1 v en) /\ u_end (apply1 u en) = u_end (apply1 v en).
Proof. intros A B. unfold apply1. destruct (node_op_same u v (l_end en) (l_arg en) A B) as [_ [X Y]]. auto. Qed.
Lemma applyl_same l : forall u v, u_begin u = u_begin v -> u_end u = u_end v -> u_begin (applyl u l) = u_begin (applyl v l) /\ u_end (applyl u l) = u_end (applyl v l).
Proof.
  induction l as [|en l IH]; intros u v A B; cbn [applyl fold_left]; auto. destruct (apply1_same u v en A B) as [X Y]. now apply IH.
Qed.

Section Sessions.
Variable ns : list (node xq).
Hypothesis W : proper ns.

Lemma steps_state w l w' : steps ns w l w' -> forall j,
  u_begin (w_st w' j) = u_begin (applyl (w_st w j) (proj j (ecalls l))) /\ u_end (w_st w' j) = u_end (applyl (w_st w j) (proj j (ecalls l))).
Proof.
  induction 1 as [w|w r i e d l w' H IH|w j0 s d l w' E H IH|w i c d l w' H IH]; intros j; auto.
  - destruct (IH j) as [A B]. rewrite A, B. cbn [w_st ecalls proj filter l_node]. unfold set_node. rewrite (Nat.eqb_sym j i).
    destruct (Nat.eqb_spec i j) as [->|]; fold (proj j (ecalls l)); auto.
  - destruct (IH j) as [A B]. rewrite A, B. cbn [w_st ecalls].
    destruct (read_dom_spec ns W (w_env w) (fun _ => False) (S (length ns)) ltac:(intros ? ? ? _ _ []) (w_st w) j0) as [s2 [d2 [E2 [S2 _]]]]; [lia|contradiction|].
    rewrite E in E2. injection E2 as <- <-. destruct (S2 j) as [X Y]. apply applyl_same; auto.
  - exact (IH j).
Qed.
Lemma steps_not w l1 r en l2 w' : steps ns w (l1 ++ XCall r en :: l2) w' ->
  l_not en = snd (node_op (applyl (w_st w (l_node en)) (proj (l_node en) (ecalls l1))) (l_end en) (l_arg en)).
Proof.
  intros H. destruct (steps_split ns l1 _ w w' H) as [w1 [A B]]. inversion B; subst. cbn [l_node l_end l_arg l_not].
  destruct (steps_state _ _ _ A i) as [X Y]. now apply node_op_same.
Qed.

Variable g : net xq.
Hypothesis G : good_net g.
Variables (w0 w1 : world xq) (ev : list (event xq)).
Hypothesis ST : steps ns w0 ev w1.
Hypothesis SG : seg_ok ns g (fun _ _ => False) ev.
Hypothesis ID : forall j, idle (w_st w0 j).

Definition sup (a b : ival xq) : Prop := i_superset a b = true.
Record fair (j : nat) : Prop := {
  fr_hits : forall r en, In (XCall r en) ev -> l_node en = j -> hits (l_arg en);
  fr_ends : forall r en, In (XCall r en) ev -> l_node en = j -> l_end en = false ->
    exists a r' en' b en0, ev = a ++ XCall r' en' :: b /\ l_end en' = true /\ l_node en' = j /\ sup (l_arg en') (l_arg en) /\
      In (XCall r en0) (a ++ [XCall r' en']) /\ l_end en0 = true
}.

Lemma fair_after j l1 r en l2 : fair j -> ev = l1 ++ XCall r en :: l2 -> l_node en = j -> l_end en = false ->
  exists r' en', In (XCall r' en') l2 /\ l_end en' = true /\ l_node en' = j /\ sup (l_arg en') (l_arg en).
Proof.
  intros FR El Ej Ee. destruct (fr_ends j FR r en) as [a [r' [en' [b [en0 [Ea [K1 [K2 [K3 [K4 K5]]]]]]]]]]; auto.
  { rewrite El. apply in_or_app. simpl; auto. }
  assert (EE : a ++ XCall r' en' :: b = l1 ++ XCall r en :: l2) by congruence. exists r', en'.
  destruct (app_cons_split _ _ _ _ _ EE) as [[k [-> ->]]|[k [-> Ek]]].
  - split; auto. apply in_or_app. simpl; auto.
  - exfalso. destruct k as [|z k]; simpl in Ek; injection Ek as Ez Ek; [congruence|].
    assert (I : In (XCall r en) b) by (rewrite Ek; apply in_or_app; simpl; auto).
    apply in_split in K4. destruct K4 as [c1 [c2 Ec]].
    assert (X : l_end en = true); [|congruence].
    apply (sg_order ns g _ ev SG c1 r en0 (c2 ++ b) en); auto; [|apply in_or_app; auto].
    rewrite Ea. replace (a ++ XCall r' en' :: b) with ((a ++ [XCall r' en']) ++ b) by (rewrite <- app_assoc; reflexivity).
    rewrite Ec, <- app_assoc. reflexivity.
Qed.
Lemma fair_args j l : fair j -> (forall r en, In (XCall r en) l -> In (XCall r en) ev) -> args_ok (proj j (ecalls l)).
Proof.
  intros FR K. apply Forall_forall. intros en I. apply proj_in in I. destruct I as [I Ij]. apply in_ecalls in I. destruct I as [r I].
  apply (fr_hits j FR r en); auto.
Qed.
Lemma fair_idle j : fair j -> idle (applyl (w_st w0 j) (proj j (ecalls ev))).
Proof.
  intros FR. apply (mixed_idle _ _ [] []); [apply idle_phase, ID|now apply fair_args|contradiction|].
  intros l1 en l2 E Ee. destruct (proj_split _ _ _ _ _ E) as [a [b [Ea [A1 A2]]]].
  destruct (ecalls_split _ _ _ _ Ea) as [m1 [r [m2 [Em [M1 M2]]]]].
  assert (Ij : l_node en = j). { apply (proj_in j (ecalls ev) en). rewrite E. apply in_or_app. simpl; auto. }
  destruct (fair_after j m1 r en m2 FR Em Ij Ee) as [r' [en' [I [K1 [K2 K3]]]]].
  exists en'. split; [|auto]. rewrite <- A2. apply proj_in. split; auto. rewrite <- M2. apply in_ecalls. eauto.
Qed.
(** every end is followed (or is itself) by a notification that covers it *)
Lemma fair_fires j l1 r en l2 : fair j -> ev = l1 ++ XCall r en :: l2 -> l_node en = j -> l_end en = true ->
  exists a r' en' b D, XCall r en :: l2 = a ++ XCall r' en' :: b /\ l_node en' = j /\ l_end en' = true /\ l_not en' = Some D /\ hits D /\ sup D (l_arg en).
Proof.
  intros FR El Ej Ee. assert (IE : In (XCall r en) ev) by (rewrite El; apply in_or_app; simpl; auto).
  destruct (fr_hits j FR r en IE Ej) as [OA HA].
  pose proof (fair_idle j FR) as FI. rewrite El, ecalls_app, proj_app, applyl_app in FI. cbn [ecalls] in FI.
  assert (EP : proj j (en :: ecalls l2) = en :: proj j (ecalls l2)) by (unfold proj; cbn [filter]; rewrite Ej, Nat.eqb_refl; reflexivity).
  rewrite EP in FI.
  assert (AO : args_ok (proj j (ecalls ev))) by now apply fair_args.
  rewrite El, ecalls_app, proj_app in AO. cbn [ecalls] in AO. rewrite EP in AO. apply Forall_app in AO. destruct AO as [AO1 AO2].
  destruct (applyl_phase (proj j (ecalls l1)) _ _ _ (idle_phase _ (ID j)) AO1) as [B [E P]].
  destruct (end_fires_mixed en (proj j (ecalls l2)) _ B E P AO2 Ee (hit_nonempty _ HA) FI) as [q1 [en' [q2 [u' [D [Eq [Ke [Es [OD SD]]]]]]]]].
  rewrite <- EP in Eq. destruct (proj_split _ _ _ _ _ Eq) as [c1 [c2 [Ec [C1 C2]]]].
  destruct (ecalls_split (XCall r en :: l2) c1 en' c2 Ec) as [a [r' [b [Ea [A1 A2]]]]].
  assert (Ij : l_node en' = j). { apply (proj_in j (en :: ecalls l2) en'). rewrite Eq. apply in_or_app. simpl; auto. }
  assert (EV : ev = (l1 ++ a) ++ XCall r' en' :: b) by (rewrite El, Ea, <- app_assoc; reflexivity).
  pose proof ST as ST'. rewrite EV in ST'. pose proof (steps_not _ _ _ _ _ _ ST') as Nn.
  rewrite Ij, Ke, ecalls_app, proj_app, applyl_app, A1, C1 in Nn. unfold node_op in Nn. rewrite Es in Nn. cbn [snd] in Nn.
  assert (HD : inf_hit D) by (apply hit_superset with (l_arg en); auto).
  pose proof HD as HD'. unfold inf_hit in HD'. rewrite HD' in Nn.
  exists a, r', en', b, D. repeat (split; auto).
Qed.
Lemma fair_not j r en D : fair j -> In (XCall r en) ev -> l_node en = j -> l_not en = Some D -> hits D /\ (l_end en = false -> D = l_arg en).
Proof.
  intros FR I Ej Hn. destruct (fr_hits j FR r en I Ej) as [OA HA]. destruct (in_split _ _ I) as [l1 [l2 El]].
  pose proof ST as ST'. rewrite El in ST'. pose proof (steps_not _ _ _ _ _ _ ST') as Nn. rewrite Ej, Hn in Nn.
  assert (AO : args_ok (proj j (ecalls l1))).
  { apply fair_args; auto. intros r' e' I'. rewrite El. apply in_or_app; auto. }
  destruct (applyl_phase (proj j (ecalls l1)) _ _ _ (idle_phase _ (ID j)) AO) as [B [E P]].
  unfold node_op in Nn. destruct (l_end en).
  - destruct (end_update (applyl (w_st w0 j) (proj j (ecalls l1))) (l_arg en)) as [u' [D'|]] eqn:Es; [|discriminate]. cbn [snd] in Nn.
    destruct (i_intersects D' i_infinite) eqn:X; [|discriminate]. injection Nn as ->. split; [|discriminate]. split; [|exact X].
    apply (fired_iok _ _ _ _ _ _ P OA Es).
  - unfold begin_update in Nn. destruct (_ || _) in Nn; [discriminate|]. cbn [snd] in Nn.
    destruct (i_intersects (l_arg en) i_infinite) eqn:X; [|discriminate]. injection Nn as ->. split; [split; auto|auto].
Qed.

Lemma all_fair j : fair j.
Proof.
  induction j as [j IH] using lt_wf_ind. constructor.
  - intros r en I Ej. destruct (sg_origin ns g _ ev SG r en I) as [[]|[[H _]|[p [x [t [Ip [Ke [Kn [Kd Ka]]]]]]]]]; auto.
    pose proof (proj1 G _ _ _ Kd) as L. rewrite Ej in L.
    destruct (fair_not (l_node p) r p x (IH (l_node p) ltac:(lia)) Ip eq_refl Kn) as [[Ox Hx] _].
    destruct (proj2 G _ _ _ Kd) as [M1 [_ M3]]. rewrite Ka. split; [auto|apply M3; auto].
  - intros r en I Ej Ee. destruct (sg_origin ns g _ ev SG r en I) as [[]|[[[OA HA] H]|[p [x [t [Ip [Ke [Kn [Kd Ka]]]]]]]]].
    + destruct (H Ee) as [en' [I' [K1 [K2 K3]]]]. destruct (in_split _ _ I') as [a [b Ea]].
      exists a, r, en', b, en'. split; auto. split; auto. split; [congruence|]. split; [rewrite K3; now apply superset_refl|].
      split; auto. apply in_or_app. simpl; auto.
    + pose proof (proj1 G _ _ _ Kd) as L. rewrite Ej in L. pose proof (IH (l_node p) ltac:(lia)) as FP.
      destruct (fair_not (l_node p) r p x FP Ip eq_refl Kn) as [[Ox Hx] Ex]. rewrite Ke in Ex. specialize (Ex Ee).
      destruct (fr_ends _ FP r p Ip eq_refl (eq_trans Ke Ee)) as [a [r' [en' [b [en0 [Ea [K1 [K2 [K3 [K4 K5]]]]]]]]]].
      destruct (fair_fires _ a r' en' b FP Ea K2 K1) as [a2 [r2 [en2 [b2 [D [E2 [N2 [F2 [Q2 [HD SD]]]]]]]]]].
      assert (EV : ev = (a ++ a2) ++ XCall r2 en2 :: b2) by (rewrite Ea, E2, <- app_assoc; reflexivity).
      assert (Kd' : In (l_node en, t) (deps g (l_node en2))) by (rewrite N2; exact Kd).
      destruct (sg_closed ns g _ ev SG (a ++ a2) r2 en2 b2 D (l_node en) t EV Q2 Kd') as [en3 [I3 [F3 [N3 A3]]]].
      destruct (in_split _ _ I3) as [c1 [c2 Ec]].
      exists ((a ++ a2) ++ XCall r2 en2 :: c1), r2, en3, c2, en0. split; [rewrite EV, Ec, <- !app_assoc; reflexivity|].
      split; [congruence|]. split; [congruence|]. split.
      * rewrite A3, Ka. apply (proj2 G _ _ _ Kd); [apply HD|exact Ox|now apply hit_nonempty|].
        assert (IE : In (XCall r' en') ev) by (rewrite Ea; apply in_or_app; simpl; auto).
        apply superset_trans with (l_arg en'); auto; [apply HD|apply (fr_hits _ FP r' en' IE K2)|]. rewrite Ex. exact K3.
      * split; auto. destruct a2 as [|z a2]; simpl in E2; injection E2 as Ez E2.
        -- subst r2 en2. rewrite app_nil_r. apply in_or_app. left. apply in_app_iff in K4. destruct K4 as [K4|[K4|[]]]; apply in_or_app; [auto|].
           right. rewrite K4. simpl; auto.
        -- subst z. apply in_or_app. left. rewrite <- app_assoc. apply in_app_iff in K4. destruct K4 as [K4|[K4|[]]]; apply in_or_app; [auto|].
           right. rewrite K4. simpl; auto.
Qed.

(** ** What follows *)
Definition efires (j : nat) (l : list (event xq)) : Prop := exists r en D, In (XCall r en) l /\ l_node en = j /\ l_end en = true /\ l_not en = Some D.
(** an end notification that contains [q] *)
Definition etold (l : list (event xq)) (j : nat) (q : Qc) : Prop :=
  exists r en D, In (XCall r en) l /\ l_node en = j /\ l_end en = true /\ l_not en = Some D /\ imem D (Fin q).
Lemma end_told past r en fut q : ev = past ++ XCall r en :: fut -> l_end en = true -> imem (l_arg en) (Fin q) -> etold (XCall r en :: fut) (l_node en) q.
Proof.
  intros El Ee M. destruct (fair_fires _ past r en fut (all_fair _) El eq_refl Ee) as [a [r' [en' [b [D [E [N [F [Q [HD SD]]]]]]]]]].
  exists r', en', D. split; [rewrite E; apply in_or_app; simpl; auto|]. repeat (split; auto).
  - apply (superset_iff D (l_arg en)); auto; [apply HD|apply (fr_hits _ (all_fair (l_node en)) r en); auto; rewrite El; apply in_or_app; simpl; auto|discriminate].
  - apply (superset_iff D (l_arg en)); auto; [apply HD|apply (fr_hits _ (all_fair (l_node en)) r en); auto; rewrite El; apply in_or_app; simpl; auto|discriminate].
Qed.
Lemma end_efires past r en fut : ev = past ++ XCall r en :: fut -> l_end en = true -> efires (l_node en) (XCall r en :: fut).
Proof.
  intros El Ee. destruct (fair_fires _ past r en fut (all_fair _) El eq_refl Ee) as [a [r' [en' [b [D [E [N [F [Q _]]]]]]]]].
  exists r', en', D. split; [rewrite E; apply in_or_app; simpl; auto|]. auto.
Qed.
Lemma efires_deps past fut p c t : ev = past ++ fut -> efires p fut -> In (c, t) (deps g p) -> efires c fut.
Proof.
  intros El [r [en [D [I [Ep [Ee En]]]]]] Ic. destruct (in_split _ _ I) as [a [b Eb]]. rewrite <- Ep in Ic.
  assert (EV : ev = (past ++ a) ++ XCall r en :: b) by (rewrite El, Eb, <- app_assoc; reflexivity).
  destruct (sg_closed ns g _ ev SG _ r en b D c t EV En Ic) as [en' [I' [K1 [K2 K3]]]]. destruct (in_split _ _ I') as [a' [b' Eb']].
  destruct (end_efires ((past ++ a) ++ XCall r en :: a') r en' b') as [r2 [e2 [D2 [I2 [Q1 Q2]]]]]; [|congruence|].
  - rewrite EV, Eb', <- !app_assoc. reflexivity.
  - exists r2, e2, D2. split; [|split; [congruence|auto]]. rewrite Eb, Eb'. apply in_or_app. right. right. apply in_or_app. right. exact I2.
Qed.
Lemma etold_deps past fut p c t q q' : ev = past ++ fut -> etold fut p q -> In (c, t) (deps g p) ->
  (forall D, iok D -> imem D (Fin q) -> imem (t D) (Fin q')) -> etold fut c q'.
Proof.
  intros El [r [en [D [I [Ep [Ee [En M]]]]]]] Ic K. destruct (in_split _ _ I) as [a [b Eb]].
  assert (EV : ev = (past ++ a) ++ XCall r en :: b) by (rewrite El, Eb, <- app_assoc; reflexivity).
  assert (IE : In (XCall r en) ev) by (rewrite EV; apply in_or_app; simpl; auto).
  destruct (fair_not p r en D (all_fair p) IE Ep En) as [[OD _] _]. rewrite <- Ep in Ic.
  destruct (sg_closed ns g _ ev SG _ r en b D c t EV En Ic) as [en' [I' [K1 [K2 K3]]]]. destruct (in_split _ _ I') as [a' [b' Eb']].
  destruct (end_told ((past ++ a) ++ XCall r en :: a') r en' b' q') as [r2 [e2 [D2 [I2 [Q1 Q2]]]]]; [|congruence|rewrite K3; auto|].
  - rewrite EV, Eb', <- !app_assoc. reflexivity.
  - exists r2, e2, D2. split; [|split; [congruence|auto]]. rewrite Eb, Eb'. apply in_or_app. right. right. apply in_or_app. right. exact I2.
Qed.
Lemma settled_idle j : idle (w_st w1 j).
Proof. destruct (steps_state _ _ _ ST j) as [A B], (fair_idle j (all_fair j)) as [C D]. split; congruence. Qed.

End Sessions.
