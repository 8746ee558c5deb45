(** Histories in which callbacks raise, and updates that repair them. *)
From Coq Require Import List ZArith QArith Qcanon Bool Lia Arith.
From Verif Require Import Base Num NumFacts Interval IntervalFacts Curve Graph PointsOps UpdFacts GraphFacts GraphSettle GraphTop Fault FaultFacts.
Import ListNotations.

(** A call from outside, an update: of a node of the network, an interval with at
    least one finite x. *)
Definition call_ok (g : net xq) (c : nat * bool * ival xq) : Prop :=
  (fst (fst c) < length g)%nat /\ iok (snd c) /\ i_intersects (snd c) i_infinite = true.
Definition upd_ok (g : net xq) (p : nat * ival xq) : Prop :=
  (fst p < length g)%nat /\ iok (snd p) /\ i_intersects (snd p) i_infinite = true.
(** The updates [l] contain everything that the calls [h] began. *)
Definition repeats (h : list (nat * bool * ival xq)) (l : list (nat * ival xq)) : Prop :=
  forall i d, In (i, false, d) h -> exists d', In (i, d') l /\ i_superset d' d = true.
Definition announced (L : list (entry xq)) (j : nat) (y : ival xq) : Prop :=
  exists en D, In en L /\ l_node en = j /\ l_end en = true /\ l_not en = Some D /\ i_superset D y = true.

Section Net.
Variable g : net xq.
Hypothesis G : good_net g.

Lemma owed_dom s O O' : (forall j, wfu (s j)) -> allok O -> allok O' ->
  (forall k x, In (k, x) O -> exists x', In (k, x') O' /\ i_superset x' x = true) -> owed g s O -> owed g s O'.
Proof.
  intros W A A' H K j D HD [K1 K2]. apply K; auto. split; auto. intros k x y I C.
  destruct (H k x I) as [x' [I' S]].
  destruct (proj1 (Forall_forall _ _) A _ I) as [Ox Hx]. destruct (proj1 (Forall_forall _ _) A' _ I') as [Ox' Hx'].
  destruct (ca_mono g G k x x' j y Ox Hx Ox' S C) as [y' [C' [Oy' S']]].
  apply superset_trans with y'; auto; [apply (ca_ok g G _ _ _ _ Ox Hx C)|]. apply (K1 k x'); auto.
Qed.

(** ** Repairing *)
Lemma heal_one s i d s' LB LE fuel O : net_update g fuel s i d = Ok (s', LB, LE) -> iok d -> inf_hit d -> (forall j, wfu (s j)) -> allok O ->
  (forall j, wfu (s' j)) /\ (owed g s ((i, d) :: O) -> owed g s' O) /\
  (forall L0 j y, iok y -> due g s ((i, d) :: O) L0 j y -> due g s' O (L0 ++ LB ++ LE) j y).
Proof.
  intros E Hd Hh W HO. unfold net_update in E.
  destruct (net_op g fuel s i false d) as [[s1 lb]|] eqn:EB; [|discriminate]. cbn in E.
  destruct (net_op g fuel s1 i true d) as [[s2 le]|] eqn:EE; [|discriminate]. cbn in E. injection E as <- <- <-.
  destruct (begin_op g G _ _ _ _ _ _ _ _ _ (fault_clean g _ _ _ _ _ _ _ [] EB) Hd Hh W) as [W1 [K1 C1]].
  destruct (end_op g G _ O _ _ _ _ _ EE Hd Hh W1 HO) as [W2 [K2 C2]].
  assert (Ed : forall j, u_end (s1 j) = u_end (s j)) by apply K1.
  split; [exact W2|]. split.
  - intros H. apply K2. intros j D HD [A1 A2]. apply C1; auto.
    + apply H; auto. split; auto. intros q y Ne C. apply (A2 q); rewrite Ed; auto.
    + intros y C. apply (A1 i d); simpl; auto.
  - intros L0 j y Hy H. rewrite app_assoc. apply C2; auto.
    destruct H as [[Hn [en [D [I K]]]]|[[q [y' [Nq [C S]]]]|H]].
    + left. split; [now rewrite (proj2 (K1 j))|]. exists en, D. split; auto. apply in_or_app; auto.
    + right. left. exists q, y'. rewrite Ed. auto.
    + right. right. exact H.
Qed.
Lemma heal_all fuel l : forall s s' L, net_updates g fuel l s = Ok (s', L) -> allok l -> (forall j, wfu (s j)) ->
  (forall j, wfu (s' j)) /\ (owed g s l -> owed g s' []) /\ (forall L0 j y, iok y -> due g s l L0 j y -> due g s' [] (L0 ++ L) j y).
Proof.
  induction l as [|[i d] l IH]; intros s s' L E A W; simpl in E.
  - injection E as <- <-. split; auto. split; auto. intros L0 j y _ H. rewrite app_nil_r. exact H.
  - destruct (net_update g fuel s i d) as [[[s1 lb] le]|] eqn:E1; [|discriminate]. cbn in E.
    destruct (net_updates g fuel l s1) as [[s2 l2]|] eqn:E2; [|discriminate]. cbn in E. injection E as <- <-.
    inversion A as [|? ? [Hd Hh] A']; subst. cbn [snd] in *.
    destruct (heal_one _ _ _ _ _ _ _ l E1 Hd Hh W A') as [W1 [K1 C1]]. destruct (IH _ _ _ E2 A' W1) as [W2 [K2 C2]].
    split; [exact W2|]. split; [auto|]. intros L0 j y Hy H. specialize (C2 (L0 ++ lb ++ le) j y Hy (C1 L0 j y Hy H)).
    rewrite <- !app_assoc in C2. exact C2.
Qed.
Lemma owed_nil_idle s : (forall j, wfu (s j)) -> owed g s [] -> forall j, idle (s j).
Proof.
  intros W H j. induction j as [j IH] using lt_wf_ind. destruct (wu_j _ (W j)) as [|N]; auto. exfalso.
  assert (i_superset (u_end (s j)) (u_begin (s j)) = true); [|congruence]. apply H; [apply W|]. split; [contradiction|].
  intros q y Ne C. pose proof (ca_ge g G _ _ _ _ C) as L. destruct (Nat.eq_dec q j) as [->|Nq].
  - destruct (ca_inv g _ _ _ _ C) as [[_ ->]|[c [t [I C2]]]]; [apply superset_refl, W|].
    pose proof (proj1 G _ _ _ I). pose proof (ca_ge g G _ _ _ _ C2). lia.
  - destruct (IH q ltac:(lia)) as [_ E]. rewrite E in Ne. discriminate.
Qed.
Lemma updates_total fuel l : (length g <= fuel)%nat -> Forall (upd_ok g) l -> forall s, exists r, net_updates g fuel l s = Ok r.
Proof.
  intros F. induction 1 as [|[i d] l [H1 _] _ IH]; intros s; simpl; eauto. cbn [fst snd] in H1.
  destruct (net_op_total g G fuel s i false d) as [[s1 LB] EB]; [lia|auto|].
  destruct (net_op_total g G fuel s1 i true d) as [[s2 LE] EE]; [lia|auto|].
  unfold net_update. rewrite EB. cbn [rbind]. rewrite EE. cbn [rbind].
  destruct (IH s2) as [[s3 L] E]. rewrite E. cbn [rbind]. eauto.
Qed.

(** ** The histories *)
Definition begun (h : list (nat * bool * ival xq)) : list (nat * ival xq) :=
  flat_map (fun c : nat * bool * ival xq => if snd (fst c) then [] else [(fst (fst c), snd c)]) h.
Lemma in_begun h i d : In (i, d) (begun h) <-> In (i, false, d) h.
Proof.
  unfold begun. rewrite in_flat_map. split.
  - intros [[[k [|]] x] [I J]]; simpl in J; [contradiction|]. destruct J as [Q|[]]. injection Q as <- <-. exact I.
  - intros I. exists (i, false, d). split; simpl; auto.
Qed.
Lemma begun_ok h : Forall (call_ok g) h -> allok (begun h).
Proof.
  intros H. apply Forall_forall. intros [i d] I. apply in_begun in I. destruct (proj1 (Forall_forall _ _) H _ I) as [_ K]. exact K.
Qed.
Definition bounded (s : nstate xq) (O : list (nat * ival xq)) : Prop :=
  forall j D, iok D -> (forall k x y, In (k, x) O -> carried g k x j y -> i_superset D y = true) -> i_superset D (u_begin (s j)) = true.
Lemma calls_inv raises fuel : forall h P s log s' log', calls g raises fuel h s log = Ok (s', log') -> Forall (call_ok g) h ->
  (forall j, wfu (s j)) -> bounded s P -> (forall j, wfu (s' j)) /\ bounded s' (P ++ begun h).
Proof.
  induction h as [|[[i e] d] h IH]; intros P s log s' log' E A W B; simpl in E.
  - injection E as <- <-. split; auto. simpl. rewrite app_nil_r. exact B.
  - destruct (fault_op g raises fuel s log i e d) as [[[s1 l1] b]|] eqn:E1; [|discriminate]. cbn [rbind] in E.
    inversion A as [|? ? [Hi [Hd Hh]] A']; subst. cbn [fst snd] in *. destruct e.
    + destruct (end_op_fault g G _ _ _ _ _ _ _ _ _ E1 Hd Hh W) as [W1 K1].
      apply (IH P _ _ _ _ E A' W1). intros j D HD C. destruct (K1 j) as [->| ->]; [now apply B|apply superset_empty_r, i_empty_is_empty].
    + destruct (begin_op g G _ _ _ _ _ _ _ _ _ E1 Hd Hh W) as [W1 [_ C1]].
      destruct (IH (P ++ [(i, d)]) _ _ _ _ E A' W1) as [W2 B2].
      * intros j D HD C. apply C1; auto.
        -- apply B; auto. intros k x y I. apply C. apply in_or_app; auto.
        -- intros y. apply C. apply in_or_app; simpl; auto.
      * split; auto. rewrite <- app_assoc in B2. exact B2.
Qed.

Theorem calls_healed raises fuel fuel' h s0 log0 s log l :
  (forall j, idle (s0 j)) -> Forall (call_ok g) h -> calls g raises fuel h s0 log0 = Ok (s, log) ->
  Forall (upd_ok g) l -> (length g <= fuel')%nat -> repeats h l ->
  exists s' L, net_updates g fuel' l s = Ok (s', L) /\ forall j,
    idle (s' j) /\ (forall i d y, In (i, d) l -> carried g i d j y -> u_dom (s' j) = None /\ announced L j y).
Proof.
  intros ID A E Al F R. assert (AL : allok l) by (eapply Forall_impl; [|exact Al]; intros p [_ H]; exact H).
  destruct (calls_inv raises fuel h [] s0 log0 s log E A) as [W B].
  { intros j. now apply wfu_idle. }
  { intros j D _ _. destruct (ID j) as [-> _]. apply superset_empty_r, i_empty_is_empty. }
  destruct (updates_total fuel' l F Al s) as [[s' L] EU]. exists s', L. split; [exact EU|].
  destruct (heal_all fuel' l s s' L EU AL W) as [W' [K C]].
  assert (I0 : owed g s' []).
  { apply K. apply owed_dom with (begun h); auto; [now apply begun_ok|intros k x I; apply in_begun in I; auto|].
    intros j D HD [K1 _]. apply B; auto. }
  pose proof (owed_nil_idle s' W' I0) as ID'. intros j. split; [apply ID'|].
  intros i d y I Cy. destruct (proj1 (Forall_forall _ _) AL _ I) as [Od Hd]. destruct (ca_ok g G _ _ _ _ Od Hd Cy) as [Oy Hy].
  destruct (C [] j y Oy) as [[N [en [D [J1 [J2 [J3 [J4 [J5 J6]]]]]]]]|[[q [y' [Ne _]]]|[c [x [y' [[] _]]]]]].
  - right. right. exists i, d, y. split; auto. split; auto. now apply superset_refl.
  - split; auto. exists en, D. repeat (split; auto).
  - destruct (ID' q) as [_ Q]. rewrite Q in Ne. discriminate.
Qed.

(** Attempted updates make calls. *)
Lemma attempts_calls raises fuel l : forall s log s' log', attempts g raises fuel l s log = Ok (s', log') ->
  exists h, calls g raises fuel h s log = Ok (s', log') /\ (forall i d, In (i, false, d) h -> In (i, d) l) /\ (forall c, In c h -> In (fst (fst c), snd c) l).
Proof.
  induction l as [|[i d] l IH]; intros s log s' log' E; simpl in E.
  - injection E as <- <-. exists []. split; [reflexivity|]. split; contradiction.
  - destruct (attempt g raises fuel s log i d) as [[[s1 l1] b]|] eqn:E1; [|discriminate]. cbn [rbind] in E.
    destruct (IH _ _ _ _ E) as [h [H1 [H2 H3]]]. unfold attempt in E1.
    destruct (fault_op g raises fuel s log i false d) as [[[s2 l2] b2]|] eqn:EB; [|discriminate]. cbn [rbind] in E1. destruct b2.
    + injection E1 as <- <- <-. exists ((i, false, d) :: h). split; [simpl; rewrite EB; exact H1|]. split.
      * intros k x [Q|I]; [injection Q as <- <-; simpl; auto|simpl; auto].
      * intros c [<-|I]; simpl; auto.
    + exists ((i, false, d) :: (i, true, d) :: h). split; [simpl; rewrite EB; cbn [rbind]; rewrite E1; exact H1|]. split.
      * intros k x [Q|[Q|I]]; [injection Q as <- <-; simpl; auto|discriminate|simpl; auto].
      * intros c [<-|[<-|I]]; simpl; auto.
Qed.
Theorem attempts_healed raises fuel fuel' l0 s0 log0 s log l :
  (forall j, idle (s0 j)) -> Forall (upd_ok g) l0 -> attempts g raises fuel l0 s0 log0 = Ok (s, log) ->
  Forall (upd_ok g) l -> (length g <= fuel')%nat -> (forall i d, In (i, d) l0 -> exists d', In (i, d') l /\ i_superset d' d = true) ->
  exists s' L, net_updates g fuel' l s = Ok (s', L) /\ forall j,
    idle (s' j) /\ (forall i d y, In (i, d) l -> carried g i d j y -> u_dom (s' j) = None /\ announced L j y).
Proof.
  intros ID A E Al F R. destruct (attempts_calls _ _ _ _ _ _ _ E) as [h [H1 [H2 H3]]].
  apply (calls_healed raises fuel fuel' h s0 log0 s log l); auto.
  - apply Forall_forall. intros c I. exact (proj1 (Forall_forall _ _) A _ (H3 c I)).
  - intros i d I. apply R, H2, I.
Qed.
Lemma attempts_total raises fuel l : (length g <= fuel)%nat -> Forall (upd_ok g) l -> forall s log, exists r, attempts g raises fuel l s log = Ok r.
Proof.
  intros F. induction 1 as [|[i d] l [H1 _] _ IH]; intros s log; simpl; eauto. cbn [fst snd] in H1. unfold attempt.
  destruct (fault_total g G raises fuel s log i false d) as [[[s1 l1] b1] E1]; [lia|auto|]. rewrite E1. cbn [rbind].
  destruct b1; cbn [rbind]; [apply IH|].
  destruct (fault_total g G raises fuel s1 l1 i true d) as [[[s2 l2] b2] E2]; [lia|auto|]. rewrite E2. cbn [rbind]. apply IH.
Qed.

(** ** The source of a broken off update *)
Lemma fault_below raises f : forall s log i e d s' log' b, fault_op g raises f s log i e d = Ok (s', log', b) ->
  (forall j, (j < i)%nat -> s' j = s j) /\ s' i = fst (node_op (s i) e d) /\
  exists new, log' = new ++ Graph.mkL i e d (snd (node_op (s i) e d)) :: log /\ Forall (fun en => (i < l_node en)%nat /\ l_end en = e) new.
Proof.
  induction f as [|f IH]; intros s log i e d s' log' b F; [discriminate|]. rewrite fault_op_eq in F.
  destruct (node_op (s i) e d) as [u n] eqn:No. cbn [fst snd].
  assert (Ei : set_node s i u i = u) by (unfold set_node; now rewrite Nat.eqb_refl).
  assert (Ej : forall j, (j < i)%nat -> set_node s i u j = s j) by (intros j L; unfold set_node; destruct (Nat.eqb_spec j i); auto; lia).
  destruct n as [x|]; [|injection F as <- <- <-; split; auto; split; auto; exists []; split; auto].
  assert (X : forall cs s0 log0 s4 log4 b4, fault_deps g raises f e x cs s0 log0 = Ok (s4, log4, b4) ->
    (forall c t, In (c, t) cs -> In (c, t) (deps g i)) ->
    (forall j, (j <= i)%nat -> s4 j = s0 j) /\ exists new, log4 = new ++ log0 /\ Forall (fun en => (i < l_node en)%nat /\ l_end en = e) new).
  { induction cs as [|[c t] cs IHc]; intros s0 log0 s4 log4 b4 Fl IC; simpl in Fl.
    - destruct (raises log0); injection Fl as <- <- <-; (split; [auto|exists []; split; auto]).
    - destruct (raises log0); [injection Fl as <- <- <-; split; [auto|exists []; split; auto]|].
      destruct (fault_op g raises f s0 log0 c e (t x)) as [[[sc lc] bc]|] eqn:Ec; [|discriminate]. cbn [rbind] in Fl.
      pose proof (proj1 G _ _ _ (IC c t (or_introl eq_refl))) as Lc.
      destruct (IH _ _ _ _ _ _ _ _ Ec) as [A1 [A2 [n1 [A3 A4]]]].
      assert (A5 : Forall (fun en => (i < l_node en)%nat /\ l_end en = e) (n1 ++ [Graph.mkL c e (t x) (snd (node_op (s0 c) e (t x)))])).
      { apply Forall_app. split; [eapply Forall_impl; [|exact A4]; intros en [K1 K2]; split; auto; lia|]. repeat constructor. simpl. lia. }
      destruct bc.
      + injection Fl as <- <- <-. split; [intros j L; apply A1; lia|]. eexists. split; [|exact A5]. rewrite A3, <- app_assoc. reflexivity.
      + destruct (IHc _ _ _ _ _ Fl (fun c' t' I => IC c' t' (or_intror I))) as [B1 [n2 [B2 B3]]].
        split; [intros j L; rewrite B1 by auto; apply A1; lia|]. exists (n2 ++ n1 ++ [Graph.mkL c e (t x) (snd (node_op (s0 c) e (t x)))]).
        split; [|apply Forall_app; split; auto]. rewrite B2, A3, <- !app_assoc. reflexivity. }
  destruct (X _ _ _ _ _ _ F (fun c t I => I)) as [B1 [new [B2 B3]]]. split; [intros j L; rewrite B1 by lia; now apply Ej|].
  split; [rewrite B1 by lia; exact Ei|]. exists new. auto.
Qed.

Lemma union_empty_idle (u : upd xq) d : idle u -> iok d -> inf_hit d -> node_op u false d = (mkU d i_empty (u_dom u), Some d).
Proof.
  intros [A B] Hd Hh. unfold node_op, begin_update. rewrite A. rewrite superset_empty_l by apply i_empty_is_empty.
  rewrite (hit_nonempty _ Hh). cbn [orb]. unfold inf_hit in Hh. rewrite Hh, B, union2_empty_l; auto. now apply hit_nonempty.
Qed.
Lemma end_ready d o : iok d -> inf_hit d -> node_op (mkU d i_empty o) true d = (upd_init, Some d).
Proof.
  intros Hd Hh. unfold node_op, end_update. cbn [u_begin u_end]. rewrite superset_empty_l by apply i_empty_is_empty.
  rewrite (hit_nonempty _ Hh). cbn [orb]. rewrite union2_empty_l by (auto using hit_nonempty). rewrite superset_refl by auto. cbn [negb].
  unfold inf_hit in Hh. rewrite Hh. reflexivity.
Qed.
(** an update that is broken off leaves its source in the update if the begin was
    broken off, and idle if the end was *)
Theorem attempt_source raises fuel s log i d s' log' : idle (s i) -> iok d -> inf_hit d ->
  attempt g raises fuel s log i d = Ok (s', log', true) ->
  exists new, log' = new ++ log /\
   ((Forall (fun en => l_end en = false) new /\ s' i = mkU d i_empty (u_dom (s i))) \/
    ((exists en, In en new /\ l_node en = i /\ l_end en = true /\ l_not en = Some d) /\ s' i = upd_init)).
Proof.
  intros ID Hd Hh E. unfold attempt in E. destruct (fault_op g raises fuel s log i false d) as [[[s1 l1] b]|] eqn:EB; [|discriminate].
  cbn [rbind] in E. destruct (fault_below _ _ _ _ _ _ _ _ _ _ EB) as [_ [A2 [n1 [A3 A4]]]].
  rewrite (union_empty_idle _ _ ID Hd Hh) in A2, A3. cbn [fst snd] in A2, A3. destruct b.
  - injection E as <- <-. exists (n1 ++ [Graph.mkL i false d (Some d)]). split; [rewrite A3, <- app_assoc; reflexivity|]. left. split; auto.
    apply Forall_app. split; [eapply Forall_impl; [|exact A4]; intros en [_ K]; exact K|repeat constructor].
  - destruct (fault_below _ _ _ _ _ _ _ _ _ _ E) as [_ [B2 [n2 [B3 B4]]]]. rewrite A2, (end_ready _ _ Hd Hh) in B2, B3. cbn [fst snd] in B2, B3.
    exists ((n2 ++ [Graph.mkL i true d (Some d)]) ++ n1 ++ [Graph.mkL i false d (Some d)]). split; [rewrite B3, A3, <- !app_assoc; reflexivity|].
    right. split; auto. exists (Graph.mkL i true d (Some d)). split; auto. apply in_or_app. left. apply in_or_app. simpl; auto.
Qed.

(** ** Silence *)
Theorem stays_silent fuel i d D : iok d -> iok D -> i_superset D d = false -> forall l s s' L,
  (forall j, wfu (s j)) -> i_superset (u_begin (s i)) d = true -> i_superset D (u_end (s i)) = true ->
  Forall (fun p => fst p = i /\ iok (snd p) /\ inf_hit (snd p) /\ i_superset D (snd p) = true) l ->
  net_updates g fuel l s = Ok (s', L) ->
  (forall en, In en L -> l_end en = true -> l_node en = i /\ l_not en = None) /\ is_updating (s' i) = true.
Proof.
  intros Hd HD ND l. induction l as [|[k x] l IH]; intros s s' L W SB SE A E; simpl in E.
  - injection E as <- <-. split; [contradiction|]. unfold is_updating. destruct (i_is_empty (u_begin (s i))) eqn:X; auto.
    rewrite superset_empty_l in SB by auto. rewrite superset_empty_r in ND by auto. discriminate.
  - destruct (net_update g fuel s k x) as [[[s1 lb] le]|] eqn:E1; [|discriminate]. cbn in E.
    destruct (net_updates g fuel l s1) as [[s2 l2]|] eqn:E2; [|discriminate]. cbn in E. injection E as <- <-.
    apply Forall_cons_iff in A. destruct A as [[Ki [Ox [Hx Sx]]] A']. cbn [fst snd] in Ki, Ox, Hx, Sx. subst k.
    destruct (heal_one _ _ _ _ _ _ _ [] E1 Ox Hx W (Forall_nil _)) as [W2 _].
    unfold net_update in E1. destruct (net_op g fuel s i false x) as [[sa la]|] eqn:EB; [|discriminate]. cbn in E1.
    destruct (net_op g fuel sa i true x) as [[sb lb']|] eqn:EE; [|discriminate]. cbn in E1. injection E1 as <- <- <-.
    pose proof (fault_clean g _ _ _ _ _ _ _ [] EB) as FB.
    destruct (begin_op g G _ _ _ _ _ _ _ _ _ FB Ox Hx W) as [Wa [Ka Ca]].
    destruct (fault_below _ _ _ _ _ _ _ _ _ _ FB) as [_ [A2 _]].
    assert (SBa : i_superset (u_begin (sa i)) d = true).
    { rewrite A2, fst_node_begin. unfold begin_update. destruct (i_is_empty x || i_superset (u_begin (s i)) x); auto. cbn [fst u_begin].
      apply superset_trans with (u_begin (s i)); auto; [apply iok_union2; auto; apply W|apply W|]. apply union2_superset_l; auto. apply W. }
    assert (SEa : i_superset D (u_end (sa i)) = true) by (rewrite (proj1 (Ka i)); exact SE).
    assert (NO : snd (node_op (sa i) true x) = None).
    { destruct (snd (node_op (sa i) true x)) as [z|] eqn:N; auto. exfalso.
      destruct (fired_hit _ _ z (Wa i) Ox Hx N) as [Uz [Oz [_ [_ [_ [Sb _]]]]]].
      assert (i_superset D z = true) by (rewrite Uz; apply union2_least; auto; apply Wa).
      assert (i_superset D d = true); [|congruence]. apply superset_trans with z; auto. apply superset_trans with (u_begin (sa i)); auto. apply Wa. }
    destruct fuel as [|f]; [discriminate|]. rewrite net_op_eq in EE. destruct (node_op (sa i) true x) as [u n] eqn:No. cbn [snd] in NO. subst n.
    cbn in EE. injection EE as <- <-.
    assert (U : u = fst (end_update (sa i) x)) by (rewrite <- fst_node_end, No; reflexivity).
    assert (Ku : u_begin u = u_begin (sa i) /\ i_superset D (u_end u) = true).
    { unfold node_op, end_update in No. rewrite U. unfold end_update. destruct (i_is_empty x || i_superset (u_end (sa i)) x); [auto|].
      destruct (negb (i_superset (i_union2 (u_end (sa i)) x) (u_begin (sa i)))) eqn:S; cbn [fst u_begin u_end]; [split; auto; apply union2_least; auto; apply Wa|].
      destruct (i_intersects (i_union2 (u_end (sa i)) x) i_infinite) eqn:I; [discriminate|]. exfalso.
      assert (inf_hit (i_union2 (u_end (sa i)) x)); [|unfold inf_hit in *; congruence].
      apply (hit_superset _ x); auto; [apply iok_union2; auto; apply Wa|apply union2_superset_r; auto; apply Wa]. }
    destruct Ku as [Ku1 Ku2].
    destruct (IH (set_node sa i u) s2 l2 W2) as [B1 B2]; auto.
    { unfold set_node. rewrite Nat.eqb_refl. now rewrite Ku1. }
    { unfold set_node. rewrite Nat.eqb_refl. exact Ku2. }
    split; auto. intros en I Ee. apply in_app_iff in I. destruct I as [I|[<-|I]]; [|auto|auto].
    pose proof (net_op_log g _ _ _ _ _ _ _ EB) as [LO _]. pose proof (proj1 (Forall_forall _ _) (lo_kind _ _ _ _ _ LO) en I). congruence.
Qed.

End Net.
