(** The events of a session: what every call leads to and where it comes from. *)
From Coq Require Import List ZArith QArith Qcanon Bool Lia Lqa Arith Wf_nat Permutation.
From Verif Require Import Base Num NumFacts Interval IntervalFacts Curve Graph Combine CombineFacts PointsOps UpdFacts PointsDec GraphFacts GraphSettle GraphTop Live LiveNet LiveSpec LiveFacts LiveTop LiveReads LiveCalls LiveHist Nest.
Import ListNotations.

(** Updates are updates of sources, of intervals that somebody observes. *)
Definition action_ok (ns : list (node xq)) (a : action xq) : Prop :=
  match a with
  | ARead _ => True
  | AUpdate i c d => nth_error ns i = Some NSource /\ iok (c_dom c) /\ iok d /\ i_intersects d i_infinite = true
  end.

Section Log.
Variable ns : list (node xq).
Variable hook : world xq -> list (action xq).
Variable g : net xq.
Hypothesis HK : forall w, Forall (action_ok ns) (hook w).

(** The world moves from event to event. *)
Inductive steps : world xq -> list (event xq) -> world xq -> Prop :=
| st_nil w : steps w [] w
| st_call w r i e d l w' :
    steps (mkW (w_env w) (set_node (w_st w) i (fst (node_op (w_st w i) e d))) (XCall r (Graph.mkL i e d (snd (node_op (w_st w i) e d))) :: w_log w)) l w' ->
    steps w (XCall r (Graph.mkL i e d (snd (node_op (w_st w i) e d))) :: l) w'
| st_read w j s d l w' : read_dom (w_env w) ns (S (length ns)) (w_st w) j = Ok (s, d) ->
    steps (mkW (w_env w) s (XRead j d :: w_log w)) l w' -> steps w (XRead j d :: l) w'
| st_set w i c d l w' : steps (mkW (set_env (w_env w) i c) (w_st w) (XSet i c d :: w_log w)) l w' -> steps w (XSet i c d :: l) w'.
Lemma steps_app w l1 w1 l2 w2 : steps w l1 w1 -> steps w1 l2 w2 -> steps w (l1 ++ l2) w2.
Proof. induction 1; intros K; simpl; auto; econstructor; eauto. Qed.
Lemma steps_split l1 l2 : forall w w', steps w (l1 ++ l2) w' -> exists w1, steps w l1 w1 /\ steps w1 l2 w'.
Proof.
  induction l1 as [|a l1 IH]; intros w w' H; simpl in H; [exists w; split; [constructor|auto]|].
  inversion H; subst; match goal with K : steps _ (l1 ++ l2) _ |- _ => destruct (IH _ _ K) as [w1 [A B]] end; exists w1; (split; auto); econstructor; eauto.
Qed.
Lemma steps_log w l w' : steps w l w' -> w_log w' = rev l ++ w_log w.
Proof. induction 1; simpl; auto; rewrite IHsteps; cbn [w_log]; now rewrite <- app_assoc. Qed.

Definition hits (d : ival xq) : Prop := iok d /\ inf_hit d.
(** a begin or end that is not forwarded from another curve *)
Definition rooted (l : list (event xq)) (r : nat) (en : entry xq) : Prop :=
  hits (l_arg en) /\
  (l_end en = false -> exists en', In (XCall r en') l /\ l_end en' = true /\ l_node en' = l_node en /\ l_arg en' = l_arg en).
Definition forwarded (l : list (event xq)) (r : nat) (en : entry xq) : Prop :=
  exists p x t, In (XCall r p) l /\ l_end p = l_end en /\ l_not p = Some x /\ In (l_node en, t) (deps g (l_node p)) /\ l_arg en = t x.

Record seg_ok (top : nat -> entry xq -> Prop) (l : list (event xq)) : Prop := {
  sg_closed : forall l1 r en l2 x c t, l = l1 ++ XCall r en :: l2 -> l_not en = Some x -> In (c, t) (deps g (l_node en)) ->
    exists en', In (XCall r en') l2 /\ l_end en' = l_end en /\ l_node en' = c /\ l_arg en' = t x;
  sg_origin : forall r en, In (XCall r en) l -> top r en \/ rooted l r en \/ forwarded l r en;
  sg_order : forall l1 r en l2 en2, l = l1 ++ XCall r en :: l2 -> l_end en = true -> In (XCall r en2) l2 -> l_end en2 = true;
  sg_set : forall l1 i c d l2, l = l1 ++ XSet i c d :: l2 ->
    nth_error ns i = Some NSource /\ iok (c_dom c) /\ hits d /\ exists r n tl, l2 = XCall r (Graph.mkL i true d n) :: tl
}.
Lemma rooted_l a b r en : rooted a r en -> rooted (a ++ b) r en.
Proof. intros [H K]. split; auto. intros E. destruct (K E) as [e [I Q]]. exists e. split; auto. apply in_or_app; auto. Qed.
Lemma rooted_r a b r en : rooted b r en -> rooted (a ++ b) r en.
Proof. intros [H K]. split; auto. intros E. destruct (K E) as [e [I Q]]. exists e. split; auto. apply in_or_app; auto. Qed.
Lemma forwarded_l a b r en : forwarded a r en -> forwarded (a ++ b) r en.
Proof. intros [p [x [t [I Q]]]]. exists p, x, t. split; auto. apply in_or_app; auto. Qed.
Lemma forwarded_r a b r en : forwarded b r en -> forwarded (a ++ b) r en.
Proof. intros [p [x [t [I Q]]]]. exists p, x, t. split; auto. apply in_or_app; auto. Qed.

Lemma seg_app (t1 t2 : nat -> entry xq -> Prop) a b : seg_ok t1 a -> seg_ok t2 b ->
  (forall r e1 e2, In (XCall r e1) a -> In (XCall r e2) b -> l_end e1 = true -> l_end e2 = true) ->
  seg_ok (fun r en => t1 r en \/ t2 r en) (a ++ b).
Proof.
  intros [C1 O1 F1 E1] [C2 O2 F2 E2] D. constructor.
  - intros l1 r en l2 x c t El Hn I. destruct (app_cons_split _ _ _ _ _ El) as [[k [-> ->]]|[k [-> ->]]].
    + destruct (C1 l1 r en k x c t eq_refl Hn I) as [en' [J Q]]. exists en'. split; auto. apply in_or_app; auto.
    + exact (C2 k r en l2 x c t eq_refl Hn I).
  - intros r en I. apply in_app_iff in I. destruct I as [I|I].
    + destruct (O1 r en I) as [H|[H|H]]; auto using rooted_l, forwarded_l.
    + destruct (O2 r en I) as [H|[H|H]]; auto using rooted_r, forwarded_r.
  - intros l1 r en l2 en2 El He I. destruct (app_cons_split _ _ _ _ _ El) as [[k [-> ->]]|[k [-> ->]]].
    + apply in_app_iff in I. destruct I as [I|I]; [exact (F1 l1 r en k en2 eq_refl He I)|].
      apply (D r en en2); auto. apply in_or_app. simpl; auto.
    + exact (F2 k r en l2 en2 eq_refl He I).
  - intros l1 i c d l2 El. destruct (app_cons_split _ _ _ _ _ El) as [[k [-> ->]]|[k [-> ->]]].
    + destruct (E1 l1 i c d k eq_refl) as [A1 [A2 [A3 [r [n [tl ->]]]]]]. split; auto. split; auto. split; auto. exists r, n, (tl ++ b). reflexivity.
    + exact (E2 k i c d l2 eq_refl).
Qed.
Lemma seg_nil t : seg_ok t [].
Proof. constructor; try (intros [|? ?]; discriminate); try contradiction. Qed.
Lemma seg_weaken (t t' : nat -> entry xq -> Prop) l : (forall r en, In (XCall r en) l -> t r en -> t' r en \/ rooted l r en \/ forwarded l r en) -> seg_ok t l -> seg_ok t' l.
Proof.
  intros H [C O F E]. constructor; auto. intros r en I. destruct (O r en I) as [K|[K|K]]; auto.
Qed.

(** The numbers of the updates started between two lengths of the history. *)
Definition fresh (lo hi : nat) (l : list (event xq)) : Prop := forall r en, In (XCall r en) l -> (lo <= r < hi)%nat.
Definition mostly (r0 : nat) (e : bool) (lo hi : nat) (l : list (event xq)) : Prop :=
  forall r en, In (XCall r en) l -> (r = r0 /\ l_end en = e) \/ (lo <= r < hi)%nat.

Definition op_runs (op : world xq -> nat -> nat -> bool -> ival xq -> res (world xq)) : Prop :=
  forall w r i e d w', op w r i e d = Ok w' -> (r <= length (w_log w))%nat ->
  exists n tl, steps w (XCall r (Graph.mkL i e d n) :: tl) w' /\
    seg_ok (fun r' en => r' = r /\ en = Graph.mkL i e d n) (XCall r (Graph.mkL i e d n) :: tl) /\
    mostly r e (S (length (w_log w))) (length (w_log w')) (XCall r (Graph.mkL i e d n) :: tl).

Lemma steps_length w l w' : steps w l w' -> length (w_log w') = (length l + length (w_log w))%nat.
Proof. intros H. rewrite (steps_log _ _ _ H), app_length, rev_length. reflexivity. Qed.

Lemma run_actions_log op l : op_runs op -> Forall (action_ok ns) l -> forall w w', run_actions ns op l w = Ok w' ->
  exists ev, steps w ev w' /\ seg_ok (fun _ _ => False) ev /\ fresh (length (w_log w)) (length (w_log w')) ev.
Proof.
  intros RO. induction l as [|a l IH]; intros F w w' E; cbn [run_actions] in E.
  - injection E as <-. exists []. split; [constructor|]. split; [apply seg_nil|]. intros r en [].
  - inversion F as [|? ? Fa Fl]; subst. destruct a as [j|i c d].
    + destruct (read_dom (w_env w) ns (S (length ns)) (w_st w) j) as [[s x]|] eqn:Er; [|discriminate]. cbn in E.
      destruct (IH Fl _ _ E) as [ev [S1 [G1 R1]]]. cbn [w_log length] in R1. exists (XRead j x :: ev). split; [econstructor; eauto|]. split.
      * apply (seg_weaken (fun _ _ => False \/ False)); [tauto|].
        change (XRead j x :: ev) with ([XRead j x] ++ ev). apply seg_app; auto.
        -- constructor; try (intros [|? [|? ?]]; discriminate). intros r en [H|[]]. discriminate.
        -- intros r e1 e2 [H|[]]. discriminate.
      * intros r en [H|H]; [discriminate|]. specialize (R1 r en H). lia.
    + set (r := length (w_log w)) in *. destruct Fa as [Ns [Oc [Od Hd]]].
      destruct (op w r i false d) as [w1|] eqn:E1; [|discriminate]. cbn in E.
      set (w1' := mkW (set_env (w_env w1) i c) (w_st w1) (XSet i c d :: w_log w1)) in *.
      destruct (op w1' r i true d) as [w2|] eqn:E2; [|discriminate]. cbn in E.
      destruct (IH Fl _ _ E) as [ev [S3 [G3 R3]]].
      destruct (RO _ _ _ _ _ _ E1 (le_n _)) as [n1 [t1 [S1 [G1 R1]]]]. fold r in R1.
      pose proof (steps_length _ _ _ S1) as L1. cbn [length] in L1. fold r in L1.
      destruct (RO _ _ _ _ _ _ E2) as [n2 [t2 [S2 [G2 R2]]]]; [cbn [w1' w_log length]; lia|].
      pose proof (steps_length _ _ _ S2) as L2. cbn [w1' w_log length] in L2, R2.
      set (b1 := Graph.mkL i false d n1) in *. set (b2 := Graph.mkL i true d n2) in *.
      pose proof (steps_length _ _ _ S3) as L3.
      exists ((XCall r b1 :: t1) ++ (XSet i c d :: XCall r b2 :: t2) ++ ev). split; [|split].
      * eapply steps_app; [exact S1|]. eapply steps_app; [|exact S3]. econstructor. exact S2.
      * assert (G2' : seg_ok (fun r' en => r' = r /\ en = b2) (XSet i c d :: XCall r b2 :: t2)).
        { destruct G2 as [C2 O2 F2 Z2]. constructor.
          - intros [|z l1] r' en l2 x c' t El Hn I; [discriminate|]. injection El as _ El. exact (C2 l1 r' en l2 x c' t El Hn I).
          - intros r' en [H|H]; [discriminate|]. destruct (O2 r' en H) as [K|[K|K]]; auto; right; [left|right].
            + apply (rooted_r [XSet i c d]). exact K.
            + apply (forwarded_r [XSet i c d]). exact K.
          - intros [|z l1] r' en l2 en2 El He I; [discriminate|]. injection El as _ El. exact (F2 l1 r' en l2 en2 El He I).
          - intros [|z l1] i' c' d' l2 El; injection El as A El.
            + subst. split; auto. split; auto. split; [split; auto|]. exists r, n2, t2. reflexivity.
            + exact (Z2 l1 i' c' d' l2 El). }
        assert (G23 : seg_ok (fun r' en => (r' = r /\ en = b2) \/ False) ((XSet i c d :: XCall r b2 :: t2) ++ ev)).
        { apply seg_app; auto. intros r' e1 e2 I1 I2 _. specialize (R3 r' e2 I2). destruct I1 as [I1|I1]; [discriminate|].
          destruct (R2 r' e1 I1) as [[-> _]|X]; lia. }
        assert (G : seg_ok (fun r' en => (r' = r /\ en = b1) \/ ((r' = r /\ en = b2) \/ False)) ((XCall r b1 :: t1) ++ ((XSet i c d :: XCall r b2 :: t2) ++ ev))).
        { apply seg_app; auto. intros r' e1 e2 I1 I2 He. apply in_app_iff in I2. destruct (R1 r' e1 I1) as [[-> X]|X]; [congruence|].
          destruct I2 as [[I2|I2]|I2]; [discriminate| |].
          - destruct (R2 r' e2 I2) as [[-> _]|Y]; lia.
          - specialize (R3 r' e2 I2). lia. }
        revert G. apply seg_weaken. intros r' en _ [[-> ->]|[[-> ->]|[]]]; right; left.
        -- split; [split; auto|]. intros _. exists b2. split; [|auto]. apply in_or_app. right. apply in_or_app. left. simpl; auto.
        -- split; [split; auto|]. discriminate.
      * intros r' en I. apply in_app_iff in I. destruct I as [I|I]; [destruct (R1 r' en I) as [[-> _]|X]; lia|].
        apply in_app_iff in I. destruct I as [[I|I]|I]; [discriminate|destruct (R2 r' en I) as [[-> _]|X]; lia|]. specialize (R3 r' en I). lia.
Qed.

Definition go_nest (f : nat) (r : nat) (e : bool) (x : ival xq) :=
  fix go (cs : list (nat * (ival xq -> ival xq))) (w : world xq) : res (world xq) :=
    let! w0 := run_actions ns (nest_op ns hook g f) (hook w) w in
    match cs with
    | [] => Ok w0
    | (c, t) :: cs' => let! w1 := nest_op ns hook g f w0 r c e (t x) in go cs' w1
    end.
Lemma nest_op_eq f w r i e d : nest_op ns hook g (S f) w r i e d =
  let '(u, n) := node_op (w_st w i) e d in
  let w1 := mkW (w_env w) (set_node (w_st w) i u) (XCall r (Graph.mkL i e d n) :: w_log w) in
  match n with None => Ok w1 | Some x => go_nest f r e x (deps g i) w1 end.
Proof. reflexivity. Qed.

Lemma nest_op_runs f : op_runs (nest_op ns hook g f).
Proof.
  induction f as [|f IH]; intros w r i e d w' E Hr; [discriminate|]. rewrite nest_op_eq in E.
  destruct (node_op (w_st w i) e d) as [u n] eqn:No. cbn zeta in E.
  set (top := Graph.mkL i e d n) in *. set (w1 := mkW (w_env w) (set_node (w_st w) i u) (XCall r top :: w_log w)) in *.
  assert (ST : forall l w2, steps w1 l w2 -> steps w (XCall r top :: l) w2).
  { intros l w2 S. unfold top. replace n with (snd (node_op (w_st w i) e d)) by now rewrite No. apply st_call. rewrite No. exact S. }
  destruct n as [x|].
  2:{ injection E as <-. exists None, []. split; [apply ST; constructor|]. split.
      - constructor.
        + intros [|? l1] r' en l2 y c t El; [injection El as <- <- <-; discriminate|destruct l1; discriminate].
        + intros r' en [H|[]]. injection H as <- <-. auto.
        + intros [|? l1] r' en l2 en2 El; [injection El as <- <- <-; contradiction|destruct l1; discriminate].
        + intros [|? l1] i' c' d' l2 El; [discriminate|destruct l1; discriminate].
      - intros r' en [H|[]]. injection H as <- <-. auto. }
  assert (X : forall cs w0 w2, (r < length (w_log w0))%nat -> go_nest f r e x cs w0 = Ok w2 ->
    exists l, steps w0 l w2 /\
      seg_ok (fun r' en => r' = r /\ l_end en = e /\ exists t, In (l_node en, t) cs /\ l_arg en = t x) l /\
      (forall c t, In (c, t) cs -> exists en', In (XCall r en') l /\ l_end en' = e /\ l_node en' = c /\ l_arg en' = t x) /\
      mostly r e (length (w_log w0)) (length (w_log w2)) l).
  { induction cs as [|[c t] cs IHc]; intros w0 w2 Lw El; cbn [go_nest] in El.
    - destruct (run_actions ns (nest_op ns hook g f) (hook w0) w0) as [wa|] eqn:Ea; [|discriminate]. cbn in El. injection El as <-.
      destruct (run_actions_log _ _ IH (HK w0) _ _ Ea) as [ev [S1 [G1 R1]]]. exists ev. split; auto. split; [|split].
      + revert G1. apply seg_weaken. tauto.
      + contradiction.
      + intros r' en I. right. exact (R1 r' en I).
    - destruct (run_actions ns (nest_op ns hook g f) (hook w0) w0) as [wa|] eqn:Ea; [|discriminate]. cbn in El.
      destruct (nest_op ns hook g f wa r c e (t x)) as [wb|] eqn:Eb; [|discriminate]. cbn in El. fold (go_nest f r e x) in El.
      destruct (run_actions_log _ _ IH (HK w0) _ _ Ea) as [ev [S1 [G1 R1]]]. pose proof (steps_length _ _ _ S1) as L1.
      destruct (IH _ _ _ _ _ _ Eb) as [nb [tb [S2 [G2 R2]]]]; [lia|]. pose proof (steps_length _ _ _ S2) as L2. cbn [length] in L2.
      destruct (IHc wb w2) as [l3 [S3 [G3 [A3 R3]]]]; [lia|exact El|]. pose proof (steps_length _ _ _ S3) as L3.
      set (b := Graph.mkL c e (t x) nb) in *.
      exists (ev ++ (XCall r b :: tb) ++ l3). split; [|split; [|split]].
      + eapply steps_app; [exact S1|]. eapply steps_app; eauto.
      + assert (G23 : seg_ok (fun r' en => (r' = r /\ en = b) \/ (r' = r /\ l_end en = e /\ exists t, In (l_node en, t) cs /\ l_arg en = t x)) ((XCall r b :: tb) ++ l3)).
        { apply seg_app; auto. intros r' e1 e2 I1 I2 He.
          destruct (R2 r' e1 I1) as [[Q1 X1]|X1], (R3 r' e2 I2) as [[Q2 X2]|X2]; try lia; congruence. }
        assert (GG : seg_ok (fun r' en => False \/ ((r' = r /\ en = b) \/ (r' = r /\ l_end en = e /\ exists t, In (l_node en, t) cs /\ l_arg en = t x))) (ev ++ ((XCall r b :: tb) ++ l3))).
        { apply seg_app; auto. intros r' e1 e2 I1 I2 He. specialize (R1 r' e1 I1). apply in_app_iff in I2. destruct I2 as [I2|I2].
          - destruct (R2 r' e2 I2) as [[-> X2]|X2]; lia.
          - destruct (R3 r' e2 I2) as [[-> X2]|X2]; lia. }
        revert GG. apply seg_weaken. intros r' en _ [[]|[[-> ->]|[-> [X1 [t' [X2 X3]]]]]]; left.
        * split; auto. split; auto. exists t. simpl; auto.
        * split; auto. split; auto. exists t'. simpl; auto.
      + intros c' t' [Q|Q].
        * injection Q as <- <-. exists b. split; [|auto]. apply in_or_app. right. simpl; auto.
        * destruct (A3 c' t' Q) as [en' [J Q']]. exists en'. split; auto. apply in_or_app. right. apply in_or_app; auto.
      + intros r' en I. apply in_app_iff in I. destruct I as [I|I]; [specialize (R1 r' en I); lia|].
        apply in_app_iff in I. destruct I as [I|I]; [destruct (R2 r' en I) as [[-> Y]|Y]|destruct (R3 r' en I) as [[-> Y]|Y]]; auto; lia. }
  destruct (X (deps g i) w1 w') as [l [S1 [G1 [A1 R1]]]]; [cbn; lia|exact E|]. pose proof (steps_length _ _ _ S1) as L1. cbn [w1 w_log length] in L1, R1.
  exists (Some x), l. fold top. split; [auto|]. split.
  - destruct G1 as [C1 O1 F1 Z1]. constructor.
    + intros [|z l1] r' en l2 y c t El Hn I; [injection El as <- <- <-|injection El as _ El].
      * cbn in Hn. injection Hn as <-. exact (A1 c t I).
      * exact (C1 l1 r' en l2 y c t El Hn I).
    + intros r' en [H|H]; [injection H as <- <-; auto|]. right. destruct (O1 r' en H) as [[-> [K1 [t [K2 K3]]]]|[K|K]].
      * right. exists top, x, t. split; [simpl; auto|]. auto.
      * left. apply (rooted_r [XCall r top]). exact K.
      * right. apply (forwarded_r [XCall r top]). exact K.
    + intros [|z l1] r' en l2 en2 El He I; [injection El as <- <- <-|injection El as _ El].
      * cbn in He. subst e. destruct (R1 r en2 I) as [[_ Y]|Y]; [auto|lia].
      * exact (F1 l1 r' en l2 en2 El He I).
    + intros [|z l1] i' c' d' l2 El; [discriminate|]. injection El as _ El. exact (Z1 l1 i' c' d' l2 El).
  - intros r' en [H|H]; [injection H as <- <-; auto|]. exact (R1 r' en H).
Qed.

Lemma session_log fuel l w w' : Forall (action_ok ns) l -> session ns hook g fuel l w = Ok w' ->
  exists ev, steps w ev w' /\ seg_ok (fun _ _ => False) ev.
Proof.
  intros F E. destruct (run_actions_log _ _ (nest_op_runs fuel) F _ _ E) as [ev [S1 [G1 _]]]. eauto.
Qed.

End Log.
