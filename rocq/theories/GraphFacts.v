(** Networks settle after every complete update. *)
From Coq Require Import List ZArith QArith Bool Lia Arith Wf_nat.
From Verif Require Import Base Num NumFacts Interval IntervalFacts Curve Graph PointsOps UpdFacts.
Import ListNotations.

(** Dependants have larger numbers; their interval maps are monotone and do not
    lose updates. *)
Definition acyclic (g : net xq) : Prop :=
  forall i c t, In (c, t) (deps g i) -> (i < c < length g)%nat.
Definition monotone (t : ival xq -> ival xq) : Prop :=
  (forall a, iok a -> iok (t a)) /\
  (forall a b, iok a -> iok b -> i_is_empty b = false -> i_superset a b = true -> i_superset (t a) (t b) = true) /\
  (forall a, iok a -> i_intersects a i_infinite = true -> i_intersects (t a) i_infinite = true).
Definition good_net (g : net xq) : Prop :=
  acyclic g /\ forall i c t, In (c, t) (deps g i) -> monotone t.

Definition proj (j : nat) (l : list (entry xq)) : list (entry xq) := filter (fun e => (l_node e =? j)%nat) l.
Definition apply1 (u : upd xq) (e : entry xq) : upd xq := fst (node_op u (l_end e) (l_arg e)).
Definition applyl (u : upd xq) (l : list (entry xq)) : upd xq := fold_left apply1 l u.

Definition go_deps (g : net xq) f (e : bool) (x : ival xq) :=
  fix go (cs : list (nat * (ival xq -> ival xq))) (s : nstate xq) : res (nstate xq * list (entry xq)) :=
    match cs with
    | [] => Ok (s, [])
    | (c, t) :: cs' =>
        let! (s1, l1) := net_op g f s c e (t x) in
        let! (s2, l2) := go cs' s1 in
        Ok (s2, l1 ++ l2)
    end.

Lemma net_op_eq g f s i e d : net_op g (S f) s i e d =
  let '(u, n) := node_op (s i) e d in
  let s1 := set_node s i u in
  let! (s2, log) := match n with None => Ok (s1, []) | Some x => go_deps g f e x (deps g i) s1 end in
  Ok (s2, mkL i e d n :: log).
Proof. reflexivity. Qed.

Section Net.
Variable g : net xq.
Hypothesis G : good_net g.

(** ** Enough fuel *)
Lemma net_op_total f : forall s i e d, (length g <= i + f)%nat -> (i < length g)%nat -> exists r, net_op g f s i e d = Ok r.
Proof.
  induction f as [|f IH]; intros s i e d L Li; [lia|]. rewrite net_op_eq.
  destruct (node_op (s i) e d) as [u [x|]]; [|cbn; eauto].
  assert (X : forall cs s1, (forall c t, In (c, t) cs -> (i < c < length g)%nat) -> exists r, go_deps g f e x cs s1 = Ok r).
  { induction cs as [|[c t] cs IHc]; intros s1 H; simpl; eauto.
    destruct (IH s1 c e (t x)) as [[s2 l2] E]; [specialize (H c t (or_introl eq_refl)); lia|apply (H c t); simpl; auto|].
    rewrite E. cbn. destruct (IHc s2) as [[s3 l3] E3]; [intros; eapply H; simpl; eauto|].
    rewrite E3. cbn. eauto. }
  destruct (X (deps g i) (set_node s i u)) as [[s2 l2] E].
  { intros c t I. apply (proj1 G _ _ _ I). }
  cbn zeta. rewrite E. cbn. eauto.
Qed.

(** ** The log *)
Definition in_deps (p : nat) (x : ival xq) (c : nat) (a : ival xq) : Prop := exists t, In (c, t) (deps g p) /\ a = t x.
(** dependants are visited after the notification *)
Definition closed (log : list (entry xq)) : Prop :=
  forall l1 en l2 x c t, log = l1 ++ en :: l2 -> l_not en = Some x -> In (c, t) (deps g (l_node en)) ->
    exists en', In en' l2 /\ l_node en' = c /\ l_arg en' = t x.
Definition edges (p j : nat) : nat := length (filter (fun ct => (fst ct =? j)%nat) (deps g p)).
Definition incoming (j : nat) (log : list (entry xq)) : nat :=
  list_sum (map (fun en => match l_not en with Some _ => edges (l_node en) j | None => 0%nat end) log).

Record log_ok (s s' : nstate xq) (e : bool) (log : list (entry xq)) : Prop := {
  lo_kind : Forall (fun en => l_end en = e) log;
  lo_state : forall j, s' j = applyl (s j) (proj j log);
  lo_not : forall l1 en l2, log = l1 ++ en :: l2 ->
     snd (node_op (applyl (s (l_node en)) (proj (l_node en) l1)) e (l_arg en)) = l_not en;
  lo_closed : closed log
}.

Lemma proj_app j l1 l2 : proj j (l1 ++ l2) = proj j l1 ++ proj j l2.
Proof. apply filter_app. Qed.
Lemma applyl_app u l1 l2 : applyl u (l1 ++ l2) = applyl (applyl u l1) l2.
Proof. apply fold_left_app. Qed.
Lemma app_cons_split {A} (a b l1 l2 : list A) x : a ++ b = l1 ++ x :: l2 ->
  (exists k, a = l1 ++ x :: k /\ l2 = k ++ b) \/ (exists k, l1 = a ++ k /\ b = k ++ x :: l2).
Proof.
  revert l1. induction a as [|y a IH]; intros l1 E; simpl in E.
  - right. exists l1. auto.
  - destruct l1 as [|z l1]; simpl in E; injection E as <- E.
    + left. exists a. auto.
    + destruct (IH l1 E) as [[k [-> ->]]|[k [-> ->]]]; [left|right]; exists k; auto.
Qed.

Lemma log_ok_app s s1 s2 e l1 l2 : log_ok s s1 e l1 -> log_ok s1 s2 e l2 -> log_ok s s2 e (l1 ++ l2).
Proof.
  intros [K1 S1 N1 C1] [K2 S2 N2 C2]. constructor.
  - apply Forall_app; auto.
  - intros j. rewrite proj_app, applyl_app, S2, S1. reflexivity.
  - intros a en b E. destruct (app_cons_split _ _ _ _ _ E) as [[k [-> ->]]|[k [-> ->]]].
    + apply (N1 a en k eq_refl).
    + rewrite proj_app, applyl_app, <- S1. apply (N2 k en b eq_refl).
  - intros a en b x c t E Hn I. destruct (app_cons_split _ _ _ _ _ E) as [[k [-> ->]]|[k [-> ->]]].
    + destruct (C1 a en k x c t eq_refl Hn I) as [en' [J1 J2]]. exists en'. split; auto. apply in_or_app; auto.
    + apply (C2 k en b x c t eq_refl Hn I).
Qed.

Lemma net_op_log f : forall s i e d s' log, net_op g f s i e d = Ok (s', log) ->
  log_ok s s' e log /\
  (exists n tl, log = mkL i e d n :: tl /\ n = snd (node_op (s i) e d)) /\
  (forall j, length (proj j log) = (if (i =? j)%nat then 1 else 0) + incoming j log)%nat /\
  (forall en, In en log -> (l_node en = i /\ l_arg en = d) \/ exists p, In p log /\ exists x, l_not p = Some x /\ in_deps (l_node p) x (l_node en) (l_arg en)).
Proof.
  induction f as [|f IH]; intros s i e d s' log E; [discriminate|]. rewrite net_op_eq in E.
  destruct (node_op (s i) e d) as [u n] eqn:No. cbn zeta in E.
  destruct n as [x|].
  2:{ cbn in E. injection E as <- <-. split; [|split; [|split]].
      - constructor.
        + repeat constructor.
        + intros j. unfold set_node. simpl. unfold proj, applyl. simpl. rewrite (Nat.eqb_sym i j).
          destruct (Nat.eqb_spec j i) as [->|]; simpl; auto. unfold apply1. simpl. now rewrite No.
        + intros [|a l1] en l2 Q; [injection Q as <- <-|destruct l1; discriminate]. simpl. now rewrite No.
        + intros [|a l1] en l2 y c t Q Hn I; [injection Q as <- <-; discriminate|destruct l1; discriminate].
      - exists None, []. auto.
      - intros j. simpl. destruct (i =? j)%nat; reflexivity.
      - intros en [<-|[]]. left. auto. }
  set (s1 := set_node s i u) in *.
  (* the loop *)
  assert (X : forall cs s0 s2 l, go_deps g f e x cs s0 = Ok (s2, l) -> 
    log_ok s0 s2 e l /\
    (forall c t, In (c, t) cs -> exists en', In en' l /\ l_node en' = c /\ l_arg en' = t x) /\
    (forall j, length (proj j l) = length (filter (fun ct => (fst ct =? j)%nat) cs) + incoming j l)%nat /\
    (forall en, In en l -> (exists t, In (l_node en, t) cs /\ l_arg en = t x) \/
        exists p, In p l /\ exists y, l_not p = Some y /\ in_deps (l_node p) y (l_node en) (l_arg en))).
  { induction cs as [|[c t] cs IHc]; intros s0 s2 l El; simpl in El.
    - injection El as <- <-. split; [|split; [|split]].
      + constructor; try constructor; intros [|? ?]; discriminate.
      + contradiction.
      + reflexivity.
      + contradiction.
    - destruct (net_op g f s0 c e (t x)) as [[sa la]|] eqn:Ea; [|discriminate]. cbn in El.
      destruct (go_deps g f e x cs sa) as [[sb lb]|] eqn:Eb; [|discriminate]. cbn in El. injection El as <- <-.
      destruct (IH _ _ _ _ _ _ Ea) as [A1 [[na [ta [A2 _]]] [A3 A4]]]. destruct (IHc _ _ _ Eb) as [B1 [B2 [B3 B4]]].
      split; [eapply log_ok_app; eauto|]. split; [|split].
      + intros c' t' [Q|Q].
        * injection Q as <- <-. exists (mkL c e (t x) na). split; [apply in_or_app; left; rewrite A2; simpl; auto|split; reflexivity].
        * destruct (B2 c' t' Q) as [en' [J1 J2]]. exists en'. split; auto. apply in_or_app; auto.
      + intros j. rewrite proj_app, app_length, A3, B3. unfold incoming. rewrite map_app, list_sum_app. simpl.
        destruct (c =? j)%nat; simpl; lia.
      + intros en I. apply in_app_iff in I. destruct I as [I|I].
        * destruct (A4 en I) as [[Q1 Q2]|[p [P1 P2]]].
          -- left. exists t. rewrite Q1, Q2. simpl. auto.
          -- right. exists p. split; auto. apply in_or_app; auto.
        * destruct (B4 en I) as [[t' [Q1 Q2]]|[p [P1 P2]]].
          -- left. exists t'. split; auto. simpl; auto.
          -- right. exists p. split; auto. apply in_or_app; auto. }
  destruct (go_deps g f e x (deps g i) s1) as [[s2 l]|] eqn:El; [|discriminate]. cbn in E. injection E as <- <-.
  destruct (X _ _ _ _ El) as [[K1 S1 N1 C1] [X2 [X3 X4]]].
  assert (LI : forall j, applyl (s j) (proj j [mkL i e d (Some x)]) = s1 j).
  { intros j. unfold proj, applyl, s1, set_node. simpl. rewrite (Nat.eqb_sym i j).
    destruct (Nat.eqb_spec j i) as [->|]; simpl; auto. unfold apply1. simpl. now rewrite No. }
  split; [|split; [|split]].
  - constructor.
    + constructor; auto.
    + intros j. change (mkL i e d (Some x) :: l) with ([mkL i e d (Some x)] ++ l). rewrite proj_app, applyl_app, LI. apply S1.
    + intros [|a l1] en l2 Q; injection Q as <- Q.
      * simpl. now rewrite No.
      * change (mkL i e d (Some x) :: l1) with ([mkL i e d (Some x)] ++ l1). rewrite proj_app, applyl_app, LI. now apply (N1 l1 en l2).
    + intros [|a l1] en l2 y c t Q Hn I; injection Q as <- Q.
      * subst l2. simpl in Hn. injection Hn as <-. simpl in I. apply X2; auto.
      * eapply C1; eauto.
  - exists (Some x), l. auto.
  - intros j. change (mkL i e d (Some x) :: l) with ([mkL i e d (Some x)] ++ l).
    rewrite proj_app, app_length, X3. unfold incoming at 2. simpl. fold (incoming j l).
    unfold edges. destruct (i =? j)%nat; simpl; lia.
  - intros en [<-|I]; [left; auto|]. right. destruct (X4 en I) as [[t [Q1 Q2]]|[p [P1 P2]]].
    + exists (mkL i e d (Some x)). split; [simpl; auto|]. exists x. split; auto. exists t. auto.
    + exists p. split; auto. simpl; auto.
Qed.

End Net.
