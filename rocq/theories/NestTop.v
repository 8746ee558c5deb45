(** Caches and announcements after sessions with nested updates. *)
From Coq Require Import List ZArith QArith Qcanon Bool Lia Lqa Arith Wf_nat Permutation.
From Verif Require Import Base Num NumFacts Interval IntervalFacts Curve Graph Combine CombineFacts PointsOps UpdFacts PointsDec GraphFacts GraphSettle GraphTop Live LiveNet LiveSpec LiveFacts LiveTop LiveReads LiveCalls LiveHist Nest NestLog NestSettle.
Import ListNotations.

(** The interfaces of the sources after some events. *)
Fixpoint env_after (env : nat -> ncurve) (l : list (event xq)) : nat -> ncurve :=
  match l with [] => env | XSet i c _ :: l' => env_after (set_env env i c) l' | _ :: l' => env_after env l' end.
(** Every change is announced, and the network is tame before and after it. *)
Definition honest (ns : list (node xq)) (env : nat -> ncurve) (ev : list (event xq)) : Prop :=
  forall a i c d b, ev = a ++ XSet i c d :: b ->
    tells d (env_after env a i) c /\ tame ns (env_after env a) /\ tame ns (set_env (env_after env a) i c).

Lemma efires_dec j l : {efires j l} + {~ efires j l}.
Proof.
  induction l as [|x l IH]; [right; intros [? [? [? [[] _]]]]|].
  destruct IH as [H|H]; [left; destruct H as [r [e [D [I K]]]]; exists r, e, D; simpl; auto|].
  assert (X : (forall r en, x = XCall r en -> ~ (l_node en = j /\ l_end en = true /\ l_not en <> None)) -> {efires j (x :: l)} + {~ efires j (x :: l)}).
  { intros N. right. intros [r [e [D [[I|I] [K1 [K2 K3]]]]]]; [apply (N r e I); repeat split; congruence|]. apply H. exists r, e, D. auto. }
  destruct x as [r en|k d|i c d]; try (apply X; discriminate).
  destruct (Nat.eq_dec (l_node en) j) as [E|E]; [|apply X; intros ? ? [= <- <-]; tauto].
  destruct (l_end en) eqn:Ee; [|apply X; intros ? ? [= <- <-] [_ [? _]]; congruence].
  destruct (l_not en) as [D|] eqn:Hn; [|apply X; intros ? ? [= <- <-] [_ [_ ?]]; congruence].
  left. exists r, en, D. simpl; auto.
Qed.

Section Top.
Variable ns : list (node xq).
Hypothesis W : proper ns.
Variable g : net xq.
Hypothesis Wg : wired ns g.

Lemma steps_env w l w' : steps ns w l w' -> w_env w' = env_after (w_env w) l.
Proof. induction 1; simpl; auto. Qed.

Section Run.
Variables (w0 w1 : world xq) (ev : list (event xq)).
Hypothesis ST : steps ns w0 ev w1.
Hypothesis SG : seg_ok ns g (fun _ _ => False) ev.
Hypothesis ID : forall j, idle (w_st w0 j).
Let G := g_good ns W g Wg.

Lemma fires_downward past fut : ev = past ++ fut -> downward ns (fun j => ~ efires j fut).
Proof.
  intros El j n p En Ip Hj Hp. apply Hj.
  apply (efires_deps ns W g G w0 w1 ev ST SG ID past fut p j (forwards n)); auto. now apply (g_dep ns W g Wg).
Qed.
Lemma set_fires past i c d fut : ev = past ++ XSet i c d :: fut -> forall j, depends g i j -> efires j fut.
Proof.
  intros El j Dj. destruct (sg_set ns g _ ev SG past i c d fut El) as [_ [_ [Hd [r [n [tl Et]]]]]]. induction Dj as [|p j t Dj IH It].
  - rewrite Et. apply (end_efires ns W g G w0 w1 ev ST SG ID (past ++ [XSet i c d]) r (Graph.mkL i true d n) tl); auto.
    rewrite El, Et, <- app_assoc. reflexivity.
  - eapply (efires_deps ns W g G w0 w1 ev ST SG ID (past ++ [XSet i c d])); eauto. rewrite El, <- app_assoc. reflexivity.
Qed.

(** A curve that will not notify again has a right cache. *)
Definition settled_right (w : world xq) (fut : list (event xq)) : Prop := forall j, ~ efires j fut -> right ns (w_env w) (w_st w) j.
Lemma fut_cons j x l : efires j l -> efires j (x :: l).
Proof. intros [r [e [D [I K]]]]. exists r, e, D. simpl; auto. Qed.
Lemma one_step x l w w2 past : ev = past ++ x :: l -> steps ns w [x] w2 -> settled_right w (x :: l) -> settled_right w2 l.
Proof.
  intros El H R. revert El. inversion H as [|? r i e d ? ? H1|? j0 s d ? ? E H1|? i c d ? ? H1]; subst; inversion H1; subst; intros El j Nj.
  - cbn [w_env w_st]. pose proof (node_op_dom (w_st w i) e d) as ND. intros d0. cbn [w_st]. unfold set_node.
    destruct (Nat.eqb_spec j i) as [->|Nji].
    + intros Hd. destruct ND as [ND|ND]; [|congruence].
      destruct (efires_dec i (XCall r (Graph.mkL i e d (snd (node_op (w_st w i) e d))) :: l)) as [F|F]; [|apply (R i F); congruence].
      exfalso. destruct F as [r' [en [D [[I|I] [K1 [K2 K3]]]]]]; [|apply Nj; exists r', en, D; auto].
      injection I as <- <-. cbn in K2, K3. subst e. rewrite node_op_fired in Hd by congruence. discriminate.
    + apply R. intros [r' [en [D [[I|I] [K1 [K2 K3]]]]]]; [injection I as <- <-; cbn in K1; congruence|]. apply Nj. exists r', en, D. auto.
  - destruct (read_dom_spec ns W (w_env w) (fun k => ~ efires k l) (S (length ns))) with (s := w_st w) (j := j0) as [s2 [d2 [E2 [S2 [R2 V2]]]]].
    + apply (fires_downward (past ++ [XRead j0 d])). rewrite El, <- app_assoc. reflexivity.
    + lia.
    + intros k Nk. apply R. intros [r' [en [D [[I|I] K]]]]; [discriminate|]. apply Nk. exists r', en, D. auto.
    + rewrite E in E2. injection E2 as <- <-. cbn [w_env w_st]. now apply R2.
  - cbn [w_env w_st]. intros d0 Hd. rewrite (not_depends_same ns W g Wg).
    + apply R; auto. intros [r' [en [D [[I|I] K]]]]; [discriminate|]. apply Nj. exists r', en, D. auto.
    + intros Dj. apply Nj. exact (set_fires past i c d l El j Dj).
Qed.
Lemma many_steps l : forall w past w2 fut, ev = past ++ l ++ fut -> steps ns w l w2 -> settled_right w (l ++ fut) -> settled_right w2 fut.
Proof.
  induction l as [|x l IH]; intros w past w2 fut El H R; [inversion H; subst; auto|].
  destruct (steps_split ns [x] l w w2 H) as [wa [A B]].
  apply (IH wa (past ++ [x]) w2 fut); auto; [rewrite El, <- app_assoc; reflexivity|]. eapply one_step; eauto.
Qed.

Lemma session_right : (forall j, right ns (w_env w0) (w_st w0) j) -> forall j, right ns (w_env w1) (w_st w1) j.
Proof.
  intros R j. apply (many_steps ev w0 [] w1 []); auto.
  - now rewrite app_nil_r.
  - intros k _. apply R.
  - intros [? [? [? [[] _]]]].
Qed.
Lemma not_fired_env past fut j : ev = past ++ fut -> ~ efires j fut -> forall env, curve_of (env_after env fut) ns j = curve_of env ns j.
Proof.
  revert past. induction fut as [|x fut IH]; intros past El Nj env; auto.
  assert (IH' : forall env, curve_of (env_after env fut) ns j = curve_of env ns j).
  { apply (IH (past ++ [x])); [rewrite El, <- app_assoc; reflexivity|]. intros F. apply Nj. now apply fut_cons. }
  destruct x as [r en|k d|i c d]; cbn [env_after]; auto. rewrite IH'. apply (not_depends_same ns W g Wg).
  intros Dj. apply Nj, fut_cons. exact (set_fires past i c d fut El j Dj).
Qed.
Lemma session_reads past j x fut : (forall j, right ns (w_env w0) (w_st w0) j) -> ev = past ++ XRead j x :: fut -> ~ efires j fut ->
  x = c_dom (curve_of (env_after (w_env w0) past) ns j) /\ x = c_dom (curve_of (w_env w1) ns j).
Proof.
  intros R El Nj. pose proof ST as ST'. rewrite El in ST'. destruct (steps_split ns past _ w0 w1 ST') as [wa [A B]].
  assert (Ra : settled_right wa (XRead j x :: fut)).
  { apply (many_steps past w0 [] wa (XRead j x :: fut)); auto. intros k _. apply R. }
  revert El. inversion B as [| |? j0 s d ? ? E H1|]; subst. intros El.
  assert (X : x = c_dom (curve_of (w_env wa) ns j)).
  { destruct (read_dom_spec ns W (w_env wa) (fun k => ~ efires k fut) (S (length ns))) with (s := w_st wa) (j := j) as [s2 [d2 [E2 [S2 [R2 V2]]]]].
    - apply (fires_downward (past ++ [XRead j x])). rewrite El, <- app_assoc. reflexivity.
    - lia.
    - intros k Nk. apply Ra. intros [r' [en [D [[I|I] K]]]]; [discriminate|]. apply Nk. exists r', en, D. auto.
    - rewrite E in E2. injection E2 as <- <-. auto. }
  rewrite <- (steps_env _ _ _ A). split; [exact X|]. rewrite (steps_env _ _ _ H1). cbn [w_env].
  rewrite (not_fired_env (past ++ [XRead j x]) fut j); auto. rewrite El, <- app_assoc. reflexivity.
Qed.

(** ** Announcements *)
Lemma set_told past i c d fut env : ev = past ++ XSet i c d :: fut -> sources_ok ns env -> tame ns env -> tame ns (set_env env i c) -> tells d (env i) c ->
  forall j q,
    (y_changes (curve_of env ns j) (curve_of (set_env env i c) ns j) q -> etold fut j q) /\
    (local_domain ns j -> dom_changes (curve_of env ns j) (curve_of (set_env env i c) ns j) q -> etold fut j q).
Proof.
  intros El S T T' K. destruct (sg_set ns g _ ev SG past i c d fut El) as [Ei [Oc [Hd [r [n0 [tl Et]]]]]].
  set (env' := set_env env i c) in *. assert (S' : sources_ok ns env') by now apply source_ok_set.
  assert (EV : ev = (past ++ [XSet i c d]) ++ fut) by (rewrite El, <- app_assoc; reflexivity).
  intros j. induction j as [j IH] using lt_wf_ind. intros q.
  destruct (nth_error ns j) as [n|] eqn:E.
  2:{ apply nth_error_None in E. unfold y_changes, dom_changes. rewrite !curve_out by auto. split; [congruence|intros _; congruence]. }
  assert (SRC : n = NSource \/ n <> NSource) by (destruct n; [left; reflexivity|right; discriminate..]).
  destruct SRC as [->|Ns].
  - assert (SC : y_changes (curve_of env ns j) (curve_of env' ns j) q \/ dom_changes (curve_of env ns j) (curve_of env' ns j) q -> etold fut j q); [|split; auto].
    unfold y_changes, dom_changes. rewrite (curve_eq env ns j _ W E), (curve_eq env' ns j _ W E). cbn [node_curve].
    unfold env', set_env. destruct (Nat.eqb_spec j i) as [->|Nj]; [|intros [H|H]; congruence].
    intros H. rewrite Et. apply (end_told ns W g G w0 w1 ev ST SG ID (past ++ [XSet i c d]) r (Graph.mkL i true d n0) tl); [now rewrite <- Et|reflexivity|]. cbn [l_arg]. apply K. exact H.
  - assert (FR : forall p, In p (reads n) -> (p < j)%nat) by (destruct (W j n E) as [_ F]; exact (proj1 (Forall_forall _ _) F)).
    split.
    + intros H. destruct (y_from ns W env env' S S' j n q E Ns (T j n E) (T' j n E) H) as [p [z [I [Fw C]]]].
      apply (etold_deps ns W g G w0 w1 ev ST SG ID _ fut p j (forwards n) z q EV); auto.
      * destruct (IH p (FR p I) z) as [I1 I2]. destruct C as [C|[C1 C2]]; auto.
      * now apply (g_dep ns W g Wg).
    + intros L H. destruct (dom_from ns W env env' S S' j n q E Ns L H) as [p [z [I [Fw [C1 C2]]]]].
      apply (etold_deps ns W g G w0 w1 ev ST SG ID _ fut p j (forwards n) z q EV); auto.
      * destruct (IH p (FR p I) z) as [I1 I2]. auto.
      * now apply (g_dep ns W g Wg).
Qed.
Lemma sources_after fut : forall past env, ev = past ++ fut -> sources_ok ns env -> sources_ok ns (env_after env fut).
Proof.
  induction fut as [|x fut IH]; intros past env El S; auto.
  assert (EV : ev = (past ++ [x]) ++ fut) by (rewrite El, <- app_assoc; reflexivity).
  destruct x as [r en|k d|i c d]; cbn [env_after]; eauto. eapply IH; eauto. apply source_ok_set; auto.
  apply (sg_set ns g _ ev SG past i c d fut El).
Qed.
Lemma etold_cons l x j q : etold l j q -> etold (x :: l) j q.
Proof. intros [r [e [D [I K]]]]. exists r, e, D. simpl; auto. Qed.
Lemma session_told : sources_ok ns (w_env w0) -> honest ns (w_env w0) ev -> forall j q,
  (y_changes (curve_of (w_env w0) ns j) (curve_of (w_env w1) ns j) q -> etold ev j q) /\
  (local_domain ns j -> dom_changes (curve_of (w_env w0) ns j) (curve_of (w_env w1) ns j) q -> etold ev j q).
Proof.
  intros S0 HO j q. rewrite (steps_env _ _ _ ST).
  assert (X : forall fut past env, ev = past ++ fut -> env = env_after (w_env w0) past -> sources_ok ns env ->
    (y_changes (curve_of env ns j) (curve_of (env_after env fut) ns j) q -> etold fut j q) /\
    (local_domain ns j -> dom_changes (curve_of env ns j) (curve_of (env_after env fut) ns j) q -> etold fut j q)).
  2:{ apply (X ev []); auto. }
  assert (EA : forall a b env, env_after env (a ++ b) = env_after (env_after env a) b).
  { induction a as [|x a IHa]; intros b env; auto. destruct x; simpl; auto. }
  induction fut as [|x fut IH]; intros past env El Ee S.
  { cbn [env_after]. unfold y_changes, dom_changes. split; [congruence|intros _; congruence]. }
  assert (EV : ev = (past ++ [x]) ++ fut) by (rewrite El, <- app_assoc; reflexivity).
  specialize (IH (past ++ [x])). rewrite EA in IH.
  destruct x as [r en|k d|i c d]; cbn [env_after] in *.
  - destruct (IH env EV Ee S) as [A B]. split; intros; apply etold_cons; auto.
  - destruct (IH env EV Ee S) as [A B]. split; intros; apply etold_cons; auto.
  - destruct (HO past i c d fut El) as [K [T T']]. rewrite <- Ee in K, T, T'.
    destruct (IH (set_env env i c) EV) as [A B]; [now rewrite Ee|apply source_ok_set; auto; apply (sg_set ns g _ ev SG past i c d fut El)|].
    destruct (set_told past i c d fut env El S T T' K j q) as [A2 B2]. split.
    + intros H. apply etold_cons. destruct (y_changes_dec (curve_of env ns j) (curve_of (set_env env i c) ns j) q) as [Y|Y]; auto.
      apply A. apply y_same in Y. unfold y_changes in *. congruence.
    + intros L H. apply etold_cons. destruct (dom_changes_dec (curve_of env ns j) (curve_of (set_env env i c) ns j) q) as [Y|Y]; auto.
      apply B; auto. apply dom_same in Y. unfold dom_changes in *. congruence.
Qed.

End Run.

(** ** Whole sessions *)
Variable hook : world xq -> list (action xq).
Hypothesis HK : forall w, Forall (action_ok ns) (hook w).
Variables (env : nat -> ncurve) (fuel : nat) (l : list (action xq)) (w1 : world xq).
Hypothesis HL : Forall (action_ok ns) l.
Hypothesis RUN : session ns hook g fuel l (new_world env) = Ok w1.

Lemma session_events : exists ev, w_log w1 = rev ev /\ steps ns (new_world env) ev w1 /\ seg_ok ns g (fun _ _ => False) ev.
Proof.
  destruct (session_log ns hook g HK fuel l _ _ HL RUN) as [ev [S1 G1]]. exists ev. split; [|auto].
  rewrite (steps_log _ _ _ _ S1). cbn. now rewrite app_nil_r.
Qed.
Lemma new_idle : forall j, idle (w_st (new_world env) j).
Proof. intros j. split; reflexivity. Qed.
Lemma new_right : forall j, right ns (w_env (new_world env)) (w_st (new_world env)) j.
Proof. intros j d. discriminate. Qed.

Lemma nest_settled j : idle (w_st w1 j) /\ right ns (w_env w1) (w_st w1) j.
Proof.
  destruct session_events as [ev [_ [S1 G1]]]. split.
  - exact (settled_idle ns W g (g_good ns W g Wg) _ _ ev S1 G1 new_idle j).
  - exact (session_right _ _ ev S1 G1 new_idle new_right j).
Qed.
Lemma nest_domain j : exists s', read_dom (w_env w1) ns (S (length ns)) (w_st w1) j = Ok (s', c_dom (curve_of (w_env w1) ns j)).
Proof.
  destruct (read_dom_spec ns W (w_env w1) (fun _ => True) (S (length ns)) ltac:(intros ? ? ? _ _ _; exact I) (w_st w1) j) as [s2 [d2 [E2 [S2 [R2 V2]]]]]; [lia| |].
  - intros k _. apply nest_settled.
  - exists s2. rewrite V2 in E2; auto.
Qed.
Lemma nest_env : w_env w1 = env_after env (rev (w_log w1)).
Proof. destruct session_events as [ev [El [S1 G1]]]. rewrite El, rev_involutive. exact (steps_env _ _ _ S1). Qed.
Lemma nest_reads past j x fut : rev (w_log w1) = past ++ XRead j x :: fut -> ~ efires j fut ->
  x = c_dom (curve_of (env_after env past) ns j) /\ x = c_dom (curve_of (w_env w1) ns j).
Proof.
  destruct session_events as [ev [El [S1 G1]]]. rewrite El, rev_involutive. intros Ev.
  exact (session_reads _ _ ev S1 G1 new_idle past j x fut new_right Ev).
Qed.
Lemma nest_told : sources_ok ns env -> honest ns env (rev (w_log w1)) -> forall j q,
  (y_changes (curve_of env ns j) (curve_of (w_env w1) ns j) q -> etold (rev (w_log w1)) j q) /\
  (local_domain ns j -> dom_changes (curve_of env ns j) (curve_of (w_env w1) ns j) q -> etold (rev (w_log w1)) j q).
Proof.
  destruct session_events as [ev [El [S1 G1]]]. rewrite El, rev_involutive. intros S H.
  exact (session_told _ _ ev S1 G1 new_idle S H).
Qed.

End Top.
