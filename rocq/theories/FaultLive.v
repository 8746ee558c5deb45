(** Broken off updates in networks of curves with values and domains. *)
From Coq Require Import List ZArith QArith Qcanon Bool Lia Lqa Arith Wf_nat Permutation.
From Verif Require Import Base Num NumFacts Interval IntervalFacts Curve Graph Combine CombineFacts PointsOps UpdFacts PointsDec GraphFacts GraphSettle GraphTop Live LiveNet LiveSpec LiveFacts LiveTop LiveReads LiveCalls LiveHist Fault FaultFacts FaultTop.
Import ListNotations.

(** [troubled env0 env s l]: since the network was created with the sources
    [env0], domains were read and the updates [l] were attempted, with callbacks
    that may raise at any point; now the sources are [env] and the state is [s].
    An update whose begin was broken off changed nothing (points.py:61-85). *)
Inductive troubled (ns : list (node xq)) (g : net xq) (env0 : nat -> ncurve) : (nat -> ncurve) -> nstate xq -> list (nat * ival xq) -> Prop :=
| tr_start : troubled ns g env0 env0 (fun _ => upd_init) []
| tr_read env s l j s' d : troubled ns g env0 env s l -> read_dom env ns (S (length ns)) s j = Ok (s', d) -> troubled ns g env0 env s' l
| tr_begin env s l raises log i d s' log' : troubled ns g env0 env s l -> nth_error ns i = Some NSource -> iok d -> i_intersects d i_infinite = true ->
    fault_op g raises (length ns) s log i false d = Ok (s', log', true) -> troubled ns g env0 env s' ((i, d) :: l)
| tr_change env s l raises log i c d s1 log1 s2 log2 b : troubled ns g env0 env s l -> nth_error ns i = Some NSource -> iok (c_dom c) ->
    iok d -> i_intersects d i_infinite = true -> tells d (env i) c -> tame ns env -> tame ns (set_env env i c) ->
    fault_op g raises (length ns) s log i false d = Ok (s1, log1, false) ->
    fault_op g raises (length ns) s1 log1 i true d = Ok (s2, log2, b) -> troubled ns g env0 (set_env env i c) s2 ((i, d) :: l).
(** [mended env s env' s' l L]: the updates [l] are made without exceptions, and
    [L] are the calls. *)
Inductive mended (ns : list (node xq)) (g : net xq) : (nat -> ncurve) -> nstate xq -> (nat -> ncurve) -> nstate xq -> list (nat * ival xq) -> list (entry xq) -> Prop :=
| md_done env s : mended ns g env s env s [] []
| md_change env s i c d s1 lb le env' s' l L : nth_error ns i = Some NSource -> iok (c_dom c) ->
    iok d -> i_intersects d i_infinite = true -> tells d (env i) c -> tame ns env -> tame ns (set_env env i c) ->
    net_update g (length ns) s i d = Ok (s1, lb, le) -> mended ns g (set_env env i c) s1 env' s' l L ->
    mended ns g env s env' s' ((i, d) :: l) (lb ++ le ++ L).

Section Live.
Variable ns : list (node xq).
Hypothesis W : proper ns.
Variable g : net xq.
Hypothesis Wg : wired ns g.
Let G := g_good ns W g Wg.

Lemma fault_depends raises f : forall s log i e d s' log' b, fault_op g raises f s log i e d = Ok (s', log', b) -> forall j, ~ depends g i j -> s' j = s j.
Proof.
  induction f as [|f IH]; intros s log i e d s' log' b F j Nj; [discriminate|]. rewrite fault_op_eq in F.
  destruct (node_op (s i) e d) as [u n] eqn:No.
  assert (Ej : set_node s i u j = s j). { unfold set_node. destruct (Nat.eqb_spec j i) as [->|]; auto. exfalso. apply Nj. constructor. }
  destruct n as [x|]; [|injection F as <- <- <-; auto]. rewrite <- Ej.
  assert (X : forall cs s0 log0 s4 log4 b4, fault_deps g raises f e x cs s0 log0 = Ok (s4, log4, b4) ->
    (forall c t, In (c, t) cs -> In (c, t) (deps g i)) -> s4 j = s0 j).
  { induction cs as [|[c t] cs IHc]; intros s0 log0 s4 log4 b4 Fl IC; simpl in Fl.
    - destruct (raises log0); injection Fl as <- <- <-; auto.
    - destruct (raises log0); [injection Fl as <- <- <-; auto|].
      destruct (fault_op g raises f s0 log0 c e (t x)) as [[[sc lc] bc]|] eqn:Ec; [|discriminate]. cbn [rbind] in Fl.
      assert (Ea : sc j = s0 j).
      { apply (IH _ _ _ _ _ _ _ _ Ec). intros Dc. apply Nj. clear - Dc IC. specialize (IC c t (or_introl eq_refl)).
        induction Dc as [|p k t' Dc IH It]; [eapply dep_step; [constructor|eauto]|eapply dep_step; eauto]. }
      destruct bc; [injection Fl as <- <- <-; auto|]. rewrite <- Ea. apply (IHc _ _ _ _ _ Fl). intros c' t' I. apply IC. simpl; auto. }
  apply (X _ _ _ _ _ _ F). auto.
Qed.

Lemma depends_or i j : depends g i j \/ ~ depends g i j.
Proof.
  induction j as [j IH] using lt_wf_ind. destruct (Nat.eq_dec j i) as [->|N]; [left; constructor|].
  assert (X : forall k, (k <= j)%nat -> (exists p t, (p < k)%nat /\ In (j, t) (deps g p) /\ depends g i p) \/ (forall p t, (p < k)%nat -> In (j, t) (deps g p) -> ~ depends g i p)).
  { induction k as [|k IHk]; intros Hk; [right; intros; lia|]. destruct IHk as [[p [t [L H]]]|H]; [lia|left; exists p, t; split; auto; lia|].
    destruct (IH k ltac:(lia)) as [D|D].
    - destruct (exists_dec (fun ct : nat * (ival xq -> ival xq) => fst ct = j) (deps g k)) as [[[c t] [I E]]|E]; [intros a; apply Nat.eq_dec|left; exists k, t; cbn in E; subst c; auto|].
      right. intros p t L I. destruct (Nat.eq_dec p k) as [->|]; [exfalso; exact (E (j, t) I eq_refl)|apply (H p t); auto; lia].
    - right. intros p t L I. destruct (Nat.eq_dec p k) as [->|]; auto. apply (H p t); auto; lia. }
  destruct (X j (le_n j)) as [[p [t [L [I D]]]]|H]; [left; eapply dep_step; eauto|]. right. intros D. inversion D as [|p c t D' I]; subst; [congruence|].
  apply (H p t); auto. apply (proj1 G _ _ _ I).
Qed.

(** ** The values *)
(** [q] lies in one of the intervals that the updates [l] amount to at [j]. *)
Definition reached (l : list (nat * ival xq)) (j : nat) (q : Qc) : Prop :=
  exists i d y, In (i, d) l /\ carried g i d j y /\ imem y (Fin q).
Lemma len_g : length g = length ns.
Proof. apply Wg. Qed.
Lemma src_lt i (n : node xq) : nth_error ns i = Some n -> (i < length g)%nat.
Proof. intros E. rewrite len_g. apply nth_error_Some. congruence. Qed.

Lemma change_reached l env i c d d' : sources_ok ns env -> iok (c_dom c) -> nth_error ns i = Some NSource -> tame ns env -> tame ns (set_env env i c) -> tells d (env i) c ->
  allok l -> iok d -> In (i, d') l -> i_superset d' d = true -> forall j q,
    (y_changes (curve_of env ns j) (curve_of (set_env env i c) ns j) q -> reached l j q) /\
    (local_domain ns j -> dom_changes (curve_of env ns j) (curve_of (set_env env i c) ns j) q -> reached l j q).
Proof.
  intros S Oc Ei T T' K AL Hd Il Sd. set (env' := set_env env i c) in *. assert (S' : sources_ok ns env') by now apply source_ok_set.
  assert (Od' : iok d') by exact (proj1 (proj1 (Forall_forall _ _) AL _ Il)).
  intros j. induction j as [j IH] using lt_wf_ind. intros q.
  destruct (nth_error ns j) as [n|] eqn:E.
  2:{ apply nth_error_None in E. unfold y_changes, dom_changes. rewrite !curve_out by auto. split; [congruence|intros _; congruence]. }
  assert (DEP : forall p z, reached l p z -> In p (reads n) -> (forall D, iok D -> imem D (Fin z) -> imem (forwards n D) (Fin q)) -> reached l j q).
  { intros p z [i0 [d0 [y [I0 [C M]]]]] Ip Fw. exists i0, d0, (forwards n y). split; auto. split.
    - eapply ca_step; [exact C|]. now apply (g_dep ns W g Wg).
    - apply Fw; auto. destruct (proj1 (Forall_forall _ _) AL _ I0) as [O0 H0]. apply (ca_ok g G _ _ _ _ O0 H0 C). }
  assert (SRC : n = NSource \/ n <> NSource) by (destruct n; [left; reflexivity|right; discriminate..]).
  destruct SRC as [->|Ns].
  - assert (SC : y_changes (curve_of env ns j) (curve_of env' ns j) q \/ dom_changes (curve_of env ns j) (curve_of env' ns j) q -> reached l j q); [|split; auto].
    unfold y_changes, dom_changes. rewrite (curve_eq env ns j _ W E), (curve_eq env' ns j _ W E). cbn [node_curve].
    unfold env', set_env. destruct (Nat.eqb_spec j i) as [->|Nj]; [|intros [H|H]; congruence].
    intros H. exists i, d', d'. split; auto. split; [constructor|]. apply (proj1 (superset_iff d' d Od' Hd) Sd); [discriminate|]. apply K. exact H.
  - assert (FR : forall p, In p (reads n) -> (p < j)%nat) by (destruct (W j n E) as [_ F]; exact (proj1 (Forall_forall _ _) F)).
    split.
    + intros H. destruct (y_from ns W env env' S S' j n q E Ns (T j n E) (T' j n E) H) as [p [z [I [Fw C]]]].
      apply (DEP p z); auto. destruct (IH p (FR p I) z) as [I1 I2]. destruct C as [C|[C1 C2]]; auto.
    + intros L H. destruct (dom_from ns W env env' S S' j n q E Ns L H) as [p [z [I [Fw [C1 C2]]]]].
      apply (DEP p z); auto. destruct (IH p (FR p I) z) as [I1 I2]. auto.
Qed.
Definition moved (env env' : nat -> ncurve) (P : nat -> Qc -> Prop) : Prop := forall j q,
  (y_changes (curve_of env ns j) (curve_of env' ns j) q -> P j q) /\
  (local_domain ns j -> dom_changes (curve_of env ns j) (curve_of env' ns j) q -> P j q).
Lemma moved_refl env P : moved env env P.
Proof. intros j q. unfold y_changes, dom_changes. split; [congruence|intros _; congruence]. Qed.
Lemma moved_trans e1 e2 e3 P : moved e1 e2 P -> moved e2 e3 P -> moved e1 e3 P.
Proof.
  intros A B j q. destruct (A j q) as [A1 A2], (B j q) as [B1 B2]. split.
  - intros H. destruct (y_changes_dec (curve_of e1 ns j) (curve_of e2 ns j) q) as [Y|Y]; auto. apply B1. apply y_same in Y. unfold y_changes in *. congruence.
  - intros L H. destruct (dom_changes_dec (curve_of e1 ns j) (curve_of e2 ns j) q) as [Y|Y]; auto. apply B2; auto. apply dom_same in Y. unfold dom_changes in *. congruence.
Qed.

(** ** Histories *)
Definition covers (l0 l : list (nat * ival xq)) : Prop := forall i d, In (i, d) l0 -> exists d', In (i, d') l /\ i_superset d' d = true.
Lemma aside_downward (l : list (nat * ival xq)) : downward ns (fun j => forall i d, In (i, d) l -> ~ depends g i j).
Proof.
  intros j n p En Ip H i d I D. apply (H i d I). eapply dep_step; [exact D|]. exact (g_dep ns W g Wg p j n En Ip).
Qed.
Lemma wfu_same s s' : same_upd s s' -> (forall j, wfu (s j)) -> forall j, wfu (s' j).
Proof. intros S H j. destruct (S j) as [A B], (H j) as [O1 O2 O3 J]. constructor; rewrite <- ?A, <- ?B; auto. destruct J as [[J1 J2]|J]; [left; split; congruence|right; auto]. Qed.

Lemma troubled_inv env0 l : sources_ok ns env0 -> allok l -> forall env s l0, troubled ns g env0 env s l0 -> covers l0 l ->
  sources_ok ns env /\ (forall j, wfu (s j)) /\ bounded g s l0 /\ allok l0 /\
  (forall j, (forall i d, In (i, d) l -> ~ depends g i j) -> right ns env s j) /\ moved env0 env (reached l).
Proof.
  intros S0 AL env s l0 H. induction H as [|env s l0 j s' d H IH E|env s l0 raises log i d s' log' H IH Ei Hd Hh E|env s l0 raises log i c d s1 log1 s2 log2 b H IH Ei Oc Hd Hh K T T' E1 E2]; intros CV.
  - split; [auto|]. split; [intros j; apply wfu_idle; split; reflexivity|]. split; [intros j D _ _; apply superset_empty_r, i_empty_is_empty|].
    split; [constructor|]. split; [intros j _ d; discriminate|apply moved_refl].
  - destruct (IH CV) as [S [Wf [B [A [R M]]]]].
    destruct (read_dom_spec ns W env (fun j => forall i d, In (i, d) l -> ~ depends g i j) (Datatypes.S (length ns))) with (s := s) (j := j) as [s2 [d2 [E2 [Sm [R2 _]]]]]; auto.
    + apply aside_downward.
    + lia.
    + rewrite E in E2. injection E2 as <- <-. split; auto. split; [now apply wfu_same with s|]. split; [|auto].
      intros k D HD C. rewrite <- (proj1 (Sm k)). now apply B.
  - destruct (IH (fun i0 d0 I => CV i0 d0 (or_intror I))) as [S [Wf [B [A [R M]]]]].
    destruct (begin_op g G _ _ _ _ _ _ _ _ _ E Hd Hh Wf) as [W1 [K1 C1]].
    split; auto. split; auto. split; [|split; [constructor; auto|split; auto]].
    + intros j D HD C. apply C1; auto; [apply B; auto; intros k x y I; apply C; simpl; auto|intros y; apply C; simpl; auto].
    + intros j Nj. destruct (CV i d (or_introl eq_refl)) as [d' [I' _]]. intros x Hx. rewrite (fault_depends _ _ _ _ _ _ _ _ _ _ E) in Hx by eauto. now apply R.
  - destruct (IH (fun i0 d0 I => CV i0 d0 (or_intror I))) as [S [Wf [B [A [R M]]]]].
    destruct (begin_op g G _ _ _ _ _ _ _ _ _ E1 Hd Hh Wf) as [W1 [K1 C1]].
    destruct (end_op_fault g G _ _ _ _ _ _ _ _ _ E2 Hd Hh W1) as [W2 K2].
    destruct (CV i d (or_introl eq_refl)) as [d' [I' Sd]].
    split; [now apply source_ok_set|]. split; auto. split; [|split; [constructor; auto|split]].
    + intros j D HD C. destruct (K2 j) as [->| ->]; [|apply superset_empty_r, i_empty_is_empty].
      apply C1; auto; [apply B; auto; intros k x y I; apply C; simpl; auto|intros y; apply C; simpl; auto].
    + intros j Nj x Hx. rewrite (fault_depends _ _ _ _ _ _ _ _ _ _ E2), (fault_depends _ _ _ _ _ _ _ _ _ _ E1) in Hx by eauto.
      rewrite (not_depends_same ns W g Wg) by eauto. now apply R.
    + apply moved_trans with env; auto. intros j q. exact (change_reached l env i c d d' S Oc Ei T T' K AL Hd I' Sd j q).
Qed.
Lemma mended_updates env s env' s' l L : mended ns g env s env' s' l L -> net_updates g (length ns) l s = Ok (s', L) /\ allok l.
Proof.
  induction 1 as [|env s i c d s1 lb le env' s' l L Ei Oc Hd Hh K T T' E H [IH A]]; [split; [reflexivity|constructor]|].
  split; [|constructor; auto]. simpl. rewrite E. cbn [rbind]. rewrite IH. reflexivity.
Qed.
Lemma mended_inv l1 : allok l1 -> forall env s env' s' l L, mended ns g env s env' s' l L -> covers l l1 -> sources_ok ns env ->
  (forall j, (forall i d, In (i, d) l1 -> ~ depends g i j) -> right ns env s j) ->
  sources_ok ns env' /\ (forall j, (forall i d, In (i, d) l1 -> ~ depends g i j) -> right ns env' s' j) /\ moved env env' (reached l1).
Proof.
  intros AL env s env' s' l L H. induction H as [|env s i c d s1 lb le env' s' l L Ei Oc Hd Hh K T T' E H IH]; intros CV S R; [split; auto; split; auto; apply moved_refl|].
  destruct (CV i d (or_introl eq_refl)) as [d' [I' Sd]].
  destruct (IH (fun i0 d0 I => CV i0 d0 (or_intror I)) (source_ok_set ns env i c S Oc)) as [A1 [A2 A3]].
  - intros j Nj x Hx. unfold net_update in E. destruct (net_op g (length ns) s i false d) as [[sa la]|] eqn:EB; [|discriminate]. cbn in E.
    destruct (net_op g (length ns) sa i true d) as [[sb lb']|] eqn:EE; [|discriminate]. cbn in E. injection E as <- <- <-.
    pose proof (fault_clean g _ _ _ _ _ _ _ [] EB) as FB. pose proof (fault_clean g _ _ _ _ _ _ _ [] EE) as FE.
    rewrite (fault_depends _ _ _ _ _ _ _ _ _ _ FE), (fault_depends _ _ _ _ _ _ _ _ _ _ FB) in Hx by eauto.
    rewrite (not_depends_same ns W g Wg) by eauto. now apply R.
  - split; auto. split; auto. apply moved_trans with (set_env env i c); auto.
    intros j q. exact (change_reached l1 env i c d d' S Oc Ei T T' K AL Hd I' Sd j q).
Qed.
Lemma covers_refl l : allok l -> covers l l.
Proof. intros A i d I. exists d. split; auto. apply superset_refl. exact (proj1 (proj1 (Forall_forall _ _) A _ I)). Qed.

Theorem mended_settled env0 env s l0 env' s' l L : sources_ok ns env0 -> troubled ns g env0 env s l0 -> mended ns g env s env' s' l L -> covers l0 l ->
  forall j, idle (s' j) /\ right ns env' s' j /\
    (exists s2, read_dom env' ns (S (length ns)) s' j = Ok (s2, c_dom (curve_of env' ns j))) /\
    forall q, (y_changes (curve_of env0 ns j) (curve_of env' ns j) q -> told L j q) /\
      (local_domain ns j -> dom_changes (curve_of env0 ns j) (curve_of env' ns j) q -> told L j q).
Proof.
  intros S0 TR MD CV. destruct (mended_updates _ _ _ _ _ _ MD) as [EU AL].
  destruct (troubled_inv env0 l S0 AL env s l0 TR CV) as [S [Wf [B [A [R M]]]]].
  destruct (mended_inv l AL _ _ _ _ _ _ MD (covers_refl l AL) S R) as [S' [R' M']].
  destruct (heal_all g G _ l s s' L EU AL Wf) as [Wf' [K C]].
  assert (I0 : owed g s' []).
  { apply K. apply owed_dom with l0; auto. intros j D HD [K1 _]. now apply B. }
  pose proof (owed_nil_idle g G s' Wf' I0) as ID'.
  assert (DUE : forall i d j y, In (i, d) l -> carried g i d j y -> u_dom (s' j) = None /\ exists en D, In en L /\ l_node en = j /\ l_end en = true /\ l_not en = Some D /\ iok D /\ i_superset D y = true).
  { intros i d j y I Cy. destruct (proj1 (Forall_forall _ _) AL _ I) as [Od Hd]. destruct (ca_ok g G _ _ _ _ Od Hd Cy) as [Oy Hy].
    destruct (C [] j y Oy) as [Q|[[q [y' [Ne _]]]|[c [x [y' [[] _]]]]]]; auto.
    - right. right. exists i, d, y. split; auto. split; auto. now apply superset_refl.
    - destruct (ID' q) as [_ Q]. rewrite Q in Ne. discriminate. }
  assert (RT : forall j, right ns env' s' j).
  { intros j. assert (DEC : (exists p, In p l /\ depends g (fst p) j) \/ (forall p, In p l -> ~ depends g (fst p) j)).
    { clear AL EU MD CV DUE C K A B R M R' M' I0 ID'. induction l as [|p l' IH]; [right; contradiction|].
      destruct IH as [H|H]; [left; destruct H as [p' [I D]]; exists p'; simpl; auto|].
      destruct (depends_or (fst p) j) as [D|D]; [left; exists p; simpl; auto|]. right. intros p' [<-|I]; auto. }
    destruct DEC as [[[i d] [I D]]|N].
    - destruct (depends_ca g i d j D) as [y Cy]. intros x Hx. destruct (DUE i d j y I Cy) as [Q _]. congruence.
    - apply R'. intros i d I. exact (N (i, d) I). }
  intros j. split; [apply ID'|]. split; [apply RT|]. split.
  - destruct (read_dom_spec ns W env' (fun _ => True) (Datatypes.S (length ns)) ltac:(intros ? ? ? _ _ _; exact I) s' j) as [s2 [d2 [E2 [S2 [R2 V2]]]]]; [lia|auto|].
    exists s2. rewrite V2 in E2; auto.
  - assert (RE : forall q, reached l j q -> told L j q).
    { intros q [i [d [y [I [Cy My]]]]]. destruct (DUE i d j y I Cy) as [_ [en [D [J1 [J2 [J3 [J4 [J5 J6]]]]]]]]. exists en, D. repeat (split; auto).
      - apply (superset_iff D y); auto; [|discriminate]. destruct (proj1 (Forall_forall _ _) AL _ I) as [Od Hd]. apply (ca_ok g G _ _ _ _ Od Hd Cy).
      - apply (superset_iff D y); auto; [|discriminate]. destruct (proj1 (Forall_forall _ _) AL _ I) as [Od Hd]. apply (ca_ok g G _ _ _ _ Od Hd Cy). }
    intros q. destruct (moved_trans _ _ _ _ M M' j q) as [M1 M2]. split; intros; apply RE; auto.
Qed.

End Live.
