(** What notifications that are broken off leave behind, and what repairs it. *)
From Coq Require Import List ZArith QArith Bool Lia Arith.
From Verif Require Import Base Num NumFacts Interval IntervalFacts Curve Graph PointsOps UpdFacts GraphFacts GraphSettle Fault.
Import ListNotations.

Definition allok (O : list (nat * ival xq)) : Prop := Forall (fun p => iok (snd p) /\ inf_hit (snd p)) O.

(** The state of one curve. *)
Record wfu (u : upd xq) : Prop := {
  wu_b : iok (u_begin u);
  wu_e : iok (u_end u);
  wu_h : i_is_empty (u_end u) = false -> inf_hit (u_end u);
  wu_j : idle u \/ i_superset (u_end u) (u_begin u) = false
}.
Lemma wfu_idle u : idle u -> wfu u.
Proof.
  intros [A B]. constructor; [rewrite A; apply iok_empty|rewrite B; apply iok_empty|rewrite B; discriminate|].
  left. split; auto.
Qed.
Lemma begin_wfu u d : wfu u -> iok d -> wfu (fst (begin_update u d)).
Proof.
  intros [O1 O2 O3 J] Hd. unfold begin_update. destruct (i_is_empty d || i_superset (u_begin u) d) eqn:X; cbn [fst]; [constructor; auto|].
  apply orb_false_iff in X. destruct X as [X1 X2]. assert (OU : iok (i_union2 (u_begin u) d)) by now apply iok_union2.
  constructor; cbn [u_begin u_end]; auto.
  right. destruct (i_superset (u_end u) (i_union2 (u_begin u) d)) eqn:S; auto. exfalso. destruct J as [[J1 J2]|J].
  - rewrite J2 in S. rewrite superset_empty_l in S by apply i_empty_is_empty.
    rewrite union2_is_empty in S by auto. rewrite X1, andb_false_r in S. discriminate.
  - assert (i_superset (u_end u) (u_begin u) = true); [|congruence].
    apply superset_trans with (i_union2 (u_begin u) d); auto. now apply union2_superset_l.
Qed.
Lemma end_wfu u d : wfu u -> iok d -> inf_hit d -> wfu (fst (end_update u d)).
Proof.
  intros [O1 O2 O3 J] Hd Hh. unfold end_update. destruct (i_is_empty d || i_superset (u_end u) d) eqn:X; cbn [fst]; [constructor; auto|].
  assert (OU : iok (i_union2 (u_end u) d)) by now apply iok_union2.
  destruct (i_superset (i_union2 (u_end u) d) (u_begin u)) eqn:S; cbn [negb fst].
  - apply wfu_idle. split; reflexivity.
  - constructor; cbn [u_begin u_end]; auto. intros _. apply (hit_superset _ d); auto. now apply union2_superset_r.
Qed.

Section Net.
Variable g : net xq.
Hypothesis G : good_net g.

(** The intervals that an update of [x] at node [k] amounts to at node [j], one
    for each way from [k] to [j]. *)
Inductive carried (k : nat) (x : ival xq) : nat -> ival xq -> Prop :=
| ca_self : carried k x k x
| ca_step p y c t : carried k x p y -> In (c, t) (deps g p) -> carried k x c (t y).

Lemma ca_front k x c t j y : In (c, t) (deps g k) -> carried c (t x) j y -> carried k x j y.
Proof. intros I H. induction H; [apply ca_step with k; auto; constructor|]. eapply ca_step; eauto. Qed.
Lemma ca_inv k x j y : carried k x j y -> (j = k /\ y = x) \/ exists c t, In (c, t) (deps g k) /\ carried c (t x) j y.
Proof.
  induction 1 as [|p y c t H IH I]; [auto|]. right. destruct IH as [[-> ->]|[c' [t' [I' H']]]].
  - exists c, t. split; auto. constructor.
  - exists c', t'. split; auto. eapply ca_step; eauto.
Qed.
Lemma ca_ok k x j y : iok x -> inf_hit x -> carried k x j y -> iok y /\ inf_hit y.
Proof.
  intros Ox Hx. induction 1 as [|p y c t H [IO IH] I]; [auto|]. destruct (proj2 G _ _ _ I) as [M1 [_ M3]]. split; [auto|apply M3; auto].
Qed.
Lemma ca_mono k x x' j y : iok x -> inf_hit x -> iok x' -> i_superset x' x = true -> carried k x j y ->
  exists y', carried k x' j y' /\ iok y' /\ i_superset y' y = true.
Proof.
  intros Ox Hx Ox' S. induction 1 as [|p y c t H IH I]; [exists x'; repeat split; auto; try constructor; apply Ox'|].
  destruct IH as [y' [C [O' S']]]. destruct (ca_ok _ _ _ _ Ox Hx H) as [Oy Hy]. destruct (proj2 G _ _ _ I) as [M1 [M2 _]].
  exists (t y'). split; [eapply ca_step; eauto|]. split; [auto|]. apply M2; auto. now apply hit_nonempty.
Qed.
Lemma ca_ge k x j y : carried k x j y -> (k <= j)%nat.
Proof. induction 1 as [|p y c t H IH I]; [lia|]. pose proof (proj1 G _ _ _ I). lia. Qed.
Lemma ca_depends k x j y : carried k x j y -> depends g k j.
Proof. induction 1; [constructor|econstructor; eauto]. Qed.
Lemma depends_ca k x j : depends g k j -> exists y, carried k x j y.
Proof. induction 1 as [|p c t H [y IH] I]; [exists x; constructor|]. exists (t y). eapply ca_step; eauto. Qed.

(** ** The pieces of a call *)
Definition fault_deps (raises : list (entry xq) -> bool) f (e : bool) (x : ival xq) :=
  fix go (cs : list (nat * (ival xq -> ival xq))) (s : nstate xq) (log : list (entry xq)) : res (nstate xq * list (entry xq) * bool) :=
    if raises log then Ok (s, log, true)
    else match cs with
         | [] => Ok (s, log, false)
         | (c, t) :: cs' =>
             let! (s1, log1, b) := fault_op g raises f s log c e (t x) in
             if b then Ok (s1, log1, true) else go cs' s1 log1
         end.
Lemma fault_op_eq raises f s log i e d : fault_op g raises (S f) s log i e d =
  let '(u, n) := node_op (s i) e d in
  match n with
  | None => Ok (set_node s i u, Graph.mkL i e d n :: log, false)
  | Some x => fault_deps raises f e x (deps g i) (set_node s i u) (Graph.mkL i e d n :: log)
  end.
Proof. simpl. destruct (node_op (s i) e d) as [u [x|]]; reflexivity. Qed.

(** Where nothing raises, a call is that of Graph.v. *)
Lemma fault_clean f : forall s i e d s' L log, net_op g f s i e d = Ok (s', L) ->
  fault_op g (fun _ => false) f s log i e d = Ok (s', rev L ++ log, false).
Proof.
  induction f as [|f IH]; intros s i e d s' L log E; [discriminate|]. rewrite net_op_eq in E. rewrite fault_op_eq.
  destruct (node_op (s i) e d) as [u [x|]]; cbn zeta in E; [|cbn in E; injection E as <- <-; reflexivity].
  assert (X : forall cs s0 s2 l log0, go_deps g f e x cs s0 = Ok (s2, l) -> fault_deps (fun _ => false) f e x cs s0 log0 = Ok (s2, rev l ++ log0, false)).
  { induction cs as [|[c t] cs IHc]; intros s0 s2 l log0 El; simpl in El |- *; [injection El as <- <-; reflexivity|].
    destruct (net_op g f s0 c e (t x)) as [[sa la]|] eqn:Ea; [|discriminate]. cbn in El.
    destruct (go_deps g f e x cs sa) as [[sb lb]|] eqn:Eb; [|discriminate]. cbn in El. injection El as <- <-.
    rewrite (IH _ _ _ _ _ _ log0 Ea). cbn [rbind]. rewrite (IHc _ _ _ (rev la ++ log0) Eb), rev_app_distr, app_assoc. reflexivity. }
  destruct (go_deps g f e x (deps g i) (set_node s i u)) as [[s2 l]|] eqn:El; [|discriminate]. cbn in E. injection E as <- <-.
  rewrite (X _ _ _ _ (Graph.mkL i e d (Some x) :: log) El). simpl. now rewrite <- app_assoc.
Qed.

(** A broken off run makes the first calls of the run that is not. *)
Lemma fault_prefix raises f : forall s i e d s' L log s2 log2 b, net_op g f s i e d = Ok (s', L) ->
  fault_op g raises f s log i e d = Ok (s2, log2, b) ->
  exists L1 L2, L = L1 ++ L2 /\ log2 = rev L1 ++ log /\ (b = false -> L2 = [] /\ s2 = s') /\
    (forall j, s2 j = applyl (s j) (proj j L1)).
Proof.
  induction f as [|f IH]; intros s i e d s' L log s2 log2 b E F; [discriminate|].
  pose proof (net_op_log g (S f) _ _ _ _ _ _ E) as [LO _].
  rewrite net_op_eq in E. rewrite fault_op_eq in F.
  destruct (node_op (s i) e d) as [u n] eqn:No. cbn zeta in E.
  assert (LI : forall j, applyl (s j) (proj j [Graph.mkL i e d n]) = set_node s i u j).
  { intros j. unfold proj, applyl, set_node. simpl. rewrite (Nat.eqb_sym i j).
    destruct (Nat.eqb_spec j i) as [->|]; simpl; auto. unfold apply1. simpl. now rewrite No. }
  destruct n as [x|].
  2:{ cbn in E. injection E as <- <-. injection F as <- <- <-.
      exists [Graph.mkL i e d None], []. repeat split; auto. }
  assert (X : forall cs s0 s3 l log0 s4 log4 b4, go_deps g f e x cs s0 = Ok (s3, l) -> fault_deps raises f e x cs s0 log0 = Ok (s4, log4, b4) ->
    exists L1 L2, l = L1 ++ L2 /\ log4 = rev L1 ++ log0 /\ (b4 = false -> L2 = [] /\ s4 = s3) /\ (forall j, s4 j = applyl (s0 j) (proj j L1))).
  { induction cs as [|[c t] cs IHc]; intros s0 s3 l log0 s4 log4 b4 El Fl; simpl in El, Fl.
    - injection El as <- <-. destruct (raises log0); injection Fl as <- <- <-; exists [], []; repeat split; auto.
    - destruct (net_op g f s0 c e (t x)) as [[sa la]|] eqn:Ea; [|discriminate]. cbn in El.
      destruct (go_deps g f e x cs sa) as [[sb lb]|] eqn:Eb; [|discriminate]. cbn in El. injection El as <- <-.
      destruct (raises log0); [injection Fl as <- <- <-; exists [], (la ++ lb); repeat split; auto; discriminate|].
      destruct (fault_op g raises f s0 log0 c e (t x)) as [[[sc lc] bc]|] eqn:Ec; [|discriminate]. cbn [rbind] in Fl.
      destruct (IH _ _ _ _ _ _ _ _ _ _ Ea Ec) as [A1 [A2 [-> [-> [A3 A4]]]]].
      destruct bc.
      + injection Fl as <- <- <-. exists A1, (A2 ++ lb). split; [now rewrite app_assoc|]. split; [reflexivity|]. split; [discriminate|auto].
      + destruct (A3 eq_refl) as [-> ->]. destruct (IHc _ _ _ _ _ _ _ Eb Fl) as [B1 [B2 [-> [-> [B3 B4]]]]].
        exists (A1 ++ B1), B2. split; [now rewrite app_nil_r, app_assoc|]. split; [rewrite rev_app_distr, app_assoc; reflexivity|].
        split; [auto|]. intros j. now rewrite proj_app, applyl_app, <- A4. }
  destruct (go_deps g f e x (deps g i) (set_node s i u)) as [[s3 l]|] eqn:El; [|discriminate]. cbn in E. injection E as <- <-.
  destruct (X _ _ _ _ _ _ _ _ El F) as [L1 [L2 [-> [-> [X3 X4]]]]].
  exists (Graph.mkL i e d (Some x) :: L1), L2. split; [reflexivity|]. split; [simpl; now rewrite <- app_assoc|]. split; [auto|].
  intros j. change (Graph.mkL i e d (Some x) :: L1) with ([Graph.mkL i e d (Some x)] ++ L1). rewrite proj_app, applyl_app, LI. apply X4.
Qed.

Lemma fault_total raises f : forall s log i e d, (length g <= i + f)%nat -> (i < length g)%nat -> exists r, fault_op g raises f s log i e d = Ok r.
Proof.
  induction f as [|f IH]; intros s log i e d L Li; [lia|]. rewrite fault_op_eq.
  destruct (node_op (s i) e d) as [u [x|]]; [|eauto].
  assert (X : forall cs s1 log1, (forall c t, In (c, t) cs -> (i < c < length g)%nat) -> exists r, fault_deps raises f e x cs s1 log1 = Ok r).
  { induction cs as [|[c t] cs IHc]; intros s1 log1 H; simpl; destruct (raises log1); eauto.
    destruct (IH s1 log1 c e (t x)) as [[[s2 l2] b] E]; [specialize (H c t (or_introl eq_refl)); lia|apply (H c t); simpl; auto|].
    rewrite E. cbn [rbind]. destruct b; eauto. apply IHc. intros; eapply H; simpl; eauto. }
  apply X. intros c t I. apply (proj1 G _ _ _ I).
Qed.

(** ** Begin calls *)
Lemma begin_op raises f : forall s log i d s' log' b, fault_op g raises f s log i false d = Ok (s', log', b) -> iok d -> inf_hit d -> (forall j, wfu (s j)) ->
  (forall j, wfu (s' j)) /\ (forall j, u_end (s' j) = u_end (s j) /\ u_dom (s' j) = u_dom (s j)) /\
  (forall j D, iok D -> i_superset D (u_begin (s j)) = true -> (forall y, carried i d j y -> i_superset D y = true) -> i_superset D (u_begin (s' j)) = true).
Proof.
  induction f as [|f IH]; intros s log i d s' log' b F Hd Hh W; [discriminate|]. rewrite fault_op_eq in F.
  destruct (node_op (s i) false d) as [u n] eqn:No.
  assert (U : u = fst (begin_update (s i) d)) by (rewrite <- fst_node_begin, No; reflexivity).
  assert (W1 : forall j, wfu (set_node s i u j)).
  { intros j. unfold set_node. destruct (j =? i)%nat; auto. rewrite U. now apply begin_wfu. }
  assert (K1 : forall j, u_end (set_node s i u j) = u_end (s j) /\ u_dom (set_node s i u j) = u_dom (s j)).
  { intros j. unfold set_node. destruct (Nat.eqb_spec j i) as [->|]; auto. rewrite U. unfold begin_update. destruct (i_is_empty d || i_superset (u_begin (s i)) d); auto. }
  assert (C1 : forall j D, iok D -> i_superset D (u_begin (s j)) = true -> (forall y, carried i d j y -> i_superset D y = true) -> i_superset D (u_begin (set_node s i u j)) = true).
  { intros j D HD S C. unfold set_node. destruct (Nat.eqb_spec j i) as [->|]; auto. rewrite U. unfold begin_update.
    destruct (i_is_empty d || i_superset (u_begin (s i)) d); [exact S|]. cbn [fst u_begin].
    apply union2_least; auto; [apply W|]. apply C. constructor. }
  destruct n as [x|].
  2:{ injection F as <- <- <-. auto. }
  assert (x = d /\ True) as [-> _].
  { split; auto. unfold node_op, begin_update in No. destruct (i_is_empty d || i_superset (u_begin (s i)) d); [discriminate|].
    destruct (i_intersects d i_infinite); [|discriminate]. injection No as _ Q. congruence. }
  assert (X : forall cs s0 log0 s4 log4 b4, fault_deps raises f false d cs s0 log0 = Ok (s4, log4, b4) ->
    (forall c t, In (c, t) cs -> In (c, t) (deps g i)) -> (forall j, wfu (s0 j)) ->
    (forall j, wfu (s4 j)) /\ (forall j, u_end (s4 j) = u_end (s0 j) /\ u_dom (s4 j) = u_dom (s0 j)) /\
    (forall j D, iok D -> i_superset D (u_begin (s0 j)) = true -> (forall y, carried i d j y -> i_superset D y = true) -> i_superset D (u_begin (s4 j)) = true)).
  { induction cs as [|[c t] cs IHc]; intros s0 log0 s4 log4 b4 Fl IC W0; simpl in Fl.
    - destruct (raises log0); injection Fl as <- <- <-; auto.
    - destruct (raises log0); [injection Fl as <- <- <-; auto|].
      destruct (fault_op g raises f s0 log0 c false (t d)) as [[[sc lc] bc]|] eqn:Ec; [|discriminate]. cbn [rbind] in Fl.
      assert (It : In (c, t) (deps g i)) by (apply IC; simpl; auto).
      destruct (proj2 G _ _ _ It) as [M1 [_ M3]].
      destruct (IH _ _ _ _ _ _ _ Ec (M1 _ Hd) (M3 _ Hd Hh) W0) as [A1 [A2 A3]].
      assert (A3' : forall j D, iok D -> i_superset D (u_begin (s0 j)) = true -> (forall y, carried i d j y -> i_superset D y = true) -> i_superset D (u_begin (sc j)) = true).
      { intros j D HD S C. apply A3; auto. intros y Hy. apply C. eapply ca_front; eauto. }
      destruct bc; [injection Fl as <- <- <-; auto|].
      destruct (IHc _ _ _ _ _ Fl (fun c' t' I => IC c' t' (or_intror I)) A1) as [B1 [B2 B3]].
      split; [exact B1|]. split.
      + intros j. destruct (A2 j), (B2 j). split; congruence.
      + intros j D HD S C. apply B3; auto. }
  destruct (X _ _ _ _ _ _ F (fun c t I => I) W1) as [B1 [B2 B3]].
  split; [exact B1|]. split.
  - intros j. destruct (K1 j), (B2 j). split; congruence.
  - intros j D HD S C. apply B3; auto.
Qed.

(** ** End calls that may be broken off *)
Lemma end_update_begin u (d : ival xq) : u_begin (fst (end_update u d)) = u_begin u \/ u_begin (fst (end_update u d)) = i_empty.
Proof. unfold end_update. destruct (i_is_empty d || i_superset (u_end u) d); auto. destruct (negb _); cbn [fst u_begin]; auto. Qed.
Lemma fired_hit u d x : wfu u -> iok d -> inf_hit d -> snd (node_op u true d) = Some x ->
  x = i_union2 (u_end u) d /\ iok x /\ inf_hit x /\ i_superset x d = true /\ i_superset x (u_end u) = true /\ i_superset x (u_begin u) = true /\ fst (end_update u d) = upd_init.
Proof.
  intros [O1 O2 O3 J] Hd Hh. unfold node_op, end_update. destruct (i_is_empty d || i_superset (u_end u) d); [discriminate|].
  destruct (i_superset (i_union2 (u_end u) d) (u_begin u)) eqn:S; cbn [negb snd fst]; [|discriminate].
  destruct (i_intersects (i_union2 (u_end u) d) i_infinite) eqn:I; [|discriminate].
  cbn. intros Q. injection Q as <-. split; auto. split; [now apply iok_union2|]. split; [exact I|]. split; [now apply union2_superset_r|]. split; [now apply union2_superset_l|]. auto.
Qed.
Lemma end_op_fault raises f : forall s log i d s' log' b, fault_op g raises f s log i true d = Ok (s', log', b) -> iok d -> inf_hit d -> (forall j, wfu (s j)) ->
  (forall j, wfu (s' j)) /\ (forall j, u_begin (s' j) = u_begin (s j) \/ u_begin (s' j) = i_empty).
Proof.
  induction f as [|f IH]; intros s log i d s' log' b F Hd Hh W; [discriminate|]. rewrite fault_op_eq in F.
  destruct (node_op (s i) true d) as [u n] eqn:No.
  assert (U : u = fst (end_update (s i) d)) by (rewrite <- fst_node_end, No; reflexivity).
  assert (W1 : forall j, wfu (set_node s i u j)).
  { intros j. unfold set_node. destruct (j =? i)%nat; auto. rewrite U. now apply end_wfu. }
  assert (K1 : forall j, u_begin (set_node s i u j) = u_begin (s j) \/ u_begin (set_node s i u j) = i_empty).
  { intros j. unfold set_node. destruct (Nat.eqb_spec j i) as [->|]; auto. rewrite U. apply end_update_begin. }
  destruct n as [x|]; [|injection F as <- <- <-; auto].
  destruct (fired_hit _ _ x (W i) Hd Hh) as [_ [Ox [Hx _]]]; [now rewrite No|].
  assert (X : forall cs s0 log0 s4 log4 b4, fault_deps raises f true x cs s0 log0 = Ok (s4, log4, b4) ->
    (forall c t, In (c, t) cs -> In (c, t) (deps g i)) -> (forall j, wfu (s0 j)) ->
    (forall j, wfu (s4 j)) /\ (forall j, u_begin (s4 j) = u_begin (s0 j) \/ u_begin (s4 j) = i_empty)).
  { induction cs as [|[c t] cs IHc]; intros s0 log0 s4 log4 b4 Fl IC W0; simpl in Fl.
    - destruct (raises log0); injection Fl as <- <- <-; auto.
    - destruct (raises log0); [injection Fl as <- <- <-; auto|].
      destruct (fault_op g raises f s0 log0 c true (t x)) as [[[sc lc] bc]|] eqn:Ec; [|discriminate]. cbn [rbind] in Fl.
      destruct (proj2 G _ _ _ (IC c t (or_introl eq_refl))) as [M1 [_ M3]].
      destruct (IH _ _ _ _ _ _ _ Ec (M1 _ Ox) (M3 _ Ox Hx) W0) as [A1 A2].
      destruct bc; [injection Fl as <- <- <-; auto|].
      destruct (IHc _ _ _ _ _ Fl (fun c' t' I => IC c' t' (or_intror I)) A1) as [B1 B2].
      split; [exact B1|]. intros j. destruct (B2 j) as [->|]; auto. }
  destruct (X _ _ _ _ _ _ F (fun c t I => I) W1) as [B1 B2]. split; [exact B1|].
  intros j. destruct (B2 j) as [->|]; auto.
Qed.

(** ** End calls that run to their end *)
(** What is still owed: every interval begun at [j] lies in the smallest interval
    around what the calls [O] and the ends collected at the curves amount to at [j]. *)
Definition owes (s : nstate xq) (O : list (nat * ival xq)) (j : nat) (D : ival xq) : Prop :=
  (forall k x y, In (k, x) O -> carried k x j y -> i_superset D y = true) /\
  (forall q y, i_is_empty (u_end (s q)) = false -> carried q (u_end (s q)) j y -> i_superset D y = true).
Definition owed (s : nstate xq) (O : list (nat * ival xq)) : Prop :=
  forall j D, iok D -> owes s O j D -> i_superset D (u_begin (s j)) = true.
(** [y] has been, or is still going to be, announced by [j]. *)
Definition due (s : nstate xq) (O : list (nat * ival xq)) (L : list (entry xq)) (j : nat) (y : ival xq) : Prop :=
  (u_dom (s j) = None /\ exists en D, In en L /\ l_node en = j /\ l_end en = true /\ l_not en = Some D /\ iok D /\ i_superset D y = true) \/
  (exists q y', i_is_empty (u_end (s q)) = false /\ carried q (u_end (s q)) j y' /\ i_superset y' y = true) \/
  (exists c x y', In (c, x) O /\ carried c x j y' /\ i_superset y' y = true).

Lemma end_op f : forall O s i d s' L, net_op g f s i true d = Ok (s', L) -> iok d -> inf_hit d -> (forall j, wfu (s j)) -> allok O ->
  (forall j, wfu (s' j)) /\ (owed s ((i, d) :: O) -> owed s' O) /\
  (forall L0 j y, iok y -> due s ((i, d) :: O) L0 j y -> due s' O (L0 ++ L) j y).
Proof.
  induction f as [|f IH]; intros O s i d s' L F Hd Hh W HO; [discriminate|]. rewrite net_op_eq in F.
  destruct (node_op (s i) true d) as [u n] eqn:No. cbn zeta in F.
  assert (U : u = fst (end_update (s i) d)) by (rewrite <- fst_node_end, No; reflexivity).
  assert (W1 : forall j, wfu (set_node s i u j)).
  { intros j. unfold set_node. destruct (j =? i)%nat; auto. rewrite U. now apply end_wfu. }
  assert (Et : forall k, k <> i -> set_node s i u k = s k) by (intros k Hk; unfold set_node; destruct (Nat.eqb_spec k i); congruence).
  assert (Ei : set_node s i u i = u) by (unfold set_node; now rewrite Nat.eqb_refl).
  destruct n as [x|].
  - (* i notifies its dependants with x *)
    destruct (fired_hit _ _ x (W i) Hd Hh) as [Ux [Ox [Hx [Sd [Se [Sb Ui]]]]]]; [now rewrite No|]. rewrite Ui in U. subst u.
    set (s1 := set_node s i upd_init) in *.
    assert (X : forall cs s0 s3 l O, go_deps g f true x cs s0 = Ok (s3, l) -> (forall c t, In (c, t) cs -> In (c, t) (deps g i)) ->
      (forall j, wfu (s0 j)) -> allok O ->
      (forall j, wfu (s3 j)) /\ (owed s0 (map (fun ct => (fst ct, snd ct x)) cs ++ O) -> owed s3 O) /\
      (forall L0 j y, iok y -> due s0 (map (fun ct => (fst ct, snd ct x)) cs ++ O) L0 j y -> due s3 O (L0 ++ l) j y)).
    { induction cs as [|[c t] cs IHc]; intros s0 s3 l P El IC W0 HP; simpl in El.
      - injection El as <- <-. split; [auto|]. split; [auto|]. intros L0 j y _ H. rewrite app_nil_r. exact H.
      - destruct (net_op g f s0 c true (t x)) as [[sa la]|] eqn:Ea; [|discriminate]. cbn in El.
        destruct (go_deps g f true x cs sa) as [[sb lb]|] eqn:Eb; [|discriminate]. cbn in El. injection El as <- <-.
        destruct (proj2 G _ _ _ (IC c t (or_introl eq_refl))) as [M1 [_ M3]].
        assert (HP' : allok (map (fun ct => (fst ct, snd ct x)) cs ++ P)).
        { apply Forall_app. split; auto. apply Forall_forall. intros [k z] I. apply in_map_iff in I. destruct I as [[c' t'] [Q I]]. injection Q as <- <-.
          cbn [fst snd]. destruct (proj2 G _ _ _ (IC c' t' (or_intror I))) as [N1 [_ N3]]. split; [auto|now apply N3]. }
        destruct (IH _ _ _ _ _ _ Ea (M1 _ Ox) (M3 _ Ox Hx) W0 HP') as [A1 [A2 A3]].
        destruct (IHc _ _ _ P Eb (fun c' t' I => IC c' t' (or_intror I)) A1 HP) as [B1 [B2 B3]].
        split; [exact B1|]. split; [intros H; apply B2, A2; exact H|].
        intros L0 j y Hy H. rewrite app_assoc. apply B3; auto. }
    destruct (go_deps g f true x (deps g i) s1) as [[s3 l]|] eqn:El; [|discriminate]. cbn in F. injection F as <- <-.
    destruct (X _ _ _ _ O El (fun c t I => I) W1 HO) as [X1 [X2 X3]].
    (* what d or the collected ends amount to elsewhere, the calls of the dependants amount to as well *)
    assert (LIFT : forall z j y, iok z -> inf_hit z -> i_superset x z = true -> carried i z j y -> j <> i ->
      exists c x' y', In (c, x') (map (fun ct => (fst ct, snd ct x)) (deps g i)) /\ carried c x' j y' /\ iok y' /\ i_superset y' y = true).
    { intros z j y Oz Hz Sz C Nj. destruct (ca_mono _ _ x _ _ Oz Hz Ox Sz C) as [y' [C' [O' S']]].
      destruct (ca_inv _ _ _ _ C') as [[-> _]|[c [t [I C2]]]]; [congruence|].
      exists c, (t x), y'. split; [apply in_map_iff; exists (c, t); auto|auto]. }
    split; [exact X1|]. split.
    + intros H. apply X2. intros j D HD [K1 K2]. destruct (Nat.eq_dec j i) as [->|Nj].
      * rewrite Ei. apply superset_empty_r, i_empty_is_empty.
      * rewrite Et by auto. apply H; auto. split.
        -- intros k z y [Q|I] C.
           ++ injection Q as <- <-. destruct (LIFT d j y Hd Hh Sd C Nj) as [c [x' [y' [I' [C' [O' S']]]]]].
              apply superset_trans with y'; auto; [apply (ca_ok _ _ _ _ Hd Hh C)|].
              apply (K1 c x'); auto. apply in_or_app; auto.
           ++ apply (K1 k z); auto. apply in_or_app; auto.
        -- intros q y Ne C. destruct (Nat.eq_dec q i) as [->|Nq].
           ++ assert (He : inf_hit (u_end (s i))) by (apply W; auto).
              destruct (LIFT (u_end (s i)) j y (wu_e _ (W i)) He Se C Nj) as [c [x' [y' [I' [C' [O' S']]]]]].
              apply superset_trans with y'; auto; [apply (ca_ok _ _ _ _ (wu_e _ (W i)) He C)|].
              apply (K1 c x'); auto. apply in_or_app; auto.
           ++ apply (K2 q); rewrite Et; auto.
    + intros L0 j y Hy H. change (L0 ++ Graph.mkL i true d (Some x) :: l) with (L0 ++ [Graph.mkL i true d (Some x)] ++ l). rewrite app_assoc.
      apply X3; auto.
      assert (FIRE : forall z y', iok z -> inf_hit z -> i_superset x z = true -> carried i z j y' -> i_superset y' y = true ->
        due s1 (map (fun ct => (fst ct, snd ct x)) (deps g i) ++ O) (L0 ++ [Graph.mkL i true d (Some x)]) j y).
      { intros z y' Oz Hz Sz C S. destruct (Nat.eq_dec j i) as [->|Nj].
        - left. rewrite Ei. split; [reflexivity|]. exists (Graph.mkL i true d (Some x)), x.
          split; [apply in_or_app; simpl; auto|]. repeat (split; [try reflexivity; auto|]).
          assert (y' = z) as ->.
          { destruct (ca_inv _ _ _ _ C) as [[_ ->]|[c [t [I C2]]]]; auto. pose proof (proj1 G _ _ _ I). pose proof (ca_ge _ _ _ _ C2). lia. }
          apply superset_trans with z; auto.
        - destruct (LIFT z j y' Oz Hz Sz C Nj) as [c [x' [y2 [I' [C' [O' S']]]]]]. right. right. exists c, x', y2.
          split; [apply in_or_app; auto|]. split; auto. apply superset_trans with y'; auto. apply (ca_ok _ _ _ _ Oz Hz C). }
      destruct H as [[Hn [en [D [I K]]]]|[[q [y' [Ne [C S]]]]|[c [z [y' [[Q|I] [C S]]]]]]].
      * left. split; [unfold s1, set_node; destruct (j =? i)%nat; auto|]. exists en, D. split; auto. apply in_or_app; auto.
      * destruct (Nat.eq_dec q i) as [->|Nq].
        -- apply (FIRE (u_end (s i)) y'); auto; apply W; auto.
        -- right. left. exists q, y'. rewrite Et by auto. auto.
      * injection Q as <- <-. apply (FIRE d y'); auto.
      * right. right. exists c, z, y'. split; [apply in_or_app; auto|auto].
  - (* i collects the end *)
    cbn in F. injection F as <- <-.
    assert (K : u_begin u = u_begin (s i) /\ u_dom u = u_dom (s i) /\ iok (u_end u) /\ i_superset (u_end u) d = true /\ i_superset (u_end u) (u_end (s i)) = true /\
      i_is_empty (u_end u) = false).
    { pose proof (wu_e _ (W i)) as Oe. rewrite U. unfold node_op, end_update in No.
      unfold end_update. destruct (i_is_empty d || i_superset (u_end (s i)) d) eqn:X.
      - cbn [fst]. rewrite (hit_nonempty _ Hh) in X. simpl in X. split; auto. split; auto. split; auto. split; auto. split; [now apply superset_refl|].
        destruct (i_is_empty (u_end (s i))) eqn:Y; auto. rewrite superset_empty_l in X by auto. rewrite (hit_nonempty _ Hh) in X. discriminate.
      - destruct (i_superset (i_union2 (u_end (s i)) d) (u_begin (s i))) eqn:S; cbn [negb fst snd] in No |- *.
        + destruct (i_intersects (i_union2 (u_end (s i)) d) i_infinite) eqn:I; [discriminate|].
          exfalso. assert (inf_hit (i_union2 (u_end (s i)) d)); [|unfold inf_hit in *; congruence].
          apply (hit_superset _ d); auto; [now apply iok_union2|now apply union2_superset_r].
        + cbn [u_begin u_end u_dom]. split; auto. split; auto. split; [now apply iok_union2|]. split; [now apply union2_superset_r|]. split; [now apply union2_superset_l|].
          rewrite union2_is_empty by auto. rewrite (hit_nonempty _ Hh), andb_false_r. reflexivity. }
    destruct K as [Kb [Kd [Oe [Sd [Se Ne]]]]].
    assert (LIFT : forall z j y, iok z -> inf_hit z -> i_superset (u_end u) z = true -> carried i z j y -> exists y', carried i (u_end u) j y' /\ iok y' /\ i_superset y' y = true).
    { intros z j y Oz Hz Sz C. now apply (ca_mono i z (u_end u) j y). }
    split; [exact W1|]. split.
    + intros H j D HD [K1 K2]. assert (Eb : u_begin (set_node s i u j) = u_begin (s j)) by (unfold set_node; destruct (Nat.eqb_spec j i) as [->|]; auto).
      rewrite Eb. apply H; auto. split.
      * intros k z y [Q|I] C; [|apply (K1 k z); auto]. injection Q as <- <-.
        destruct (LIFT d j y Hd Hh Sd C) as [y' [C' [O' S']]]. apply superset_trans with y'; auto; [apply (ca_ok _ _ _ _ Hd Hh C)|].
        apply (K2 i); rewrite Ei; auto.
      * intros q y Nq C. destruct (Nat.eq_dec q i) as [->|Nn]; [|apply (K2 q); rewrite Et; auto].
        assert (He : inf_hit (u_end (s i))) by (apply W; auto).
        destruct (LIFT (u_end (s i)) j y (wu_e _ (W i)) He Se C) as [y' [C' [O' S']]].
        apply superset_trans with y'; auto; [apply (ca_ok _ _ _ _ (wu_e _ (W i)) He C)|]. apply (K2 i); rewrite Ei; auto.
    + intros L0 j y Hy H.
      assert (KEEP : forall z y', iok z -> inf_hit z -> i_superset (u_end u) z = true -> carried i z j y' -> i_superset y' y = true ->
        due (set_node s i u) O (L0 ++ [Graph.mkL i true d None]) j y).
      { intros z y' Oz Hz Sz C S. destruct (LIFT z j y' Oz Hz Sz C) as [y2 [C' [O' S']]]. right. left. exists i, y2. rewrite Ei.
        split; auto. split; auto. apply superset_trans with y'; auto. apply (ca_ok _ _ _ _ Oz Hz C). }
      destruct H as [[Hn [en [D [I K]]]]|[[q [y' [Nq [C S]]]]|[c [z [y' [[Q|I] [C S]]]]]]].
      * left. split; [unfold set_node; destruct (Nat.eqb_spec j i) as [->|]; congruence|]. exists en, D. split; auto. apply in_or_app; auto.
      * destruct (Nat.eq_dec q i) as [->|Nn].
        -- apply (KEEP (u_end (s i)) y'); auto; apply W; auto.
        -- right. left. exists q, y'. rewrite Et by auto. auto.
      * injection Q as <- <-. apply (KEEP d y'); auto.
      * right. right. exists c, z, y'. auto.
Qed.

End Net.
