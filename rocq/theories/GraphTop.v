(** End-to-end statements about networks of derived curves. *)
From Coq Require Import List ZArith QArith Qcanon Bool Lia Lqa Arith.
From Verif Require Import Base Num NumFacts Interval IntervalFacts Curve Graph PointsOps UpdFacts PointsDec GraphFacts GraphSettle.
Import ListNotations.

(** ** The interval maps of the code *)
(* map.py:23 etc.: begin_update itself is the callback *)
Definition t_id : ival xq -> ival xq := fun d => d.
(* offset.py:86-90, 117-127 with no duration: infinite ends stay *)
Definition t_shift (k : Qc) : ival xq -> ival xq :=
  fun d => mkI (xq_add (i_start d) (Fin k)) (xq_add (i_end d) (Fin k)) (i_so d) (i_eo d).
(* scan.py:113-114 _update_interval *)
Definition t_onwards : ival xq -> ival xq := fun d => mkI (i_start d) PInf (i_so d) true.

Lemma good_id : monotone t_id.
Proof. repeat split; auto; try apply H. Qed.

Lemma shift_imem k (d : ival xq) x : iok d -> notnan x -> imem (t_shift k d) (xq_add x (Fin k)) <-> imem d x.
Proof.
  intros [H1 H2] Hx. destruct d as [s e so eo]. unfold imem, t_shift. cbn [i_start i_end i_so i_eo] in *.
  assert (L : forall a b, notnan a -> notnan b -> lt_x (xq_add a (Fin k)) (xq_add b (Fin k)) <-> lt_x a b).
  { intros [a| | |] [b| | |] A B; try congruence; try (cbn; tauto). unfold lt_x. cbn. rewrite !Qcltb_true. split; intros; qc_lra. }
  assert (M : forall a b, notnan a -> notnan b -> le_x (xq_add a (Fin k)) (xq_add b (Fin k)) <-> le_x a b).
  { intros [a| | |] [b| | |] A B; try congruence; try (cbn; tauto). unfold le_x. cbn. rewrite !Qcleb_true. split; intros; qc_lra. }
  destruct so, eo; rewrite ?L, ?M; tauto.
Qed.
Lemma iok_shift k (d : ival xq) : iok d -> iok (t_shift k d).
Proof. intros [H1 H2]. destruct d as [s e so eo]. destruct s, e; split; cbn in *; try congruence; try discriminate. Qed.
Lemma unshift k x : notnan x -> exists y, notnan y /\ x = xq_add y (Fin k).
Proof.
  intros H. destruct x as [q| | |].
  - exists (Fin (q - k)%Qc). split; [discriminate|]. cbn. f_equal. ring.
  - exists PInf. split; [discriminate|reflexivity].
  - exists NInf. split; [discriminate|reflexivity].
  - congruence.
Qed.
Lemma good_shift k : monotone (t_shift k).
Proof.
  split; [|split].
  - apply iok_shift.
  - intros a b Ha Hb Hn S. apply superset_iff; auto using iok_shift. intros x Hx I.
    destruct (unshift k x Hx) as [y [Hy ->]]. apply shift_imem in I; auto. apply shift_imem; auto.
    eapply superset_iff; eauto.
  - intros a Ha H. apply intersects_iff in H; auto using iok_infinite.
    destruct H as [x [Hx [I1 I2]]]. apply intersects_iff; auto using iok_infinite, iok_shift.
    exists (xq_add x (Fin k)). destruct x as [q| | |]; try (destruct I2 as [? ?]; discriminate); try congruence.
    split; [discriminate|]. split; [now apply shift_imem|]. split; reflexivity.
Qed.
Lemma good_onwards : monotone t_onwards.
Proof.
  assert (O : forall a, iok a -> iok (t_onwards a)) by (intros a [H _]; split; [exact H|discriminate]).
  split; [exact O|]. split.
  - intros a b Ha Hb Hn S. apply superset_iff; auto. intros x Hx [I1 I2].
    split; [|exact I2].
    assert (K : exists y, notnan y /\ imem b y).
    { destruct (i_is_empty b) eqn:E; [discriminate|]. apply is_empty_e_false in E; auto.
      destruct (nonempty_emem b Hb E) as [y [Hy Iy]]. exists y. split; auto. now apply imem_emem. }
    assert (Ss : i_superset a b = true -> (if i_so a then lt_x (i_start a) x else le_x (i_start a) x)).
    { intros _. apply superset_e in S; auto. apply is_empty_e_false in Hn; auto.
      destruct Ha as [Ha1 Ha2], Hb as [Hb1 Hb2]. cbn [t_onwards i_start i_so] in I1.
      destruct S as [S|[_ [S _]]]; [contradiction|].
      destruct (i_so b) eqn:Eb; [apply lt_x_emb in I1; auto|apply le_x_emb in I1; auto];
      (destruct (i_so a) eqn:Ea; [apply lt_x_emb; auto|apply le_x_emb; auto]); cbn in S; lra. }
    exact (Ss S).
  - intros a Ha H. apply intersects_iff in H; auto using iok_infinite. destruct H as [x [Hx [[I1 I3] I2]]].
    apply intersects_iff; auto using iok_infinite. exists x. split; auto. split; auto. split; [exact I1|]. apply I2.
Qed.

(** ** Settling *)
Definition edge_of (g : net xq) (i c : nat) : Prop := exists t, In (c, t) (deps g i).

Lemma top_settle (g : net xq) (s : nstate xq) i d fuel :
  good_net g -> (i < length g)%nat -> (length g <= fuel)%nat -> (forall j, idle (s j)) -> iok d -> i_intersects d i_infinite = true ->
  exists s' LB LE, net_update g fuel s i d = Ok (s', LB, LE) /\
  forall j, is_updating (s' j) = false /\
  (depends g i j -> u_dom (s' j) = None /\
     (exists en b, In en LB /\ l_node en = j /\ l_not en = Some b) /\
     (forall en, In en LB -> l_node en = j ->
        exists en' D, In en' LE /\ l_node en' = j /\ l_not en' = Some D /\ i_superset D (l_arg en) = true)) /\
  (~ depends g i j -> s' j = s j /\ forall en, In en (LB ++ LE) -> l_node en <> j).
Proof.
  intros G Hi Hf ID Hd Hh.
  destruct (net_op_total g G fuel s i false d) as [[s1 LB] EB]; [lia|auto|].
  destruct (net_op_total g G fuel s1 i true d) as [[s2 LE] EE]; [lia|auto|].
  exists s2, LB, LE. unfold net_update. rewrite EB. cbn. rewrite EE. split; [reflexivity|]. intros j.
  destruct (settle g G s s1 s2 fuel i d LB LE EB EE ID Hd Hh j) as [S1 [S2 S3]].
  split; [unfold is_updating; destruct S1 as [-> _]; reflexivity|]. split; auto.
  intros D. destruct (S2 D) as [T1 [T2 T3]]. split; auto. split; auto. intros en I Ij. apply T3. apply (proj2 (in_args j LB (l_arg en))). eauto.
Qed.

Lemma top_once (g : net xq) (s : nstate xq) i d fuel :
  good_net g -> (i < length g)%nat -> (length g <= fuel)%nat -> (forall j, idle (s j)) -> iok d -> i_intersects d i_infinite = true ->
  (forall j, (in_degree g j <= 1)%nat) ->
  exists s' LB LE, net_update g fuel s i d = Ok (s', LB, LE) /\
  forall j, depends g i j -> exists x, i_is_empty x = false /\
    filter (fun en => (l_node en =? j)%nat) LB = [mkL j false x (Some x)] /\
    filter (fun en => (l_node en =? j)%nat) LE = [mkL j true x (Some x)].
Proof.
  intros G Hi Hf ID Hd Hh TR.
  destruct (net_op_total g G fuel s i false d) as [[s1 LB] EB]; [lia|auto|].
  destruct (net_op_total g G fuel s1 i true d) as [[s2 LE] EE]; [lia|auto|].
  exists s2, LB, LE. unfold net_update. rewrite EB. cbn. rewrite EE. split; [reflexivity|]. intros j D.
  destruct (tree_once g G s s1 s2 fuel i d LB LE EB EE ID Hd Hh j TR D) as [x [_ [X1 [X2 X3]]]].
  exists x. split; [now apply hit_nonempty|]. split; auto.
Qed.

(** ** A diamond: (f + f.map(g)) notifies its observers twice *)
Definition diamond : net xq := [[(1%nat, t_id); (2%nat, t_id)]; [(3%nat, t_id)]; [(3%nat, t_id)]; []].
Lemma diamond_good : good_net diamond.
Proof.
  split; [intros i c t I|intros i c t I];
    (destruct i as [|[|[|[|i]]]]; cbn in I; [| | |destruct I|destruct i; destruct I]; repeat (destruct I as [I|I]; [injection I as <- <-|]); try contradiction; try (cbn; lia); apply good_id).
Qed.
(** Node 3 sends its first end notification (third entry) while node 2, which it
    reads, is still in its update (its end comes fourth); then it sends another. *)
Definition shape (l : list (entry xq)) : list (nat * bool) :=
  map (fun en => (l_node en, match l_not en with Some _ => true | None => false end)) l.
Lemma diamond_twice : exists s' LB LE (d : ival xq), net_update diamond 4 (fun _ => upd_init) 0 d = Ok (s', LB, LE) /\
  shape LB = [(0, true); (1, true); (3, true); (2, true); (3, false)]%nat /\
  shape LE = [(0, true); (1, true); (3, true); (2, true); (3, true)]%nat.
Proof.
  assert (H : rmap (fun r => (shape (snd (fst r)), shape (snd r))) (net_update diamond 4 (fun _ => upd_init) 0 (i_closed (fz 0) (fz 1))) =
    Ok ([(0, true); (1, true); (3, true); (2, true); (3, false)], [(0, true); (1, true); (3, true); (2, true); (3, true)])%nat)
    by (vm_compute; reflexivity).
  destruct (net_update diamond 4 (fun _ => upd_init) 0 (i_closed (fz 0) (fz 1))) as [[[s' LB] LE]|] eqn:E; [|discriminate].
  exists s', LB, LE, (i_closed (fz 0) (fz 1)). split; [exact E|]. cbn [rmap fst snd] in H. injection H as H1 H2. split; assumption.
Qed.

(** a tree with all kinds of dependants *)
Definition tree : net xq :=
  [[(1%nat, t_id); (2%nat, t_shift (QcofZ 3))]; [(3%nat, t_onwards)]; [(4%nat, t_id); (5%nat, t_shift (QcofZ (-1)))]; []; []; []].
Lemma tree_good : good_net tree.
Proof.
  split; [intros i c t I|intros i c t I];
    (destruct i as [|[|[|[|[|[|i]]]]]]; cbn in I; try (destruct i; contradiction); repeat (destruct I as [I|I]; [injection I as <- <-|]); try contradiction; try (cbn; lia); auto using good_id, good_shift, good_onwards).
Qed.

Lemma tree_in_degree j : (in_degree tree j <= 1)%nat.
Proof. destruct j as [|[|[|[|[|[|j]]]]]]; cbn; lia. Qed.
Definition src_iv : ival xq := i_closed (fz 1) (fz 2).
Lemma tree_run : rmap (fun r => snd (fst r)) (net_update tree 6 (fun _ => mkU i_empty i_empty (Some src_iv)) 0 src_iv) =
  Ok [mkL 0 false src_iv (Some src_iv); mkL 1 false src_iv (Some src_iv);
      mkL 3 false (mkI (fz 1) PInf false true) (Some (mkI (fz 1) PInf false true));
      mkL 2 false (i_closed (fz 4) (fz 5)) (Some (i_closed (fz 4) (fz 5)));
      mkL 4 false (i_closed (fz 4) (fz 5)) (Some (i_closed (fz 4) (fz 5)));
      mkL 5 false (i_closed (fz 3) (fz 4)) (Some (i_closed (fz 3) (fz 4)))]%nat.
Proof. vm_compute. reflexivity. Qed.
