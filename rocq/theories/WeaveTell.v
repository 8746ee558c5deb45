(** Notifications through a network: every curve is told, ends idle, and has
    accumulated nothing that is out of date. *)
From Coq Require Import List ZArith QArith Qcanon Bool Sorting.Sorted Lia Arith.
From Verif Require Import Base Num NumFacts Interval IntervalFacts Curve BaseFacts.
From Verif Require Import Points PointsSpec PointsIdx PointsQuery PointsDom PointsOps UpdFacts PointsMut PointsReset PointsReplace PointsCover PointsHist PointsTop PointsDec.
From Verif Require Import Graph GraphFacts GraphSettle GraphTop.
From Verif Require Import BaseTop Combine CombineFacts CombineTop CombineLine Scan ScanFacts ScanSource ScanInv ScanTf SmaFacts SmaInv ScanTop ScanView ScanSample ScanSampleFacts ScanSampleAcc Tower TowerFacts TowerTop TowerHist Weave WeaveList WeaveFacts WeaveReady.
Import ListNotations.

(** ** One accumulating curve is told that an update begins *)
Section One.
Context (G : list (xq * num) -> xq * num -> num -> num) (ip : interp).
Notation state := (state G ip).
Lemma state_upd l a k u : state l a k -> state l (set_aupd a u) k.
Proof. intros [C Q R]. split; auto. Qed.
Lemma begin_gen l l' a k D q : ascending l -> ascending l' -> state l a k -> i_start D = Fin q -> keeps D l l' ->
  exists a', begin_scan_update a D = (a', ev_begin (snd (begin_update (a_upd a) (update_interval D))), Ok tt) /\
    a_upd a' = fst (begin_update (a_upd a) (update_interval D)) /\ exists k', state l' a' k'.
Proof.
  intros A A' St S K. destruct (update_ok D q S) as [KU NU]. set (d := update_interval D) in *.
  assert (Sd : i_start d = Fin q) by exact S. assert (Kd : keeps d l l') by exact K.
  destruct (settle_reset G ip _ l' a k d q St A Sd Kd) as (a1 & k1 & E1 & St1 & U1 & B1).
  assert (X2 : exists a2 k2, (match a_cur a1, a_start a1 with
        | Some cur, Some st => if n_ltb cur st then reset_scan a1 else (a1, Ok tt)
        | _, _ => (a1, Ok tt)
        end) = (a2, Ok tt) /\ state l' a2 k2 /\ a_upd a2 = a_upd a1 /\ (forall p, In p (firstn k2 l') -> before d (fst p))).
  { destruct (a_cur a1) as [c|]; [destruct (a_start a1) as [t|]; [destruct (n_ltb c t)|]|]; try (exists a1, k1; split; [reflexivity|]; split; [exact St1|]; split; [reflexivity|exact B1]).
    destruct (reset_scan_ok G ip _ l' a1 k1 St1) as (a2 & E & St' & U'). exists a2, 0%nat.
    split; [exact E|]. split; [exact St'|]. split; [exact U'|]. intros p []. }
  destruct X2 as (a2 & k2 & E2 & St2 & U2 & B2).
  destruct (p_reset_noop (a_pts a2) d) as (pa & evs & E3 & P3 & G3 & F3 & I3).
  { apply St2. } { exact KU. }
  { intros p Ip. rewrite (co_pts _ _ _ _ _ (st_core _ _ _ _ _ St2)) in Ip.
    apply (in_map fst) in Ip. rewrite spec_xs in Ip. apply in_map_iff in Ip. destruct Ip as (r & Er & Ir).
    rewrite <- Er. apply before_not_mem; auto. eapply nn_point; [|exact Ir]. now apply ascending_firstn. }
  unfold begin_scan_update. fold d. rewrite E1; cbv beta iota. rewrite E2; cbv beta iota. rewrite E3; cbv beta iota. cbn [a_upd set_apts]. rewrite U2, U1.
  destruct (begin_update (a_upd a) d) as [u o]. cbn [fst snd]. eexists. split; [reflexivity|]. split; [reflexivity|].
  exists k2. apply state_upd. destruct St2 as [[L CP Gd F I] Q R]. split; cbn; auto. split; auto; congruence.
Qed.
End One.

Section Tell.
Context (ns : list (wnode xq)) (W : wf ns).
Notation n_at j := (nth j ns WBase).
Lemma at_nth j : (j < length ns)%nat -> nth_error ns j = Some (n_at j).
Proof. intros L. now apply nth_error_nth'. Qed.
Lemma at_nth' j n : nth_error ns j = Some n -> n_at j = n.
Proof. intros H. now apply nth_error_nth. Qed.

(** ** The network of notifications *)
Lemma observers_iff p c : In c (w_observers ns p) <-> exists n, nth_error ns c = Some n /\ In p (wreads n).
Proof.
  unfold w_observers. rewrite <- in_rev, in_flat_map.
  assert (CI : forall (ms : list (wnode xq)) b, forall i n, In (i, n) (combine (seq b (length ms)) ms) <-> exists k, i = (b + k)%nat /\ nth_error ms k = Some n).
  { induction ms as [|m ms IH]; intros b i n; cbn [length seq combine].
    - split; [intros []|intros (k & _ & H); destruct k; discriminate].
    - split.
      + intros [E|I]; [injection E as <- <-; exists 0%nat; split; [lia|reflexivity]|]. apply IH in I as (k & -> & H). exists (S k). split; [lia|exact H].
      + intros ([|k] & -> & H); [left; cbn in H; injection H as ->; f_equal; lia|]. right. apply IH. exists k. split; [lia|exact H]. }
  split.
  - intros ([i n] & I & J). cbn [fst snd] in J. apply CI in I as (k & -> & H). cbn in J. destruct (existsb (Nat.eqb p) (wreads n)) eqn:E; [|destruct J].
    destruct J as [<-|[]]. exists n. split; [exact H|]. apply existsb_exists in E as (p' & I & Q). apply Nat.eqb_eq in Q. now subst.
  - intros (n & H & I). exists (c, n). split; [apply CI; exists c; auto|]. cbn [fst snd].
    assert (E : existsb (Nat.eqb p) (wreads n) = true) by (apply existsb_exists; exists p; split; [exact I|apply Nat.eqb_refl]). rewrite E. now left.
Qed.
Lemma observers_up p c : In c (w_observers ns p) -> (p < c < length ns)%nat.
Proof.
  intros I. apply observers_iff in I as (n & H & J). split; [exact (wf_below ns c n p W H J)|]. apply nth_error_Some. congruence.
Qed.

Definition w_net : net xq := map (fun p => map (fun c => (c, w_arg (n_at c))) (w_observers ns p)) (seq 0 (length ns)).
Lemma net_len : length w_net = length ns.
Proof. unfold w_net. now rewrite map_length, seq_length. Qed.
Lemma net_deps p : (p < length ns)%nat -> deps w_net p = map (fun c => (c, w_arg (n_at c))) (w_observers ns p).
Proof.
  intros L. unfold deps, w_net. set (f := fun p => map (fun c => (c, w_arg (n_at c))) (w_observers ns p)).
  rewrite (nth_indep _ [] (f (length ns))) by (rewrite map_length, seq_length; exact L).
  rewrite (map_nth f), seq_nth by exact L. reflexivity.
Qed.
Lemma deps_in p c t : In (c, t) (deps w_net p) -> In c (w_observers ns p) /\ t = w_arg (n_at c).
Proof.
  intros I. destruct (Nat.lt_ge_cases p (length ns)) as [L|L].
  - rewrite net_deps in I by exact L. apply in_map_iff in I as (c' & E & J). injection E as <- <-. auto.
  - unfold deps in I. rewrite nth_overflow in I by (rewrite net_len; exact L). destruct I.
Qed.
Lemma net_good : good_net w_net.
Proof.
  split.
  - intros p c t I. rewrite net_len. apply deps_in in I as [I _]. now apply observers_up.
  - intros p c t I. apply deps_in in I as [_ ->]. destruct (n_at c); [exact good_id|exact good_id|exact good_id|exact good_onwards].
Qed.
Lemma all_depend j : (j < length ns)%nat -> depends w_net 0 j.
Proof.
  induction j as [j IH] using lt_wf_ind. intros L. pose proof (at_nth j L) as H. destruct (proj2 W j _ H) as [_ [->|NE]]; [constructor|].
  destruct (wreads (n_at j)) as [|p ps] eqn:E; [congruence|]. assert (I : In p (wreads (n_at j))) by (rewrite E; now left).
  pose proof (wf_below ns j _ p W H I) as Lp. apply (dep_step w_net 0 p j (w_arg (n_at j))); [apply IH; lia|].
  rewrite net_deps by lia. apply (in_map (fun c => (c, w_arg (n_at c)))). apply observers_iff. eauto.
Qed.

(** ** The states over the points [l] *)
Definition node_at (l : list (xq * num)) (n : wnode xq) (a : acc xq num) : Prop :=
  match n with
  | WBase => True
  | WScan k _ p => vinv (layer_G k) ILinear (w_list ns l p) a
  | _ => vupd l a
  end.
Definition WAt (l : list (xq * num)) (g : gst xq) : Prop := length g = length ns /\ forall j n, nth_error ns j = Some n -> node_at l n (acc_at g j).
Definition holds (l : list (xq * num)) (j : nat) (a : acc xq num) : Prop :=
  match n_at j with WScan k _ p => exists i, state (layer_G k) ILinear (w_list ns l p) a i | _ => True end.
Lemma holds_upd l j a u : holds l j a -> holds l j (set_aupd a u).
Proof. unfold holds. destruct (n_at j); auto. intros [i St]. exists i. now apply state_upd. Qed.

Context (l l' : list (xq * num)) (A : ascending l) (A' : ascending l') (D : ival xq) (q : Qc) (SD : i_start D = Fin q) (KD : keeps D l l').
Definition like (E : ival xq) : Prop := i_start E = i_start D /\ i_so E = i_so D.
Lemma like_arg n E : like E -> like (w_arg n E).
Proof. intros [S O]. destruct n; split; assumption. Qed.
Lemma like_keeps E (a b : list (xq * num)) : like E -> keeps D a b -> keeps E a b.
Proof. intros [S O] K k L B. apply K; [exact L|]. intros p I. specialize (B p I). unfold before in *. now rewrite S, O in B. Qed.

Lemma asc_list ll j n : ascending ll -> nth_error ns j = Some n -> ascending (w_list ns ll j).
Proof. intros AA H. eapply ascending_xs; [symmetry; exact (list_xs ns W ll j n H)|exact AA]. Qed.
Lemma told_begin o : match ev_begin o with
    | (EvBegin x | EvEnd x) :: _ => if i_intersects x i_infinite then Some x else None | [] => None end =
  match o with Some x => if i_intersects x i_infinite then Some x else None | None => None (A := ival xq) end.
Proof. destruct o; reflexivity. Qed.
Lemma told_end o : match ev_end o with
    | (EvBegin x | EvEnd x) :: _ => if i_intersects x i_infinite then Some x else None | [] => None end =
  match o with Some x => if i_intersects x i_infinite then Some x else None | None => None (A := ival xq) end.
Proof. destruct o; reflexivity. Qed.

Lemma event_sim j a e E : (0 < j < length ns)%nat -> holds l j a \/ holds l' j a -> (e = false -> like E) ->
  exists a', w_event (n_at j) a e E = Ok (a', snd (node_op (a_upd a) e (w_arg (n_at j) E))) /\
    a_upd a' = fst (node_op (a_upd a) e (w_arg (n_at j) E)) /\
    (holds l j a' \/ holds l' j a') /\ (holds l' j a -> holds l' j a') /\ (e = false -> holds l' j a').
Proof.
  intros Lj HQ LE. pose proof (at_nth j (proj2 Lj)) as H.
  assert (PLAIN : (match n_at j with WScan _ _ _ => False | _ => True end) ->
    exists a', Ok (let '(u, x) := node_op (a_upd a) e E in (set_aupd a u, x)) = Ok (a', snd (node_op (a_upd a) e E)) /\
    a_upd a' = fst (node_op (a_upd a) e E) /\
    (holds l j a' \/ holds l' j a') /\ (holds l' j a -> holds l' j a') /\ (e = false -> holds l' j a')).
  { intros P. destruct (node_op (a_upd a) e E) as [u x]. exists (set_aupd a u). cbn [fst snd]. split; [reflexivity|]. split; [reflexivity|].
    assert (T : holds l' j (set_aupd a u)) by (unfold holds; destruct (n_at j); auto; contradiction). auto. }
  destruct (n_at j) as [|skip own tfm p|un df tfm ps|k own p] eqn:En; cbn [w_event w_arg].
  1-3: destruct (PLAIN Logic.I) as (a' & E1 & R); exists a'; split; [|exact R]; destruct (node_op (a_upd a) e E) as [u x]; cbn in *; congruence.
  clear PLAIN. destruct e.
  - unfold end_scan_update, node_op. destruct (end_update (a_upd a) (update_interval E)) as [u o]. cbn [fst snd].
    rewrite told_end. exists (set_aupd a u). split; [reflexivity|]. split; [reflexivity|].
    split; [destruct HQ as [P|P]; [left|right]; now apply holds_upd|]. split; [apply holds_upd|discriminate].
  - specialize (LE eq_refl). unfold holds in HQ. rewrite En in HQ.
    assert (Ip : In p (wreads (WScan k own p))) by now left. destruct (wf_node ns j _ p W H Ip) as [m Hm].
    assert (SE : i_start E = Fin q) by (rewrite (proj1 LE); exact SD).
    assert (X : exists a', begin_scan_update a E = (a', ev_begin (snd (begin_update (a_upd a) (update_interval E))), Ok tt) /\
      a_upd a' = fst (begin_update (a_upd a) (update_interval E)) /\ exists k', state (layer_G k) ILinear (w_list ns l' p) a' k').
    { destruct HQ as [[i St]|[i St]].
      - apply (begin_gen (layer_G k) ILinear (w_list ns l p) (w_list ns l' p) a i E q); auto; try (now apply (asc_list _ p m)).
        apply like_keeps; [exact LE|]. exact (list_keeps ns W D l l' p m KD Hm).
      - apply (begin_gen (layer_G k) ILinear (w_list ns l' p) (w_list ns l' p) a i E q); auto; try (now apply (asc_list _ p m)).
        intros ? ? ?. reflexivity. }
    destruct X as (a' & E1 & U & St). rewrite E1, told_begin. exists a'. unfold node_op. destruct (begin_update (a_upd a) (update_interval E)) as [u o].
    cbn [fst snd] in *. split; [reflexivity|]. split; [exact U|].
    assert (T : holds l' j a') by (unfold holds; rewrite En; exact St). auto.
Qed.

(** the network of GraphFacts.v takes the same steps *)
Definition sim (g : gst xq) (s : nstate xq) : Prop := length g = length ns /\ forall j, (0 < j < length ns)%nat -> s j = a_upd (acc_at g j).
Definition either (g : gst xq) : Prop := forall j, (0 < j < length ns)%nat -> holds l j (acc_at g j) \/ holds l' j (acc_at g j).
Definition goes (e : bool) (s s' : nstate xq) (g g' : gst xq) (log : list (entry xq)) : Prop :=
  sim g' s' /\ either g' /\ s' 0%nat = s 0%nat /\
  (forall i, (0 < i < length ns)%nat -> holds l' i (acc_at g i) -> holds l' i (acc_at g' i)) /\
  (e = false -> forall en, In en log -> holds l' (l_node en) (acc_at g' (l_node en)) /\ like (l_arg en)) /\
  (forall en, In en log -> (0 < l_node en < length ns)%nat).
Lemma goes_app e s s1 s2 g g1 g2 l1 l2 : goes e s s1 g g1 l1 -> goes e s1 s2 g1 g2 l2 -> goes e s s2 g g2 (l1 ++ l2).
Proof.
  intros (A1 & A2 & A3 & A4 & A5 & A6) (B1 & B2 & B3 & B4 & B5 & B6). split; [exact B1|]. split; [exact B2|]. split; [congruence|].
  split; [auto|]. split.
  - intros E en I. apply in_app_iff in I as [I|I]; [|now apply B5]. destruct (A5 E en I) as [X Y]. split; [|exact Y]. apply B4; [now apply A6|exact X].
  - intros en I. apply in_app_iff in I as [I|I]; auto.
Qed.

Lemma node_begin (u : upd xq) (E x : ival xq) : snd (node_op u false E) = Some x -> x = E.
Proof.
  unfold node_op, begin_update. destruct (i_is_empty E || i_superset (u_begin u) E); [discriminate|]. cbn. destruct (i_intersects E i_infinite); [|discriminate]. now intros [= ->].
Qed.

Lemma op_sim f : forall e j g s E s' log, (0 < j < length ns)%nat -> sim g s -> either g -> (e = false -> like E) ->
  net_op w_net f s j e (w_arg (n_at j) E) = Ok (s', log) ->
  exists g', w_op ns f g j e E = Ok (g', log) /\ goes e s s' g g' log.
Proof.
  induction f as [|f IH]; intros e j g s E s' log Lj SM EI LE; [discriminate|]. rewrite net_op_eq.
  destruct SM as [LG SM]. destruct (event_sim j (acc_at g j) e E Lj (EI j Lj) LE) as (a' & E1 & U & H1 & H2 & H3).
  rewrite <- (SM j Lj) in E1, U. cbn [w_op]. rewrite E1. cbn [rbind].
  destruct (node_op (s j) e (w_arg (n_at j) E)) as [u x] eqn:No. cbn [fst snd] in *.
  set (g1 := put g j a'). set (s1 := set_node s j u).
  assert (AJ : acc_at g1 j = a') by (apply put_at; rewrite LG; apply Lj).
  assert (AE : forall i, i <> j -> acc_at g1 i = acc_at g i) by (intros; now apply put_else).
  assert (GO1 : forall x0, goes e s s1 g g1 [Graph.mkL j e (w_arg (n_at j) E) x0]).
  { intros x0. split; [|split; [|split; [|split; [|split]]]].
    - split; [unfold g1; now rewrite put_len|]. intros i Li. unfold s1, set_node. destruct (Nat.eqb_spec i j) as [->|NE]; [now rewrite AJ|]. rewrite AE by exact NE. now apply SM.
    - intros i Li. destruct (Nat.eq_dec i j) as [->|NE]; [now rewrite AJ|]. rewrite AE by exact NE. now apply EI.
    - unfold s1, set_node. destruct (Nat.eqb_spec 0 j); [lia|reflexivity].
    - intros i Li Hi. destruct (Nat.eq_dec i j) as [->|NE]; [rewrite AJ; auto|]. now rewrite AE.
    - intros EF en [<-|[]]. cbn [l_node l_arg]. rewrite AJ. split; [auto|]. apply like_arg. auto.
    - intros en [<-|[]]. exact Lj. }
  destruct x as [x|].
  - rewrite net_deps by apply Lj. intros H. cbn zeta in H.
    assert (LX : e = false -> like x).
    { intros ->. assert (Q : x = w_arg (n_at j) E) by (apply (node_begin (s j)); rewrite No; reflexivity). rewrite Q. apply like_arg. auto. }
    assert (LOOP : forall cs g0 s0 s2 log2, (forall c, In c cs -> (0 < c < length ns)%nat) -> sim g0 s0 -> either g0 ->
      go_deps w_net f e x (map (fun c => (c, w_arg (n_at c))) cs) s0 = Ok (s2, log2) ->
      exists g2, w_all (w_op ns f) cs g0 e x = Ok (g2, log2) /\ goes e s0 s2 g0 g2 log2).
    { induction cs as [|c cs IHc]; intros g0 s0 s2 log2 Lc SM0 EI0 H0; cbn [map] in H0.
      - cbn in H0. injection H0 as <- <-. exists g0. split; [reflexivity|]. split; [exact SM0|]. split; [exact EI0|]. split; [reflexivity|]. split; [auto|]. split; [intros _ en []|intros en []].
      - cbn [go_deps] in H0. destruct (net_op w_net f s0 c e (w_arg (n_at c) x)) as [[sa la]|] eqn:Ea; [|discriminate]. cbn [rbind] in H0.
        destruct (go_deps w_net f e x (map (fun c => (c, w_arg (n_at c))) cs) sa) as [[sb lb]|] eqn:Eb; [|discriminate]. cbn [rbind] in H0. injection H0 as <- <-.
        destruct (IH e c g0 s0 x sa la (Lc c (or_introl eq_refl)) SM0 EI0 LX Ea) as (ga & Wa & Ga).
        destruct (IHc ga sa sb lb) as (gb & Wb & Gb); [intros; apply Lc; now right|apply Ga|apply Ga|exact Eb|].
        exists gb. cbn [w_all]. rewrite Wa. cbn [rbind]. rewrite Wb. split; [reflexivity|]. eapply goes_app; eauto. }
    destruct (go_deps w_net f e x (map (fun c => (c, w_arg (n_at c))) (w_observers ns j)) s1) as [[s2 l2]|] eqn:El; [|discriminate].
    cbn [rbind] in H. injection H as <- <-.
    destruct (LOOP (w_observers ns j) g1 s1 s2 l2) as (g2 & W2 & G2); [|apply (GO1 None)|apply (GO1 None)|exact El|].
    { intros c I. apply observers_up in I. lia. }
    rewrite W2. cbn [rbind]. exists g2. split; [reflexivity|]. exact (goes_app e s s1 s2 g g1 g2 _ l2 (GO1 (Some x)) G2).
  - intros H. cbn zeta in H. cbn [rbind] in H. injection H as <- <-. exists g1. split; [reflexivity|]. apply GO1.
Qed.

Lemma all_sim f e x g s s' log : (e = false -> like x) -> sim g s -> either g ->
  go_deps w_net f e x (deps w_net 0) s = Ok (s', log) ->
  exists g', w_all (w_op ns f) (w_observers ns 0) g e x = Ok (g', log) /\ goes e s s' g g' log.
Proof.
  intros LX. assert (L0 : (0 < length ns)%nat) by (apply nth_error_Some; rewrite (proj1 W); discriminate).
  rewrite net_deps by exact L0.
  assert (LOOP : forall cs g0 s0 s2 log2, (forall c, In c cs -> (0 < c < length ns)%nat) -> sim g0 s0 -> either g0 ->
      go_deps w_net f e x (map (fun c => (c, w_arg (n_at c))) cs) s0 = Ok (s2, log2) ->
      exists g2, w_all (w_op ns f) cs g0 e x = Ok (g2, log2) /\ goes e s0 s2 g0 g2 log2).
  { induction cs as [|c cs IHc]; intros g0 s0 s2 log2 Lc SM0 EI0 H0; cbn [map] in H0.
    - cbn in H0. injection H0 as <- <-. exists g0. split; [reflexivity|]. split; [exact SM0|]. split; [exact EI0|]. split; [reflexivity|]. split; [auto|]. split; [intros _ en []|intros en []].
    - cbn [go_deps] in H0. destruct (net_op w_net f s0 c e (w_arg (n_at c) x)) as [[sa la]|] eqn:Ea; [|discriminate]. cbn [rbind] in H0.
      destruct (go_deps w_net f e x (map (fun c => (c, w_arg (n_at c))) cs) sa) as [[sb lb]|] eqn:Eb; [|discriminate]. cbn [rbind] in H0. injection H0 as <- <-.
      destruct (op_sim f e c g0 s0 x sa la (Lc c (or_introl eq_refl)) SM0 EI0 LX Ea) as (ga & Wa & Ga).
      destruct (IHc ga sa sb lb) as (gb & Wb & Gb); [intros; apply Lc; now right|apply Ga|apply Ga|exact Eb|].
      exists gb. cbn [w_all]. rewrite Wa. cbn [rbind]. rewrite Wb. split; [reflexivity|]. eapply goes_app; eauto. }
  intros SM EI. apply LOOP; auto. intros c I. apply observers_up in I. lia.
Qed.

(** ** A complete update *)
Context (OK : iok D) (NE : i_is_empty D = false).
Lemma start_hit : i_intersects D i_infinite = true.
Proof.
  apply intersects_iff; auto using iok_infinite. 
  assert (K : exists x, notnan x /\ imem D x).
  { apply is_empty_e_false in NE; auto. destruct (nonempty_emem D OK NE) as [y [Hy Iy]]. exists y. split; auto. now apply imem_emem. }
  destruct K as (x & Nx & [M1 M2]). destruct OK as [O1 O2]. rewrite SD in M1.
  destruct x as [x| | |]; [| | |now destruct Nx].
  - exists (Fin x). split; [exact Nx|]. split; [split; [rewrite SD; exact M1|exact M2]|]. split; reflexivity.
  - exists (Fin (q + 1)%Qc). split; [discriminate|]. split; [split|split; reflexivity].
    + rewrite SD. destruct (i_so D); [apply lt_x_fin|apply le_x_fin]; qc_lra.
    + destruct (i_end D) as [z| | |]; destruct (i_eo D); try discriminate; reflexivity.
  - exfalso. destruct (i_so D); discriminate.
Qed.

Theorem tell_ok fuel g : (length ns <= fuel)%nat -> WAt l g ->
  exists g' LB LE, w_tell ns fuel g [EvBegin D; EvEnd D] = Ok (g', LB ++ LE) /\ WAt l' g' /\
  (forall en, In en LB -> l_end en = false /\ like (l_arg en)) /\ (forall en, In en LE -> l_end en = true) /\
  forall j, (0 < j < length ns)%nat ->
    PointsOps.idle (a_upd (acc_at g' j)) /\ u_dom (a_upd (acc_at g' j)) = None /\
    (exists en b, In en LB /\ l_node en = j /\ l_not en = Some b) /\
    (forall en, In en LB -> l_node en = j -> exists en' x, In en' LE /\ l_node en' = j /\ l_not en' = Some x /\ i_superset x (l_arg en) = true).
Proof.
  intros Lf [LG WA]. assert (L0 : (0 < length ns)%nat) by (apply nth_error_Some; rewrite (proj1 W); discriminate).
  set (s := fun j => if ((0 <? j) && (j <? length ns))%nat then a_upd (acc_at g j) else upd_init (T := xq)).
  assert (SJ : forall j, (0 < j < length ns)%nat -> s j = a_upd (acc_at g j)).
  { intros j [X Y]. unfold s. apply Nat.ltb_lt in X, Y. now rewrite X, Y. }
  assert (ID : forall j, PointsOps.idle (s j)).
  { intros j. unfold s. destruct ((0 <? j) && (j <? length ns))%nat eqn:X; [|split; reflexivity].
    apply andb_true_iff in X as [X Y]. apply Nat.ltb_lt in X, Y. pose proof (WA j _ (at_nth j Y)) as K. pose proof (at_nth j Y) as Hj.
    destruct (n_at j) as [|skip own tfm p|un df tfm ps|k own p]; cbn [node_at] in K; [pose proof (wf_base ns j W Hj); lia|apply K|apply K|apply K]. }
  assert (HIT := start_hit). pose proof net_len as NL.
  destruct (net_op_total w_net net_good (S fuel) s 0 false D) as [[s1 LB] EB]; [lia|lia|].
  destruct (net_op_total w_net net_good (S fuel) s1 0 true D) as [[s2 LE] EE]; [lia|lia|].
  pose proof (fun j => settle w_net net_good s s1 s2 (S fuel) 0 D LB LE EB EE ID OK HIT j) as ST.
  rewrite net_op_eq in EB, EE.
  assert (B0 : node_op (s 0%nat) false D = (mkU D i_empty (u_dom (s 0%nat)), Some D)).
  { unfold node_op. rewrite begin_idle by auto. now rewrite HIT. }
  rewrite B0 in EB. cbn zeta in EB. set (s0 := set_node s 0 (mkU D i_empty (u_dom (s 0%nat)))) in *.
  destruct (go_deps w_net fuel false D (deps w_net 0) s0) as [[sb lb]|] eqn:Gb; [|discriminate]. cbn [rbind] in EB. injection EB as -> <-.
  assert (SM : sim g s0).
  { split; [exact LG|]. intros j Lj. unfold s0, set_node. destruct (Nat.eqb_spec j 0); [lia|]. now apply SJ. }
  assert (EI : either g).
  { intros j Lj. left. unfold holds. pose proof (WA j _ (at_nth j (proj2 Lj))) as K. destruct (n_at j); auto. apply K. }
  destruct (all_sim fuel false D g s0 s1 lb) as (g1 & W1 & S1 & EI1 & Z1 & P1 & Q1 & R1); [intros _; split; reflexivity|exact SM|exact EI|exact Gb|].
  assert (E0 : node_op (s1 0%nat) true D = (mkU i_empty i_empty None, Some D)).
  { rewrite Z1. unfold s0, set_node. cbn [Nat.eqb]. unfold node_op. rewrite end_begun by auto. now rewrite HIT. }
  rewrite E0 in EE. cbn zeta in EE. set (s1' := set_node s1 0 (mkU i_empty i_empty None)) in *.
  destruct (go_deps w_net fuel true D (deps w_net 0) s1') as [[se le]|] eqn:Ge; [|discriminate]. cbn [rbind] in EE. injection EE as -> <-.
  assert (SM1 : sim g1 s1').
  { split; [apply S1|]. intros j Lj. unfold s1', set_node. destruct (Nat.eqb_spec j 0); [lia|]. now apply S1. }
  destruct (all_sim fuel true D g1 s1' s2 le) as (g2 & W2 & S2 & EI2 & Z2 & P2 & _ & R2); [discriminate|exact SM1|exact EI1|exact Ge|].
  assert (KB : forall en, In en lb -> l_end en = false).
  { destruct (net_op_log w_net (S fuel) s 0 false D s1 (Graph.mkL 0 false D (Some D) :: lb)) as [LO _].
    - rewrite net_op_eq, B0. cbn zeta. fold s0. rewrite Gb. reflexivity.
    - intros en I. pose proof (lo_kind _ _ _ _ _ LO) as F. rewrite Forall_forall in F. apply F. now right. }
  assert (KE : forall en, In en le -> l_end en = true).
  { destruct (net_op_log w_net (S fuel) s1 0 true D s2 (Graph.mkL 0 true D (Some D) :: le)) as [LO _].
    - rewrite net_op_eq, E0. cbn zeta. fold s1'. rewrite Ge. reflexivity.
    - intros en I. pose proof (lo_kind _ _ _ _ _ LO) as F. rewrite Forall_forall in F. apply F. now right. }
  assert (EACH : forall j, (0 < j < length ns)%nat ->
    PointsOps.idle (a_upd (acc_at g2 j)) /\ u_dom (a_upd (acc_at g2 j)) = None /\
    (exists en b, In en lb /\ l_node en = j /\ l_not en = Some b) /\
    (forall en, In en lb -> l_node en = j -> exists en' x, In en' le /\ l_node en' = j /\ l_not en' = Some x /\ i_superset x (l_arg en) = true)).
  { intros j Lj. destruct (ST j) as (T1 & T2 & _). destruct (T2 (all_depend j (proj2 Lj))) as (U & (en & b & I & Nd & Nt) & T3).
    rewrite <- (proj2 S2 j Lj). split; [exact T1|]. split; [exact U|]. split.
    - destruct I as [<-|I]; [cbn in Nd; lia|]. exists en, b. auto.
    - intros e1 I1 N1. destruct (T3 (l_arg e1)) as (e2 & x & I2 & N2 & X & Y).
      { apply (proj2 (in_args j _ (l_arg e1))). exists e1. split; [now right|auto]. }
      destruct I2 as [<-|I2]; [cbn in N2; lia|]. exists e2, x. auto. }
  exists g2, lb, le. split; [|split; [|split; [|split; [exact KE|exact EACH]]]].
  - cbn [w_tell w_tell1]. rewrite W1. cbn [rbind]. rewrite W2. cbn [rbind]. now rewrite app_nil_r.
  - split; [apply S2|]. intros j n H. assert (Lj : (j < length ns)%nat) by (apply nth_error_Some; congruence).
    pose proof (at_nth' j n H) as Hn. destruct (Nat.eq_dec j 0) as [->|Nj].
    { rewrite (proj1 W) in H. injection H as <-. exact Logic.I. }
    destruct (EACH j ltac:(lia)) as (X1 & X2 & (en & b & I & Nd & _) & _).
    assert (VU : forall ll : list (xq * num), vupd ll (acc_at g2 j)) by (intros ll; split; [exact X1|now left]).
    destruct n as [|skip own tfm p|un df tfm ps|k own p]; cbn [node_at]; auto.
    split; [apply VU|]. assert (HH : holds l' j (acc_at g2 j)).
    { apply P2; [lia|]. rewrite <- Nd. now apply (Q1 eq_refl). }
    unfold holds in HH. rewrite Hn in HH. exact HH.
  - intros en I. split; [now apply KB|]. now apply (Q1 eq_refl).
Qed.
End Tell.
