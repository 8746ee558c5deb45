(** What the curves over the candles evaluate to after any history. *)
From Coq Require Import List ZArith QArith Qcanon Bool Sorting.Sorted Lia Arith.
From Verif Require Import Base Num NumFacts Interval IntervalFacts Curve BaseFacts.
From Verif Require Import Points PointsSpec PointsIdx PointsQuery PointsDom PointsOps PointsMut PointsReset PointsReplace PointsCover PointsHist PointsTop PointsDec.
From Verif Require Import Combine CombineFacts CombineTop Scan ScanFacts ScanSource ScanInv ScanTf SmaFacts SmaInv ScanTop ScanView Quotes QuotesFacts.
Import ListNotations.
Implicit Types s : quotes xq.
Implicit Types D : duration xq.

(** ** Values *)
(** the k-th number of what is stored; None stays None *)
Definition entry (k : nat) (v : cnd) : res num :=
  match v with
  | None => Ok None
  | Some cd => match nth_error cd k with Some y => Ok (Some y) | None => Err EIndex end
  end.

Lemma quotes_y D s q : qinv D s -> exists v, p_y (q_pts s) (Fin q) = Ok v /\ value IPrevious (candles s) q v /\
  forall v', value IPrevious (candles s) q v' -> v' = v.
Proof.
  intros H. destruct (top_y (q_pts s) q (qi_hist _ _ H)) as (v & E & X & U).
  { rewrite (qi_interp _ _ H). discriminate. }
  rewrite (qi_interp _ _ H) in *. exists v. auto.
Qed.
Lemma component_value D s k q v : qinv D s -> value IPrevious (candles s) q v -> c_y (component k D s) (Fin q) = entry k v.
Proof.
  intros H HV. destruct (quotes_y D s q H) as (w & E & _ & U). rewrite <- (U v HV) in E.
  cbn [component map_curve c_y q_crv]. rewrite E. cbn [rbind]. destruct v as [cd|]; [|reflexivity].
  cbn [item entry]. now destruct (nth_error cd k).
Qed.
Lemma component_nonfinite D s k x : qinv D s -> ~ xfin x -> c_y (component k D s) x = Ok None.
Proof.
  intros H X. cbn [component map_curve c_y q_crv]. rewrite (top_y_nonfinite _ _ (qi_hist _ _ H) X). reflexivity.
Qed.
Lemma outside_value l q : ascending l -> ~ span l q -> value IPrevious l q (None : cnd).
Proof. intros A H. exact (value_none IPrevious l q H A). Qed.
Lemma hl2_value D s q cd h w : qinv D s -> value IPrevious (candles s) q (Some cd) ->
  nth_error cd HIGH = Some (Fin h) -> nth_error cd LOW = Some (Fin w) ->
  c_y (hl2 D s) (Fin q) = Ok (Some (Fin ((h + w) / (1 + 1))%Qc)).
Proof.
  intros H HV EH EL. destruct (quotes_y D s q H) as (v & E & _ & U). rewrite <- (U _ HV) in E.
  cbn [hl2 map_curve c_y q_crv]. rewrite E. cbn [rbind item]. rewrite EH. cbn [rbind]. rewrite EL. cbn [rbind].
  reflexivity.
Qed.
Lemma hl2_none D s q : qinv D s -> value IPrevious (candles s) q None -> c_y (hl2 D s) (Fin q) = Ok None.
Proof.
  intros H HV. destruct (quotes_y D s q H) as (v & E & _ & U). rewrite <- (U _ HV) in E.
  cbn [hl2 map_curve c_y q_crv]. rewrite E. reflexivity.
Qed.

(** ** First and last candle *)
Lemma last_quote_value D s q v : qinv D s -> last_opt (candles s) = Some (Fin q, v) -> last_quote D s = Ok v.
Proof.
  intros H L. pose proof (proj1 (qi_good _ _ H)) as A. fold (candles s) in A.
  unfold last_quote, y_end. cbn [q_crv c_dom c_y]. rewrite (qi_domain _ _ H).
  destruct (head_opt (candles s)) as [a|] eqn:Hh.
  2: { destruct (candles s); discriminate. }
  rewrite (ends_ok _ _ _ A Hh L). cbn [i_end i_closed fst].
  destruct (quotes_y D s q H) as (w & E & _ & U). unfold i_is_empty.
  rewrite <- (U v) in E by (apply val_knot; now apply last_opt_in). exact E.
Qed.
Lemma first_quote_value D s q v : qinv D s -> head_opt (candles s) = Some (Fin q, v) -> first_quote D s = Ok v.
Proof.
  intros H L. pose proof (proj1 (qi_good _ _ H)) as A. fold (candles s) in A.
  unfold first_quote, y_start. cbn [q_crv c_dom c_y]. rewrite (qi_domain _ _ H).
  destruct (last_opt_some (candles s)) as [z Z]; [destruct (candles s); discriminate|].
  rewrite (ends_ok _ _ _ A L Z). cbn [i_start i_closed fst].
  destruct (quotes_y D s q H) as (w & E & _ & U). unfold i_is_empty.
  rewrite <- (U v) in E by (apply val_knot; now apply head_opt_in). exact E.
Qed.

(** ** Appending against setting *)
Section Appending.
Context {O : Type} (point : O -> res (xq * cnd)) (encoder : option (O -> res O)).
Definition enc : O -> res O := match encoder with Some f => f | None => fun o => Ok o end.

(** one accepted append after another; is_uniform tells the truth after each *)
Inductive appending : quotes xq -> list O -> quotes xq -> Prop :=
| ap_none s : appending s [] s
| ap_one s o s1 evs lo s2 : q_append point encoder s o = (s1, evs, Ok tt) ->
    (p_uniform (q_pts s1) = true -> equally_spaced (candles s1)) ->
    appending s1 lo s2 -> appending s (o :: lo) s2.

(** encoding what has been encoded gives the same point *)
Definition encodes_once (o : O) : Prop := forall o' p, enc o = Ok o' -> point o' = Ok p ->
  exists o2, enc o' = Ok o2 /\ point o2 = Ok p.

Lemma reads_once o p : encodes_once o -> (let! e := enc o in point e) = Ok p -> reads point encoder (QAppend o) = Ok [p].
Proof.
  intros H E. cbn [reads]. fold enc. destruct (enc o) as [o'|] eqn:E1; [|discriminate]. cbn [rbind] in *.
  destruct (H o' p E1 E) as (o2 & -> & E2). cbn [rbind]. rewrite E2. reflexivity.
Qed.
Lemma reads_cons o lo m : reads point encoder (QSet (o :: lo)) = Ok m ->
  exists p m', m = p :: m' /\ (let! e := enc o in point e) = Ok p /\ reads point encoder (QSet lo) = Ok m'.
Proof.
  cbn [reads rmapM]. fold enc. destruct (let! e := enc o in point e) as [p|] eqn:E; [|discriminate]. cbn [rbind].
  destruct (rmapM _ lo) as [m'|] eqn:R; [|discriminate]. cbn [rbind]. intros [= <-]. exists p, m'. auto.
Qed.

Lemma appending_candles D : forall lo s m s', qinv D s -> (forall o, In o lo -> encodes_once o) ->
  reads point encoder (QSet lo) = Ok m -> ascending (candles s ++ m) -> appending s lo s' ->
  qinv D s' /\ candles s' = candles s ++ m.
Proof.
  induction lo as [|o lo IH]; intros s m s' H EO R A AP.
  - inversion AP; subst. cbn in R. injection R as <-. rewrite app_nil_r. auto.
  - inversion AP as [|s0 o0 s1 evs lo0 s2 E1 EQ AP' Eq1 Eq2 Eq3]; subst. destruct (reads_cons _ _ _ R) as (p & m' & -> & Ep & R').
    pose proof (reads_once o p (EO o (or_introl eq_refl)) Ep) as R1.
    assert (Ap : ascending [p]).
    { apply ascending_app_iff in A. destruct A as (_ & A & _). change (p :: m') with ([p] ++ m') in A.
      apply ascending_app_iff in A. apply A. }
    destruct (run_q_ok point encoder D s (QAppend o) [p] s1 evs H R1 Ap E1 EQ) as (H1 & _ & C1).
    change (p :: m') with ([p] ++ m') in A. rewrite app_assoc in A.
    destruct (IH s1 m' s' H1 (fun o I => EO o (or_intror I)) R' ltac:(rewrite C1; exact A) AP') as (H2 & C2).
    split; [exact H2|]. rewrite C2, C1, <- app_assoc. reflexivity.
Qed.

(** on equally spaced candles every append is accepted *)
Lemma equally_prefix {V} (l m : list (xq * V)) : equally_spaced (l ++ m) -> equally_spaced l.
Proof.
  intros (x0 & h & P & E). exists x0, h. split; [exact P|]. intros i p N. apply E. rewrite nth_error_app1; auto.
  apply nth_error_Some. congruence.
Qed.
Lemma append_accepted D s o p : qinv D s -> reads point encoder (QAppend o) = Ok [p] -> ascending (candles s ++ [p]) ->
  equally_spaced (candles s ++ [p]) -> exists s1 evs, q_append point encoder s o = (s1, evs, Ok tt) /\ candles s1 = candles s ++ [p] /\ qinv D s1.
Proof.
  intros H R A EQ. pose proof (qinv_touch _ _ H) as HT. pose proof (candles_touch s) as CT.
  assert (Ap : ascending [p]) by (apply ascending_app_iff in A; apply A).
  assert (X : exists p' evs, p_append_list (q_pts (q_touch s)) [p] = (p', evs, Ok tt) /\ p_pts p' = candles s ++ [p]).
  { destruct (candles s) as [|c0 cs] eqn:CS.
    - pose proof (proj1 (proj1 (good_calm _) (qi_good _ _ HT))) as C.
      assert (P0 : p_pts (q_pts (q_touch s)) = []) by exact CT.
      unfold p_append_list. rewrite P0.
      destruct (p_set_cases (q_pts (q_touch s)) [p] None C Ap ltac:(discriminate)) as (b & Eb & CS2).
      assert (b = true) as -> by (cbn in Eb; congruence).
      rewrite andb_false_r in CS2. destruct CS2 as (p' & E & S & _). exists p', (notify (set_domain (q_pts (q_touch s)) [p] None)).
      split; [exact E|]. apply (so_pts _ _ _ _ _ S).
    - destruct (p_append_accepts (q_pts (q_touch s)) [p] (qi_good _ _ HT)) as (p' & evs & E & P & _).
      + fold (candles (q_touch s)). rewrite CT. discriminate.
      + fold (candles (q_touch s)). rewrite CT. exact A.
      + fold (candles (q_touch s)). rewrite CT. exact EQ.
      + exists p', evs. split; [exact E|]. rewrite P. fold (candles (q_touch s)). now rewrite CT. }
  destruct X as (p' & evs & E & P).
  assert (EQ' : p_uniform p' = true -> equally_spaced (p_pts p')) by (intros _; rewrite P; exact EQ).
  destruct (qinv_op D (q_touch s) (OAppendList [p]) p' evs HT Ap E EQ') as (s1 & F & QP & H1 & _).
  exists s1, evs. split; [|split; [unfold candles at 1; rewrite QP; exact P|exact H1]].
  pose proof (run_q_points point encoder D s (QAppend o) [p] H R) as RQ. cbn [run_q q_pre p_op run_op] in RQ. rewrite RQ, E. exact F.
Qed.
Lemma appends_accepted D : forall lo s m, qinv D s -> (forall o, In o lo -> encodes_once o) ->
  reads point encoder (QSet lo) = Ok m -> ascending (candles s ++ m) -> equally_spaced (candles s ++ m) ->
  exists s', appending s lo s'.
Proof.
  induction lo as [|o lo IH]; intros s m H EO R A EQ.
  - exists s. constructor.
  - destruct (reads_cons _ _ _ R) as (p & m' & -> & Ep & R').
    pose proof (reads_once o p (EO o (or_introl eq_refl)) Ep) as R1.
    change (p :: m') with ([p] ++ m') in A, EQ. rewrite app_assoc in A, EQ.
    destruct (append_accepted D s o p H R1) as (s1 & evs & E1 & C1 & H1).
    { apply ascending_app_iff in A. apply A. }
    { apply equally_prefix in EQ. exact EQ. }
    destruct (IH s1 m' H1 (fun o I => EO o (or_intror I)) R') as (s' & AP).
    { rewrite C1. exact A. } { rewrite C1. exact EQ. }
    exists s'. eapply ap_one; eauto. intros _. rewrite C1. apply equally_prefix in EQ. exact EQ.
Qed.
Lemma pes_fresh (m : list (xq * cnd)) : equally_spaced m -> points_equally_spaced None [] m = Ok true.
Proof.
  intros (x0 & h & P & E). destruct m as [|p m]; [reflexivity|]. destruct m as [|p2 m]; [reflexivity|].
  remember (p :: p2 :: m) as l eqn:L.
  destruct (last_opt_some l) as [z Z]; [now rewrite L|].
  pose proof Z as Z'. rewrite last_opt_nth in Z'. apply E in Z'.
  unfold points_equally_spaced. assert (Ll : (2 <= length l)%nat) by (rewrite L; cbn; lia).
  replace (length l =? 0)%nat with false by (symmetry; apply Nat.eqb_neq; lia).
  cbn [length Nat.eqb orb negb Nat.add].
  replace (length l <? 2)%nat with false by (symmetry; apply Nat.ltb_ge; lia). cbn [orb].
  assert (E0 := E 0%nat p ltac:(now rewrite L)). assert (E1 := E 1%nat p2 ltac:(now rewrite L)).
  assert (N0 : py_nth l 0 = Ok p) by now rewrite L. assert (N1 : py_nth l 1 = Ok p2).
  { change 1%Z with (Z.of_nat 1). apply py_nth_pos. now rewrite L. }
  rewrite N0, N1. cbn [rbind]. rewrite (py_nth_m1 _ _ Z). cbn [rbind]. rewrite Z', E0, E1.
  cbn [n_eqb n_add n_sub n_mul n_ofZ XQ xq_eqb xq_add xq_sub xq_mul]. f_equal. apply Qceqb_true.
  replace (Z.of_nat (length l) - 1)%Z with (Z.of_nat (length l - 1)) by lia.
  change (QcofZ (Z.of_nat 0)) with 0%Qc. change (QcofZ (Z.of_nat 1)) with 1%Qc. ring.
Qed.
Lemma set_accepted D s lo m : qinv D s -> candles s = [] -> reads point encoder (QSet lo) = Ok m -> ascending m -> equally_spaced m ->
  exists s' evs, q_set point encoder s lo = (s', evs, Ok tt) /\ candles s' = m /\ qinv D s'.
Proof.
  intros H C0 R A EQ. pose proof (proj1 (proj1 (good_calm _) (qi_good _ _ H))) as C.
  assert (PI : p_int (q_pts s) = None).
  { pose proof (proj1 (proj2 (qi_good _ _ H))) as SI. unfold candles in C0. rewrite C0 in SI. cbn in SI. congruence. }
  destruct (p_set_cases (q_pts s) m None C A ltac:(discriminate)) as (b & Eb & CS).
  rewrite PI, (pes_fresh m EQ) in Eb. injection Eb as <-.
  rewrite andb_false_r in CS. destruct CS as (p' & E & S & _).
  assert (EQ' : p_uniform p' = true -> equally_spaced (p_pts p')) by (intros _; rewrite (so_pts _ _ _ _ _ S); exact EQ).
  destruct (qinv_op D s (OSet m) p' _ H A E EQ') as (s1 & F & QP & H1 & _).
  eexists. eexists. split; [|split; [|exact H1]].
  - pose proof (run_q_points point encoder D s (QSet lo) m H R) as RQ. cbn [run_q q_pre p_op run_op] in RQ. rewrite RQ, E. exact F.
  - unfold candles. rewrite QP. apply (so_pts _ _ _ _ _ S).
Qed.

Lemma same_candles D s1 s2 : qinv D s1 -> qinv D s2 -> candles s1 = candles s2 ->
  (forall k x, c_y (component k D s1) x = c_y (component k D s2) x) /\ q_domain s1 = q_domain s2.
Proof.
  intros H1 H2 E. split.
  - intros k x. assert (DX : xfin x \/ ~ xfin x).
    { destruct x as [q| | |]; [left; now exists q|right; intros [q X]; discriminate..]. }
    destruct DX as [[q ->]|NF].
    + destruct (quotes_y D s1 q H1) as (v & _ & V1 & _). rewrite (component_value D s1 k q v H1 V1).
      rewrite E in V1. now rewrite (component_value D s2 k q v H2 V1).
    + now rewrite !component_nonfinite.
  - now rewrite (qi_domain D s1 H1), (qi_domain D s2 H2), E.
Qed.

Lemma append_is_set D s lo m s1 s2 evs : quoted point encoder D s -> candles s = [] ->
  (forall o, In o lo -> encodes_once o) -> reads point encoder (QSet lo) = Ok m -> ascending m ->
  appending s lo s1 -> q_set point encoder s lo = (s2, evs, Ok tt) -> (p_uniform (q_pts s2) = true -> equally_spaced (candles s2)) ->
  candles s1 = m /\ candles s2 = m /\ q_domain s1 = q_domain s2 /\
  forall k x, c_y (component k D s1) x = c_y (component k D s2) x.
Proof.
  intros Q C0 EO R A AP E EQ. pose proof (quoted_inv _ _ _ _ Q) as H.
  destruct (appending_candles D lo s m s1 H EO R ltac:(rewrite C0; exact A) AP) as (H1 & C1). rewrite C0 in C1.
  destruct (run_q_ok point encoder D s (QSet lo) m s2 evs H R A E EQ) as (H2 & _ & C2).
  destruct (same_candles D s1 s2 H1 H2) as [S1 S2]; [now rewrite C1, C2|]. auto.
Qed.
Lemma append_set_accepted D s lo m : quoted point encoder D s -> candles s = [] ->
  (forall o, In o lo -> encodes_once o) -> reads point encoder (QSet lo) = Ok m -> ascending m -> equally_spaced m ->
  exists s1 s2 evs, appending s lo s1 /\ q_set point encoder s lo = (s2, evs, Ok tt) /\ candles s1 = m /\ candles s2 = m /\
    forall k x, c_y (component k D s1) x = c_y (component k D s2) x.
Proof.
  intros Q C0 EO R A EQ. pose proof (quoted_inv _ _ _ _ Q) as H.
  destruct (appends_accepted D lo s m H EO R ltac:(rewrite C0; exact A) ltac:(rewrite C0; exact EQ)) as (s1 & AP).
  destruct (set_accepted D s lo m H C0 R A EQ) as (s2 & evs & E & C2 & H2).
  destruct (append_is_set D s lo m s1 s2 evs Q C0 EO R A AP E) as (X1 & X2 & _ & X3).
  { intros _. rewrite C2. exact EQ. }
  exists s1, s2, evs. auto.
Qed.

(** an encoder that rejects its own output makes every append raise *)
Lemma append_never s o : (forall o', enc o = Ok o' -> exists e, enc o' = Err e) ->
  exists s' e, q_append point encoder s o = (s', [], Err e) /\ candles s' = candles s.
Proof.
  intros X. unfold q_append, encode_one. unfold enc in X. destruct encoder as [f|].
  - destruct (f o) as [o'|e].
    + destruct (X o' eq_refl) as [e E]. unfold q_append_list, q_set, encode_many. cbv zeta. cbn [rmapM]. rewrite E. cbn [rbind].
      exists (q_touch s), e. destruct (i_is_empty _); auto using candles_touch.
    + exists s, e. auto.
  - destruct (X o eq_refl). discriminate.
Qed.
End Appending.

(** ** Samples *)
Lemma q_sample_value D s fuel d ms step : qinv D s -> i_is_empty d = false -> iok (d_span D d) -> regular (q_pts s) ms step ->
  q_sample_points fuel D s (Some d) ms step = Ok (filter (fun p => i_contains (d_span D d) (fst p)) (candles s)).
Proof.
  intros H N K R. unfold q_sample_points. cbn [i_parse]. rewrite N.
  rewrite (top_sample (q_pts s) fuel (Some (d_span D d)) ms step (qi_hist _ _ H) R); [reflexivity|]. now intros d0 [= <-].
Qed.
Lemma get_range_attr D s fuel d ms step l : q_sample fuel D s d ms step = Ok l -> l <> [] -> Quotes.get_range fuel D s d ms step = Err EAttr.
Proof. intros E N. unfold Quotes.get_range. rewrite E. cbn [rbind]. destruct l; [congruence|reflexivity]. Qed.

(** ** The domain and the notifications *)
Lemma after_last D s k z v q : qinv D s -> last_opt (candles s) = Some (Fin z, v) -> (z < q)%Qc ->
  c_y (component k D s) (Fin q) = Ok None.
Proof.
  intros H L Lt. pose proof (proj1 (qi_good _ _ H)) as A. fold (candles s) in A.
  rewrite (component_value D s k q None H); [reflexivity|]. apply outside_value; auto. intros (b1 & b2 & v1 & v2 & _ & I & _ & L2).
  pose proof (ascending_last_ge _ _ _ A L I) as X. cbn [fst] in X. apply le_x_fin in X. clear -L2 X Lt. qc_lra.
Qed.
Lemma quotes_domain D s : qinv D s -> is_updating (q_upd s) = false /\ (i_is_empty (q_domain s) = true <-> candles s = []) /\
  (forall a z, head_opt (candles s) = Some a -> last_opt (candles s) = Some z -> q_domain s = i_closed (fst a) (fst z)) /\
  (forall q, i_contains (q_domain s) (Fin q) = true <-> span (candles s) q).
Proof.
  intros H. pose proof (qi_idle _ _ H) as [I _]. unfold is_updating. rewrite I. split; [reflexivity|].
  rewrite (qi_domain D s H), <- (qi_pdom D s H). destruct (top_domain (q_pts s) (qi_hist _ _ H)) as (_ & X). exact X.
Qed.
Lemma quotes_quote_domain D s : qinv D s -> (candles s = [] -> i_is_empty (quote_domain D s) = true) /\
  (forall a z, head_opt (candles s) = Some a -> last_opt (candles s) = Some z -> quote_domain D s = d_span D (i_closed (fst a) (fst z))).
Proof.
  intros H. destruct (top_domain (q_pts s) (qi_hist _ _ H)) as (_ & X1 & X2 & _). unfold quote_domain. split.
  - intros E. assert (Q : i_is_empty (p_dom (q_pts s)) = true) by (apply X1; exact E). rewrite Q. exact Q.
  - intros a z A Z. destruct (i_is_empty (p_dom (q_pts s))) eqn:Q.
    + assert (E : candles s = []) by (apply X1; reflexivity). rewrite E in A. discriminate A.
    + f_equal. apply X2; assumption.
Qed.
Lemma quotes_covers {O} (point : O -> res (xq * cnd)) encoder D s o m s' evs k q : qinv D s ->
  reads point encoder o = Ok m -> ascending m -> run_q point encoder s o = (s', evs, Ok tt) ->
  (p_uniform (q_pts s') = true -> equally_spaced (candles s')) ->
  c_y (component k D s') (Fin q) <> c_y (component k D s) (Fin q) ->
  exists E, evs = [EvBegin E; EvEnd E] /\ imem E (Fin q).
Proof.
  intros H R A E EQ NE. destruct (run_q_ok point encoder D s o m s' evs H R A E EQ) as (H' & AN & _).
  rewrite (run_q_points point encoder D s o m H R) in E. pose proof (qinv_pre D o s H) as HP.
  destruct (from_points_result _ _ _ _ _ E) as (p' & e' & EP & QP & F).
  assert (OK : op_ok (p_op o m)) by (destruct o; exact A).
  destruct (qinv_op D (q_pre o s) (p_op o m) p' e' HP OK EP) as (s2 & F2 & QP2 & HI & AN2).
  { rewrite <- QP. exact EQ. }
  rewrite EP in E. rewrite F2 in E. injection E as <- <-.
  assert (PY : p_y p' (Fin q) <> p_y (q_pts (q_pre o s)) (Fin q)).
  { intros X. apply NE. cbn [component map_curve c_y q_crv]. rewrite QP2, X.
    assert (Y : p_y (q_pts (q_pre o s)) (Fin q) = p_y (q_pts s) (Fin q)).
    { destruct (quotes_y D (q_pre o s) q HP) as (v & Ev & Vv & _). destruct (quotes_y D s q H) as (w & Ew & _ & Uw).
      rewrite candles_pre in Vv. rewrite Ev, Ew. f_equal. auto. }
    rewrite Y. reflexivity. }
  destruct (top_covers (q_pts (q_pre o s)) (p_op o m) p' e' q (qi_hist _ _ HP)) as (E0 & _ & I1 & I2); auto.
  - rewrite (qi_interp _ _ HP). discriminate.
  - destruct o; discriminate.
  - rewrite <- QP. exact EQ.
  - destruct AN as [[-> _]|(E1 & q1 & -> & _)]; [destruct I1|]. exists E1. split; [reflexivity|].
    destruct I1 as [X|[X|[]]]; [discriminate|]. injection X as ->. exact I2.
Qed.

Lemma hl2_spec {O} (point : O -> res (xq * cnd)) encoder D s : quoted point encoder D s ->
  (forall q cd h w, value IPrevious (candles s) q (Some cd) -> nth_error cd 1 = Some (Fin h) -> nth_error cd 2 = Some (Fin w) ->
    exists m, c_y (hl2 D s) (Fin q) = Ok (Some (Fin m)) /\ (m + m = h + w)%Qc) /\
  (forall q, value IPrevious (candles s) q None -> c_y (hl2 D s) (Fin q) = Ok None).
Proof.
  intros Q. apply quoted_inv in Q. split.
  - intros q cd h w V Eh Ew. exists ((h + w) / (1 + 1))%Qc. split; [now apply hl2_value with cd|].
    field. intros X. apply (f_equal (fun c => Qceqb c 0%Qc)) in X. vm_compute in X. discriminate.
  - intros q. now apply hl2_none.
Qed.
