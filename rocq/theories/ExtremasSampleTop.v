(** The samples of an Extremas object: the extremas. *)
From Coq Require Import List ZArith QArith Qcanon Bool Lia Sorting.Sorted.
From Verif Require Import Base Num NumFacts Interval IntervalFacts Curve BaseFacts Points PointsSpec PointsIdx PointsOps PointsQuery PointsReset PointsCover PointsDec PointsMut Combine Scan ScanFacts ScanInv ScanSource ScanView ScanSample ScanSampleFacts ScanSampleAcc ScanSampleTop.
From Verif Require Import Extremas ExtremasFold ExtremasUniq ExtremasVal ExtremasInv ExtremasLife ExtremasHist ExtremasSample.
Import ListNotations.
Open Scope Qc_scope.

(** Where x_next stops: at the points before the first extrema, the extremas, and
    the points after the last one. *)
Definition stopb (es : list (Qc * Qc)) (p : spt) : bool :=
  match head_opt es, last_opt es with
  | Some a, Some z => Qcltb (fst p) (fst a) || Qcltb (fst z) (fst p) || existsb (fun q => Qceqb (fst q) (fst p)) es
  | _, _ => true
  end.
Definition stops (l : list spt) (es : list (Qc * Qc)) : list spt := filter (stopb es) l.
Notation least x ks := (find (fun y => Qcleb x y) ks).

Lemma least_some x ks y : StronglySorted Qclt ks -> In y ks -> x <= y -> (forall z, In z ks -> x <= z -> y <= z) -> least x ks = Some y.
Proof.
  induction 1 as [|k ks SK IH F]; intros I L MI; [destruct I|]. cbn [find]. destruct (Qcleb x k) eqn:E; qb_simpl.
  - destruct I as [->|I]; auto. rewrite Forall_forall in F. specialize (F _ I). specialize (MI k (or_introl eq_refl) E). exfalso. qc_lra.
  - destruct I as [->|I]; [exfalso; qc_lra|]. apply IH; auto. intros z Iz. apply MI. now right.
Qed.
Lemma least_spec x ks y : StronglySorted Qclt ks -> least x ks = Some y -> In y ks /\ x <= y /\ forall z, In z ks -> x <= z -> y <= z.
Proof.
  induction 1 as [|k ks SK IH F]; cbn [find]; intros E; [discriminate|]. destruct (Qcleb x k) eqn:K; qb_simpl.
  - injection E as ->. split; [now left|]. split; auto. intros z [->|Iz] _; [apply Qcle_refl|]. rewrite Forall_forall in F. apply Qclt_le_weak. auto.
  - destruct (IH E) as (I & L & MI). split; [now right|]. split; auto. intros z [->|Iz] Lz; [exfalso; qc_lra|auto].
Qed.
Lemma least_none x ks : least x ks = None -> forall z, In z ks -> z < x.
Proof. intros E z I. pose proof (find_none _ _ E z I) as H. cbn in H. now apply Qcleb_false. Qed.

Lemma slt_fst l : StronglySorted slt l -> StronglySorted Qclt (map fst l).
Proof.
  induction 1 as [|p l SL IH F]; cbn [map]; constructor; auto. apply Forall_forall. intros x I. apply in_map_iff in I as (q & <- & I).
  rewrite Forall_forall in F. exact (F q I).
Qed.
Lemma filter_sorted {A} (R : A -> A -> Prop) P l : StronglySorted R l -> StronglySorted R (filter P l).
Proof.
  induction 1 as [|p l SL IH F]; cbn [filter]; [constructor|]. destruct (P p); auto. constructor; auto.
  rewrite Forall_forall in *. intros x I. apply filter_In in I as [I _]. auto.
Qed.
Lemma stops_sorted l es : StronglySorted slt l -> StronglySorted Qclt (map fst (stops l es)).
Proof. intros S. apply slt_fst. now apply filter_sorted. Qed.
Lemma stops_in l es x : In x (map fst (stops l es)) <-> exists p, In p l /\ fst p = x /\ stopb es p = true.
Proof.
  unfold stops. split.
  - intros I. apply in_map_iff in I as (p & <- & I). apply filter_In in I as [I S]. eauto.
  - intros (p & I & <- & S). apply in_map. now apply filter_In.
Qed.
Lemma stopb_spec es a z p : head_opt es = Some a -> last_opt es = Some z ->
  stopb es p = true <-> fst p < fst a \/ fst z < fst p \/ exists q, In q es /\ fst q = fst p.
Proof.
  intros A Z. unfold stopb. rewrite A, Z, !orb_true_iff, !Qcltb_true, existsb_exists. split.
  - intros [[H|H]|(q & I & E)]; auto. right. right. exists q. split; auto. now apply Qceqb_true.
  - intros [H|[H|(q & I & E)]]; auto. right. exists q. split; auto. now apply Qceqb_true.
Qed.
Lemma stopb_nil p : stopb [] p = true. Proof. reflexivity. Qed.

(** ** x_next *)
Lemma bisect_left_weak (es : list (Qc * Qc)) q : StronglySorted xle es ->
  exists i, bisect_points (map fqp es) (Fin q) = Ok (Z.of_nat i) /\ (i <= length es)%nat /\
    (forall j p, nth_error es j = Some p -> (j < i)%nat -> fst p < q) /\
    (forall j p, nth_error es j = Some p -> (i <= j)%nat -> q <= fst p).
Proof.
  intros A. unfold bisect_points. rewrite map_length.
  assert (G : forall fuel lo hi, (Z.to_nat (hi - lo) < fuel)%nat -> (0 <= lo <= hi)%Z -> (hi <= Z.of_nat (length es))%Z ->
    (forall j p, nth_error es j = Some p -> (Z.of_nat j < lo)%Z -> fst p < q) ->
    (forall j p, nth_error es j = Some p -> (hi <= Z.of_nat j)%Z -> q <= fst p) ->
    exists i, bisect_loop fuel (map fqp es) (Fin q) lo hi = Ok (Z.of_nat i) /\ (i <= length es)%nat /\
     (forall j p, nth_error es j = Some p -> (j < i)%nat -> fst p < q) /\ (forall j p, nth_error es j = Some p -> (i <= j)%nat -> q <= fst p)).
  { induction fuel as [|f IH]; intros lo hi Hf Hb Hh Hl Hr; [lia|].
    cbn [bisect_loop]. destruct (lo <? hi)%Z eqn:E.
    - apply Z.ltb_lt in E.
      assert (M : (lo <= (lo + hi) / 2 < hi)%Z) by (split; [apply Z.div_le_lower_bound|apply Z.div_lt_upper_bound]; lia).
      set (mid := ((lo + hi) / 2)%Z) in *. clearbody mid.
      destruct (nth_error es (Z.to_nat mid)) as [v|] eqn:NV; [|apply nth_error_None in NV; lia].
      rewrite <- (Z2Nat.id mid) by lia. rewrite (py_nth_pos _ (Z.to_nat mid) (fqp v)) by now apply map_nth_error. cbn [rbind fst fqp]. cbn [n_ltb XQ xq_ltb].
      destruct (Qcltb (fst v) q) eqn:C; qb_simpl.
      + apply IH; try lia; auto. intros j p Nj Hj. apply Qcle_lt_trans with (fst v); auto. apply (sorted_nth es A j (Z.to_nat mid)); auto. lia.
      + apply IH; try lia; auto. intros j p Nj Hj. apply Qcle_trans with (fst v); auto. apply (sorted_nth es A (Z.to_nat mid) j); auto. lia.
    - apply Z.ltb_ge in E. exists (Z.to_nat lo). rewrite Z2Nat.id by lia. split; [reflexivity|]. split; [lia|]. split.
      + intros j p Nj Hj. apply (Hl j); auto. lia.
      + intros j p Nj Hj. apply (Hr j); auto. lia. }
  destruct (G (S (length es)) 0%Z (Z.of_nat (length es))) as (i & E & L & B1 & B2); try lia.
  - intros j p Nj Hj. assert (j < length es)%nat by (apply nth_error_Some; congruence). lia.
  - exists i. auto.
Qed.

Lemma following_stops l es M q : following (map fsp (stops l es)) M (Fin q) = option_map Fin (least (q + M) (map fst (stops l es))).
Proof. apply following_ks. rewrite !map_map. reflexivity. Qed.

Lemma last_split {A} (l : list A) z : last_opt l = Some z -> exists l0, l = l0 ++ [z].
Proof. destruct l as [|y l0] using rev_ind; [discriminate|]. rewrite last_opt_app. intros E. injection E as ->. eauto. Qed.

Section Sample.
Context (m : Qc) (Hm : 0 < m) (dev : Qc) (Hd : 0 <= dev) (R : Qc -> option Qc).
Notation own := (Some (Fin m)).
Notation extremas_of := (extremas_of dev R).
Notation lx_inv := (lx_inv dev R).

Lemma resolve_ge M : m <= M -> resolve_min_step own (Some (Fin M)) = Some (Fin M).
Proof. intros L. cbn [resolve_min_step]. unfold n_max, n_gtb. cbn [n_ltb XQ xq_ltb]. now rewrite (proj2 (Qcltb_false _ _) L). Qed.
Lemma resolve_bound ms M : resolve_min_step own ms = Some (Fin M) -> m <= M.
Proof.
  destruct ms as [x|]; cbn [resolve_min_step].
  - unfold n_max, n_gtb. destruct (n_ltb x (Fin m)) eqn:E; intros Q; injection Q as ->; [apply Qcle_refl|].
    cbn [n_ltb XQ xq_ltb] in E. now apply Qcltb_false.
  - intros Q. injection Q as ->. apply Qcle_refl.
Qed.

Lemma known_next s l e es ls q M lim : ex_source m R s l -> m <= M -> StronglySorted xlt es -> rep es ls ->
  (forall p, In p es -> In (fst p, Some (snd p)) l) -> x_ext e = map fqp ls -> x_int e = ext_interval (x_ext e) ->
  ex_next (p_crv s) own e (Fin q) (Some (Fin M)) lim = Ok (option_map Fin (least (q + M) (map fst (stops l es)))).
Proof.
  intros X LM SE RP IN EX EI. pose proof (source_sorted m R s l X) as SS. pose proof (stops_sorted l es SS) as SK.
  unfold ex_next. rewrite (resolve_ge M LM). cbn [n_add XQ xq_add]. rewrite EI, EX, (rep_interval _ _ RP).
  destruct (i_contains (ext_interval (map fqp es)) (Fin (q + M))) eqn:C.
  - apply int_contains in C; auto. destruct C as (a & z & A & Z & L1 & L2).
    destruct (bisect_left_weak ls (q + M) (rep_sorted _ _ RP SE)) as (i & Bi & Li & B1 & B2). rewrite Bi. cbn [rbind].
    pose proof Z as Z'. rewrite <- (rep_last _ _ RP) in Z'.
    assert (Ni : (i < length ls)%nat).
    { destruct (Nat.eq_dec i (length ls)) as [K|]; [|lia]. exfalso. rewrite last_opt_nth in Z'.
      assert (length ls <> 0)%nat by (destruct ls; [discriminate|discriminate]). specialize (B1 _ _ Z' ltac:(lia)). qc_lra. }
    destruct (nth_error ls i) as [p|] eqn:N; [|apply nth_error_None in N; lia].
    rewrite (py_nth_pos _ i (fqp p)) by now apply map_nth_error. cbn [rbind fqp fst n_ltb XQ xq_ltb].
    pose proof (B2 _ _ N ltac:(lia)) as LP.
    destruct (Qcltb (fst p) (q + M)) eqn:D; qb_simpl; [exfalso; qc_lra|].
    assert (Ip : In p es) by (apply (rep_in es ls p RP); eapply nth_error_In; eauto).
    assert (LEAST : forall p', In p' es -> q + M <= fst p' -> fst p <= fst p').
    { intros p' I' L'. apply (rep_in_r es ls p' RP) in I'. apply In_nth_error in I'. destruct I' as [j Nj].
      destruct (Nat.lt_ge_cases j i) as [K|K]; [specialize (B1 _ _ Nj K); exfalso; qc_lra|].
      apply (sorted_nth ls (rep_sorted _ _ RP SE) i j p p'); auto. }
    rewrite (least_some (q + M) _ (fst p)); auto.
    + apply stops_in. exists (fst p, Some (snd p)). split; auto. split; auto. apply (stopb_spec es a z); auto. right. right. exists p. auto.
    + intros x Ix Lx. apply stops_in in Ix as (w & Iw & <- & Sw). apply (stopb_spec es a z) in Sw; auto.
      destruct Sw as [Sw|[Sw|(p' & Ip' & Ep')]]; [exfalso; qc_lra| |].
      * apply Qclt_le_weak. apply Qcle_lt_trans with (fst z); auto. apply (last_max es); auto.
      * rewrite <- Ep'. apply LEAST; auto. now rewrite Ep'.
  - rewrite (points_strides s M (es_good _ _ _ _ X)). rewrite (es_pts _ _ _ _ X).
    rewrite (following_ks (map fsp l) (map fst l)) by now rewrite !map_map. do 2 f_equal.
    pose proof (slt_fst l SS) as SL.
    destruct (least (q + M) (map fst l)) as [y|] eqn:E.
    + destruct (least_spec _ _ _ SL E) as (Iy & Ly & MI). symmetry. apply least_some; auto.
      * apply in_map_iff in Iy as (w & Ew & Iw). apply stops_in. exists w. split; auto. split; auto.
        destruct es as [|a es0]; [apply stopb_nil|]. set (es := a :: es0) in *.
        destruct (last_opt_some es) as [z Z]; [discriminate|]. apply (stopb_spec es a z); auto.
        destruct (Qclt_le_dec (q + M) (fst a)) as [L1|L1].
        -- assert (LE : y <= fst a). { apply MI; [|now apply Qclt_le_weak]. apply in_map_iff. exists (fst a, Some (snd a)). split; auto. apply IN. now left. }
           rewrite Ew. destruct (Qcle_lt_or_eq _ _ LE) as [K|K]; auto. right. right. exists a. split; [now left|congruence].
        -- right. left. destruct (Qclt_le_dec (fst z) (q + M)) as [L2|L2]; [rewrite Ew; qc_lra|]. exfalso.
           assert (i_contains (ext_interval (map fqp es)) (Fin (q + M)) = true) by (apply int_contains; auto; exists a, z; auto). congruence.
      * intros z Iz. apply MI. apply stops_in in Iz as (w & Iw & <- & _). now apply in_map.
    + symmetry. destruct (least (q + M) (map fst (stops l es))) as [y|] eqn:E2; auto. exfalso.
      destruct (least_spec _ _ _ SK E2) as (Iy & Ly & _). apply stops_in in Iy as (w & Iw & <- & _).
      apply (in_map fst) in Iw. pose proof (least_none _ _ E _ Iw). qc_lra.
Qed.

(** a beginning of the extremas is enough up to its end *)
Lemma stops_prefix l es t z q x b : StronglySorted slt l -> StronglySorted xlt (es ++ t) -> last_opt es = Some z -> b <= fst z -> q <= b ->
  agree b (option_map Fin (least x (map fst (stops l es)))) (option_map Fin (least x (map fst (stops l (es ++ t))))).
Proof.
  intros SS SE Z LB LQ. pose proof (stops_sorted l es SS) as S1. pose proof (stops_sorted l (es ++ t) SS) as S2.
  assert (NE : es <> []) by (intros ->; discriminate). destruct (head_opt_some es NE) as [a A].
  assert (A2 : head_opt (es ++ t) = Some a) by (destruct es; [discriminate|exact A]).
  destruct (last_opt_some (es ++ t)) as [zz Z2]; [destruct es; discriminate|].
  assert (TL : forall p, In p t -> fst z < fst p).
  { intros p Ip. destruct (last_split _ _ Z) as (es0 & ->). rewrite <- app_assoc in SE. clear -SE Ip. induction es0 as [|c es0 IH]; cbn in SE; inversion SE as [|? ? SE1 F]; subst; auto.
    rewrite Forall_forall in F. exact (F p Ip). }
  assert (ZZ : fst z <= fst zz) by (apply (last_max (es ++ t)); auto; apply in_or_app; left; now apply last_opt_in).
  assert (IFF : forall y, y <= b -> In y (map fst (stops l es)) <-> In y (map fst (stops l (es ++ t)))).
  { intros y LY. rewrite !stops_in. split; intros (p & Ip & Ep & Sp); exists p; split; auto; split; auto.
    - apply (stopb_spec es a z) in Sp; auto. apply (stopb_spec (es ++ t) a zz); auto. destruct Sp as [K|[K|(w & Iw & Ew)]]; auto.
      + exfalso. qc_lra.
      + right. right. exists w. split; auto. apply in_or_app. now left.
    - apply (stopb_spec (es ++ t) a zz) in Sp; auto. apply (stopb_spec es a z); auto. destruct Sp as [K|[K|(w & Iw & Ew)]]; auto.
      + exfalso. qc_lra.
      + right. right. apply in_app_or in Iw. destruct Iw as [Iw|Iw]; [exists w; auto|]. specialize (TL w Iw). exfalso. qc_lra. }
  assert (DIR : forall k1 k2, StronglySorted Qclt k1 -> StronglySorted Qclt k2 -> (forall y, y <= b -> In y k1 <-> In y k2) -> forall y, least x k1 = Some y -> y <= b -> least x k2 = Some y).
  { intros k1 k2 T1 T2 IE y E LY. destruct (least_spec _ _ _ T1 E) as (I & Lx & MI). apply least_some; auto.
    - now apply IE.
    - intros w Iw Lw. destruct (Qclt_le_dec b w) as [K|K]; [qc_lra|]. apply MI; auto. now apply IE. }
  destruct (least x (map fst (stops l es))) as [y|] eqn:E1.
  - destruct (Qclt_le_dec b y) as [K|K].
    + right. split; [exists y; auto|]. destruct (least x (map fst (stops l (es ++ t)))) as [y2|] eqn:E2; [|exact Logic.I].
      exists y2. split; auto. destruct (Qclt_le_dec b y2) as [K2|K2]; auto. exfalso.
      assert (Some y = Some y2); [rewrite <- E1; apply (DIR _ _ S2 S1); auto; intros; symmetry; auto|]. injection H as ->. qc_lra.
    + left. f_equal. symmetry. apply (DIR _ _ S1 S2); auto.
  - right. split; [exact Logic.I|]. destruct (least x (map fst (stops l (es ++ t)))) as [y2|] eqn:E2; [|exact Logic.I].
    exists y2. split; auto. destruct (Qclt_le_dec b y2) as [K2|K2]; auto. exfalso.
    assert (None = Some y2); [rewrite <- E1; apply (DIR _ _ S2 S1); auto; intros; symmetry; auto|]. discriminate.
Qed.

(** ** The samples *)
Definition the_dom (s : pts xq (option xq)) (domain : option (ival xq)) : ival xq :=
  match domain with None => p_dom s | Some d => i_inter2 (p_dom s) d end.

Lemma fop_asc es : StronglySorted xlt es -> ascending (map fop es).
Proof.
  intros S. split.
  - apply Forall_forall. intros x I. apply in_map_iff in I as (p & <- & _). eexists. reflexivity.
  - induction S as [|p es S IH F]; cbn [map]; constructor; auto. apply Forall_forall. intros x I. apply in_map_iff in I as (q & <- & I).
    rewrite Forall_forall in F. apply lt_x_fin. exact (F q I).
Qed.
Lemma the_dom_ok s l domain : ex_source m R s l -> (forall d, domain = Some d -> iok d) -> i_is_empty (the_dom s domain) = false ->
  i_inter2 (p_dom s) (the_dom s domain) = the_dom s domain /\
  exists u v, i_start (the_dom s domain) = Fin u /\ i_end (the_dom s domain) = Fin v /\ u <= v /\
    i_contains (p_dom s) (Fin u) = true /\ i_contains (p_dom s) (Fin v) = true.
Proof.
  intros X ID NE. pose proof (es_good _ _ _ _ X) as G. assert (A : ascending (p_pts s)) by apply G.
  assert (D : p_dom s = pts_domain (p_pts s)) by (apply calm_dom, good_calm, G).
  assert (NL : p_pts s <> []).
  { intros E. unfold the_dom in NE. rewrite D, E in NE. destruct domain; cbn in NE; discriminate. }
  destruct (head_opt_some _ NL) as [hd Hh]. destruct (last_opt_some _ NL) as [z Hz].
  pose proof (ends_ok _ _ _ A Hh Hz) as EO.
  destruct (ascending_fin _ hd A (head_opt_in _ _ Hh)) as (x0 & v0 & E1). destruct (ascending_fin _ z A (last_opt_in _ _ Hz)) as (xn & vn & E2).
  subst hd z. cbn [fst] in EO. rewrite EO in D.
  assert (L0 : x0 <= xn) by (apply le_x_fin; exact (ascending_head_le _ _ _ A Hh (last_opt_in _ _ Hz))).
  assert (SP : forall q, x0 <= q -> q <= xn -> i_contains (p_dom s) (Fin q) = true).
  { intros q Q1 Q2. apply span_dom; auto. apply (span_closed (p_pts s) q _ _ A Hh Hz). cbn [fst]. split; now apply le_x_fin. }
  assert (Y : i_inter2 (p_dom s) (the_dom s domain) = the_dom s domain /\ exists u v, i_start (the_dom s domain) = Fin u /\ i_end (the_dom s domain) = Fin v /\ x0 <= u /\ u <= v /\ v <= xn).
  { unfold the_dom in *. rewrite D in NE |- *. destruct domain as [d'|].
    - apply inter_idem; auto.
    - split; [|exists x0, xn; cbn; repeat split; auto; apply Qcle_refl]. apply inter_inside; auto; apply Qcle_refl. }
  destruct Y as (DI & u & v & Su & Ev & B1 & B2 & B3). split; auto. exists u, v. repeat (split; [assumption|]). split; apply SP; auto; qc_lra.
Qed.

(** what is known after scanning to the end of the window *)
Definition knows (s : pts xq (option xq)) (l : list spt) (k : nat) (ls : list (Qc * Qc)) (e : exs xq) : Prop := lx_inv s l e k /\ x_ext e = map fqp ls.
Definition far (l : list spt) (k : nat) (ls : list (Qc * Qc)) (b : Qc) : Prop := k = length l \/ exists z, last_opt ls = Some z /\ b <= fst z.

Lemma known_holds s l k ls e : knows s l k ls e -> exists po, holds R e ls po /\ mode dev R l k ls po.
Proof.
  intros [I E]. destruct (lx_ext _ _ _ _ _ _ I) as (ls1 & po & H & M).
  assert (EQ : ls1 = ls) by (apply map_fqp_inj; rewrite <- E; symmetry; apply H). subst ls1. eauto.
Qed.
Lemma known_y s l fes po (v : Qc -> option xq) k ls e q b fuel : ex_source m R s l -> extremas_of l fes po ->
  (forall q, value ILinear (map fop fes) q (v q)) -> (length l < fuel)%nat -> knows s l k ls e -> far l k ls b -> q <= b ->
  exists e', ex_y fuel (p_crv s) own (Fin dev) (ref_fun R) e (Fin q) = (e', Ok (v q)) /\ knows s l k ls e'.
Proof.
  intros X E VV F K FR LQ. destruct (known_holds _ _ _ _ _ K) as (p & Hh & _). destruct K as [I EX].
  destruct (lquery m Hm dev Hd R s l e k q fuel X I F) as (e' & k' & w & EY & I' & VW & ST).
  pose proof (source_sorted m R s l X) as SS. destruct (extremas_sound dev R _ _ _ SS E) as (SE & _).
  rewrite (value_unique ILinear _ q (v q) w (fop_asc fes SE) (VV q) (VW fes po E)). exists e'. split; auto.
  assert (LF : lfar R l e q k).
  { destruct FR as [->|(z & Z & LZ)]; [now left|]. right. exists ls, p, z. repeat (split; [assumption|]). qc_lra. }
  destruct (ST LF) as [-> EX']. split; auto. congruence.
Qed.
Lemma known_nx s l fes po k ls e q b M lim : ex_source m R s l -> extremas_of l fes po -> m <= M -> knows s l k ls e -> far l k ls b -> q <= b ->
  exists o, ex_next (p_crv s) own e (Fin q) (Some (Fin M)) lim = Ok o /\ agree b o (following (map fsp (stops l fes)) M (Fin q)).
Proof.
  intros X E LM K FR LQ. destruct (known_holds _ _ _ _ _ K) as (p & Hh & MD).
  pose proof (source_sorted m R s l X) as SS. destruct (mode_ext dev Hd R l k ls p SS (es_ref _ _ _ _ X) MD) as (es & RP & SE & IN & PRE).
  destruct (PRE fes po E) as [[t Et] FULL]. destruct (extremas_sound dev R _ _ _ SS E) as (SF & _).
  eexists. split.
  - apply (known_next s l e es ls q M lim X LM SE RP); [|apply Hh|apply Hh]. intros w Iw. specialize (IN w Iw). rewrite <- (firstn_skipn k l). apply in_or_app. now left.
  - rewrite following_stops. destruct FR as [->|(z & Z & LZ)].
    + rewrite <- FULL by lia. now left.
    + rewrite (rep_last _ _ RP) in Z. rewrite Et in SF |- *. now apply (stops_prefix l es t z q).
Qed.
Lemma known_dom s l k ls e : knows s l k ls e -> exists e', ex_dom (p_dom s) e = (e', p_dom s) /\ knows s l k ls e'.
Proof.
  intros [I EX]. destruct (ldom_ok dev R s l e k I) as (e' & ED & I' & _ & _ & EX' & _). exists e'. split; auto. split; auto. congruence.
Qed.
Lemma known_from s l e k b : lx_inv s l e k -> lfar R l e b k -> exists ls, knows s l k ls e /\ far l k ls b.
Proof.
  intros I F. destruct (lx_ext _ _ _ _ _ _ I) as (ls & po & H & M). exists ls. split; [split; auto; apply H|].
  destruct F as [->|(ls2 & po2 & z & H2 & Z & LZ)]; [now left|]. right. exists z. split; auto.
  assert (ls = ls2) as -> by (apply map_fqp_inj; rewrite <- (hd_ext _ _ _ _ H); apply H2). exact Z.
Qed.
Lemma stops_asc s l es : ex_source m R s l -> ascending (map fsp (stops l es)).
Proof.
  intros X. pose proof (source_sorted m R s l X) as SS. apply (filter_sorted _ (stopb es)) in SS. split.
  - apply Forall_forall. intros x I. apply in_map_iff in I as (p & <- & _). eexists. reflexivity.
  - change (filter (stopb es) l) with (stops l es) in SS. induction SS as [|p t S IH F]; cbn [map]; constructor; auto. apply Forall_forall. intros x I. apply in_map_iff in I as (q & <- & I).
    rewrite Forall_forall in F. apply lt_x_fin. exact (F q I).
Qed.

(** scanning to both ends, then the walk *)
Lemma sample_walk s l e k fes po (v : Qc -> option xq) domain ms M step u w fuel rows : ex_source m R s l -> lx_inv s l e k -> extremas_of l fes po ->
  (forall q, value ILinear (map fop fes) q (v q)) -> (length l < fuel)%nat -> (forall d, domain = Some d -> iok d) ->
  resolve_min_step own ms = Some (Fin M) -> i_is_empty (the_dom s domain) = false ->
  i_start (the_dom s domain) = Fin u -> i_end (the_dom s domain) = Fin w ->
  (forall k ls e, knows s l k ls e -> far l k ls w -> u <= w -> exists e',
    st_sample own (ex_dom (p_dom s)) (ex_y fuel (p_crv s) own (Fin dev) (ref_fun R)) (ex_next (p_crv s) own) fuel e (Some (the_dom s domain)) (Some (Fin M)) step =
    (e', Ok rows) /\ knows s l k ls e') ->
  exists e' k', ex_sample_points fuel (p_crv s) own (Fin dev) (ref_fun R) e domain ms step = (e', Ok (ex_sample rows)) /\ lx_inv s l e' k'.
Proof.
  intros X I E VV F ID RM NE ES EE W.
  destruct (the_dom_ok s l domain X ID NE) as (DI & u' & w' & ES' & EE' & UW & CU & CW).
  rewrite ES in ES'. injection ES' as <-. rewrite EE in EE'. injection EE' as <-.
  unfold ex_sample_points, ex_scan_sample. cbn [c_dom p_crv]. destruct (ldom_ok dev R s l e k I) as (e0 & ED & I0 & _). rewrite ED, RM.
  change (match domain with Some d => _ | None => _ end) with (the_dom s domain). rewrite NE.
  assert (FI : i_is_finite (the_dom s domain) = true) by (unfold i_is_finite; rewrite ES, EE; reflexivity).
  assert (II : i_is_infinite (the_dom s domain) = false) by (unfold i_is_infinite; now rewrite FI). rewrite II, ES, EE.
  destruct (lscan m Hm dev Hd R s l e0 k u fuel X I0 F CU) as (e1 & k1 & E1 & I1 & _). change (mkC _ _ _ _ _) with (p_crv s). rewrite E1.
  destruct (lscan m Hm dev Hd R s l e1 k1 w fuel X I1 F CW) as (e2 & k2 & E2 & I2 & F2 & _). rewrite E2.
  destruct (known_from s l e2 k2 w I2 F2) as (ls & K & FR). destruct (W k2 ls e2 K FR UW) as (e3 & E3 & K3). rewrite E3.
  exists e3, k2. split; [reflexivity|apply K3].
Qed.
Theorem ex_sampled s l e k fes po (v : Qc -> option xq) domain ms M u w r fuel : ex_source m R s l -> lx_inv s l e k -> extremas_of l fes po ->
  (forall q, value ILinear (map fop fes) q (v q)) -> (length l < fuel)%nat -> (forall d, domain = Some d -> iok d) ->
  resolve_min_step own ms = Some (Fin M) -> i_is_empty (the_dom s domain) = false ->
  i_start (the_dom s domain) = Fin u -> i_end (the_dom s domain) = Fin w -> i_so (the_dom s domain) = false ->
  strided (map fsp (stops l fes)) M w u r -> spread M r -> (length r < fuel)%nat ->
  exists e' k', ex_sample_points fuel (p_crv s) own (Fin dev) (ref_fun R) e domain ms None =
    (e', Ok (ex_sample (map (fun x => (Fin x, v x)) (u :: r ++ (if i_eo (the_dom s domain) || Qceqb (last r u) w then [] else [w]))))) /\ lx_inv s l e' k'.
Proof.
  intros X I E VV F ID RM NE ES EE SO ST SP FR. pose proof (resolve_bound ms M RM) as LM.
  destruct (the_dom_ok s l domain X ID NE) as (DI & _).
  apply (sample_walk s l e k fes po v domain ms M None u w fuel); auto.
  intros k' ls e' K FA UW.
  apply (st_sample_strided own _ _ _ (knows s l k' ls) (map fsp (stops l fes)) M u w v) with (D := p_dom s); auto.
  - qc_lra.
  - now apply (stops_asc s).
  - intros e1 q K1 _ LQ. now apply (known_y s l fes po v k' ls e1 q w fuel).
  - intros e1 q K1 _ LQ. now apply (known_nx s l fes po k' ls e1 q w M).
  - intros e1 K1. now apply known_dom.
  - now apply resolve_ge.
Qed.
Theorem ex_stepped s l e k fes po (v : Qc -> option xq) domain ms M u w h n fuel : ex_source m R s l -> lx_inv s l e k -> extremas_of l fes po ->
  (forall q, value ILinear (map fop fes) q (v q)) -> (length l < fuel)%nat -> (forall d, domain = Some d -> iok d) ->
  resolve_min_step own ms = Some (Fin M) -> i_is_empty (the_dom s domain) = false ->
  i_start (the_dom s domain) = Fin u -> i_end (the_dom s domain) = Fin w -> i_so (the_dom s domain) = false -> 0 < h ->
  (forall i, (i <= n)%nat -> u + QcofZ (Z.of_nat i) * h <= w) -> w < u + QcofZ (Z.of_nat (S n)) * h -> (n < fuel)%nat ->
  exists e' k', ex_sample_points fuel (p_crv s) own (Fin dev) (ref_fun R) e domain ms (Some (Fin h)) =
    (e', Ok (ex_sample (map (fun x => (Fin x, v x)) (map (fun i => u + QcofZ (Z.of_nat i) * h) (seq 0 (S n)))))) /\ lx_inv s l e' k'.
Proof.
  intros X I E VV F ID RM NE ES EE SO Hh IN OUT FR. pose proof (resolve_bound ms M RM) as LM.
  destruct (the_dom_ok s l domain X ID NE) as (DI & _).
  apply (sample_walk s l e k fes po v domain ms M (Some (Fin h)) u w fuel); auto.
  intros k' ls e' K FA UW.
  apply (st_sample_steps own _ _ _ (knows s l k' ls) M u w v) with (D := p_dom s) (dom := the_dom s domain); auto.
  - qc_lra.
  - intros e1 q K1 _ LQ. now apply (known_y s l fes po v k' ls e1 q w fuel).
  - intros e1 K1. now apply known_dom.
  - now apply resolve_ge.
Qed.
End Sample.

(** ** Windows, and everything *)
Lemma sorted_same {A} (lt : A -> A -> Prop) l1 : (forall x, ~ lt x x) -> (forall x y z, lt x y -> lt y z -> lt x z) -> StronglySorted lt l1 -> forall l2, StronglySorted lt l2 ->
  (forall x, In x l1 <-> In x l2) -> l1 = l2.
Proof.
  intros IR TR. induction 1 as [|a l1 S1 IH F1]; intros l2 S2 IFF.
  - destruct l2 as [|b l2]; auto. destruct (proj2 (IFF b) (or_introl eq_refl)).
  - destruct S2 as [|b l2 S2 F2]; [destruct (proj1 (IFF a) (or_introl eq_refl))|]. rewrite Forall_forall in F1, F2.
    assert (a = b) as ->.
    { destruct (proj1 (IFF a) (or_introl eq_refl)) as [E|I]; auto. destruct (proj2 (IFF b) (or_introl eq_refl)) as [E|J]; auto.
      exfalso. apply (IR a). apply (TR _ b); auto. }
    f_equal. apply IH; auto. intros x. split; intros I.
    + destruct (proj1 (IFF x) (or_intror I)) as [<-|J]; auto. destruct (IR b). auto.
    + destruct (proj2 (IFF x) (or_intror I)) as [<-|J]; auto. destruct (IR b). auto.
Qed.
Lemma gaps_sorted M ks : 0 < M -> gaps M ks -> StronglySorted Qclt ks.
Proof. intros HM. induction 1 as [|x ks S IH F]; constructor; auto. eapply Forall_impl; [|exact F]. intros y. cbn. intros. qc_lra. Qed.
Lemma kept_all M x ks : 0 < M -> gaps M (x :: ks) -> kept M x (last ks x) (x :: ks) = ks.
Proof.
  intros HM G. inversion G as [|? ? G1 F]; subst. unfold kept. cbn [filter]. rewrite (proj2 (Qcleb_false (x + M) x)) by qc_lra. cbn [andb].
  assert (LM : forall y, In y ks -> y <= last ks x).
  { apply gaps_sorted in G1; auto. clear -G1. induction G1 as [|a ks S IH F]; intros y []; subst.
    - destruct ks as [|b ks]; [apply Qcle_refl|]. apply Qclt_le_weak. rewrite Forall_forall in F. apply F. clear. cbn [last]. revert b. induction ks as [|c ks IH]; intros b; [now left|]. right. exact (IH c).
    - destruct ks as [|b ks]; [destruct H|]. exact (IH y H). }
  assert (AL : forall P t, (forall y, In y t -> P y = true) -> @filter Qc P t = t).
  { intros P t. induction t as [|c t IH]; intros H; [reflexivity|]. cbn. rewrite (H c (or_introl eq_refl)). f_equal. apply IH. intros y I. apply H. now right. }
  apply AL. intros y I. rewrite Forall_forall in F. rewrite (proj2 (Qcleb_true _ _)) by (apply Qclt_le_weak; auto). now apply Qcleb_true, LM.
Qed.
Lemma kept_len M u w ks : (length (kept M u w ks) <= length ks)%nat.
Proof. unfold kept. induction ks as [|x ks IH]; cbn [filter length]; [lia|]. destruct (_ && _); cbn [length]; lia. Qed.
Lemma filter_len {A} P (l : list A) : (length (filter P l) <= length l)%nat.
Proof. induction l as [|x l IH]; cbn; [lia|]. destruct (P x); cbn; lia. Qed.

Lemma samples_extremas l fes (v : Qc -> option xq) : StronglySorted slt l -> StronglySorted xlt fes -> (forall p, In p fes -> In (fst p, Some (snd p)) l) ->
  (forall q, value ILinear (map fop fes) q (v q)) -> ex_sample (map (fun x => (Fin x, v x)) (map fst (stops l fes))) = map fop fes.
Proof.
  intros SS SF IN VV. pose proof (fop_asc fes SF) as AF.
  apply (sorted_same (fun p q : xq * option xq => lt_x (fst p) (fst q) /\ (exists x y, fst p = Fin x /\ fst q = Fin y))).
  - intros [x y] [L (a & b & E1 & E2)]. cbn [fst] in *. subst x. injection E2 as ->. apply lt_x_fin in L. qc_lra.
  - intros [x ?] [y ?] [z ?] [L1 (a & b & E1 & E2)] [L2 (c & d & E3 & E4)]. cbn [fst] in *. subst x z. rewrite E2 in *. injection E3 as ->.
    split; [|eauto]. apply lt_x_fin in L1, L2. apply lt_x_fin. qc_lra.
  - apply filter_sorted. pose proof (stops_sorted l fes SS) as S. induction S as [|x ks S IH F]; cbn [map]; constructor; auto.
    apply Forall_forall. intros p I. apply in_map_iff in I as (y & <- & I). rewrite Forall_forall in F. cbn [fst]. split; [|eauto]. apply lt_x_fin. auto.
  - clear -SF. induction SF as [|x ks S IH F]; cbn [map]; constructor; auto.
    apply Forall_forall. intros p I. apply in_map_iff in I as (y & <- & I). rewrite Forall_forall in F. cbn [fst fop]. split; [|eauto]. apply lt_x_fin. exact (F y I).
  - assert (KN : forall q, In q fes -> v (fst q) = Some (Fin (snd q))).
    { intros q I. apply (value_unique ILinear (map fop fes) (fst q) _ _ AF (VV _)). apply val_knot. apply (in_map fop) in I. exact I. }
    intros [x y]. unfold ex_sample. rewrite filter_In. split.
    + intros [I NV]. apply in_map_iff in I as (z & E & I). injection E as <- <-. apply stops_in in I as (p & Ip & <- & Sp). cbn [snd] in NV.
      destruct fes as [|a fes0].
      { assert (v (fst p) = v_none) as EV by (apply (value_unique ILinear _ (fst p) _ _ AF (VV _)); apply val_outside; left; intros ? []). rewrite EV in NV. discriminate NV. }
      set (fes := a :: fes0) in *. destruct (last_opt_some fes) as [z Z]; [discriminate|]. apply (stopb_spec fes a z) in Sp; auto.
      destruct Sp as [K|[K|(q & Iq & Eq)]].
      * assert (v (fst p) = v_none) as EV; [|rewrite EV in NV; discriminate NV]. apply (value_unique ILinear _ (fst p) _ _ AF (VV _)). apply val_outside.
        left. intros w Iw. apply in_map_iff in Iw as (q & <- & Iq). apply lt_x_fin. apply Qclt_le_trans with (fst a); auto. apply (first_min fes); auto.
      * assert (v (fst p) = v_none) as EV; [|rewrite EV in NV; discriminate NV]. apply (value_unique ILinear _ (fst p) _ _ AF (VV _)). apply val_outside.
        right. intros w Iw. apply in_map_iff in Iw as (q & <- & Iq). apply lt_x_fin. apply Qcle_lt_trans with (fst z); auto. apply (last_max fes); auto.
      * rewrite <- Eq, (KN q Iq). apply (in_map fop) in Iq. exact Iq.
    + intros I. apply in_map_iff in I as (q & E & Iq). injection E as <- <-. split; [|reflexivity]. apply in_map_iff. exists (fst q). split; [now rewrite (KN q Iq)|].
      apply stops_in. exists (fst q, Some (snd q)). split; auto. split; auto.
      destruct fes as [|a fes0]; [destruct Iq|]. set (fes := a :: fes0) in *. destruct (last_opt_some fes) as [z Z]; [discriminate|].
      apply (stopb_spec fes a z); auto. right. right. exists q. auto.
Qed.

Section Top.
Context (m : Qc) (Hm : 0 < m) (dev : Qc) (Hd : 0 <= dev).
Notation own := (Some (Fin m)).
(** Later queries are answered from the same extremas. *)
Definition answers (R : Qc -> option Qc) (s : pts xq (option xq)) (l : list spt) (fes : list (Qc * Qc)) (e : exs xq) : Prop :=
  forall q fuel, (length l < fuel)%nat -> exists e' v, ex_y fuel (p_crv s) own (Fin dev) (ref_fun R) e (Fin q) = (e', Ok v) /\ value ILinear (map fop fes) q v.
Lemma inv_answers R s l e k fes po : ex_source m R s l -> lx_inv dev R s l e k -> extremas_of dev R l fes po -> answers R s l fes e.
Proof.
  intros X I E q fuel F. destruct (lquery m Hm dev Hd R s l e k q fuel X I F) as (e' & k' & v & EY & _ & V & _). exists e', v. split; auto. eapply V; eauto.
Qed.
Lemma answer_fun R s l e k fes po : ex_source m R s l -> lx_inv dev R s l e k -> extremas_of dev R l fes po -> exists v : Qc -> option xq, forall q, value ILinear (map fop fes) q (v q).
Proof.
  intros X I E. exists (fun q => match snd (ex_y (S (length l)) (p_crv s) own (Fin dev) (ref_fun R) e (Fin q)) with Ok v => v | Err _ => None end).
  intros q. destruct (inv_answers R s l e k fes po X I E q (S (length l)) ltac:(lia)) as (e' & v & EY & V). now rewrite EY.
Qed.
Lemma closed_dom s u w : good s -> span (p_pts s) u -> span (p_pts s) w -> u <= w -> the_dom s (Some (i_closed (Fin u) (Fin w))) = i_closed (Fin u) (Fin w).
Proof.
  intros G SU SW UW. assert (A : ascending (p_pts s)) by apply G.
  assert (D : p_dom s = pts_domain (p_pts s)) by (apply calm_dom, good_calm, G).
  pose proof (span_nonempty _ _ SU) as NL. destruct (head_opt_some _ NL) as [hd Hh]. destruct (last_opt_some _ NL) as [z Hz].
  destruct (ascending_fin _ hd A (head_opt_in _ _ Hh)) as (x0 & v0 & E1). destruct (ascending_fin _ z A (last_opt_in _ _ Hz)) as (xn & vn & E2).
  subst hd z. rewrite (ends_ok _ _ _ A Hh Hz) in D. cbn [fst] in D. apply (span_closed _ _ _ _ A Hh Hz) in SU, SW. destruct SU as [SU _], SW as [_ SW]. cbn [fst] in *.
  apply le_x_fin in SU, SW. unfold the_dom. rewrite D. now apply inter_inside.
Qed.
Lemma closed_full u w : u <= w -> i_is_empty (i_closed (Fin u) (Fin w)) = false.
Proof. intros L. unfold i_is_empty, i_closed. cbn [i_start i_end i_so i_eo orb]. rewrite andb_false_r, orb_false_r. cbn. now apply Qcltb_false. Qed.

Theorem extremas_window R s l e fes po (v : Qc -> option xq) ms M u w fuel : elife m dev R s l e -> extremas_of dev R l fes po ->
  (forall q, value ILinear (map fop fes) q (v q)) -> (length l < fuel)%nat -> resolve_min_step own ms = Some (Fin M) -> gaps M (map fst (stops l fes)) ->
  span (p_pts s) u -> span (p_pts s) w -> u <= w ->
  let inner := kept M u w (map fst (stops l fes)) in
  exists e', ex_sample_points fuel (p_crv s) own (Fin dev) (ref_fun R) e (Some (i_closed (Fin u) (Fin w))) ms None =
    (e', Ok (ex_sample (map (fun x => (Fin x, v x)) (u :: inner ++ (if Qceqb (last inner u) w then [] else [w]))))) /\ answers R s l fes e'.
Proof.
  intros L E VV F RM G SU SW UW inner. destruct (elife_inv m Hm dev Hd R s l e L) as (X & k & I).
  pose proof (closed_dom s u w (es_good _ _ _ _ X) SU SW UW) as CD. pose proof (resolve_bound m Hm ms M RM) as LM.
  destruct (ex_sampled m Hm dev Hd R s l e k fes po v (Some (i_closed (Fin u) (Fin w))) ms M u w inner fuel) as (e' & k' & ES & I'); rewrite ?CD; auto.
  - intros d Ed. injection Ed as <-. split; discriminate.
  - now apply closed_full.
  - apply strided_kept; auto; [qc_lra|now rewrite !map_map].
  - now apply spread_kept.
  - eapply Nat.le_lt_trans; [apply kept_len|]. rewrite map_length. eapply Nat.le_lt_trans; [apply (filter_len (stopb fes) l)|exact F].
  - rewrite CD in ES. exists e'. split; [exact ES|]. now apply (inv_answers R s l e' k' fes po).
Qed.
Theorem extremas_steps R s l e fes po (v : Qc -> option xq) ms M u w h n fuel : elife m dev R s l e -> extremas_of dev R l fes po ->
  (forall q, value ILinear (map fop fes) q (v q)) -> (length l < fuel)%nat -> resolve_min_step own ms = Some (Fin M) ->
  span (p_pts s) u -> span (p_pts s) w -> u <= w -> 0 < h ->
  u + QcofZ (Z.of_nat n) * h <= w -> w < u + QcofZ (Z.of_nat (S n)) * h -> (n < fuel)%nat ->
  exists e', ex_sample_points fuel (p_crv s) own (Fin dev) (ref_fun R) e (Some (i_closed (Fin u) (Fin w))) ms (Some (Fin h)) =
    (e', Ok (ex_sample (map (fun x => (Fin x, v x)) (map (fun i => u + QcofZ (Z.of_nat i) * h) (seq 0 (S n)))))) /\ answers R s l fes e'.
Proof.
  intros L E VV F RM SU SW UW Hh IN OUT FN. destruct (elife_inv m Hm dev Hd R s l e L) as (X & k & I).
  pose proof (closed_dom s u w (es_good _ _ _ _ X) SU SW UW) as CD.
  destruct (ex_stepped m Hm dev Hd R s l e k fes po v (Some (i_closed (Fin u) (Fin w))) ms M u w h n fuel) as (e' & k' & ES & I'); rewrite ?CD; auto.
  - intros d Ed. injection Ed as <-. split; discriminate.
  - now apply closed_full.
  - intros i Li. assert (K : QcofZ (Z.of_nat i) <= QcofZ (Z.of_nat n)) by (apply QcofZ_le; lia). qc_nra.
  - exists e'. split; [exact ES|]. now apply (inv_answers R s l e' k' fes po).
Qed.
(** Without a domain: the extremas. *)
Theorem extremas_whole R s l e fes po ms M fuel : elife m dev R s l e -> extremas_of dev R l fes po ->
  (length l < fuel)%nat -> resolve_min_step own ms = Some (Fin M) -> gaps M (map fst (stops l fes)) ->
  exists e', ex_sample_points fuel (p_crv s) own (Fin dev) (ref_fun R) e None ms None = (e', Ok (map fop fes)) /\ answers R s l fes e'.
Proof.
  intros L E F RM G. destruct (elife_inv m Hm dev Hd R s l e L) as (X & k & I). destruct (answer_fun R s l e k fes po X I E) as (v & VV).
  pose proof (source_sorted m R s l X) as SS. destruct (extremas_sound dev R _ _ _ SS E) as (SF & IN & _).
  pose proof (es_good _ _ _ _ X) as GS. assert (D : p_dom s = pts_domain (p_pts s)) by (apply calm_dom, good_calm, GS).
  pose proof (samples_extremas l fes v SS SF (fun p I => proj1 (IN p I)) VV) as SM.
  destruct l as [|p0 l0].
  { assert (fes = []) as -> by (destruct fes as [|a f]; auto; destruct (proj1 (IN a (or_introl eq_refl)))). cbn [map].
    unfold ex_sample_points, ex_scan_sample. cbn [c_dom p_crv]. destruct (ldom_ok dev R s [] e k I) as (e0 & ED & I0 & _). rewrite ED.
    rewrite D, (es_pts _ _ _ _ X). cbn. exists e0. split; auto. now apply (inv_answers R s [] e0 k [] po). }
  set (l := p0 :: l0) in *. destruct (last_opt_some l) as [pz Hz]; [discriminate|].
  pose proof (resolve_bound m Hm ms M RM) as LM. assert (HM : 0 < M) by qc_lra.
  assert (A : ascending (p_pts s)) by apply GS.
  assert (CD : the_dom s (@None xival) = i_closed (Fin (fst p0)) (Fin (fst pz))).
  { cbn [the_dom]. rewrite D. rewrite (ends_ok _ (fsp p0) (fsp pz) A); auto; rewrite (es_pts _ _ _ _ X); [reflexivity|]. unfold l in *. rewrite last_opt_map, Hz. reflexivity. }
  assert (MN : forall p, In p l -> fst p0 <= fst p /\ fst p <= fst pz).
  { intros p Ip. split.
    - destruct Ip as [->|Ip]; [apply Qcle_refl|]. inversion SS as [|? ? _ FF]; subst. rewrite Forall_forall in FF. apply Qclt_le_weak. exact (FF p Ip).
    - destruct (last_split _ _ Hz) as (l1 & El). rewrite El in Ip, SS. now apply (snoc_max l1). }
  (* both ends are stops *)
  assert (ST0 : stopb fes p0 = true).
  { destruct fes as [|a f]; [reflexivity|]. set (fes := a :: f) in *. destruct (last_opt_some fes) as [z Z]; [discriminate|]. apply (stopb_spec fes a z); auto.
    destruct (MN _ (proj1 (IN a (or_introl eq_refl)))) as [K _]. cbn [fst] in K. destruct (Qcle_lt_or_eq _ _ K) as [K1|K1]; auto. right. right. exists a. split; [now left|auto]. }
  assert (STz : stopb fes pz = true).
  { destruct fes as [|a f]; [reflexivity|]. set (fes := a :: f) in *. destruct (last_opt_some fes) as [z Z]; [discriminate|]. apply (stopb_spec fes a z); auto.
    pose proof (last_opt_in _ _ Z) as Iz. destruct (MN _ (proj1 (IN z Iz))) as [_ K]. cbn [fst] in K. destruct (Qcle_lt_or_eq _ _ K) as [K1|K1]; auto. right. right. exists z. auto. }
  assert (KS : map fst (stops l fes) = fst p0 :: map fst (stops l0 fes)) by (unfold stops, l; cbn [filter]; now rewrite ST0).
  assert (LS : last (map fst (stops l0 fes)) (fst p0) = fst pz).
  { unfold l in Hz. destruct (last_split _ _ Hz) as (l1 & El). destruct l1 as [|c l1].
    - injection El as -> ->. reflexivity.
    - injection El as -> ->. unfold stops. rewrite filter_app. cbn [filter]. rewrite STz, map_app. cbn [map]. now rewrite last_last. }
  rewrite KS in G. pose proof (kept_all M (fst p0) (map fst (stops l0 fes)) HM G) as KA. rewrite LS in KA.
  pose proof G as G'. rewrite <- KS in G', KA.
  destruct (ex_sampled m Hm dev Hd R s l e k fes po v (@None xival) ms M (fst p0) (fst pz) (map fst (stops l0 fes)) fuel) as (e' & k' & ES & I'); rewrite ?CD; auto.
  - intros d Ed. discriminate.
  - apply closed_full. apply MN. now left.
  - rewrite <- KA. apply strided_kept; auto. now rewrite !map_map.
  - rewrite <- KA. now apply spread_kept.
  - rewrite map_length. eapply Nat.le_lt_trans; [apply (filter_len (stopb fes) l0)|]. unfold l in F. cbn [length] in F. lia.
  - exists e'. split; [|now apply (inv_answers R s l e' k' fes po)]. etransitivity; [exact ES|]. rewrite CD, LS. cbn [i_closed i_eo orb].
    rewrite (proj2 (Qceqb_true _ _) eq_refl), app_nil_r. rewrite <- KS, SM. reflexivity.
Qed.
(** Where the source is not: nothing. *)
Theorem extremas_outside R s l e fes po d ms step fuel : elife m dev R s l e -> extremas_of dev R l fes po -> iok d ->
  (forall q, span (p_pts s) q -> ~ imem d (Fin q)) ->
  exists e', ex_sample_points fuel (p_crv s) own (Fin dev) (ref_fun R) e (Some d) ms step = (e', Ok []) /\ answers R s l fes e'.
Proof.
  intros L E ID MISS. destruct (elife_inv m Hm dev Hd R s l e L) as (X & k & I).
  unfold ex_sample_points, ex_scan_sample. cbn [c_dom p_crv]. destruct (ldom_ok dev R s l e k I) as (e0 & ED & I0 & _). rewrite ED.
  assert (EM : i_is_empty (i_inter2 (p_dom s) d) = true).
  { destruct (i_is_empty (i_inter2 (p_dom s) d)) eqn:Q; auto. exfalso.
    pose proof (es_good _ _ _ _ X) as GS. assert (A : ascending (p_pts s)) by apply GS.
    assert (D : p_dom s = pts_domain (p_pts s)) by (apply calm_dom, good_calm, GS). rewrite D in Q.
    assert (OK : iok (pts_domain (p_pts s))) by (apply iok_pts_domain, A).
    assert (Q' : i_intersects (pts_domain (p_pts s)) d = true) by (unfold i_intersects; now rewrite Q).
    apply (intersects_iff _ _ OK ID) in Q' as (x & Hx & M1 & M2).
    apply contains_iff in M1; auto. destruct (list_dom_fin _ x A M1) as (q & ->).
    apply (MISS q); auto. now apply list_dom. }
  rewrite EM. exists e0. split; auto. now apply (inv_answers R s l e0 k fes po).
Qed.
End Top.
