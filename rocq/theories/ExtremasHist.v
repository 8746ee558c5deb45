(** Histories of an Extremas object: queries, updates of its source and updates
    of its reference. *)
From Coq Require Import List ZArith QArith Qcanon Bool Lia Sorting.Sorted.
From Verif Require Import Base Num NumFacts Interval IntervalFacts Curve Points PointsSpec PointsIdx PointsOps PointsQuery PointsReset PointsCover PointsDec PointsMut Combine Scan ScanFacts ScanInv ScanSource Extremas ExtremasFold ExtremasUniq ExtremasVal ExtremasInv ExtremasLife.
Import ListNotations.
Open Scope Qc_scope.

Definition outside (D : ival xq) (x : Qc) : bool := negb (i_contains D (Fin x)).
Lemma rep_filter {A} (f : A -> bool) es ls : rep es ls -> rep (filter f es) (filter f ls).
Proof.
  induction 1 as [|p es ls H IH|p es ls H IH]; cbn [filter].
  - constructor.
  - destruct (f p); auto. now apply rep_one.
  - cbn [filter] in IH. destruct (f p); auto. now apply rep_more.
Qed.
Lemma xle_rev ls : StronglySorted xle ls -> StronglySorted (fun p q => xle q p) (rev ls).
Proof.
  induction 1 as [|p ls S IH F]; [constructor|]. cbn.
  assert (F' : forall x, In x (rev ls) -> xle p x) by (intros x Ix; rewrite Forall_forall in F; apply F; now apply in_rev).
  clear F S. induction (rev ls) as [|a l IHl]; cbn; [repeat constructor|]. inversion IH; subst. constructor.
  - apply IHl; auto. intros; apply F'. now right.
  - apply Forall_app. split; auto. constructor; auto. apply F'. now left.
Qed.
Lemma prune_weak D : forall es, StronglySorted (fun p q => xle q p) es ->
  ex_prune D (map fqp es) = (map fqp (filter (fun p => outside D (fst p)) es), existsb (fun p => i_contains D (Fin (fst p))) es).
Proof.
  unfold outside. induction es as [|p es IH]; intros S; [reflexivity|]. inversion S as [|? ? S' F]; subst.
  cbn [map ex_prune]. change (fst (fqp p)) with (Fin (fst p)). cbn [filter existsb]. rewrite IH by auto.
  destruct (i_contains D (Fin (fst p))) eqn:C; [reflexivity|]. cbn [negb orb fst].
  destruct (n_gtb (i_start D) (Fin (fst p))) eqn:G; [|reflexivity].
  assert (O : forall x, In x es -> i_contains D (Fin (fst x)) = false).
  { intros x Ix. rewrite Forall_forall in F. apply (before_start D (fst p)); auto. apply F; auto. }
  rewrite filter_all by (intros x Ix; now rewrite O). f_equal. symmetry.
  destruct (existsb _ es) eqn:X; auto. apply existsb_exists in X as (x & Ix & Cx). now rewrite O in Cx.
Qed.

Lemma filter_none {A} (f : A -> bool) l : (forall x, In x l -> f x = false) -> filter f l = [].
Proof. induction l as [|a l IH]; intros H; cbn; auto. rewrite H by now left. apply IH. intros; apply H. now right. Qed.
Lemma outside_up D d x : i_start D = Fin d -> outside (update_interval D) x = if i_so D then Qcleb x d else Qcltb x d.
Proof.
  intros Sd. unfold outside, update_interval. rewrite Sd. unfold i_contains, i_contains_gen, i_is_empty, above_start, below_end, n_gtb. cbn.
  rewrite ?andb_false_r, ?orb_false_r, ?andb_true_r. destruct (i_so D); cbn; rewrite ?andb_false_r, ?andb_true_r, ?orb_false_r.
  - destruct (Qcltb d x) eqn:Q, (Qcleb x d) eqn:Q2; auto; qb_simpl; exfalso; qc_lra.
  - destruct (Qcltb d x) eqn:Q, (Qceqb d x) eqn:Q1, (Qcltb x d) eqn:Q2; auto; qb_simpl; exfalso; subst; try qc_lra.
Qed.

(** ** What an update does to the state *)
Definition left_of (kept ls : list (Qc * Qc)) (poss : option (Qc * Qc)) : option (Qc * Qc) :=
  match last_opt kept with Some z => Some z | None => match ls with [] => poss | _ => None end end.
Lemma update_state R e ls poss D : holds R e ls poss -> StronglySorted xle ls -> PointsOps.idle (x_upd e) -> iok D -> i_is_empty D = false ->
  (forall z, In z ls -> outside D (fst z) = true -> exists y0, R (fst z) = Some y0) ->
  exists e1 e', ex_begin (ref_fun R) e D = (e1, [EvBegin D], Ok tt) /\ ex_end e1 D = (e', [EvEnd D], Ok tt) /\
    x_start e' = x_start e /\ u_dom (x_upd e') = None /\ PointsOps.idle (x_upd e') /\
    holds R e' (filter (fun p => outside D (fst p)) ls) (left_of (filter (fun p => outside D (fst p)) ls) ls poss) /\
    x_cur e' = option_map (fun p => Fin (fst p)) (last_opt (filter (fun p => outside D (fst p)) ls)).
Proof.
  intros H S Id OK NE RY. set (kept := filter (fun p => outside D (fst p)) ls).
  unfold ex_begin. rewrite begin_idle by auto. unfold xset_upd. cbn [x_upd x_ext x_start x_cur x_int x_poss x_phase].
  rewrite (hd_ext _ _ _ _ H), <- map_rev, prune_weak by now apply xle_rev. rewrite filter_rev, map_rev, rev_involutive. fold kept.
  set (u := mkU D i_empty (u_dom (x_upd e))). set (b := existsb _ _).
  set (e0 := if b then _ else _).
  assert (X : holds R e0 kept (match ls with [] => poss | _ => if b then None else poss end) /\ x_start e0 = x_start e /\ x_upd e0 = u).
  { unfold e0. destruct b eqn:B.
    - split; [|split; reflexivity]. assert (ls <> []) by (unfold b in B; destruct ls; [discriminate|congruence]). destruct ls; [congruence|].
      constructor; reflexivity.
    - split; [|split; reflexivity]. assert (K : kept = ls).
      { unfold kept. apply filter_all. intros x Ix. unfold outside. destruct (i_contains D (Fin (fst x))) eqn:C; auto. apply in_rev in Ix.
        assert (b = true) by (apply existsb_exists; eauto). congruence. }
      rewrite K. destruct H as [H1 H2 H3 H4]. constructor; cbn; auto; [rewrite H2, H1; reflexivity| |]; destruct ls; auto. }
  destruct X as (X & X2 & X3). clearbody e0. rewrite (hd_ext _ _ _ _ X), last_map.
  assert (KN : b = false -> ls <> [] -> kept <> []).
  { intros B NL K. destruct ls as [|a t]; [congruence|]. unfold kept in K. cbn [filter] in K. destruct (outside D (fst a)) eqn:O; [discriminate|].
    unfold outside in O. apply negb_false_iff in O. assert (b = true) by (apply existsb_exists; exists a; split; auto; apply in_rev; rewrite rev_involutive; now left). congruence. }
  destruct (last_opt kept) as [z|] eqn:Z; cbn [option_map].
  - assert (Iz : In z kept) by now apply last_opt_in. apply filter_In in Iz. destruct Iz as [Iz Oz]. destruct (RY z Iz Oz) as [y0 Ry].
    change (fst (fqp z)) with (Fin (fst z)). cbn [ref_fun]. rewrite Ry. cbn [option_map].
    eexists _, _. split; [reflexivity|]. unfold ex_end, xset_cur, xset_poss. cbn [x_upd x_ext x_start x_cur x_int x_poss x_phase].
    rewrite X3. unfold u. rewrite end_begun by auto. split; [reflexivity|]. cbn. split; [exact X2|]. split; [reflexivity|]. split; [split; reflexivity|].
    split; [|reflexivity]. unfold left_of. rewrite Z. destruct X as [H1 H2 H3 H4]. constructor; cbn; auto. unfold phase_of. now rewrite Ry.
  - eexists _, _. split; [reflexivity|]. unfold ex_end, xset_cur, xset_poss. cbn [x_upd x_ext x_start x_cur x_int x_poss x_phase].
    rewrite X3. unfold u. rewrite end_begun by auto. split; [reflexivity|]. cbn. split; [exact X2|]. split; [reflexivity|]. split; [split; reflexivity|].
    split; [|reflexivity]. unfold left_of. rewrite Z. destruct X as [H1 H2 H3 H4]. destruct ls as [|a t]; [constructor; auto|].
    destruct b eqn:B; [constructor; auto|]. exfalso. apply last_opt_none in Z. apply (KN eq_refl); [discriminate|exact Z].
Qed.

Section Hist.
Context (m : Qc) (Hm : 0 < m) (dev : Qc) (Hd : 0 <= dev).
Notation own := (Some (Fin m)).

(** The extremas found so far that an update leaves are the beginning of the new
    ones, and what is found before the first extrema stays. *)
Definition keeps (R : Qc -> option Qc) (l : list spt) (R' : Qc -> option Qc) (l' : list spt) (D : ival xq) : Prop :=
  forall k es p, extremas_of dev R (firstn k l) es p ->
  exists K p', (K <= length l')%nat /\ extremas_of dev R' (firstn K l') (filter (fun q => outside D (fst q)) es) p' /\
    (es = [] -> p' = p /\ forall z, p = Some z -> R' (fst z) = R (fst z)).

Lemma mode_any R l k ls poss : mode dev R l k ls poss -> exists kk es p, rep es ls /\ extremas_of dev R (firstn kk l) es p /\ (ls = [] -> p = poss).
Proof.
  intros [es ls0 p X RP|es z ls0 K pK X RP L1 L2 XK|z K L1 L2 XK].
  - exists k, es, p. auto.
  - exists K, (es ++ [z]), pK. split; auto. split; auto. intros ->. apply rep_nil_r in RP. destruct es; discriminate.
  - exists K, [], (Some z). split; [constructor|]. auto.
Qed.
Lemma extremas_none R es p : extremas_of dev R [] es p -> p = None.
Proof.
  intros X. assert (E : extremas_of dev R [] [] None) by apply extremas_nil. now destruct (extremas_unique _ _ _ _ _ _ _ X E).
Qed.
Lemma mode_after R R' l l' k ls poss D : keeps R l R' l' D -> mode dev R l k ls poss ->
  let kept := filter (fun q => outside D (fst q)) ls in
  exists k', (k' <= length l')%nat /\ mode dev R' l' k' kept (left_of kept ls poss) /\
    option_map fst (last_opt (firstn k' l')) = option_map fst (last_opt kept) /\ (kept = [] -> k' = 0%nat) /\
    (kept <> [] -> exists y, In (match last_opt kept with Some z => fst z | None => 0 end, y) l').
Proof.
  intros KP M kept. destruct (mode_any _ _ _ _ _ M) as (kk & es & p & RP & X & PE). destruct (KP kk es p X) as (K & p' & LK & X' & E0).
  pose proof (rep_filter (fun q => outside D (fst q)) _ _ RP) as RF. fold kept in RF. set (fes := filter _ es) in *.
  destruct fes as [|z0 fes0] eqn:EF using rev_ind; [|clear IHfes0].
  - apply rep_nil_l in RF. exists 0%nat. split; [lia|]. rewrite RF. unfold left_of. cbn [last_opt rev head_opt option_map firstn]. split; [|repeat split; auto; congruence].
    destruct ls as [|a t].
    + rewrite <- (PE eq_refl). apply rep_nil_r in RP. subst es. destruct (E0 eq_refl) as [-> _]. destruct p as [z|].
      * apply (mode_over dev R' l' 0 z K); auto. destruct K; [|lia]. cbn in X'. apply extremas_none in X'. discriminate.
      * apply (mode_plain dev R' l' 0 []); [apply extremas_nil|constructor].
    + apply (mode_plain dev R' l' 0 []); [apply extremas_nil|constructor].
  - destruct (rewind _ _ _ _ _ _ X') as (l1 & l2 & EL & XR).
    assert (LZ : last_opt kept = Some z0) by (rewrite (rep_last _ _ RF); apply last_opt_app).
    assert (FK : firstn (S (length l1)) l' = l1 ++ [(fst z0, Some (snd z0))]).
    { assert (LL : (S (length l1) <= K)%nat).
      { assert (LE := f_equal (@length _) EL). rewrite firstn_length, app_length in LE. cbn in LE. lia. }
      replace (firstn (S (length l1)) l') with (firstn (S (length l1)) (firstn K l')) by (rewrite firstn_firstn; f_equal; lia).
      rewrite EL. rewrite firstn_app. rewrite firstn_all2 by lia. replace (S (length l1) - length l1)%nat with 1%nat by lia. reflexivity. }
    assert (LT : (S (length l1) < K)%nat).
    { destruct l2 as [|b l2].
      - exfalso. rewrite EL in X'. destruct (extremas_unique _ _ _ _ _ _ _ XR X') as [E1 _]. apply (f_equal (@length _)) in E1. rewrite app_length in E1. cbn in E1. lia.
      - assert (LE := f_equal (@length _) EL). rewrite firstn_length, app_length in LE. cbn in LE. lia. }
    exists (S (length l1)). split; [lia|]. unfold left_of. rewrite LZ. split.
    + apply (mode_back dev R' l' (S (length l1)) fes0 z0 kept K p'); auto. now rewrite FK.
    + rewrite FK, last_opt_app. split; [reflexivity|]. split; [intros E; rewrite E in LZ; discriminate|].
      intros _. exists (Some (snd z0)). assert (J : In (fst z0, Some (snd z0)) (firstn (S (length l1)) l')) by (rewrite FK; apply in_or_app; right; now left). eapply in_firstn; eauto.
Qed.

Lemma holds_agree R R' e ls poss : (forall z, poss = Some z -> R' (fst z) = R (fst z)) -> holds R e ls poss -> holds R' e ls poss.
Proof.
  intros A [H1 H2 H3 H4]. constructor; auto. rewrite H4. destruct poss as [z|]; auto. unfold phase_of. now rewrite (A z eq_refl).
Qed.
Lemma mode_sorted R l k ls poss : StronglySorted slt l -> Forall (ref_nonzero R) l -> mode dev R l k ls poss -> StronglySorted xle ls.
Proof. intros S RN M. destruct (mode_ext dev Hd R l k ls poss S RN M) as (es & RP & SE & _). eapply rep_sorted; eauto. Qed.
Lemma mode_ref R l k ls poss z : StronglySorted slt l -> mode dev R l k ls poss -> In z ls -> exists y0, R (fst z) = Some y0.
Proof.
  intros SS M Iz. destruct (mode_any _ _ _ _ _ M) as (kk & es & p & RP & X & _).
  destruct (extremas_sound dev R _ _ _ (firstn_sorted l kk SS) X) as (_ & IN & _).
  destruct (IN z) as (_ & (y0 & Ry & _)); [eapply rep_in; eauto|]. eauto.
Qed.

(** An update of the reference. *)
Lemma ref_update_inv R R' s l e k D : ex_source m R s l -> ex_source m R' s l -> lx_inv dev R s l e k -> iok D -> i_is_empty D = false ->
  keeps R l R' l D -> (forall x, outside D x = true -> R' x = R x) ->
  exists e' k', ex_ref_events (ref_fun R) e [EvBegin D; EvEnd D] = (e', [EvBegin D; EvEnd D], Ok tt) /\ lx_inv dev R' s l e' k'.
Proof.
  intros X X' I OK NE KP AG. pose proof (source_sorted m R s l X) as SS. destruct (lx_ext _ _ _ _ _ _ I) as (ls & poss & H & M).
  destruct (update_state R e ls poss D H) as (e1 & e' & E1 & E2 & S1 & U1 & I1 & H1 & C1); auto.
  { exact (mode_sorted R l k ls poss SS (es_ref _ _ _ _ X) M). } { apply I. } { intros z Iz _. exact (mode_ref R l k ls poss z SS M Iz). }
  destruct (mode_after R R' l l k ls poss D KP M) as (k' & Lk & M' & C2 & K0 & _).
  exists e', k'. split. { cbn [ex_ref_events]. rewrite E1, E2. reflexivity. }
  constructor; auto.
  - rewrite C1. destruct (last_opt (firstn k' l)), (last_opt (filter _ ls)); cbn in *; congruence.
  - rewrite S1. destruct (lx_start _ _ _ _ _ _ I) as [-> |[E|E]]; auto. 
    destruct (lx_ext _ _ _ _ _ _ I) as (ls2 & poss2 & H2 & M2). 
    destruct (mode_ext dev Hd R l 0 ls poss SS (es_ref _ _ _ _ X) M) as (es & RP & _ & IN & _).
    left. apply K0. destruct es as [|a es]; [apply rep_nil_l in RP; subst; reflexivity|]. destruct (IN a (or_introl eq_refl)).
  - eexists _, _. split; [|exact M']. eapply holds_agree; [|exact H1]. intros z Ez. unfold left_of in Ez.
    destruct (last_opt (filter _ ls)) as [w|] eqn:W.
    + injection Ez as <-. apply AG. apply last_opt_in, filter_In in W. apply W.
    + destruct ls; [|discriminate]. subst poss. destruct (mode_any _ _ _ _ _ M) as (kk & es & p & RP & XX & PE). apply rep_nil_r in RP. subst es.
      destruct (KP kk [] p XX) as (K9 & p9 & _ & _ & E0). destruct (E0 eq_refl) as [_ A]. apply A. now apply PE.
Qed.

(** An update of the source; nothing outside the interval changes. *)
Lemma source_update_inv R s l e k s' l' D d : ex_source m R s l -> ex_source m R s' l' -> lx_inv dev R s l e k -> i_start D = Fin d ->
  keeps R l R l' (update_interval D) ->
  filter (fun p : spt => outside (update_interval D) (fst p)) l' = filter (fun p : spt => outside (update_interval D) (fst p)) l ->
  exists e' k', ex_events (ref_fun R) e [EvBegin D; EvEnd D] = (e', [EvBegin (update_interval D); EvEnd (update_interval D)], Ok tt) /\
    lx_inv dev R s' l' e' k'.
Proof.
  intros X X' I Sd KP EQ. pose proof (source_sorted m R s l X) as SS. pose proof (source_sorted m R s' l' X') as SS'.
  destruct (update_ok D d Sd) as [OK NE]. set (D' := update_interval D) in *.
  assert (E0 : exists e0, (forall r, ex_begin_scan r e D = ex_begin r e0 D') /\ x_ext e0 = x_ext e /\ x_int e0 = x_int e /\ x_poss e0 = x_poss e /\
    x_phase e0 = x_phase e /\ x_upd e0 = x_upd e /\ (x_start e0 = x_start e \/ x_start e0 = None)).
  { unfold ex_begin_scan. fold D'.
    set (ea := match x_cur e with Some cur => if ((i_start D' <? cur)%num || ((i_start D' =? cur)%num && negb (i_so D')))%bool then ex_reset e else e | None => e end).
    assert (A : x_ext ea = x_ext e /\ x_int ea = x_int e /\ x_poss ea = x_poss e /\ x_phase ea = x_phase e /\ x_upd ea = x_upd e /\ (x_start ea = x_start e \/ x_start ea = None)).
    { unfold ea. destruct (x_cur e) as [c|]; [|repeat split; auto]. destruct (_ || _)%bool; repeat split; auto. }
    clearbody ea. destruct A as (A1 & A2 & A3 & A4 & A5 & A6). eexists. split; [intros r; reflexivity|].
    destruct (x_cur ea) as [c|]; [|repeat split; auto]. destruct (x_start ea) as [st|] eqn:ST; [|rewrite ST; repeat split; auto].
    destruct (c <? st)%num; cbn; rewrite ?ST; repeat split; auto. }
  destruct E0 as (e0 & BS & A1 & A2 & A3 & A4 & A5 & A6).
  destruct (lx_ext _ _ _ _ _ _ I) as (ls & poss & H & M).
  assert (H0 : holds R e0 ls poss) by (destruct H; constructor; congruence).
  destruct (update_state R e0 ls poss D' H0) as (e1 & e' & E1 & E2 & S1 & U1 & I1 & H1 & C1); auto.
  { exact (mode_sorted R l k ls poss SS (es_ref _ _ _ _ X) M). } { rewrite A5. apply I. } { intros z Iz _. exact (mode_ref R l k ls poss z SS M Iz). }
  destruct (mode_after R R l l' k ls poss D' KP M) as (k' & Lk & M' & C2 & K0 & KI).
  exists e', k'. split. { cbn [ex_events]. rewrite BS, E1. unfold ex_end_scan. fold D'. rewrite E2. reflexivity. }
  set (kept := filter (fun q => outside D' (fst q)) ls) in *.
  constructor; auto.
  - rewrite C1. destruct (last_opt (firstn k' l')), (last_opt kept); cbn in *; congruence.
  - rewrite S1. destruct A6 as [-> | ->]; auto. destruct kept as [|z0 kept0] eqn:EK; [left; auto|].
    right. destruct (lx_start _ _ _ _ _ _ I) as [->|[E|E]]; auto.
    + exfalso. destruct (mode_ext dev Hd R l 0 ls poss SS (es_ref _ _ _ _ X) M) as (es & RP & _ & IN & _).
      destruct es as [|a es]; [apply rep_nil_l in RP; subst; discriminate|]. destruct (IN a (or_introl eq_refl)).
    + right. rewrite E. 
      destruct (KI ltac:(discriminate)) as (y & Iy). destruct (last_opt (z0 :: kept0)) as [z|] eqn:LZ; [|apply last_opt_none in LZ; discriminate].
      assert (Oz : outside D' (fst z) = true) by (apply last_opt_in in LZ; rewrite <- EK in LZ; apply filter_In in LZ; apply LZ).
      assert (DOWN : forall x, x <= fst z -> outside D' x = true).
      { intros x Lx. unfold D' in Oz |- *. rewrite (outside_up D d _ Sd) in Oz. rewrite (outside_up D d _ Sd). destruct (i_so D); [apply Qcleb_true in Oz; apply Qcleb_true; qc_lra|apply Qcltb_true in Oz; apply Qcltb_true; qc_lra]. }
      assert (HF : forall l0 : list spt, StronglySorted slt l0 -> (exists y, In (fst z, y) l0) ->
        head_opt (filter (fun p : spt => outside D' (fst p)) l0) = head_opt l0).
      { intros [|b l0] S0 (y' & I0); [destruct I0|]. cbn [filter head_opt]. rewrite DOWN; auto. inversion S0 as [|? ? S9 F9]; subst. destruct I0 as [->|I0]; [apply Qcle_refl|].
        rewrite Forall_forall in F9. specialize (F9 _ I0). unfold slt in F9. cbn in F9. qc_lra. }
      f_equal. rewrite <- (HF l' SS') by eauto. rewrite EQ. symmetry. apply HF; auto.
      destruct (mode_ext dev Hd R l k ls poss SS (es_ref _ _ _ _ X) M) as (es & RP & _ & IN & _). exists (Some (snd z)).
      eapply (in_firstn dev R l k). apply IN. apply (rep_in _ _ _ RP). apply last_opt_in in LZ. rewrite <- EK in LZ. apply filter_In in LZ. apply LZ.
  - eexists _, _. split; [exact H1|exact M'].
Qed.

(** Appending keeps. *)
Lemma keeps_append R l t D : StronglySorted slt l -> (forall p, In p l -> outside D (fst p) = true) -> keeps R l R (l ++ t) D.
Proof.
  intros SS O k es p X. assert (F : filter (fun q => outside D (fst q)) es = es).
  { apply filter_all. intros x Ix. destruct (extremas_sound dev R _ _ _ (firstn_sorted l k SS) X) as (_ & IN & _). destruct (IN x Ix) as [J _].
    apply (O (fst x, Some (snd x))). eapply in_firstn; eauto. }
  exists (Nat.min k (length l)), p. split; [rewrite app_length; lia|]. rewrite F. split; [|split; auto].
  rewrite firstn_app. replace (Nat.min k (length l) - length l)%nat with 0%nat by lia. cbn [firstn]. rewrite app_nil_r.
  destruct (le_lt_dec k (length l)); [rewrite Nat.min_l by lia; auto|]. rewrite Nat.min_r by lia. rewrite firstn_all. rewrite firstn_all2 in X by lia. exact X.
Qed.

(** ** Histories *)
Inductive elife : (Qc -> option Qc) -> pts xq (option xq) -> list spt -> exs xq -> Prop :=
  | el_new R s l : ex_source m R s l -> elife R s l ex_init
  | el_y R s l e q fuel e' a : elife R s l e -> (length l < fuel)%nat -> ex_y fuel (p_crv s) own (Fin dev) (ref_fun R) e (Fin q) = (e', a) -> elife R s l e'
  | el_source R s l e s' l' D d e' out t : elife R s l e -> ex_source m R s' l' -> i_start D = Fin d -> keeps R l R l' (update_interval D) ->
      filter (fun p : spt => outside (update_interval D) (fst p)) l' = filter (fun p : spt => outside (update_interval D) (fst p)) l ->
      ex_events (ref_fun R) e [EvBegin D; EvEnd D] = (e', out, t) -> elife R s' l' e'
  | el_append R s l e points s' evs e' out t : elife R s l e -> l <> [] -> ascending (map fsp points) ->
      p_append_list s (map fsp points) = (s', evs, Ok tt) -> good s' -> coarse m (p_pts s') -> Forall (ref_nonzero R) points ->
      ex_events (ref_fun R) e evs = (e', out, t) -> elife R s' (l ++ points) e'
  | el_ref R s l e R' D e' out t : elife R s l e -> Forall (ref_nonzero R') l -> iok D -> i_is_empty D = false ->
      keeps R l R' l D -> (forall x, outside D x = true -> R' x = R x) ->
      ex_ref_events (ref_fun R) e [EvBegin D; EvEnd D] = (e', out, t) -> elife R' s l e'.

Lemma append_life R s l e k points s' evs : ex_source m R s l -> lx_inv dev R s l e k -> l <> [] -> ascending (map fsp points) ->
  p_append_list s (map fsp points) = (s', evs, Ok tt) -> good s' -> coarse m (p_pts s') -> Forall (ref_nonzero R) points ->
  ex_source m R s' (l ++ points) /\ exists e' k', ex_events (ref_fun R) e evs = (e', map (fun v => match v with EvBegin d => EvBegin (update_interval d) | EvEnd d => EvEnd (update_interval d) end) evs, Ok tt) /\
    lx_inv dev R s' (l ++ points) e' k'.
Proof.
  intros X I NL A E G' Co RN. pose proof (source_sorted m R s l X) as SS.
  destruct points as [|p0 points0].
  { assert (E' : p_append_list s (map fsp []) = (s, [], Ok tt)).
    { cbn. unfold p_append_list. rewrite (es_pts _ _ _ _ X). destruct l; [congruence|]. reflexivity. }
    rewrite E' in E. injection E as <- <-. rewrite app_nil_r. split; auto. exists e, k. auto. }
  set (points := p0 :: points0) in *. assert (NP : map fsp points <> []) by discriminate.
  assert (NS : p_pts s <> []) by (rewrite (es_pts _ _ _ _ X); destruct l; [congruence|discriminate]).
  pose proof (proj1 (proj1 (good_calm s) (es_good _ _ _ _ X))) as C.
  destruct (p_append_list_cases s (map fsp points) C NS NP A) as [(a & z & _ & _ & _ & K)|(A' & b & _ & KD & NE & K)]; [congruence|].
  destruct (p_force s && negb b); destruct K as (s2 & K & Y); [congruence|]. rewrite K in E. injection E as <- <-. destruct Y as [Y _].
  assert (PP : p_pts s2 = map fsp (l ++ points)) by (rewrite (so_pts _ _ _ _ _ Y), (es_pts _ _ _ _ X), map_app; reflexivity).
  assert (X' : ex_source m R s2 (l ++ points)).
  { constructor; auto. apply Forall_app. split; auto. apply X. }
  split; auto. destruct (last_opt_some l NL) as [z Z].
  assert (ZB : exists b', append_domain s (map fsp points) = mkI (Fin (fst z)) (Fin b') true false).
  { unfold append_domain. rewrite (es_pts _ _ _ _ X), !last_map, Z. destruct (last_opt_some points) as [y Hy]; [discriminate|]. rewrite Hy. cbn. eauto. }
  destruct ZB as (b' & ED). change (fsp p0 :: map fsp points0) with (map fsp points). unfold notify. rewrite NE. set (D := append_domain s (map fsp points)) in *.
  pose proof (source_sorted m R s2 (l ++ points) X') as SS'.
  assert (LZ : forall p, In p l -> fst p <= fst z).
  { intros p Ip. clear -SS Z Ip. destruct l as [|a l _] using rev_ind; [destruct Ip|]. rewrite last_opt_app in Z. injection Z as ->.
    apply in_app_or in Ip. destruct Ip as [Ip|[->|[]]]; [|apply Qcle_refl]. apply Qclt_le_weak. induction l as [|b l IH]; [destruct Ip|]. cbn in SS. inversion SS; subst.
    destruct Ip as [->|Ip]; auto. rewrite Forall_forall in H2. apply (H2 z). apply in_or_app. right. now left. }
  assert (OL : forall p, In p l -> outside (update_interval D) (fst p) = true).
  { intros p Ip. specialize (LZ p Ip). unfold outside, update_interval. rewrite ED. unfold i_contains, i_contains_gen, i_is_empty, above_start, below_end, n_gtb. cbn.
    rewrite ?andb_false_r, ?orb_false_r, ?andb_true_r. destruct (Qcltb (fst z) (fst p)) eqn:Q; auto. qb_simpl. exfalso. qc_lra. }
  assert (OP : forall p, In p points -> outside (update_interval D) (fst p) = false).
  { intros p Ip. assert (fst z < fst p).
    { apply last_opt_in in Z. clear -SS' Z Ip. induction l as [|b l IH]; [destruct Z|]. cbn in SS'. inversion SS'; subst. destruct Z as [->|Z]; auto.
      rewrite Forall_forall in H2. apply H2. apply in_or_app. now right. }
    unfold outside, update_interval. rewrite ED. unfold i_contains, i_contains_gen, i_is_empty, above_start, below_end, n_gtb. cbn.
    rewrite ?andb_false_r, ?orb_false_r, ?andb_true_r. rewrite (proj2 (Qcltb_true _ _) H). reflexivity. }
  destruct (source_update_inv R s l e k s2 (l ++ points) D (fst z)) as (e' & k' & E' & I'); auto.
  - rewrite ED. reflexivity.
  - apply keeps_append; auto.
  - rewrite filter_app. rewrite (filter_all _ l) by auto. assert (FN : filter (fun p : spt => outside (update_interval D) (fst p)) points = []).
    { apply filter_none. exact OP. }
    rewrite FN. apply app_nil_r.
  - exists e', k'. split; auto.
Qed.

Theorem elife_inv R s l e : elife R s l e -> ex_source m R s l /\ exists k, lx_inv dev R s l e k.
Proof.
  induction 1 as [R s l X|R s l e q fuel e' a L [X [k I]] Lf E|R s l e s' l' D d e' out t L [X [k I]] X' Sd KP EQ E
    |R s l e points s' evs e' out t L [X [k I]] NL A E G C RN EV|R s l e R' D e' out t L [X [k I]] RN OK NE KP AG E].
  - split; auto. exists 0%nat. constructor; cbn; auto; try lia; [|split; reflexivity].
    exists [], None. split; [constructor; reflexivity|]. apply (mode_plain dev R l 0 []); [apply extremas_nil|constructor].
  - split; auto. destruct (lquery m Hm dev Hd R s l e k q fuel X I Lf) as (e1 & k' & v & E1 & I' & _). rewrite E1 in E. injection E as <- <-. eauto.
  - split; auto. destruct (source_update_inv R s l e k s' l' D d X X' I Sd KP EQ) as (e1 & k' & E1 & I'). rewrite E1 in E. injection E as <- <-. eauto.
  - destruct (append_life R s l e k points s' evs X I NL A E G C RN) as (X' & e1 & k' & E1 & I'). split; auto. rewrite E1 in EV. injection EV as <- <-. eauto.
  - assert (X' : ex_source m R' s l) by (destruct X; constructor; auto). split; auto.
    destruct (ref_update_inv R R' s l e k D X X' I OK NE KP AG) as (e1 & k' & E1 & I'). rewrite E1 in E. injection E as <- <-. eauto.
Qed.

(** y answers, from the extremas of all points. *)
Theorem elife_answer R s l e q fuel : elife R s l e -> (length l < fuel)%nat ->
  exists e' v, ex_y fuel (p_crv s) own (Fin dev) (ref_fun R) e (Fin q) = (e', Ok v) /\
    forall es p, extremas_of dev R l es p -> value ILinear (map fop es) q v.
Proof.
  intros L Lf. destruct (elife_inv _ _ _ _ L) as (X & k & I). destruct (lquery m Hm dev Hd R s l e k q fuel X I Lf) as (e1 & k' & v & E1 & _ & V & _). eauto.
Qed.
(** The list of extremas is a beginning of theirs, repetitions aside. *)
Theorem elife_state R s l e : elife R s l e -> exists es ls, x_ext e = map fqp ls /\ rep es ls /\ StronglySorted xlt es /\
  forall fes p, extremas_of dev R l fes p -> exists t, fes = es ++ t.
Proof.
  intros L. destruct (elife_inv _ _ _ _ L) as (X & k & I). destruct (lx_ext _ _ _ _ _ _ I) as (ls & poss & H & M).
  destruct (mode_ext dev Hd R l k ls poss (source_sorted m R s l X) (es_ref _ _ _ _ X) M) as (es & RP & SE & _ & F).
  exists es, ls. split; [apply H|]. split; auto. split; auto. intros fes p XF. apply (F fes p XF).
Qed.
(** No update of a history raises. *)
Theorem elife_appends R s l e points s' evs : elife R s l e -> l <> [] -> ascending (map fsp points) ->
  p_append_list s (map fsp points) = (s', evs, Ok tt) -> good s' -> coarse m (p_pts s') -> Forall (ref_nonzero R) points ->
  exists e', ex_events (ref_fun R) e evs = (e', map (fun v => match v with EvBegin d => EvBegin (update_interval d) | EvEnd d => EvEnd (update_interval d) end) evs, Ok tt) /\
    elife R s' (l ++ points) e'.
Proof.
  intros L NL A E G C RN. destruct (elife_inv _ _ _ _ L) as (X & k & I).
  destruct (append_life R s l e k points s' evs X I NL A E G C RN) as (X' & e1 & k' & E1 & I'). exists e1. split; auto. eapply el_append; eauto.
Qed.
End Hist.

(** ** Updates that keep *)
Section Keeps.
Context (dev : Qc) (Hd : 0 <= dev).

Lemma sorted_front l t : StronglySorted slt (l ++ t) -> StronglySorted slt l.
Proof.
  induction l as [|a l IH]; intros S; [constructor|]. cbn in S. inversion S; subst. constructor; auto. apply Forall_app in H2. apply H2.
Qed.
(** A reference that agrees at the points has the same extremas. *)
Lemma eff_agree R R' s poss add poss' : R' (fst s) = R (fst s) -> (forall p, poss = Some p -> R' (fst p) = R (fst p)) ->
  eff dev R s poss add poss' -> eff dev R' s poss add poss'.
Proof.
  intros A1 A2 E.
  assert (DV : forall p, R' (fst p) = R (fst p) -> deviates dev R p <-> deviates dev R' p) by (intros p H; unfold deviates; rewrite H; tauto).
  assert (AB : forall p, R' (fst p) = R (fst p) -> above R p <-> above R' p) by (intros p H; unfold above; rewrite H; tauto).
  assert (BE : forall p, R' (fst p) = R (fst p) -> below R p <-> below R' p) by (intros p H; unfold below; rewrite H; tauto).
  assert (As : forall y : Qc, R' (fst (fst s, y)) = R (fst (fst s, y))) by (intros; exact A1).
  inversion E; subst.
  - apply eff_skip. inversion H; subst; [inversion H3; constructor; constructor|]. inversion H4; subst. apply sel_near; [|constructor]. rewrite <- DV; auto.
  - apply eff_first; auto; [now apply DV|]. rewrite <- AB, <- BE; auto.
  - apply eff_keep with (y := y); auto; [now apply DV|]. rewrite <- !AB, <- !BE; auto.
  - apply eff_up; auto; [now apply DV|]. rewrite <- !AB, <- !BE; auto.
  - apply eff_turn; auto; [now apply DV|]. rewrite <- !AB, <- !BE; auto.
Qed.
Lemma extremas_agree R R' l es p : StronglySorted slt l -> Forall (ref_nonzero R) l -> (forall q, In q l -> R' (fst q) = R (fst q)) ->
  extremas_of dev R l es p -> extremas_of dev R' l es p.
Proof.
  intros SS RN AG X.
  assert (G : exists es p, extremas_of dev R l es p /\ extremas_of dev R' l es p).
  { clear es p X. induction l as [|s l IH] using rev_ind.
    - exists [], None. split; apply extremas_nil.
    - apply Forall_app in RN. destruct RN as [RN RS]. inversion RS; subst.
      pose proof (sorted_front _ _ SS) as S1.
      destruct IH as (es & p & X1 & X2); auto. { intros q Iq. apply AG. apply in_or_app. now left. }
      destruct (eff_exists dev Hd R l es p s H1 X1) as (add & p' & E). exists (es ++ add), p'. split; [now apply eff_extremas with (poss := p)|].
      apply eff_extremas with (poss := p); auto. apply (eff_agree R); auto. { apply AG. apply in_or_app. right. now left. }
      intros z ->. destruct (extremas_sound dev R _ _ _ S1 X1) as (_ & _ & F). destruct (F z eq_refl) as (I & _). apply (AG (fst z, Some (snd z))). apply in_or_app. now left. }
  destruct G as (es1 & p1 & X1 & X2). destruct (extremas_unique _ _ _ _ _ _ _ X X1) as [-> ->]. exact X2.
Qed.
Theorem keeps_reference R R' l D : StronglySorted slt l -> Forall (ref_nonzero R) l -> (forall q, In q l -> R' (fst q) = R (fst q)) ->
  (forall q, In q l -> outside D (fst q) = true) -> keeps dev R l R' l D.
Proof.
  intros SS RN AG O k es p X. pose proof (extremas_sound dev R _ _ _ (firstn_sorted l k SS) X) as (_ & IN & PN).
  assert (AK : forall q, In q (firstn k l) -> R' (fst q) = R (fst q)) by (intros q Iq; apply AG; eapply in_firstn; eauto).
  exists (Nat.min k (length l)), p. split; [lia|]. rewrite filter_all.
  2:{ intros x Ix. destruct (IN x Ix) as [J _]. apply (O (fst x, Some (snd x))). eapply in_firstn; eauto. }
  split.
  - replace (firstn (Nat.min k (length l)) l) with (firstn k l).
    + apply (extremas_agree R); auto. now apply firstn_sorted. now apply forall_firstn.
    + destruct (le_lt_dec k (length l)); [now rewrite Nat.min_l by lia|]. rewrite Nat.min_r by lia. rewrite firstn_all. now rewrite firstn_all2 by lia.
  - intros _. split; auto. intros z ->. destruct (PN z eq_refl) as (J & _). now apply (AK (fst z, Some (snd z))).
Qed.
(** Points replaced after the common ones c, where something is confirmed already
    and nothing more of c was by the points replaced. *)
Theorem keeps_tail R c t t' es p fes pf D : StronglySorted slt (c ++ t) -> Forall (ref_nonzero R) t -> extremas_of dev R c es p -> es <> [] ->
  extremas_of dev R (c ++ t) fes pf -> filter (fun q => outside D (fst q)) fes = es -> (forall q, In q c -> outside D (fst q) = true) ->
  keeps dev R (c ++ t) R (c ++ t') D.
Proof.
  intros SS RN X NE XF FE O k es1 p1 X1. pose proof (sorted_front _ _ SS) as SC.
  destruct (le_lt_dec k (length c)) as [L|L].
  - exists k, p1. split; [rewrite app_length; lia|]. assert (F1 : firstn k (c ++ t) = firstn k c /\ firstn k (c ++ t') = firstn k c).
    { rewrite !firstn_app. replace (k - length c)%nat with 0%nat by lia. cbn. now rewrite !app_nil_r. }
    destruct F1 as [F1 F2]. rewrite F1 in X1. rewrite F2. rewrite filter_all; [auto|].
    intros x Ix. destruct (extremas_sound dev R _ _ _ (firstn_sorted c k SC) X1) as (_ & IN & _). destruct (IN x Ix) as [J _].
    apply (O (fst x, Some (snd x))). eapply in_firstn; eauto.
  - assert (F1 : exists t1 t2, firstn k (c ++ t) = c ++ t1 /\ t = t1 ++ t2).
    { exists (firstn (k - length c) t), (skipn (k - length c) t). split; [|now rewrite firstn_skipn]. rewrite firstn_app. now rewrite firstn_all2 by lia. }
    destruct F1 as (t1 & t2 & F1 & F2). rewrite F1 in X1. subst t. apply Forall_app in RN. destruct RN as [RN1 RN2].
    destruct (extremas_prefix dev R c t1 es p es1 p1 Hd RN1 X X1) as [u ->]. rewrite app_assoc in XF.
    destruct (extremas_prefix dev R (c ++ t1) t2 _ _ _ _ Hd RN2 X1 XF) as [v ->].
    assert (FC : filter (fun q => outside D (fst q)) es = es).
    { apply filter_all. intros x Ix. destruct (extremas_sound dev R _ _ _ SC X) as (_ & IN & _). destruct (IN x Ix) as [J _]. apply (O _ J). }
    rewrite !filter_app, FC in FE. assert (U : filter (fun q => outside D (fst q)) u = []).
    { apply (f_equal (@length _)) in FE. rewrite !app_length in FE. apply length_zero_iff_nil. lia. }
    exists (length c), p. split; [rewrite app_length; lia|]. rewrite firstn_app, Nat.sub_diag, firstn_all. cbn [firstn]. rewrite app_nil_r, filter_app, FC, U, app_nil_r.
    split; auto. intros E. destruct es; [congruence|discriminate].
Qed.
End Keeps.
