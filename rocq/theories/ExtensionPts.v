(** Extensions of Points objects, and where extensions go wrong. *)
From Coq Require Import List ZArith Bool Lia QArith Qcanon Lqa.
From Verif Require Import Base Num NumFacts Interval IntervalFacts Curve Points PointsSpec PointsIdx PointsQuery PointsOps PointsDec PointsHist PointsTop
  BaseTop UpdFacts Combine ScanInv ScanTf Extension ExtensionFacts ExtensionTop.
Import ListNotations.
Open Scope num_scope.
Open Scope bool_scope.

(** A Points object as the source of an extension; [reg] is its regression. *)
Definition pts_src (reg : xq -> xq -> res (option (line xq))) (p : pts xq (option xq)) : src xq :=
  mkS (p_crv p) (fun x fw => d_y (p_crv p) x fw (Some MIN_STEP) None) reg.

Lemma knot_y (p : pts xq (option xq)) q v : honest_history p -> In (Fin q, v) (p_pts p) -> p_y p (Fin q) = Ok v.
Proof. intros H Hin. apply p_y_knot; auto using honest_history_good. intros _. exact lerp_total_num. Qed.

Lemma ends_dom (p : pts xq (option xq)) a ya z yz : honest_history p -> head_opt (p_pts p) = Some (Fin a, ya) ->
  last_opt (p_pts p) = Some (Fin z, yz) -> p_dom p = mkI (Fin a) (Fin z) false false /\ i_is_empty (p_dom p) = false.
Proof.
  intros H Ha Hz. destruct (top_domain p H) as (_ & E & D & _). split; [ exact (D _ _ Ha Hz) | ].
  destruct (i_is_empty (p_dom p)) eqn:X; [ | reflexivity ]. rewrite (proj1 E eq_refl) in Ha. discriminate.
Qed.

Lemma contains_closed a z q : i_contains (mkI (Fin a) (Fin z) false false) (Fin q) = Qcleb a z && Qcleb a q && Qcleb q z.
Proof.
  apply eq_true_iff_eq. rewrite contains_iff by (try split; discriminate). unfold imem. cbn.
  unfold le_x. cbn. rewrite !andb_true_iff, !Qcleb_true. split.
  - intros [ A B ]. repeat split; auto. eapply Qcle_trans; eauto.
  - intros [[ _ A ] B ]. auto.
Qed.

(** *** constant *)
Lemma const_points le ge st en reg p e a ya z yz q : honest_history p ->
  head_opt (p_pts p) = Some (Fin a, ya) -> last_opt (p_pts p) = Some (Fin z, yz) ->
  const_lives le ge st en (pts_src reg p) e ->
  ((q < a)%Qc -> snd (ext_y constant_ext (pts_src reg p) e (Fin q)) = if st then Ok ya else Ok None) /\
  ((z < q)%Qc -> snd (ext_y constant_ext (pts_src reg p) e (Fin q)) = if en then Ok yz else Ok None) /\
  ((a <= q)%Qc -> (q <= z)%Qc -> snd (ext_y constant_ext (pts_src reg p) e (Fin q)) = p_y p (Fin q)).
Proof.
  intros H Ha Hz L. destruct (ends_dom p a ya z yz H Ha Hz) as [ D E ].
  assert (O : iok (dom (pts_src reg p))) by (cbn; rewrite D; split; discriminate).
  rewrite (const_value le ge st en _ e q L O). cbn [pts_src s_c p_crv c_dom c_y]. rewrite E, D.
  assert (AZ : (a <= z)%Qc).
  { rewrite D in E. unfold i_is_empty in E. cbn in E. apply orb_false_iff in E. destruct E as [ E _ ].
    unfold n_gtb in E. cbn in E. now apply Qcltb_false. }
  rewrite contains_closed. cbn [i_start i_end xq_leb].
  rewrite (knot_y p a ya H (head_opt_in _ _ Ha)), (knot_y p z yz H (last_opt_in _ _ Hz)).
  apply Qcleb_true in AZ. rewrite AZ. apply Qcleb_true in AZ. cbn [andb].
  split; [ | split ].
  - intro Q. replace (Qcleb a q) with false by (symmetry; now apply Qcleb_false). cbn [andb].
    replace (Qcleb q a) with true by (symmetry; apply Qcleb_true; now apply Qclt_le_weak). reflexivity.
  - intro Q. replace (Qcleb q z) with false by (symmetry; now apply Qcleb_false). rewrite andb_false_r.
    replace (Qcleb q a) with false; [ reflexivity | ]. symmetry. apply Qcleb_false. qc_lra.
  - intros Q1 Q2. apply Qcleb_true in Q1, Q2. now rewrite Q1, Q2.
Qed.

(** *** tangent: the slope of the outermost segment *)
Lemma ms_fin : MIN_STEP (T := xq) = Fin min_step. Proof. reflexivity. Qed.
Lemma ms_pos : (0 < min_step)%Qc. Proof. apply Qcltb_true. vm_compute. reflexivity. Qed.

Lemma asc_pair (p : pts xq (option xq)) l1 a (ya : option xq) b yb l2 : honest_history p -> p_pts p = l1 ++ (Fin a, ya) :: (Fin b, yb) :: l2 -> (a < b)%Qc.
Proof.
  intros H E. pose proof (history_asc p H) as A. rewrite E in A.
  pose proof (asc_app _ _ _ _ (Fin b) yb A (or_introl eq_refl)) as X. now apply Qcltb_true.
Qed.

Lemma last_two {A} (l : list A) a b : last_opt (l ++ [a; b]) = Some b.
Proof. change [a; b] with ([a] ++ [b]). rewrite app_assoc. apply last_opt_app. Qed.

Section Tangent.
Variables (own : option xq) (le ge : ival xq -> ival xq -> bool) (reg : xq -> xq -> res (option (line xq))).
Notation tan_lives := (lives (tangent_ext TSlope own) le ge (tan_good TSlope own) (tan_alike TSlope own)).

Lemma tan_points_start st en p e a u b v l q : honest_history p ->
  p_pts p = (Fin a, Some (Fin u)) :: (Fin b, Some (Fin v)) :: l -> (a + min_step <= b)%Qc ->
  tan_lives st en (pts_src reg p) e -> (q < a)%Qc ->
  snd (ext_y (tangent_ext TSlope own) (pts_src reg p) e (Fin q))
  = Ok (if st then Some (Fin (u + (v - u) / (b - a) * (q - a)))%Qc else None).
Proof.
  intros H Hp G L Q.
  destruct (last_opt (p_pts p)) as [ [ z yz ] | ] eqn:Hz.
  2: { rewrite Hp in Hz. apply last_opt_none in Hz. discriminate. }
  destruct (ascending_fin _ _ (history_asc p H) (last_opt_in _ _ Hz)) as (zq & vz & X). injection X as -> ->.
  assert (Ha : head_opt (p_pts p) = Some (Fin a, Some (Fin u))) by now rewrite Hp.
  destruct (ends_dom p _ _ _ _ H Ha Hz) as [ D E ].
  assert (O : iok (dom (pts_src reg p))) by (cbn; rewrite D; split; discriminate).
  rewrite (tan_value TSlope own le ge st en _ e q L O). cbn [pts_src s_c p_crv c_dom c_y]. rewrite E, D, contains_closed.
  replace (Qcleb a q) with false by (symmetry; now apply Qcleb_false). rewrite andb_false_r. cbn [andb i_start xq_leb].
  replace (Qcleb q a) with true by (symmetry; apply Qcleb_true; now apply Qclt_le_weak).
  destruct st; [ | reflexivity ].
  unfold tangent_edge. cbn [s_c p_crv c_dom pts_src s_dy c_y]. rewrite D. cbn [i_so i_start rbind].
  rewrite (knot_y p a (Some (Fin u)) H (head_opt_in _ _ Ha)). cbn [rbind]. rewrite ms_fin.
  fold (p_crv p).
  rewrite (dy_points_forward p [] a u b v l a min_step None H Hp (Qcle_refl a) ms_pos G (or_intror eq_refl)).
  reflexivity.
Qed.

Lemma tan_points_end st en p e a u b v l q : honest_history p ->
  p_pts p = l ++ [(Fin a, Some (Fin u)); (Fin b, Some (Fin v))] -> (a + min_step <= b)%Qc ->
  tan_lives st en (pts_src reg p) e -> (b < q)%Qc ->
  snd (ext_y (tangent_ext TSlope own) (pts_src reg p) e (Fin q))
  = Ok (if en then Some (Fin (v + (v - u) / (b - a) * (q - b)))%Qc else None).
Proof.
  intros H Hp G L Q.
  destruct (head_opt (p_pts p)) as [ [ z yz ] | ] eqn:Ha.
  2: { rewrite Hp in Ha. destruct l; discriminate. }
  destruct (ascending_fin _ _ (history_asc p H) (head_opt_in _ _ Ha)) as (zq & vz & X). injection X as -> ->.
  assert (Hz : last_opt (p_pts p) = Some (Fin b, Some (Fin v))) by (rewrite Hp; apply last_two).
  destruct (ends_dom p _ _ _ _ H Ha Hz) as [ D E ].
  assert (ZB : (zq <= b)%Qc).
  { rewrite D in E. unfold i_is_empty in E. cbn in E. apply orb_false_iff in E. destruct E as [ E _ ].
    unfold n_gtb in E. cbn in E. now apply Qcltb_false. }
  assert (O : iok (dom (pts_src reg p))) by (cbn; rewrite D; split; discriminate).
  rewrite (tan_value TSlope own le ge st en _ e q L O). cbn [pts_src s_c p_crv c_dom c_y]. rewrite E, D, contains_closed.
  replace (Qcleb q b) with false by (symmetry; now apply Qcleb_false). rewrite andb_false_r. cbn [i_start xq_leb].
  replace (Qcleb q zq) with false by (symmetry; apply Qcleb_false; qc_lra).
  destruct en; [ | reflexivity ].
  unfold tangent_edge. cbn [s_c p_crv c_dom pts_src s_dy c_y]. rewrite D. cbn [i_eo i_end rbind].
  rewrite (knot_y p b (Some (Fin v)) H (last_opt_in _ _ Hz)). cbn [rbind]. rewrite ms_fin.
  fold (p_crv p).
  assert (G' : (a <= b - min_step)%Qc) by qc_lra.
  rewrite (dy_points_backward p l a u b v [] b min_step None H Hp (Qcle_refl b) ms_pos G' (or_intror eq_refl)).
  reflexivity.
Qed.
End Tangent.

(** *** stepping: outside, the step of the outermost segment is continued *)
Lemma next_beyond reg p l a ya b yb m q lim : honest_history p ->
  p_pts p = l ++ [(Fin a, ya); (Fin b, yb)] -> (0 < m)%Qc -> (a + m <= b)%Qc -> (b < q + m)%Qc ->
  ext_next (pts_src reg p) true (Fin q) (Some (Fin m)) lim = Ok (Some (Fin (q + (b - a))%Qc)).
Proof.
  intros H Hp Hm G Q.
  destruct (head_opt (p_pts p)) as [ [ z yz ] | ] eqn:Ha.
  2: { rewrite Hp in Ha. destruct l; discriminate. }
  destruct (ascending_fin _ _ (history_asc p H) (head_opt_in _ _ Ha)) as (zq & vz & X). injection X as -> ->.
  assert (Hz : last_opt (p_pts p) = Some (Fin b, yb)) by (rewrite Hp; apply last_two).
  destruct (ends_dom p _ _ _ _ H Ha Hz) as [ D E ].
  unfold ext_next. cbn [pts_src s_c p_crv c_next c_prev c_dom].
  destruct (top_next p (Fin q) m None H) as [ y [ Ey Hy ] ]; [ discriminate | ]. rewrite Ey. cbn [rbind].
  assert (y = None).
  { destruct y as [ y | ]; [ | reflexivity ]. destruct Hy as [[ w Iw ] [ L1 _ ]].
    pose proof (ascending_last_ge _ _ _ (history_asc p H) Hz Iw) as L2. cbn [fst] in L2.
    exfalso. destruct (ascending_fin _ _ (history_asc p H) Iw) as (yq & vy & X). injection X as -> ->.
    apply Qcleb_true in L1. apply Qcleb_true in L2. cbn [xq_add] in *. qc_lra. }
  subst y. cbn [negb]. rewrite D. cbn [i_end].
  destruct (top_previous p (Fin b) m lim H) as [ y [ E2 Hy2 ] ]; [ discriminate | ]. rewrite E2. cbn [rbind].
  assert (y = Some (Fin a)).
  { eapply (greatest_prev p l a ya b yb [] b m); eauto using history_asc, Qcle_refl. qc_lra. }
  subst y. reflexivity.
Qed.

Lemma prev_before reg p a ya b yb l m q lim : honest_history p ->
  p_pts p = (Fin a, ya) :: (Fin b, yb) :: l -> (0 < m)%Qc -> (a + m <= b)%Qc -> (q - m < a)%Qc ->
  ext_prev (pts_src reg p) true (Fin q) (Some (Fin m)) lim = Ok (Some (Fin (q - (b - a))%Qc)).
Proof.
  intros H Hp Hm G Q.
  destruct (last_opt (p_pts p)) as [ [ z yz ] | ] eqn:Hz.
  2: { rewrite Hp in Hz. apply last_opt_none in Hz. discriminate. }
  destruct (ascending_fin _ _ (history_asc p H) (last_opt_in _ _ Hz)) as (zq & vz & X). injection X as -> ->.
  assert (Ha : head_opt (p_pts p) = Some (Fin a, ya)) by now rewrite Hp.
  destruct (ends_dom p _ _ _ _ H Ha Hz) as [ D E ].
  unfold ext_prev. cbn [pts_src s_c p_crv c_next c_prev c_dom].
  destruct (top_previous p (Fin q) m None H) as [ y [ Ey Hy ] ]; [ discriminate | ]. rewrite Ey. cbn [rbind].
  assert (y = None).
  { destruct y as [ y | ]; [ | reflexivity ]. destruct Hy as [[ w Iw ] [ L1 _ ]].
    exfalso. destruct (ascending_fin _ _ (history_asc p H) Iw) as (yq & vy & X). injection X as -> ->.
    pose proof (history_asc p H) as A. rewrite Hp in Iw, A.
    apply Qcleb_true in L1. cbn [xq_sub] in *. destruct Iw as [ Iw | Iw ].
    - injection Iw as <- _. qc_lra.
    - pose proof (asc_app [] (Fin a) ya _ _ _ A Iw) as L2. apply Qcltb_true in L2. qc_lra. }
  subst y. cbn [negb]. rewrite D. cbn [i_start].
  destruct (top_next p (Fin a) m lim H) as [ y [ E2 Hy2 ] ]; [ discriminate | ]. rewrite E2. cbn [rbind].
  assert (y = Some (Fin b)).
  { eapply (least_next p [] a ya b yb l a m); eauto using history_asc, Qcle_refl. }
  subst y. reflexivity.
Qed.

(** ** Announcements *)

(** An idle extension announces a source update once: as the extension's own
    interval if it is recognised, else as it is. *)
Lemma source_announces {F} (K : kind xq F) le ge s (e : ext xq F) d :
  let a := if in_extension le ge e d then e_int e else d in
  u_begin (e_upd e) = i_empty -> u_end (e_upd e) = i_empty -> e_istale e = false ->
  iok a -> i_is_empty a = false ->
  exists e', ext_source K le ge s e d = (e', [EvBegin a; EvEnd a], Ok tt)
    /\ u_begin (e_upd e') = i_empty /\ u_end (e_upd e') = i_empty /\ u_dom (e_upd e') = None.
Proof.
  intros a U1 U2 Is O E.
  assert (B : begin_update (e_upd e) a = (mkU a i_empty (u_dom (e_upd e)), Some a)).
  { unfold begin_update. rewrite E, U1, U2. rewrite superset_empty_l by apply i_empty_is_empty. rewrite E.
    cbn [orb]. now rewrite union2_empty_l. }
  assert (N : forall o, end_update (mkU a i_empty o) a = (mkU i_empty i_empty None, Some a)).
  { intro o. unfold end_update. cbn [u_begin u_end]. rewrite E. rewrite superset_empty_l by apply i_empty_is_empty. rewrite E.
    cbn [orb]. rewrite union2_empty_l by auto. now rewrite superset_refl. }
  unfold ext_source, ext_begin. fold a. rewrite B. unfold ext_end.
  change (in_extension le ge (set_eupd e (mkU a i_empty (u_dom (e_upd e)))) d) with (in_extension le ge e d).
  subst a. destruct (in_extension le ge e d).
  - unfold update_interval. cbn [set_stale set_eupd e_istale]. rewrite Is. cbn [negb set_stale set_eupd e_upd e_int].
    rewrite N. eexists. split; [ reflexivity | ]. auto.
  - cbn [set_eupd e_upd]. rewrite N. eexists. split; [ reflexivity | ]. auto.
Qed.

(** ** Where extensions go wrong *)

(** raise_on_empty: the check of line 161 reads the interval of before the
    update, which is empty at first. *)
Lemma raise_first {F} (K : kind xq F) s st en x :
  let st' := if i_is_negative_infinite (dom s) then false else st in
  let en' := if i_is_positive_infinite (dom s) then false else en in
  let e0 := set_istale (set_stale (ext_init K s st en true) false) true in
  st' || en' = true -> i_contains (dom s) x = false ->
  (exists e1 evs, k_update K s e0 = (e1, evs, Ok tt) /\ frame e0 e1) ->
  snd (ext_y K s (ext_init K s st en true) x) = Err EExc.
Proof.
  intros st' en' e0 SE C (e1 & evs & U & (a1 & a2 & a3 & a4 & a5 & a6)).
  unfold ext_y. rewrite C. unfold update_if_needed.
  change (e_stale (ext_init K s st en true)) with true. cbn [negb]. fold e0. rewrite U.
  assert (X : unable e1 = true).
  { unfold unable. rewrite a1, a2, a3, a4. subst e0. cbn -[i_is_negative_infinite i_is_positive_infinite].
    fold st' en'. change (i_is_negative_infinite i_empty) with false. change (i_is_positive_infinite i_empty) with false.
    rewrite !andb_true_r. exact SE. }
  rewrite X. reflexivity.
Qed.
Lemma raise_first_dom {F} (K : kind xq F) s st en :
  let st' := if i_is_negative_infinite (dom s) then false else st in
  let en' := if i_is_positive_infinite (dom s) then false else en in
  let e0 := set_istale (set_stale (ext_init K s st en true) false) true in
  st' || en' = true -> (exists e1 evs, k_update K s e0 = (e1, evs, Ok tt) /\ frame e0 e1) ->
  snd (ext_dom K s (ext_init K s st en true)) = Err EExc.
Proof.
  intros st' en' e0 SE (e1 & evs & U & (a1 & a2 & a3 & a4 & a5 & a6)).
  unfold ext_dom. change (u_dom (e_upd (ext_init K s st en true))) with (@None (ival xq)). cbn match.
  unfold update_interval. change (e_istale (ext_init K s st en true)) with true. cbn [negb].
  change (e_stale (set_istale (ext_init K s st en true) false)) with true. cbn match.
  unfold update_if_needed. change (e_stale (set_istale (ext_init K s st en true) false)) with true. cbn [negb].
  change (set_istale (set_stale (set_istale (ext_init K s st en true) false) false) true) with e0. rewrite U.
  assert (X : unable e1 = true).
  { unfold unable. rewrite a1, a2, a3, a4. subst e0. cbn -[i_is_negative_infinite i_is_positive_infinite].
    fold st' en'. change (i_is_negative_infinite i_empty) with false. change (i_is_positive_infinite i_empty) with false.
    rewrite !andb_true_r. exact SE. }
  rewrite X. reflexivity.
Qed.

(** A one-sided constant extension of an empty curve cannot be evaluated. *)
Lemma const_empty_raises s st en r x : i_is_empty (dom s) = true -> iok (dom s) -> notnan x ->
  (if i_is_negative_infinite (dom s) then false else st) && (if i_is_positive_infinite (dom s) then false else en) = false ->
  snd (ext_y constant_ext s (ext_init constant_ext s st en r) x) = Err EAttr.
Proof.
  intros E O Nn SE. unfold ext_y.
  replace (i_contains (dom s) x) with false.
  2: { symmetry. apply contains_false_e; auto. apply is_empty_e in E; auto. now apply empty_no_emem. }
  unfold update_if_needed. change (e_stale (ext_init constant_ext s st en r)) with true. cbn [negb].
  change (k_update constant_ext) with (constant_update (T := xq)). unfold constant_update. rewrite E.
  unfold ext_init. cbn [set_istale set_stale].
  destruct (if i_is_negative_infinite (dom s) then false else st) eqn:A; cbn [andb] in SE.
  - rewrite SE. unfold put_start. cbn [e_sf set_istale set_stale]. unfold andthen, announce.
    cbn [opt_same k_new constant_ext].
    destruct (begin_update _ _) as [ u1 b ]. destruct (end_update _ _) as [ u2 n ]. reflexivity.
  - reflexivity.
Qed.

(** An update that is not recognised leaves the old functions and interval. *)
Lemma unrecognised_keeps {F} (K : kind xq F) le ge s (e : ext xq F) d :
  in_extension le ge e d = false ->
  let e' := fst (fst (ext_source K le ge s e d)) in
  e_stale e' = e_stale e /\ e_int e' = e_int e /\ looks e e'.
Proof.
  intro I. unfold ext_source, ext_begin. rewrite I. destruct (begin_update (e_upd e) d) as [ u n ].
  unfold ext_end. change (in_extension le ge (set_eupd e u) d) with (in_extension le ge e d). rewrite I.
  destruct (end_update _ d) as [ u' n' ]. repeat split.
Qed.
