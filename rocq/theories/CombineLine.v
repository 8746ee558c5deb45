(** Facts about maps, offsets, subsets, constants and lines. *)
From Coq Require Import List ZArith QArith Qcanon Bool Lia Lqa.
From Verif Require Import Base Num NumFacts Interval IntervalFacts Curve BaseFacts Combine CombineFacts CombineTop.
Import ListNotations.

(** ** Map *)

Lemma map_y skip p t (c : xcrv) x :
  (forall v, c_y c x = Ok (Some v) -> c_y (map_curve skip p t c) x = t x (Some v)) /\
  (c_y c x = Ok None -> c_y (map_curve skip p t c) x = if skip : bool then Ok None else t x None) /\
  (forall e, c_y c x = Err e -> c_y (map_curve skip p t c) x = Err e).
Proof. unfold map_curve. cbn [c_y]. repeat split; intros; rewrite H; reflexivity. Qed.

(** A curve that applies its own min_step to the argument it is given. *)
Definition honours_step {V} (c : crv xq V) : Prop := forall x a lim,
  c_next c x (resolve_min_step (c_ms c) a) lim = c_next c x a lim /\
  c_prev c x (resolve_min_step (c_ms c) a) lim = c_prev c x a lim.

Lemma resolve_map p s m : (forall v, s = Some v -> notnan v) -> notnan m -> notnan p -> le_x (Fin 0%Qc) p -> le_x p m ->
  resolve_min_step (Some (map_min_step p s)) (Some m) = resolve_min_step s (Some m).
Proof.
  intros Hs Hm Hp P0 L. unfold resolve_min_step, map_min_step.
  rewrite le_x_emb in P0, L by (auto; discriminate).
  destruct s as [v|].
  - assert (Hv : notnan v) by (now apply Hs). unfold n_max, n_gtb. cbn [n_ltb n_eqb XQ].
    change (n_zero : xq) with (Fin 0%Qc).
    destruct (xq_eqb_spec v (Fin 0%Qc) Hv ltac:(discriminate)); destruct (xq_ltb_spec p v Hp Hv);
      cbn [negb andb]; repeat xcase; auto; exfalso; lra.
  - unfold n_max, n_gtb. cbn [n_ltb XQ]. xcase; auto. exfalso; lra.
Qed.
Lemma map_steps skip p t (c : xcrv) x m lim : honours_step c ->
  (forall v, c_ms c = Some v -> notnan v) -> notnan m -> notnan p -> le_x (Fin 0%Qc) p -> le_x p m ->
  c_next (map_curve skip p t c) x (Some m) lim = c_next c x (Some m) lim /\
  c_prev (map_curve skip p t c) x (Some m) lim = c_prev c x (Some m) lim.
Proof.
  intros H Hs Hm Hp P0 L. unfold map_curve. cbn [c_next c_prev].
  rewrite (resolve_map p (c_ms c) m) by auto. apply H.
Qed.
Lemma map_step_idem p s : (forall v, s = Some v -> notnan v) -> notnan p -> le_x (Fin 0%Qc) p ->
  map_min_step p (Some (map_min_step p s)) = map_min_step p s.
Proof.
  intros Hs Hp P0. unfold map_min_step. rewrite le_x_emb in P0 by (auto; discriminate).
  unfold n_gtb. cbn [n_ltb n_eqb XQ]. change (n_zero : xq) with (Fin 0%Qc).
  destruct s as [v|].
  - assert (Hv : notnan v) by (now apply Hs).
    destruct (xq_eqb_spec v (Fin 0%Qc) Hv ltac:(discriminate)); destruct (xq_ltb_spec p v Hp Hv);
      cbn [negb andb]; repeat xcase; cbn [negb andb]; auto; exfalso; lra.
  - repeat xcase; cbn [negb andb]; auto; exfalso; lra.
Qed.

Definition chain_f (t1 t2 : xq -> option xq -> res (option xq)) (x : xq) (y : option xq) : res (option xq) :=
  let! z := t1 x y in t2 x z.
Lemma map_map p t1 t2 (c : xcrv) : (forall v, c_ms c = Some v -> notnan v) -> notnan p -> le_x (Fin 0%Qc) p ->
  let a := map_curve false p t2 (map_curve false p t1 c) in
  let b := map_curve false p (chain_f t1 t2) c in
  c_dom a = c_dom b /\ c_ms a = c_ms b /\
  forall x, c_y a x = c_y b x /\
    forall ms lim, c_next a x ms lim = c_next b x ms lim /\ c_prev a x ms lim = c_prev b x ms lim.
Proof.
  intros Hs Hp P0. cbv zeta. unfold map_curve. cbn [c_dom c_ms c_y c_next c_prev].
  rewrite !map_step_idem by auto. repeat split; auto; try (now rewrite resolve_idem).
  unfold chain_f. destruct (c_y c x) as [[v|]|e]; cbn [rbind]; auto.
  - destruct (t1 x (Some v)) as [[w|]|e]; reflexivity.
  - destruct (t1 x None) as [[w|]|e]; reflexivity.
Qed.

(** ** Offset *)

Lemma unoffset_fin k x : unoffset_x (Fin k) (Fin x) = Fin (x - k)%Qc.
Proof. reflexivity. Qed.
Lemma offset_fin k x : offset_x (Fin k) (Fin x) = Fin (x + k)%Qc.
Proof. reflexivity. Qed.
Lemma offset_nn k x : notnan x -> notnan (offset_x (Fin k) x).
Proof. destruct x; cbn; auto; discriminate. Qed.
Lemma unoffset_nn k x : notnan x -> notnan (unoffset_x (Fin k) x).
Proof. destruct x; cbn; auto; discriminate. Qed.
Lemma unoffset_offset k x : unoffset_x (Fin k) (offset_x (Fin k) x) = x.
Proof. destruct x; cbn; auto. f_equal. ring. Qed.
Lemma offset_ltb k a b : xq_ltb (offset_x (Fin k) a) b = xq_ltb a (unoffset_x (Fin k) b).
Proof.
  destruct a as [p| | |], b as [q| | |]; cbn; auto.
  apply eq_true_iff_eq. rewrite !Qcltb_true. split; intro; qc_lra.
Qed.
Lemma offset_leb k a b : xq_leb (offset_x (Fin k) a) b = xq_leb a (unoffset_x (Fin k) b).
Proof.
  destruct a as [p| | |], b as [q| | |]; cbn; auto.
  apply eq_true_iff_eq. rewrite !Qcleb_true. split; intro; qc_lra.
Qed.
Lemma offset_ltb' k a b : xq_ltb b (offset_x (Fin k) a) = xq_ltb (unoffset_x (Fin k) b) a.
Proof.
  destruct a as [p| | |], b as [q| | |]; cbn; auto.
  apply eq_true_iff_eq. rewrite !Qcltb_true. split; intro; qc_lra.
Qed.
Lemma offset_leb' k a b : xq_leb b (offset_x (Fin k) a) = xq_leb (unoffset_x (Fin k) b) a.
Proof.
  destruct a as [p| | |], b as [q| | |]; cbn; auto.
  apply eq_true_iff_eq. rewrite !Qcleb_true. split; intro; qc_lra.
Qed.
Lemma offset_interval_iff k d x : imem (offset_interval (Fin k) d) x <-> imem d (unoffset_x (Fin k) x).
Proof.
  destruct d as [s e so eo]. unfold imem, offset_interval, lt_x, le_x. cbn [i_start i_end i_so i_eo].
  rewrite offset_ltb, offset_leb, offset_ltb', offset_leb'. tauto.
Qed.
Lemma offset_interval_ok k d : iok d -> iok (offset_interval (Fin k) d).
Proof. intros [A B]. split; cbn [offset_interval i_start i_end]; now apply offset_nn. Qed.
Lemma offset_interval_add a b d :
  offset_interval (Fin b) (offset_interval (Fin a) d) = offset_interval (Fin (a + b)%Qc) d.
Proof.
  destruct d as [s e so eo]. unfold offset_interval. cbn [i_start i_end i_so i_eo].
  assert (H : forall z, offset_x (Fin b) (offset_x (Fin a) z) = offset_x (Fin (a + b)%Qc) z).
  { intros [z| | |]; cbn; auto. f_equal. ring. }
  now rewrite !H.
Qed.
Lemma contains_offset k d x : iok d -> notnan x ->
  i_contains (offset_interval (Fin k) d) x = i_contains d (unoffset_x (Fin k) x).
Proof.
  intros Hd Hx. apply eq_true_iff_eq.
  rewrite !contains_iff by auto using offset_interval_ok, unoffset_nn. apply offset_interval_iff.
Qed.
Lemma offset_y k (c : xcrv) x : iok (c_dom c) ->
  (imem (c_dom c) (Fin (x - k)%Qc) -> c_y (offset_curve (Fin k) c) (Fin x) = c_y c (Fin (x - k)%Qc)) /\
  (~ imem (c_dom c) (Fin (x - k)%Qc) -> c_y (offset_curve (Fin k) c) (Fin x) = Ok None).
Proof.
  intros H. unfold offset_curve, offset_eval. cbn [c_y]. rewrite unoffset_fin.
  split; intros M.
  - now rewrite (proj2 (contains_iff _ _ H (notnan_fin _)) M).
  - destruct (i_contains (c_dom c) (Fin (x - k)%Qc)) eqn:E; auto.
    apply contains_iff in E; auto with nn. contradiction.
Qed.
Lemma offset_next k (c : xcrv) x ms t : iok (c_dom c) ->
  (c_next c (Fin (x - k)%Qc) ms None = Ok (Some (Fin t)) -> imem (c_dom c) (Fin t) ->
     c_next (offset_curve (Fin k) c) (Fin x) ms None = Ok (Some (Fin (t + k)%Qc))) /\
  (c_next c (Fin (x - k)%Qc) ms None = Ok None -> c_next (offset_curve (Fin k) c) (Fin x) ms None = Ok None) /\
  (c_prev c (Fin (x - k)%Qc) ms None = Ok (Some (Fin t)) -> imem (c_dom c) (Fin t) ->
     c_prev (offset_curve (Fin k) c) (Fin x) ms None = Ok (Some (Fin (t + k)%Qc))) /\
  (c_prev c (Fin (x - k)%Qc) ms None = Ok None -> c_prev (offset_curve (Fin k) c) (Fin x) ms None = Ok None).
Proof.
  intros H. unfold offset_curve. cbn [c_next c_prev]. rewrite unoffset_fin.
  repeat split; intros E; try (intros M); rewrite E; cbn [rbind]; auto;
    rewrite (proj2 (contains_iff _ _ H (notnan_fin _)) M); reflexivity.
Qed.
Lemma offset_offset a b (c : xcrv) : iok (c_dom c) ->
  (forall x ms lim t, c_next c x ms lim = Ok (Some t) \/ c_prev c x ms lim = Ok (Some t) -> notnan t) ->
  let p := offset_curve (Fin b) (offset_curve (Fin a) c) in
  let q := offset_curve (Fin (a + b)%Qc) c in
  c_dom p = c_dom q /\
  forall x, notnan x -> c_y p x = c_y q x /\
    forall ms lim, c_next p x ms lim = c_next q x ms lim /\ c_prev p x ms lim = c_prev q x ms lim.
Proof.
  intros H NN. cbv zeta.
  assert (U : forall z, unoffset_x (Fin a) (unoffset_x (Fin b) z) = unoffset_x (Fin (a + b)%Qc) z).
  { intros [z| | |]; cbn; auto. f_equal. ring. }
  assert (O : forall z, offset_x (Fin b) (offset_x (Fin a) z) = offset_x (Fin (a + b)%Qc) z).
  { intros [z| | |]; cbn; auto. f_equal. ring. }
  split; [unfold offset_curve; cbn [c_dom]; apply offset_interval_add|].
  intros x Hx. split.
  - unfold offset_curve, offset_eval. cbn [c_y c_dom]. rewrite U.
    rewrite contains_offset, U by auto using unoffset_nn.
    destruct (i_contains (c_dom c) _); reflexivity.
  - intros ms lim. unfold offset_curve. cbn [c_next c_prev c_dom]. rewrite U. split.
    + destruct (c_next c _ ms lim) as [[t|]|e] eqn:E; cbn [rbind]; auto.
      assert (Ht : notnan t) by (eapply NN; eauto).
      destruct (i_contains (c_dom c) t) eqn:C; cbn [rbind]; auto.
      rewrite contains_offset, unoffset_offset, C, O by auto using offset_nn. reflexivity.
    + destruct (c_prev c _ ms lim) as [[t|]|e] eqn:E; cbn [rbind]; auto.
      assert (Ht : notnan t) by (eapply NN; eauto).
      destruct (i_contains (c_dom c) t) eqn:C; cbn [rbind]; auto.
      rewrite contains_offset, unoffset_offset, C, O by auto using offset_nn. reflexivity.
Qed.
Lemma offset_nonempty k d : iok d -> i_is_empty (offset_interval (Fin k) d) = i_is_empty d.
Proof.
  intros H. apply eq_true_iff_eq. rewrite !is_empty_iff by auto using offset_interval_ok.
  split; intros A x Hx M.
  - apply (A (offset_x (Fin k) x)); [now apply offset_nn|].
    apply offset_interval_iff. now rewrite unoffset_offset.
  - apply (A (unoffset_x (Fin k) x)); [now apply unoffset_nn|]. now apply offset_interval_iff.
Qed.
(** A change of the source over [d], seen by an idle offset curve. *)
Lemma offset_events k d : iok d -> i_is_empty d = false ->
  let '(u1, b) := offset_begin (Fin k) upd_init d in
  let '(u2, e) := offset_end (Fin k) u1 d in
  b = Some (offset_interval (Fin k) d) /\ e = Some (offset_interval (Fin k) d) /\ u2 = upd_init.
Proof.
  intros H E. pose proof (offset_interval_ok k d H) as H'.
  assert (E' : i_is_empty (offset_interval (Fin k) d) = false) by (now rewrite offset_nonempty).
  set (o := offset_interval (Fin k) d) in *.
  unfold offset_begin, offset_end, begin_update, end_update, upd_init. fold o. cbn [u_begin u_end u_dom].
  rewrite E', (superset_empty_l i_empty o i_empty_is_empty), E'. cbn [orb u_begin u_end u_dom].
  rewrite union2_empty_l by auto. cbn [u_begin u_end u_dom].
  rewrite (superset_refl o H'). cbn [negb]. rewrite (superset_empty_l i_empty o i_empty_is_empty), E'. auto.
Qed.

(** ** Generic, subset *)
Lemma subset_y d (c : xcrv) x : iok d -> notnan x ->
  (imem d x -> c_y (subset d c) x = c_y c x) /\ (~ imem d x -> c_y (subset d c) x = Ok None).
Proof.
  intros H Hx. unfold subset, generic_curve. cbn [c_y i_parse]. split; intros M.
  - now rewrite (proj2 (contains_iff _ _ H Hx) M).
  - destruct (i_contains d x) eqn:E; auto. apply contains_iff in E; auto. contradiction.
Qed.
(** The source is not consulted outside [d]. *)
Lemma subset_local d (c c' : xcrv) x : iok d -> notnan x -> (forall z, notnan z -> imem d z -> c_y c z = c_y c' z) ->
  c_y (subset d c) x = c_y (subset d c') x.
Proof.
  intros H Hx A. unfold subset, generic_curve. cbn [c_y i_parse].
  destruct (i_contains d x) eqn:E; cbn [negb]; auto. apply A; auto. now apply contains_iff.
Qed.
Lemma generic_init_y f dom x : generic_y f (generic_init dom) x = c_y (generic_curve f dom None) (x : xq).
Proof. reflexivity. Qed.
Lemma generic_lost f dom (d : ival xq) x : iok d -> i_is_empty d = false ->
  generic_y f (fst (end_update (fst (begin_update (generic_init dom) d)) d)) x = Err EAttr.
Proof.
  intros H E. unfold begin_update, generic_init. cbn [u_begin u_end u_dom].
  rewrite E, (superset_empty_l i_empty d i_empty_is_empty), E. cbn [orb fst].
  unfold end_update. cbn [u_begin u_end u_dom].
  rewrite E, (superset_empty_l i_empty d i_empty_is_empty), E. cbn [orb].
  rewrite union2_empty_l by auto. rewrite (superset_refl d H). reflexivity.
Qed.

(** ** Constant and Line: announcing a change of the whole curve *)

(** Outside any update, beginning and ending an update of the whole curve
    announces exactly that. *)
Definition idle (u : upd xq) : Prop := u_begin u = i_empty /\ u_end u = i_empty.
Lemma whole_update u (d : ival xq) : idle u -> iok d -> i_is_empty d = false ->
  begin_update u d = (mkU d i_empty (u_dom u), Some d) /\ end_update (mkU d i_empty (u_dom u)) d = (mkU i_empty i_empty None, Some d).
Proof.
  intros [B E] Hd Hn. destruct u as [ub ue ud]. cbn [u_begin u_end] in *. subst.
  unfold begin_update, end_update. cbn [u_begin u_end u_dom].
  rewrite Hn, (superset_empty_l i_empty d i_empty_is_empty), Hn. cbn [orb].
  rewrite union2_empty_l by auto. rewrite (superset_refl d Hd). auto.
Qed.
Lemma constant_set_spec d u old new : idle u -> iok d -> i_is_empty d = false ->
  (xq_eqb new old = true -> constant_set d u old new = (u, old, [])) /\ (xq_eqb new old = false -> constant_set d u old new = (mkU i_empty i_empty None, new, [EvBegin d; EvEnd d])).
Proof.
  intros I Hd Hn. unfold constant_set. cbn [n_eqb XQ]. split; intros E; rewrite E; auto.
  destruct (whole_update u d I Hd Hn) as [A B]. rewrite A, B. reflexivity.
Qed.

Notation xline := (line xq).
Definition same_line (a b : xline) : bool :=
  xq_eqb (l_x a) (l_x b) && xq_eqb (l_y a) (l_y b) && xq_eqb (l_slope a) (l_slope b).
Lemma line_put_spec u (old new : xline) : idle u ->
  (same_line new old = true -> line_put u old new = (u, old, [])) /\ (same_line new old = false -> line_put u old new = (mkU i_empty i_empty None, new, [EvBegin i_infinite; EvEnd i_infinite])).
Proof.
  intros I. unfold line_put, same_line. cbn [n_eqb XQ]. split; intros E; rewrite E; auto.
  destruct (whole_update u i_infinite I iok_infinite eq_refl) as [A B]. rewrite A, B. reflexivity.
Qed.
Lemma same_line_eq a b : same_line a b = true -> a = b.
Proof.
  unfold same_line. rewrite !andb_true_iff. intros [[A B] C].
  apply xq_eqb_true in A, B, C. destruct a, b. cbn in *. destruct A, B, C. congruence.
Qed.

(** Lines given by two points, by a point and a slope, by intercept and slope *)
Definition pt (p : Qc * Qc) : xq * xq := (Fin (fst p), Fin (snd p)).
Lemma line_two_points u old x1 y1 x2 y2 : x1 <> x2 -> exists u' evs, 
  line_set u old None None None None (Some (pt (x1, y1), pt (x2, y2))) =
    Ok (u', mkL (Fin x1) (Fin y1) (Fin ((y2 - y1) / (x2 - x1))%Qc), evs).
Proof.
  intros N. unfold line_set, line_args, pt. cbn [fst snd].
  cbn [n_eqb n_div n_sub XQ xq_eqb xq_sub]. rewrite (proj2 (Qceqb_false x2 x1)) by congruence. cbn [negb].
  unfold xq_div. assert (D : (x2 - x1)%Qc <> 0%Qc).
  { intro E. apply N. clear -E. qc_lra. }
  rewrite (proj2 (Qceqb_false _ _) D). cbn [rbind].
  set (l := mkL _ _ _). unfold line_put.
  destruct (_ && _) eqn:E.
  - apply (same_line_eq l old) in E. subst old. eauto.
  - destruct (begin_update u i_infinite) as [u1 b]. destruct (end_update u1 i_infinite) as [u2 e]. eauto.
Qed.
Lemma line_y_fin x0 y0 s x : line_y (mkL (Fin x0) (Fin y0) (Fin s)) (Fin x) = Fin (y0 + s * (x - x0))%Qc.
Proof. reflexivity. Qed.
Lemma line_x_fin x0 y0 s y : s <> 0%Qc -> line_x (mkL (Fin x0) (Fin y0) (Fin s)) (Fin y) = Ok (Fin (x0 + (y - y0) / s)%Qc).
Proof.
  intros N. unfold line_x. cbn [l_x l_y l_slope n_sub n_div n_add XQ xq_sub xq_div].
  rewrite (proj2 (Qceqb_false _ _) N). reflexivity.
Qed.
Lemma line_area (h x0 y0 s a b : Qc) : (h + h = 1)%Qc ->
  let l := mkL (Fin x0) (Fin y0) (Fin s) in
  line_partial_integration (Fin h) l (Fin a) (Fin b) =
  Fin ((b - a) * h * ((y0 + s * (a - x0)) + (y0 + s * (b - x0))))%Qc.
Proof.
  intros H. cbv zeta. unfold line_partial_integration, line_primitive, line_const. cbn [l_slope].
  change (n_zero : xq) with (Fin 0%Qc). rewrite line_y_fin.
  cbn [n_eqb n_sub n_add n_mul XQ xq_eqb xq_sub xq_add xq_mul].
  destruct (Qceqb a b) eqn:E.
  - apply Qceqb_true in E. subst. f_equal. ring.
  - f_equal.
    set (A := (y0 + s * (0 - x0))%Qc).
    assert (K : forall z, (A * z = (h + h) * A * z)%Qc) by (intro; rewrite H; ring).
    rewrite (K a), (K b). subst A. ring.
Qed.
