(** The lemmas about derived curves in the form the properties state them. *)
From Coq Require Import List ZArith QArith Qcanon Bool Sorting.Sorted Permutation.
From Verif Require Import Base Num NumFacts Interval IntervalFacts Curve BaseFacts.
From Verif Require Import Combine CombineFacts CombineTop CombineLine CombinePiece CombineExpr.
Import ListNotations.

Section Arith.
Variables (funcs : list xcrv) (x : xq).
Hypothesis Hd : doms_ok funcs.
Hypothesis Hx : notnan x.
Hypothesis Hn : funcs <> [].

Lemma in_agg : all_in funcs x -> imem (agg_dom false funcs) x.
Proof. intros H. now apply agg_inter_iff. Qed.

Lemma arith_values vs : all_in funcs x -> evals funcs x (map Some vs) ->
  c_y (add_many funcs) x = Ok (Some (fold_right xq_add (Fin 0%Qc) vs)) /\
  c_y (multiply_many funcs) x = Ok (Some (fold_right xq_mul (Fin 1%Qc) vs)) /\
  (forall v rest, vs = v :: rest -> c_y (subtract_many funcs) x = Ok (Some (xq_sub v (fold_right xq_add (Fin 0%Qc) rest)))) /\
  (forall p qs, vs = Fin p :: map Fin qs -> Forall (fun q => q <> 0%Qc) qs ->
     c_y (divide_many funcs) x = Ok (Some (Fin (p / fold_right Qcmult 1%Qc qs)%Qc))).
Proof.
  intros A E. pose proof (in_agg A) as I. split; [|split; [|split]].
  - unfold add_many. erewrite agg_y_in by eauto. apply add_f_some.
  - unfold multiply_many. erewrite agg_y_in by eauto. apply mult_f_some.
  - intros v rest ->. unfold subtract_many. erewrite agg_y_in by eauto. apply sub_f_some.
  - intros p qs -> NZ. unfold divide_many. erewrite agg_y_in by eauto. unfold div_f. cbn [map div_loop].
    rewrite List.map_map. now apply div_loop_exact.
Qed.

Lemma arith_none vs : all_in funcs x -> evals funcs x vs -> In None vs ->
  c_y (add_many funcs) x = Ok None /\ c_y (subtract_many funcs) x = Ok None /\
  c_y (multiply_many funcs) x = Ok None /\ c_y (divide_many funcs) x = Ok None.
Proof.
  intros A E N. pose proof (in_agg A) as I. split; [|split; [|split]].
  - unfold add_many. erewrite agg_y_in by eauto. now apply add_f_none.
  - unfold subtract_many. erewrite agg_y_in by eauto. now apply sub_loop_none.
  - unfold multiply_many. erewrite agg_y_in by eauto. now apply mult_loop_none.
  - unfold divide_many. erewrite agg_y_in by eauto. now apply div_f_none.
Qed.

Lemma arith_out : ~ all_in funcs x ->
  c_y (add_many funcs) x = Ok None /\ c_y (subtract_many funcs) x = Ok None /\
  c_y (multiply_many funcs) x = Ok None /\ c_y (divide_many funcs) x = Ok None.
Proof.
  intros A. assert (I : ~ imem (agg_dom false funcs) x) by now rewrite agg_inter_iff.
  split; [|split; [|split]]; now apply agg_y_out.
Qed.

Lemma arith_dom : 
  (imem (c_dom (add_many funcs)) x <-> all_in funcs x) /\ (imem (c_dom (subtract_many funcs)) x <-> all_in funcs x) /\
  (imem (c_dom (multiply_many funcs)) x <-> all_in funcs x) /\ (imem (c_dom (divide_many funcs)) x <-> all_in funcs x) /\
  (imem (c_dom (curve_min false funcs)) x <-> all_in funcs x) /\ (imem (c_dom (curve_max false funcs)) x <-> all_in funcs x).
Proof. do 5 (split; [exact (agg_inter_iff funcs x Hn Hd Hx)|]). exact (agg_inter_iff funcs x Hn Hd Hx). Qed.

Lemma hull_dom : 
  (forall c, In c [curve_min true funcs; curve_max true funcs; curve_first funcs] ->
    (forall f, In f funcs -> imem (c_dom f) x -> imem (c_dom c) x) /\
    (forall d, iok d -> (forall f z, In f funcs -> notnan z -> imem (c_dom f) z -> imem d z) ->
       imem (c_dom c) x -> imem d x)).
Proof.
  intros c [<-|[<-|[<-|[]]]]; (split; [intros f I M; now apply (agg_hull_cover funcs f)
    |intros d K S M; now apply (agg_hull_least funcs)]).
Qed.

Lemma div_total vs : all_in funcs x -> evals funcs x vs -> exists r, c_y (divide_many funcs) x = Ok r.
Proof.
  intros A E. unfold divide_many. erewrite agg_y_in by (eauto using in_agg). apply div_loop_total.
Qed.
End Arith.

Lemma add_commutes (funcs funcs' : list xcrv) x vs : Permutation funcs funcs' -> doms_ok funcs -> notnan x ->
  evals funcs x vs -> c_y (add_many funcs) x = c_y (add_many funcs') x.
Proof. intros. eapply agg_perm; eauto. intros. now apply add_f_perm. Qed.
Lemma mul_commutes (funcs funcs' : list xcrv) x vs : Permutation funcs funcs' -> doms_ok funcs -> notnan x ->
  evals funcs x vs -> c_y (multiply_many funcs) x = c_y (multiply_many funcs') x.
Proof. intros. eapply agg_perm; eauto. intros. now apply mult_f_perm. Qed.
Lemma add_associates (f g h : xcrv) x : iok (c_dom f) -> iok (c_dom g) -> iok (c_dom h) -> notnan x ->
  (forall k, In k [f; g; h] -> exists v, c_y k x = Ok v) ->
  c_y (add_many [add_many [f; g]; h]) x = c_y (add_many [f; add_many [g; h]]) x.
Proof. apply assoc2 with (op := xq_add); [apply add_f_two|apply xq_add_assoc]. Qed.
Lemma mul_associates (f g h : xcrv) x : iok (c_dom f) -> iok (c_dom g) -> iok (c_dom h) -> notnan x ->
  (forall k, In k [f; g; h] -> exists v, c_y k x = Ok v) ->
  c_y (multiply_many [multiply_many [f; g]; h]) x = c_y (multiply_many [f; multiply_many [g; h]]) x.
Proof. apply assoc2 with (op := xq_mul); [apply mult_f_two|apply xq_mul_assoc]. Qed.

(** dividing by one more curve *)
Lemma div_step (funcs : list xcrv) g x vs r y : doms_ok (funcs ++ [g]) -> funcs <> [] -> notnan x ->
  all_in (funcs ++ [g]) x -> evals funcs x vs -> c_y (divide_many funcs) x = Ok (Some r) -> c_y g x = Ok (Some y) ->
  (y = Fin 0%Qc -> le_x (Fin 0%Qc) r -> c_y (divide_many (funcs ++ [g])) x = Ok (Some PInf)) /\
  (y = Fin 0%Qc -> ~ le_x (Fin 0%Qc) r -> c_y (divide_many (funcs ++ [g])) x = Ok (Some NInf)) /\
  (y <> Fin 0%Qc -> exists q, xq_div r y = Ok q /\ c_y (divide_many (funcs ++ [g])) x = Ok (Some q)).
Proof.
  intros D N X A E R Y.
  assert (D' : doms_ok funcs) by (unfold doms_ok in *; rewrite Forall_app in D; tauto).
  assert (A' : all_in funcs x) by (unfold all_in in *; rewrite Forall_app in A; tauto).
  assert (N' : funcs ++ [g] <> []) by (destruct funcs; discriminate).
  assert (E' : evals (funcs ++ [g]) x (vs ++ [Some y])) by (apply Forall2_app; auto).
  assert (Q : div_f x vs = Ok (Some r)).
  { rewrite <- R. unfold divide_many. symmetry. apply agg_y_in; auto using in_agg. }
  replace (c_y (divide_many (funcs ++ [g])) x) with (div_f x (vs ++ [Some y]))
    by (symmetry; apply agg_y_in; auto using in_agg).
  apply div_f_snoc; auto. intros ->. inversion E; subst; auto.
Qed.

(** the union curves outside the hull *)
Lemma select_out (funcs : list xcrv) x : doms_ok funcs -> notnan x ->
  (~ imem (agg_dom true funcs) x -> c_y (curve_first funcs) x = Ok None) /\
  (forall ie, ~ imem (agg_dom ie funcs) x -> c_y (curve_min ie funcs) x = Ok None /\ c_y (curve_max ie funcs) x = Ok None).
Proof. intros D X. split; [|intros ie; split]; intros; now apply agg_y_out. Qed.

Lemma map_same_dom skip p t (c : xcrv) : c_dom (map_curve skip p t c) = c_dom c.
Proof. reflexivity. Qed.

Lemma offset_dom k (c : xcrv) x : imem (c_dom (offset_curve (Fin k) c)) (Fin x) <-> imem (c_dom c) (Fin (x - k)%Qc).
Proof. cbn [offset_curve c_dom]. rewrite offset_interval_iff, unoffset_fin. reflexivity. Qed.

Lemma offset_round k d x : iok d -> i_is_empty d = false -> exists d',
  (imem d' (Fin x) <-> imem d (Fin (x - k)%Qc)) /\
  snd (offset_begin (Fin k) upd_init d) = Some d' /\
  snd (offset_end (Fin k) (fst (offset_begin (Fin k) upd_init d)) d) = Some d' /\
  fst (offset_end (Fin k) (fst (offset_begin (Fin k) upd_init d)) d) = upd_init.
Proof.
  intros K N. exists (offset_interval (Fin k) d). split; [rewrite offset_interval_iff, unoffset_fin; reflexivity|].
  pose proof (offset_events k d K N) as H.
  destruct (offset_begin (Fin k) upd_init d) as [u1 b]. cbn [fst snd].
  destruct (offset_end (Fin k) u1 d) as [u2 e]. cbn [fst snd]. tauto.
Qed.

(** Line(points) *)
Lemma line_points x1 y1 x2 y2 : x1 <> x2 -> exists l s,
  line_init None None None None (Some (pt (x1, y1), pt (x2, y2))) = Ok l /\
  line_y l (Fin x1) = Fin y1 /\ line_y l (Fin x2) = Fin y2 /\
  line_d_y l = Fin s /\
  (forall t u, exists p q, line_y l (Fin t) = Fin p /\ line_y l (Fin u) = Fin q /\ (q - p = s * (u - t))%Qc) /\
  (s <> 0%Qc -> forall t, exists v, line_y l (Fin t) = v /\ line_x l v = Ok (Fin t)) /\
  (s = 0%Qc <-> y1 = y2).
Proof.
  intros N. assert (Z : (x2 - x1)%Qc <> 0%Qc) by (intro H; apply N; qc_lra).
  exists (mkL (Fin x1) (Fin y1) (Fin ((y2 - y1) / (x2 - x1))%Qc)), ((y2 - y1) / (x2 - x1))%Qc.
  assert (S' : (((y2 - y1) / (x2 - x1)) * (x2 - x1) = y2 - y1)%Qc) by (field; auto).
  split. { unfold line_init. destruct (line_two_points upd_init (mkL n_zero n_zero n_zero) x1 y1 x2 y2 N) as (u' & evs & E).
    rewrite E. reflexivity. }
  generalize dependent ((y2 - y1) / (x2 - x1))%Qc. intros k K.
  rewrite !line_y_fin. split; [f_equal; ring|]. split; [f_equal; rewrite K; ring|].
  split; [reflexivity|]. split.
  - intros t u. do 2 eexists. rewrite !line_y_fin. split; [reflexivity|]. split; [reflexivity|]. ring.
  - split.
    + intros NZ t. eexists. split; [reflexivity|]. rewrite line_y_fin, line_x_fin by auto. do 2 f_equal. field. auto.
    + split; intros H.
      * subst k. assert (y2 - y1 = 0)%Qc by (rewrite <- K; ring). qc_lra.
      * subst y2. assert (Q : (k * (x2 - x1))%Qc = 0%Qc) by (rewrite K; ring).
        destruct (Qcmult_integral _ _ Q); auto. contradiction.
Qed.

Lemma line_area_split (h x0 y0 s a b c : Qc) : (h + h = 1)%Qc ->
  let l := mkL (Fin x0) (Fin y0) (Fin s) in exists p q,
  line_partial_integration (Fin h) l (Fin a) (Fin b) = Fin p /\
  line_partial_integration (Fin h) l (Fin b) (Fin c) = Fin q /\
  line_partial_integration (Fin h) l (Fin a) (Fin c) = Fin (p + q)%Qc.
Proof.
  intros H l. unfold l. rewrite !line_area by auto. do 2 eexists. split; [reflexivity|]. split; [reflexivity|].
  f_equal. ring.
Qed.

(** blend in one statement *)
Lemma blend_all nr right (f g : xcrv) (a b : Qc) : iok (c_dom f) -> iok (c_dom g) -> (a < b)%Qc ->
  lt_x (i_start (c_dom f)) (Fin a) -> lt_x (Fin b) (i_end (c_dom f)) ->
  exists h, blend nr right f g (Fin a) (Fin b) = Ok h /\ forall x,
    (~ imem (c_dom f) (Fin x) -> c_y h (Fin x) = Ok None) /\
    (imem (c_dom f) (Fin x) -> (x < a)%Qc -> c_y h (Fin x) = c_y f (Fin x)) /\
    (imem (c_dom f) (Fin x) -> (b < x)%Qc -> c_y h (Fin x) = c_y g (Fin x)) /\
    (forall p q, (a <= x <= b)%Qc -> imem (c_dom g) (Fin x) ->
      c_y f (Fin x) = Ok (Some (Fin p)) -> c_y g (Fin x) = Ok (Some (Fin q)) ->
      (exists r, c_y h (Fin x) = Ok (Some (Fin r)) /\ (r * (b - a) = (b - x) * p + (x - a) * q)%Qc) /\
      (x = a -> c_y h (Fin x) = c_y f (Fin x)) /\ (x = b -> c_y h (Fin x) = c_y g (Fin x))).
Proof.
  intros Hf Hg Hab Ha Hb. eexists. split; [now apply blend_is|]. intros x.
  split; [intros; now apply blend_out|]. split; [intros; now apply blend_left|]. split; [intros; now apply blend_right|].
  intros p q [L R] G F1 G1. assert (N : (b - a)%Qc <> 0%Qc) by (apply dab; auto).
  pose proof (blend_mid nr right f g a b Hf Hg Hab Ha Hb x p q L R G F1 G1) as M.
  split; [eexists; split; [exact M|field; auto]|].
  rewrite F1, G1. split; intros ->; rewrite M; do 3 f_equal; field; auto.
Qed.

(** Line(points) of two points above each other: it misses both, and is
    infinite everywhere else. *)
Lemma vertical_line x y1 y2 : exists l,
  line_init None None None None (Some (pt (x, y1), pt (x, y2))) = Ok l /\
  ((y1 <= y2)%Qc -> l_slope l = PInf) /\ ((y2 < y1)%Qc -> l_slope l = NInf) /\
  line_y l (Fin x) = XNaN /\
  forall t, ((x < t)%Qc -> line_y l (Fin t) = l_slope l) /\ ((t < x)%Qc -> line_y l (Fin t) = xq_opp (l_slope l)).
Proof.
  set (s := if Qcleb y1 y2 then PInf else NInf).
  assert (Es : s = PInf \/ s = NInf) by (unfold s; destruct (Qcleb y1 y2); auto).
  exists (mkL (Fin x) (Fin y1) s). split; [|split; [|split; [|split]]].
  - unfold line_init, line_set, line_args, pt. cbn [fst snd]. change (n_eqb (Fin x) (Fin x)) with (Qceqb x x).
    rewrite Qceqb_refl. cbn [negb]. change (n_geb (Fin y2) (Fin y1)) with (Qcleb y1 y2).
    assert (G : snd (fst (line_put upd_init (mkL n_zero n_zero n_zero) (mkL (Fin x) (Fin y1) s))) = mkL (Fin x) (Fin y1) s).
    { unfold line_put. cbn [l_x l_y l_slope]. replace (n_eqb s n_zero) with false by (destruct Es as [-> | ->]; reflexivity).
      rewrite andb_false_r. destruct (begin_update _ _). destruct (end_update _ _). reflexivity. }
    unfold s in *. destruct (Qcleb y1 y2); cbn [rbind snd fst]; exact (f_equal Ok G).
  - intros H. cbn. unfold s. rewrite (proj2 (Qcleb_true y1 y2) H). reflexivity.
  - intros H. cbn. unfold s. rewrite (proj2 (Qcleb_false y1 y2) H). reflexivity.
  - unfold line_y. cbn [l_x l_y l_slope]. change (n_sub (Fin x) (Fin x)) with (Fin (x - x)%Qc).
    replace (x - x)%Qc with 0%Qc by ring. destruct Es as [-> | ->]; reflexivity.
  - intros t. unfold line_y. cbn [l_x l_y l_slope]. change (n_sub (Fin t) (Fin x)) with (Fin (t - x)%Qc).
    assert (Hm : forall q, ((0 < q)%Qc -> xq_mulinf q = PInf) /\ ((q < 0)%Qc -> xq_mulinf q = NInf)).
    { intros q. unfold xq_mulinf. split; intros H.
      - rewrite (proj2 (sgn_lt q) H). reflexivity.
      - rewrite (proj2 (sgn_gt q) H). reflexivity. }
    destruct (Hm (t - x)%Qc) as (P & N). split; intros H.
    + assert (H' : (0 < t - x)%Qc) by qc_lra.
      destruct Es as [-> | ->]; cbn [n_mul n_add xq_mul xq_add XQ]; rewrite (P H'); reflexivity.
    + assert (H' : (t - x < 0)%Qc) by qc_lra.
      destruct Es as [-> | ->]; cbn [n_mul n_add xq_mul xq_add XQ]; rewrite (N H'); reflexivity.
Qed.

(** -f, 1/f and abs(f). *)
Lemma unary_values (c : xcrv) x :
  (c_y c x = Ok None -> c_y (additive_inverse c) x = Ok None /\ c_y (multiplicative_inverse c) x = Ok None /\ c_y (abs_curve c) x = Ok None) /\
  (forall v, c_y c x = Ok (Some (Fin v)) ->
     c_y (additive_inverse c) x = Ok (Some (Fin (- v)%Qc)) /\
     (exists a, c_y (abs_curve c) x = Ok (Some (Fin a)) /\ (0 <= a)%Qc /\ (a = v \/ a = - v)%Qc) /\
     (v <> 0%Qc -> exists q, c_y (multiplicative_inverse c) x = Ok (Some (Fin q)) /\ (q * v = 1)%Qc) /\
     (v = 0%Qc -> c_y (multiplicative_inverse c) x = Err EZeroDiv)).
Proof.
  unfold additive_inverse, multiplicative_inverse, abs_curve, map_curve. cbn [c_y]. split.
  - intros ->. auto.
  - intros v ->. cbn [rbind additive_inverse_f multiplicative_inverse_f abs_f]. split; [reflexivity|]. split; [|split].
    + cbn [n_abs XQ]. destruct (Qcleb 0 v) eqn:E.
      * exists v. apply Qcleb_true in E. auto.
      * exists (- v)%Qc. apply Qcleb_false in E. split; [reflexivity|]. split; [qc_lra|auto].
    + intros H. exists (1 / v)%Qc. cbn [n_div XQ xq_div n_one n_ofZ]. rewrite (proj2 (Qceqb_false v 0) H). split; [reflexivity|].
      field. exact H.
    + intros ->. reflexivity.
Qed.
