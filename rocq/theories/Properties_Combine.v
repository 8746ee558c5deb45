(** Properties C25-C35: arithmetic, selection, map, offset, line, piecewise,
    blend and subset. *)
From Coq Require Import List ZArith QArith Qcanon Bool Sorting.Sorted Permutation.
From Verif Require Import Base Num NumFacts Interval IntervalFacts Curve BaseFacts.
From Verif Require Import Points PointsSpec PointsOps PointsDec PointsHist PointsRefute PointsTop PointsEx BaseTop BaseOpt BaseEx.
From Verif Require Import Combine CombineFacts CombineTop CombineLine CombinePiece CombineExpr CombineAll CombineEx.
Import ListNotations.

(** ** C25 curve arithmetic is pointwise *)
Theorem C25_expressions : forall e x v, well_formed e -> means e x v -> c_y (build e) (Fin x) = Ok v.
Proof. exact build_means. Qed.
Print Assumptions C25_expressions.
Theorem C25_values : forall (funcs : list xcrv) x vs, doms_ok funcs -> notnan x -> funcs <> [] ->
  all_in funcs x -> evals funcs x (map Some vs) ->
  c_y (add_many funcs) x = Ok (Some (fold_right xq_add (Fin 0%Qc) vs)) /\
  c_y (multiply_many funcs) x = Ok (Some (fold_right xq_mul (Fin 1%Qc) vs)) /\
  (forall v rest, vs = v :: rest -> c_y (subtract_many funcs) x = Ok (Some (xq_sub v (fold_right xq_add (Fin 0%Qc) rest)))) /\
  (forall p qs, vs = Fin p :: map Fin qs -> Forall (fun q => q <> 0%Qc) qs ->
     c_y (divide_many funcs) x = Ok (Some (Fin (p / fold_right Qcmult 1%Qc qs)%Qc))).
Proof. exact (fun funcs x vs D X N => arith_values funcs x D X N vs). Qed.
Print Assumptions C25_values.
Theorem C25_none : forall (funcs : list xcrv) x vs, doms_ok funcs -> notnan x -> funcs <> [] ->
  all_in funcs x -> evals funcs x vs -> In None vs ->
  c_y (add_many funcs) x = Ok None /\ c_y (subtract_many funcs) x = Ok None /\
  c_y (multiply_many funcs) x = Ok None /\ c_y (divide_many funcs) x = Ok None.
Proof. exact (fun funcs x vs D X N => arith_none funcs x D X N vs). Qed.
Print Assumptions C25_none.
Theorem C25_outside : forall (funcs : list xcrv) x, doms_ok funcs -> notnan x -> funcs <> [] -> ~ all_in funcs x ->
  c_y (add_many funcs) x = Ok None /\ c_y (subtract_many funcs) x = Ok None /\
  c_y (multiply_many funcs) x = Ok None /\ c_y (divide_many funcs) x = Ok None.
Proof. exact (fun funcs x D X N => arith_out funcs x D X N). Qed.
Print Assumptions C25_outside.
Theorem C25_commutative : forall (funcs funcs' : list xcrv) x vs, Permutation funcs funcs' -> doms_ok funcs -> notnan x ->
  evals funcs x vs -> c_y (add_many funcs) x = c_y (add_many funcs') x /\
  c_y (multiply_many funcs) x = c_y (multiply_many funcs') x.
Proof. exact (fun f f' x vs P D X E => conj (add_commutes f f' x vs P D X E) (mul_commutes f f' x vs P D X E)). Qed.
Print Assumptions C25_commutative.
Theorem C25_associative : forall (f g h : xcrv) x, iok (c_dom f) -> iok (c_dom g) -> iok (c_dom h) -> notnan x ->
  (forall k, In k [f; g; h] -> exists v, c_y k x = Ok v) ->
  c_y (add_many [add_many [f; g]; h]) x = c_y (add_many [f; add_many [g; h]]) x /\
  c_y (multiply_many [multiply_many [f; g]; h]) x = c_y (multiply_many [f; multiply_many [g; h]]) x.
Proof. exact (fun f g h x F G H X V => conj (add_associates f g h x F G H X V) (mul_associates f g h x F G H X V)). Qed.
Print Assumptions C25_associative.
(** on doubles the grouping matters: constants 0.1, 0.2 and 0.3 *)
Theorem C25_double_associativity_refuted : exists a b c : b64,
  c_y (add_many [add_many [constant_curve a None; constant_curve b None]; constant_curve c None]) (b64_ofZ 0) <>
  c_y (add_many [constant_curve a None; add_many [constant_curve b None; constant_curve c None]]) (b64_ofZ 0).
Proof. exact assoc_b64. Qed.
Print Assumptions C25_double_associativity_refuted.
(** 1 / f raises where f is zero, unlike f / g *)
Theorem C25_inverse_of_zero : forall (c : xcrv) x, c_y c x = Ok (Some (Fin 0%Qc)) ->
  c_y (multiplicative_inverse c) x = Err EZeroDiv.
Proof. exact inv_raises. Qed.
Print Assumptions C25_inverse_of_zero.
Example C25_ex : doms_ok [cpts; g19; num 10] /\ all_in [cpts; g19; num 10] (fr 5 2) /\
  evals [cpts; g19; num 10] (fr 5 2) (map Some [fr 11 2; fr 5 2; fz 10]) /\
  c_y (add_many [cpts; g19; num 10]) (fr 5 2) = Ok (Some (fz 18)) /\
  c_y (subtract_many [cpts; g19; num 10]) (fr 5 2) = Ok (Some (fz (-7))) /\
  c_y (multiply_many [cpts; g19; num 10]) (fr 5 2) = Ok (Some (fr 275 2)) /\
  c_y (divide_many [cpts; g19; num 10]) (fr 5 2) = Ok (Some (fr 11 50)) /\
  ~ all_in [cpts; g19; num 10] (fz 4) /\ c_y (add_many [cpts; g19; num 10]) (fz 4) = Ok None.
Proof.
  split; [exact ex_doms|]. split; [exact ex_in|]. split; [exact ex_vals|].
  split; [val|]. split; [val|]. split; [val|]. split; [val|]. split; [|val].
  intro H. inversion H as [|? ? K]. destruct K as [_ K]. vm_compute in K. discriminate.
Qed.
Example C25_none_ex : all_in [cpts; generic_curve (fun _ => Ok None) None None] (fz 1) /\
  evals [cpts; generic_curve (fun _ => Ok None) None None] (fz 1) [nv 1; None].
Proof. split; [repeat apply Forall_cons; try apply Forall_nil; vm_compute; auto|]. repeat apply Forall2_cons; try apply Forall2_nil; val. Qed.
(** (points + 2 * identity) / (1 - points), shifted by 1 and restricted to [1, 4] *)
Definition C25_expr : expr :=
  ECut (iv (fz 1) (fz 4) false false) (EShift (QcofZ 1)
    (EBin BDiv (EBin BAdd (ELeaf cpts) (EBin BMul (ENum (fz 2)) (ELeaf g19))) (EBin BSub (ENum (fz 1)) (ELeaf cpts)))).
Example C25_expr_ex : well_formed C25_expr /\ in_dom C25_expr (QcofZ 3) /\
  c_y (build C25_expr) (fz 3) = Ok (Some (fz (-6))) /\ c_y (build C25_expr) (fz 2) = Ok (Some PInf) /\ c_y (build C25_expr) (fz 1) = Ok None.
Proof.
  split; [repeat split; vm_compute; discriminate|]. split; [split; vm_compute; reflexivity|].
  repeat (split; [val|]); val.
Qed.

(** ** C26 the domain of an aggregate *)
Theorem C26_intersection : forall (funcs : list xcrv) x, doms_ok funcs -> notnan x -> funcs <> [] ->
  (imem (c_dom (add_many funcs)) x <-> all_in funcs x) /\ (imem (c_dom (subtract_many funcs)) x <-> all_in funcs x) /\
  (imem (c_dom (multiply_many funcs)) x <-> all_in funcs x) /\ (imem (c_dom (divide_many funcs)) x <-> all_in funcs x) /\
  (imem (c_dom (curve_min false funcs)) x <-> all_in funcs x) /\ (imem (c_dom (curve_max false funcs)) x <-> all_in funcs x).
Proof. exact (fun funcs x D X N => arith_dom funcs x D X N). Qed.
Print Assumptions C26_intersection.
Theorem C26_hull : forall (funcs : list xcrv) x, doms_ok funcs -> notnan x ->
  forall c, In c [curve_min true funcs; curve_max true funcs; curve_first funcs] ->
    (forall f, In f funcs -> imem (c_dom f) x -> imem (c_dom c) x) /\
    (forall d, iok d -> (forall f z, In f funcs -> notnan z -> imem (c_dom f) z -> imem d z) ->
       imem (c_dom c) x -> imem d x).
Proof. exact hull_dom. Qed.
Print Assumptions C26_hull.
Example C26_ex : doms_ok [cpts; g19] /\ c_dom (add_many [cpts; g19]) = iv (fz 1) (fz 3) false false /\
  c_dom (curve_first [cpts; g19]) = iv (fz 0) (fz 9) false true.
Proof.
  split; [repeat apply Forall_cons; try apply Forall_nil; split; vm_compute; discriminate|]. split; vm_compute; reflexivity.
Qed.

(** ** C27 aggregate stepping *)
Theorem C27_x_next : forall V W u (d : W) t (funcs : list (crv xq V)) x ms lim xs, notnan x -> Forall nn_opt xs ->
  Forall2 (fun f r => c_next f x ms lim = Ok r) funcs xs ->
  exists r, c_next (aggregate u d t funcs) x ms lim = Ok r /\ least_of (fun z => lt_x x z) xs r.
Proof. exact (fun V W => @agg_next V W). Qed.
Print Assumptions C27_x_next.
Theorem C27_x_previous : forall V W u (d : W) t (funcs : list (crv xq V)) x ms lim xs, notnan x -> Forall nn_opt xs ->
  Forall2 (fun f r => c_prev f x ms lim = Ok r) funcs xs ->
  exists r, c_prev (aggregate u d t funcs) x ms lim = Ok r /\ greatest_of (fun z => lt_x z x) xs r.
Proof. exact (fun V W => @agg_prev V W). Qed.
Print Assumptions C27_x_previous.
Example C27_ex :
  Forall2 (fun f r => c_next f (fr 3 2) (Some MIN_STEP) None = Ok r) [cpts; gid (iv (fz 0) (fz 5) false false) (Some (fr 1 4))] [nv 2; Some (fr 7 4)] /\
  c_next (add_many [cpts; gid (iv (fz 0) (fz 5) false false) (Some (fr 1 4))]) (fr 3 2) (Some MIN_STEP) None = Ok (Some (fr 7 4)) /\
  c_prev (add_many [cpts; gid (iv (fz 0) (fz 5) false false) (Some (fr 1 4))]) (fr 3 2) (Some (fz 1)) None = Ok (Some (fr 1 2)).
Proof. split; [repeat apply Forall2_cons; try apply Forall2_nil; val|]. split; val. Qed.

(** ** C28 division by zero *)
Theorem C28_total : forall (funcs : list xcrv) x vs, doms_ok funcs -> notnan x -> funcs <> [] ->
  all_in funcs x -> evals funcs x vs -> exists r, c_y (divide_many funcs) x = Ok r.
Proof. exact (fun funcs x vs D X N => div_total funcs x D X N vs). Qed.
Print Assumptions C28_total.
Theorem C28_next_divisor : forall (funcs : list xcrv) g x vs r y, doms_ok (funcs ++ [g]) -> funcs <> [] -> notnan x ->
  all_in (funcs ++ [g]) x -> evals funcs x vs -> c_y (divide_many funcs) x = Ok (Some r) -> c_y g x = Ok (Some y) ->
  (y = Fin 0%Qc -> le_x (Fin 0%Qc) r -> c_y (divide_many (funcs ++ [g])) x = Ok (Some PInf)) /\
  (y = Fin 0%Qc -> ~ le_x (Fin 0%Qc) r -> c_y (divide_many (funcs ++ [g])) x = Ok (Some NInf)) /\
  (y <> Fin 0%Qc -> exists q, xq_div r y = Ok q /\ c_y (divide_many (funcs ++ [g])) x = Ok (Some q)).
Proof. exact div_step. Qed.
Print Assumptions C28_next_divisor.
Example C28_ex : c_y (divide_many [num 3; cpts]) (fz 0) = Ok (Some PInf) /\
  c_y (divide_many [num (-3); cpts]) (fz 0) = Ok (Some NInf) /\ c_y (divide_many [num (-3); cpts]) (fz 2) = Ok (Some (fr (-3) 2)).
Proof. split; [val|]. split; val. Qed.

(** ** C29 min, max and first *)
Theorem C29_min : forall ie funcs x vs, doms_ok funcs -> notnan x -> imem (agg_dom ie funcs) x ->
  evals funcs x vs -> Forall nn_opt vs ->
  exists r, c_y (curve_min ie funcs) x = Ok r /\ least_of anything vs r.
Proof. exact curve_min_spec. Qed.
Print Assumptions C29_min.
Theorem C29_max : forall ie funcs x vs, doms_ok funcs -> notnan x -> imem (agg_dom ie funcs) x ->
  evals funcs x vs -> Forall nn_opt vs ->
  exists r, c_y (curve_max ie funcs) x = Ok r /\ greatest_of anything vs r.
Proof. exact curve_max_spec. Qed.
Print Assumptions C29_max.
Theorem C29_first : forall funcs x vs, doms_ok funcs -> notnan x -> imem (agg_dom true funcs) x -> evals funcs x vs ->
  exists r, c_y (curve_first funcs) x = Ok r /\
    match r with
    | None => Forall (fun v => v = None) vs
    | Some v => exists pre post, vs = pre ++ Some v :: post /\ Forall (fun w => w = None) pre
    end.
Proof. exact curve_first_spec. Qed.
Print Assumptions C29_first.
Theorem C29_outside : forall (funcs : list xcrv) x, doms_ok funcs -> notnan x ->
  (~ imem (agg_dom true funcs) x -> c_y (curve_first funcs) x = Ok None) /\
  (forall ie, ~ imem (agg_dom ie funcs) x -> c_y (curve_min ie funcs) x = Ok None /\ c_y (curve_max ie funcs) x = Ok None).
Proof. exact select_out. Qed.
Print Assumptions C29_outside.
Example C29_ex : evals [cpts; g19; num 5] (fz 4) [None; nv 4; nv 5] /\
  c_y (curve_min true [cpts; g19; num 5]) (fz 4) = Ok (nv 4) /\ c_y (curve_max true [cpts; g19; num 5]) (fz 4) = Ok (nv 5) /\
  c_y (curve_first [cpts; g19; num 5]) (fz 4) = Ok (nv 4) /\ c_y (curve_min false [cpts; g19; num 5]) (fz 3) = Ok (nv 3).
Proof. split; [repeat apply Forall2_cons; try apply Forall2_nil; val|]. split; [val|]. split; [val|]. split; val. Qed.

(** ** C30 map *)
Theorem C30_values : forall skip p t (c : xcrv) x,
  (forall v, c_y c x = Ok (Some v) -> c_y (map_curve skip p t c) x = t x (Some v)) /\
  (c_y c x = Ok None -> c_y (map_curve skip p t c) x = if skip : bool then Ok None else t x None) /\
  (forall e, c_y c x = Err e -> c_y (map_curve skip p t c) x = Err e).
Proof. exact map_y. Qed.
Print Assumptions C30_values.
Theorem C30_domain : forall skip p t (c : xcrv), c_dom (map_curve skip p t c) = c_dom c.
Proof. exact map_same_dom. Qed.
Print Assumptions C30_domain.
(** steps as the source does, for steps of at least the map's own minimum *)
Theorem C30_steps_partial : forall skip p t (c : xcrv) x m lim, honours_step c ->
  (forall v, c_ms c = Some v -> notnan v) -> notnan m -> notnan p -> le_x (Fin 0%Qc) p -> le_x p m ->
  c_next (map_curve skip p t c) x (Some m) lim = c_next c x (Some m) lim /\
  c_prev (map_curve skip p t c) x (Some m) lim = c_prev c x (Some m) lim.
Proof. exact map_steps. Qed.
Print Assumptions C30_steps_partial.
(** smaller steps are coarsened *)
Theorem C30_small_steps_refuted : exists (c : xcrv) (m : xq), honours_step c /\ lt_x (fz 0) m /\
  c_next c (fz 0) (Some m) None = Ok (Some m) /\
  c_next (additive_inverse c) (fz 0) (Some m) None <> Ok (Some m).
Proof. exact map_step_floor. Qed.
Print Assumptions C30_small_steps_refuted.
Theorem C30_composition : forall p t1 t2 (c : xcrv), (forall v, c_ms c = Some v -> notnan v) -> notnan p -> le_x (Fin 0%Qc) p ->
  let a := map_curve false p t2 (map_curve false p t1 c) in
  let b := map_curve false p (chain_f t1 t2) c in
  c_dom a = c_dom b /\ c_ms a = c_ms b /\
  forall x, c_y a x = c_y b x /\
    forall ms lim, c_next a x ms lim = c_next b x ms lim /\ c_prev a x ms lim = c_prev b x ms lim.
Proof. exact map_map. Qed.
Print Assumptions C30_composition.
Theorem C30_unary : forall (c : xcrv) x,
  (c_y c x = Ok None -> c_y (additive_inverse c) x = Ok None /\ c_y (multiplicative_inverse c) x = Ok None /\ c_y (abs_curve c) x = Ok None) /\
  (forall v, c_y c x = Ok (Some (Fin v)) ->
     c_y (additive_inverse c) x = Ok (Some (Fin (- v)%Qc)) /\
     (exists a, c_y (abs_curve c) x = Ok (Some (Fin a)) /\ (0 <= a)%Qc /\ (a = v \/ a = - v)%Qc) /\
     (v <> 0%Qc -> exists q, c_y (multiplicative_inverse c) x = Ok (Some (Fin q)) /\ (q * v = 1)%Qc) /\
     (v = 0%Qc -> c_y (multiplicative_inverse c) x = Err EZeroDiv)).
Proof. exact unary_values. Qed.
Print Assumptions C30_unary.
Example C30_ex : honours_step ident_crv /\ le_x MIN_STEP (fz 2) /\
  c_next (additive_inverse ident_crv) (fz 1) (Some (fz 2)) None = Ok (nv 3) /\
  c_y (additive_inverse cpts) (fr 5 2) = Ok (Some (fr (-11) 2)) /\ c_y (additive_inverse cpts) (fz 7) = Ok None /\
  c_y (abs_curve (additive_inverse cpts)) (fr 5 2) = Ok (Some (fr 11 2)).
Proof.
  split; [intros x a lim; destruct a; split; reflexivity|]. split; [vm_compute; reflexivity|].
  split; [val|]. split; [val|]. split; val.
Qed.

(** ** C31 offset *)
Theorem C31_domain : forall k (c : xcrv) x,
  imem (c_dom (offset_curve (Fin k) c)) (Fin x) <-> imem (c_dom c) (Fin (x - k)%Qc).
Proof. exact offset_dom. Qed.
Print Assumptions C31_domain.
Theorem C31_values : forall k (c : xcrv) x, iok (c_dom c) ->
  (imem (c_dom c) (Fin (x - k)%Qc) -> c_y (offset_curve (Fin k) c) (Fin x) = c_y c (Fin (x - k)%Qc)) /\
  (~ imem (c_dom c) (Fin (x - k)%Qc) -> c_y (offset_curve (Fin k) c) (Fin x) = Ok None).
Proof. exact offset_y. Qed.
Print Assumptions C31_values.
(** stepping without a limit *)
Theorem C31_steps_partial : forall k (c : xcrv) x ms t, iok (c_dom c) ->
  (c_next c (Fin (x - k)%Qc) ms None = Ok (Some (Fin t)) -> imem (c_dom c) (Fin t) ->
     c_next (offset_curve (Fin k) c) (Fin x) ms None = Ok (Some (Fin (t + k)%Qc))) /\
  (c_next c (Fin (x - k)%Qc) ms None = Ok None -> c_next (offset_curve (Fin k) c) (Fin x) ms None = Ok None) /\
  (c_prev c (Fin (x - k)%Qc) ms None = Ok (Some (Fin t)) -> imem (c_dom c) (Fin t) ->
     c_prev (offset_curve (Fin k) c) (Fin x) ms None = Ok (Some (Fin (t + k)%Qc))) /\
  (c_prev c (Fin (x - k)%Qc) ms None = Ok None -> c_prev (offset_curve (Fin k) c) (Fin x) ms None = Ok None).
Proof. exact offset_next. Qed.
Print Assumptions C31_steps_partial.
(** a limit reaches the source unshifted and is overstepped *)
Theorem C31_limit_refuted : exists (c : xcrv) k x m l t, iok (c_dom c) /\
  c_next c (Fin (x - k)%Qc) (Some m) (Some (Fin (l - k)%Qc)) = Ok (Some (Fin (l - k)%Qc)) /\
  imem (c_dom c) (Fin (l - k)%Qc) /\
  c_next (offset_curve (Fin k) c) (Fin x) (Some m) (Some (Fin l)) = Ok (Some (Fin t)) /\ (l < t)%Qc.
Proof. exact offset_limit. Qed.
Print Assumptions C31_limit_refuted.
(** and sampling a curve moved to the left skips its interior points *)
Theorem C31_sampling_refuted : exists (c : xcrv) k m, iok (c_dom c) /\
  sample_points 100 c None (Some m) None = Ok [(fz 100, nv 100); (fz 101, nv 101); (fz 102, nv 102); (fz 103, nv 103)] /\
  sample_points 100 (offset_curve (Fin k) c) None (Some m) None = Ok [(fz 0, nv 100); (fz 3, nv 103)].
Proof. exact offset_sample. Qed.
Print Assumptions C31_sampling_refuted.
Theorem C31_composition : forall a b (c : xcrv), iok (c_dom c) ->
  (forall x ms lim t, c_next c x ms lim = Ok (Some t) \/ c_prev c x ms lim = Ok (Some t) -> notnan t) ->
  let p := offset_curve (Fin b) (offset_curve (Fin a) c) in
  let q := offset_curve (Fin (a + b)%Qc) c in
  c_dom p = c_dom q /\
  forall x, notnan x -> c_y p x = c_y q x /\
    forall ms lim, c_next p x ms lim = c_next q x ms lim /\ c_prev p x ms lim = c_prev q x ms lim.
Proof. exact offset_offset. Qed.
Print Assumptions C31_composition.
Theorem C31_updates : forall k d x, iok d -> i_is_empty d = false -> exists d',
  (imem d' (Fin x) <-> imem d (Fin (x - k)%Qc)) /\
  snd (offset_begin (Fin k) upd_init d) = Some d' /\
  snd (offset_end (Fin k) (fst (offset_begin (Fin k) upd_init d)) d) = Some d' /\
  fst (offset_end (Fin k) (fst (offset_begin (Fin k) upd_init d)) d) = upd_init.
Proof. exact offset_round. Qed.
Print Assumptions C31_updates.
Example C31_ex : iok (c_dom cpts) /\ c_y (offset_curve (fz 10) cpts) (fr 25 2) = Ok (Some (fr 11 2)) /\
  c_y (offset_curve (fz 10) cpts) (fz 3) = Ok None /\
  c_next (offset_curve (fz 10) cpts) (fr 23 2) (Some MIN_STEP) None = Ok (nv 12) /\
  c_prev (offset_curve (fz 10) cpts) (fr 23 2) (Some MIN_STEP) None = Ok (nv 11).
Proof. split; [split; vm_compute; discriminate|]. split; [val|]. split; [val|]. split; val. Qed.

(** ** C32 Line *)
Theorem C32_points : forall x1 y1 x2 y2, x1 <> x2 -> exists l s,
  line_init None None None None (Some (pt (x1, y1), pt (x2, y2))) = Ok l /\
  line_y l (Fin x1) = Fin y1 /\ line_y l (Fin x2) = Fin y2 /\
  line_d_y l = Fin s /\
  (forall t u, exists p q, line_y l (Fin t) = Fin p /\ line_y l (Fin u) = Fin q /\ (q - p = s * (u - t))%Qc) /\
  (s <> 0%Qc -> forall t, exists v, line_y l (Fin t) = v /\ line_x l v = Ok (Fin t)) /\
  (s = 0%Qc <-> y1 = y2).
Proof. exact line_points. Qed.
Print Assumptions C32_points.
Theorem C32_area : forall h x0 y0 s a b : Qc, (h + h = 1)%Qc ->
  let l := mkL (Fin x0) (Fin y0) (Fin s) in
  line_partial_integration (Fin h) l (Fin a) (Fin b) =
  Fin ((b - a) * h * ((y0 + s * (a - x0)) + (y0 + s * (b - x0))))%Qc.
Proof. exact line_area. Qed.
Print Assumptions C32_area.
Theorem C32_area_additive : forall h x0 y0 s a b c : Qc, (h + h = 1)%Qc ->
  let l := mkL (Fin x0) (Fin y0) (Fin s) in exists p q,
  line_partial_integration (Fin h) l (Fin a) (Fin b) = Fin p /\
  line_partial_integration (Fin h) l (Fin b) (Fin c) = Fin q /\
  line_partial_integration (Fin h) l (Fin a) (Fin c) = Fin (p + q)%Qc.
Proof. exact line_area_split. Qed.
Print Assumptions C32_area_additive.
(** set() notifies iff the stored reference point or slope changed *)
Theorem C32_notifies : forall u (old new : xline), idle u ->
  (same_line new old = true -> line_put u old new = (u, old, [])) /\
  (same_line new old = false -> line_put u old new = (mkU i_empty i_empty None, new, [EvBegin i_infinite; EvEnd i_infinite])).
Proof. exact line_put_spec. Qed.
Print Assumptions C32_notifies.
(** but not iff the graph changed *)
Theorem C32_same_graph_refuted : exists u (old new : line xq) evs u', idle u /\
  (forall x, line_y old (Fin x) = line_y new (Fin x)) /\
  line_set u old None (Some (fz 1)) (Some (fz 1, fz 1)) None None = Ok (u', new, evs) /\ evs <> [].
Proof. exact same_graph. Qed.
Print Assumptions C32_same_graph_refuted.
(** two points above each other give a line that misses both *)
Theorem C32_vertical_refuted :
  line_init None None None None (Some ((fz 1, fz 0), (fz 1, fz 5))) = Ok (mkL (fz 1) (fz 0) PInf) /\
  line_y (mkL (fz 1) (fz 0) PInf) (fz 1) = XNaN.
Proof. exact vertical. Qed.
Print Assumptions C32_vertical_refuted.
Theorem C32_vertical : forall x y1 y2, exists l,
  line_init None None None None (Some (pt (x, y1), pt (x, y2))) = Ok l /\
  ((y1 <= y2)%Qc -> l_slope l = PInf) /\ ((y2 < y1)%Qc -> l_slope l = NInf) /\
  line_y l (Fin x) = XNaN /\
  forall t, ((x < t)%Qc -> line_y l (Fin t) = l_slope l) /\ ((t < x)%Qc -> line_y l (Fin t) = xq_opp (l_slope l)).
Proof. exact vertical_line. Qed.
Print Assumptions C32_vertical.
Theorem C32_constant_notifies : forall d u old new, idle u -> iok d -> i_is_empty d = false ->
  (xq_eqb new old = true -> constant_set d u old new = (u, old, [])) /\
  (xq_eqb new old = false -> constant_set d u old new = (mkU i_empty i_empty None, new, [EvBegin d; EvEnd d])).
Proof. exact constant_set_spec. Qed.
Print Assumptions C32_constant_notifies.
Example C32_ex : QcofZ 1 <> QcofZ 3 /\ (Q2Qc (1 # 2) + Q2Qc (1 # 2) = 1)%Qc /\
  is_v (match line_init None None None None (Some (pt (QcofZ 1, QcofZ 2), pt (QcofZ 3, QcofZ 8))) with
        | Ok l => Ok (Some (line_y l (fz 5))) | Err e => Err e end) (nv 14) = true.
Proof.
  split; [intro H; apply (f_equal (fun q => Qceqb q (QcofZ 1))) in H; vm_compute in H; discriminate|].
  split; [apply Qc_is_canon; reflexivity|vm_compute; reflexivity].
Qed.

(** ** C33 piecewise *)
Theorem C33_owner : forall (ps : pieces) f d x, ascending (map snd ps) -> Forall iok (map snd ps) -> notnan x ->
  In (f, d) ps -> imem d x -> piecewise_y ps x = c_y f x.
Proof. exact piecewise_y_in. Qed.
Print Assumptions C33_owner.
Theorem C33_owner_unique : forall ps : pieces, ascending (map snd ps) -> forall x i j f d g e, notnan x ->
  nth_error ps i = Some (f, d) -> nth_error ps j = Some (g, e) -> imem d x -> imem e x -> i = j.
Proof. exact piecewise_unique. Qed.
Print Assumptions C33_owner_unique.
Theorem C33_no_owner : forall (ps : pieces) x, Forall iok (map snd ps) -> notnan x ->
  (forall f d, In (f, d) ps -> ~ imem d x) -> piecewise_y ps x = Ok None.
Proof. exact piecewise_y_out. Qed.
Print Assumptions C33_no_owner.
(** x_next and x_previous never report a point of a piece: only the outer ends *)
Theorem C33_next_only_end : forall nr (ps : pieces) x ms lim t, piecewise_next nr ps x ms lim = Ok (Some t) ->
  exists f d, last_opt ps = Some (f, d) /\ t = i_end d /\ i_contains d x = true.
Proof. exact piecewise_next_only. Qed.
Print Assumptions C33_next_only_end.
Theorem C33_previous_only_start : forall nr (ps : pieces) x ms lim t, piecewise_prev nr ps x ms lim = Ok (Some t) ->
  exists f d, head_opt ps = Some (f, d) /\ t = i_start d /\ i_contains d x = true.
Proof. exact piecewise_prev_only. Qed.
Print Assumptions C33_previous_only_start.
Theorem C33_steps_refuted : forall nr, c_next cpts (fz 2) (Some MIN_STEP) None = Ok (Some (fz 3)) /\
  c_prev cpts (fz 3) (Some MIN_STEP) None = Ok (Some (fz 2)) /\
  piecewise_next nr pw (fr 5 2) (Some MIN_STEP) None <> Ok (Some (fz 3)) /\
  piecewise_prev nr pw (fr 5 2) (Some MIN_STEP) None <> Ok (Some (fz 2)).
Proof. exact pw_next. Qed.
Print Assumptions C33_steps_refuted.
Example C33_ex : ascending (map snd pw) /\ Forall iok (map snd pw) /\
  piecewise_y pw (fr 3 2) = Ok (nv 2) /\ piecewise_y pw (fr 5 2) = Ok (Some (fr 11 2)) /\ piecewise_y pw (fz 0) = Ok None.
Proof. split; [exact pw_asc|]. split; [exact pw_ok|]. split; [val|]. split; val. Qed.

(** ** C34 blend *)
Theorem C34_blend : forall nr right (f g : xcrv) (a b : Qc), iok (c_dom f) -> iok (c_dom g) -> (a < b)%Qc ->
  lt_x (i_start (c_dom f)) (Fin a) -> lt_x (Fin b) (i_end (c_dom f)) ->
  exists h, blend nr right f g (Fin a) (Fin b) = Ok h /\ forall x,
    (~ imem (c_dom f) (Fin x) -> c_y h (Fin x) = Ok None) /\
    (imem (c_dom f) (Fin x) -> (x < a)%Qc -> c_y h (Fin x) = c_y f (Fin x)) /\
    (imem (c_dom f) (Fin x) -> (b < x)%Qc -> c_y h (Fin x) = c_y g (Fin x)) /\
    (forall p q, (a <= x <= b)%Qc -> imem (c_dom g) (Fin x) ->
      c_y f (Fin x) = Ok (Some (Fin p)) -> c_y g (Fin x) = Ok (Some (Fin q)) ->
      (exists r, c_y h (Fin x) = Ok (Some (Fin r)) /\ (r * (b - a) = (b - x) * p + (x - a) * q)%Qc) /\
      (x = a -> c_y h (Fin x) = c_y f (Fin x)) /\ (x = b -> c_y h (Fin x) = c_y g (Fin x))).
Proof. exact blend_all. Qed.
Print Assumptions C34_blend.
(** g is lost where f ends *)
Theorem C34_beyond_refuted : forall nr right, exists (f g : xcrv) a b x y, iok (c_dom f) /\ iok (c_dom g) /\ (a < b)%Qc /\
  lt_x (i_start (c_dom f)) (Fin a) /\ lt_x (Fin b) (i_end (c_dom f)) /\ (b < x)%Qc /\
  imem (c_dom g) (Fin x) /\ c_y g (Fin x) = Ok (Some y) /\
  exists h, blend nr right f g (Fin a) (Fin b) = Ok h /\ c_y h (Fin x) = Ok None.
Proof. exact blend_beyond. Qed.
Print Assumptions C34_beyond_refuted.
Example C34_ex : lt_x (i_start (c_dom cpts)) (fz 1) /\ lt_x (fz 2) (i_end (c_dom cpts)) /\
  is_v (match blend false false cpts (num 7) (fz 1) (fz 2) with Ok h => c_y h (fr 5 4) | Err e => Err e end) (Some (fr 43 16)) = true.
Proof. split; [vm_compute; reflexivity|]. split; vm_compute; reflexivity. Qed.

(** ** C35 subset *)
Theorem C35_values : forall d (c : xcrv) x, iok d -> notnan x ->
  (imem d x -> c_y (subset d c) x = c_y c x) /\ (~ imem d x -> c_y (subset d c) x = Ok None).
Proof. exact subset_y. Qed.
Print Assumptions C35_values.
(** the source outside d is irrelevant: it may raise or be anything *)
Theorem C35_local : forall d (c c' : xcrv) x, iok d -> notnan x -> (forall z, notnan z -> imem d z -> c_y c z = c_y c' z) ->
  c_y (subset d c) x = c_y (subset d c') x.
Proof. exact subset_local. Qed.
Print Assumptions C35_local.
(** after any update of the subset curve itself evaluation raises *)
Theorem C35_after_update_refuted : forall f dom (d : ival xq) x, iok d -> i_is_empty d = false ->
  generic_y f (generic_init dom) x = c_y (generic_curve f dom None) (x : xq) /\
  generic_y f (fst (end_update (fst (begin_update (generic_init dom) d)) d)) x = Err EAttr.
Proof. exact (fun f dom d x K N => conj (generic_init_y f dom x) (generic_lost f dom d x K N)). Qed.
Print Assumptions C35_after_update_refuted.
Example C35_ex : iok (iv (fz 1) (fz 2) true false) /\ c_y (subset (iv (fz 1) (fz 2) true false) cpts) (fz 2) = Ok (nv 2) /\
  c_y (subset (iv (fz 1) (fz 2) true false) cpts) (fz 1) = Ok None /\
  c_y (subset (iv (fz 1) (fz 2) true false) (multiplicative_inverse cpts)) (fz 0) = Ok None /\
  c_y (multiplicative_inverse cpts) (fz 0) = Err EZeroDiv.
Proof. split; [split; discriminate|]. split; [val|]. split; [val|]. split; [val|]. vm_compute; reflexivity. Qed.
