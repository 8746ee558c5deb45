(** C41: extensions (extension/extension.py, constant.py, tangent.py).

    [le] and [ge] stand for the comparisons of the external class Interval, of
    which nothing is assumed.  [lives K le ge good alike st en s e]: the
    extension e was made on some state of its source with effective sides st
    and en; then came queries of y and of the domain, and source updates that
    begin and end, in any order; its source is now s.  An update that the
    extension does not recognise must leave the source's edges as they were. *)
From Coq Require Import List ZArith QArith Qcanon Bool Lia.
From Verif Require Import Base Num NumFacts Interval IntervalFacts Curve Points PointsSpec PointsQuery PointsOps PointsDec PointsHist PointsRefute PointsTop PointsEx.
From Verif Require Import BaseEx Combine CombineEx ScanTf Extension ExtensionFacts ExtensionTop ExtensionPts ExtensionEx.
Import ListNotations.
Open Scope bool_scope.

(** ** Values *)
Theorem C41_constant : forall le ge st en s e q,
  lives constant_ext le ge const_good const_alike st en s e -> iok (dom s) ->
  snd (ext_y constant_ext s e (Fin q)) =
    if i_contains (dom s) (Fin q) then c_y (s_c s) (Fin q)
    else if i_is_empty (dom s) then Ok None
    else if xq_leb (Fin q) (i_start (dom s)) then (if st then c_y (s_c s) (i_start (dom s)) else Ok None)
    else (if en then c_y (s_c s) (i_end (dom s)) else Ok None).
Proof. exact const_value. Qed.
Print Assumptions C41_constant.
Example C41_constant_ex : lives constant_ext yes yes const_good const_alike true true S1 ec3 /\
  snd (ext_y constant_ext S1 ec3 (fz 10)) = Ok (nv 9) /\ snd (ext_y constant_ext S1 ec3 (fr (-1) 2)) = Ok (nv 0) /\
  snd (ext_y constant_ext S1 ec3 (fr 5 2)) = Ok (Some (fr 11 2)).
Proof. split; [ exact ec3_lives | ]. split; [ val | ]. split; val. Qed.

Theorem C41_tangent : forall mode own le ge st en s e q,
  lives (tangent_ext mode own) le ge (tan_good mode own) (tan_alike mode own) st en s e -> iok (dom s) ->
  snd (ext_y (tangent_ext mode own) s e (Fin q)) =
    if i_contains (dom s) (Fin q) then c_y (s_c s) (Fin q)
    else if i_is_empty (dom s) then Ok None
    else if xq_leb (Fin q) (i_start (dom s))
         then (if st then through (tangent_edge mode own s true) (Fin q) else Ok None)
         else (if en then through (tangent_edge mode own s false) (Fin q) else Ok None).
Proof. exact tan_value. Qed.
Print Assumptions C41_tangent.
Example C41_tangent_ex : lives (tangent_ext TSlope None) yes yes (tan_good TSlope None) (tan_alike TSlope None) true true S1 et3 /\
  snd (ext_y (tangent_ext TSlope None) S1 et3 (fz 5)) = Ok (nv 23) /\
  snd (ext_y (tangent_ext TSlope None) S1 et3 (fz (-4))) = Ok (nv (-4)).
Proof. split; [ exact et3_lives | ]. split; val. Qed.

(** over Points: the outermost values ... *)
Theorem C41_points_constant : forall le ge st en reg p e a ya z yz q, honest_history p ->
  head_opt (p_pts p) = Some (Fin a, ya) -> last_opt (p_pts p) = Some (Fin z, yz) ->
  lives constant_ext le ge const_good const_alike st en (pts_src reg p) e ->
  ((q < a)%Qc -> snd (ext_y constant_ext (pts_src reg p) e (Fin q)) = if st then Ok ya else Ok None) /\
  ((z < q)%Qc -> snd (ext_y constant_ext (pts_src reg p) e (Fin q)) = if en then Ok yz else Ok None) /\
  ((a <= q)%Qc -> (q <= z)%Qc -> snd (ext_y constant_ext (pts_src reg p) e (Fin q)) = p_y p (Fin q)).
Proof. exact const_points. Qed.
Print Assumptions C41_points_constant.
(** ... and the outermost segments are continued *)
Theorem C41_points_tangent_start : forall own le ge reg st en p e a u b v l q, honest_history p ->
  p_pts p = (Fin a, Some (Fin u)) :: (Fin b, Some (Fin v)) :: l -> (a + min_step <= b)%Qc ->
  lives (tangent_ext TSlope own) le ge (tan_good TSlope own) (tan_alike TSlope own) st en (pts_src reg p) e -> (q < a)%Qc ->
  snd (ext_y (tangent_ext TSlope own) (pts_src reg p) e (Fin q))
  = Ok (if st then Some (Fin (u + (v - u) / (b - a) * (q - a)))%Qc else None).
Proof. exact tan_points_start. Qed.
Print Assumptions C41_points_tangent_start.
Theorem C41_points_tangent_end : forall own le ge reg st en p e a u b v l q, honest_history p ->
  p_pts p = l ++ [(Fin a, Some (Fin u)); (Fin b, Some (Fin v))] -> (a + min_step <= b)%Qc ->
  lives (tangent_ext TSlope own) le ge (tan_good TSlope own) (tan_alike TSlope own) st en (pts_src reg p) e -> (b < q)%Qc ->
  snd (ext_y (tangent_ext TSlope own) (pts_src reg p) e (Fin q))
  = Ok (if en then Some (Fin (v + (v - u) / (b - a) * (q - b)))%Qc else None).
Proof. exact tan_points_end. Qed.
Print Assumptions C41_points_tangent_end.
Example C41_points_ex : honest_history ex_u /\ p_pts ex_u = [(fz 0, nv 0); (fz 1, nv 1)] ++ [(fz 2, nv 2); (fz 3, nv 9)] /\
  Qcleb (QcofZ 2 + min_step) (QcofZ 3) = true /\
  lives (tangent_ext TSlope None) yes yes (tan_good TSlope None) (tan_alike TSlope None) true true (pts_src noreg ex_u) et3.
Proof. split; [ exact ex_u_honest | ]. split; [ exact ex_u_pts | ]. split; [ vm_compute; reflexivity | exact et3_lives ]. Qed.

(** ** Domains *)
Theorem C41_domain_constant : forall s st en, let e0 := ext_init constant_ext s st en false in
  iok (dom s) -> i_is_empty (dom s) = false -> const_good s (e_start e0) (e_end e0) ->
  exists d, snd (ext_dom constant_ext s e0) = Ok d /\ forall q,
    i_contains d (Fin q) = i_contains (dom s) (Fin q) || (st && before (dom s) q) || (en && after (dom s) q).
Proof. exact const_domain. Qed.
Print Assumptions C41_domain_constant.
Theorem C41_domain_tangent : forall mode own s st en, let e0 := ext_init (tangent_ext mode own) s st en false in
  iok (dom s) -> i_is_empty (dom s) = false -> tan_good mode own s (e_start e0) (e_end e0) ->
  exists d, snd (ext_dom (tangent_ext mode own) s e0) = Ok d /\ forall q,
    i_contains d (Fin q) = i_contains (dom s) (Fin q)
      || (st && has_line (tangent_edge mode own s true) && before (dom s) q)
      || (en && has_line (tangent_edge mode own s false) && after (dom s) q).
Proof. exact tan_domain. Qed.
Print Assumptions C41_domain_tangent.
Example C41_domain_ex : i_is_empty (dom SG) = false /\ const_good SG false true /\
  snd (ext_dom constant_ext SG (ext_init constant_ext SG false true false)) = Ok (iv (fz 0) PInf false true) /\
  has_line (tangent_edge TSlope None S1 false) = true /\ before (dom S1) (QcofZ (-1)) = true /\ after (dom S1) (QcofZ 4) = true.
Proof.
  split; [ reflexivity | ]. split; [ apply const_goodb; reflexivity | ]. split; [ exact eg_dom | ].
  repeat split; vm_compute; reflexivity.
Qed.
(** The domain is not renewed when a source update gives the extension a
    tangent, whatever the comparisons mean. *)
Theorem C41_domain_refuted : forall le ge,
  rd (ext_dom (tangent_ext TSlope None) SB (es1 le ge)) (fz 5) = false
  /\ (ge d01 i_empty = true -> snd (ext_y (tangent_ext TSlope None) SB (es1 le ge) (fz 5)) = Ok (nv 5)
        /\ snd (fst (ext_source (tangent_ext TSlope None) le ge SB es0 d01)) = [])
  /\ (ge d01 i_empty = false -> snd (ext_y (tangent_ext TSlope None) SB (es1 le ge) (fz 5)) = Ok None).
Proof. exact stale_domain. Qed.
Print Assumptions C41_domain_refuted.
Example C41_domain_fresh_ex : rd (ext_dom KT SB (ext_init KT SB false true false)) (fz 5) = true
  /\ snd (ext_y KT SB (ext_init KT SB false true false) (fz 5)) = Ok (nv 5).
Proof. exact fresh_domain. Qed.

(** ** Steps: beyond the edge, the outermost step is continued *)
Theorem C41_next : forall reg p l a ya b yb m q lim, honest_history p ->
  p_pts p = l ++ [(Fin a, ya); (Fin b, yb)] -> (0 < m)%Qc -> (a + m <= b)%Qc -> (b < q + m)%Qc ->
  ext_next (pts_src reg p) true (Fin q) (Some (Fin m)) lim = Ok (Some (Fin (q + (b - a))%Qc)).
Proof. exact next_beyond. Qed.
Print Assumptions C41_next.
Theorem C41_previous : forall reg p a ya b yb l m q lim, honest_history p ->
  p_pts p = (Fin a, ya) :: (Fin b, yb) :: l -> (0 < m)%Qc -> (a + m <= b)%Qc -> (q - m < a)%Qc ->
  ext_prev (pts_src reg p) true (Fin q) (Some (Fin m)) lim = Ok (Some (Fin (q - (b - a))%Qc)).
Proof. exact prev_before. Qed.
Print Assumptions C41_previous.
Example C41_step_ex : ext_next (pts_src noreg ex_u) true (fr 9 2) (Some (fr 1 2)) None = Ok (Some (fr 11 2))
  /\ ext_prev (pts_src noreg ex_u) true (fz 0) (Some (fr 1 2)) (Some (fz (-9))) = Ok (Some (fz (-1))).
Proof. split; val. Qed.
(** A limit beyond the edge of a base-class source makes the step go
    backwards; sampling past the edge raises. *)
Theorem C41_limit_refuted :
  ext_next SG true (fz 4) (Some (fz 1)) None = Ok (Some (fz 5))
  /\ ext_next SG true (fz 4) (Some (fz 1)) (Some (fz 6)) = Ok (Some (fz 2))
  /\ sample_points 20 (ext_crv KC SG eg (iv (fz 0) PInf false true) None)
       (Some (iv (fz 3) (fz 6) false false)) (Some (fz 1)) None = Err EExc.
Proof. exact (conj (proj1 limit_back) (conj (proj2 limit_back) sample_raises)). Qed.
Print Assumptions C41_limit_refuted.
(** Steps back into the start extension are not undone by steps forward. *)
Theorem C41_inverse_refuted : ext_prev S1 true (fz (-1)) (Some (fr 1 2)) None = Ok (Some (fz (-2)))
  /\ ext_next S1 true (fz (-2)) (Some (fr 1 2)) None = Ok (Some (fz 0)).
Proof. exact steps_apart. Qed.
Print Assumptions C41_inverse_refuted.

(** ** Announcements *)
Theorem C41_notifies : forall F (K : kind xq F) le ge s (e : ext xq F) d,
  let a := if in_extension le ge e d then e_int e else d in
  u_begin (e_upd e) = i_empty -> u_end (e_upd e) = i_empty -> e_istale e = false ->
  iok a -> i_is_empty a = false ->
  exists e', ext_source K le ge s e d = (e', [EvBegin a; EvEnd a], Ok tt)
    /\ u_begin (e_upd e') = i_empty /\ u_end (e_upd e') = i_empty /\ u_dom (e_upd e') = None.
Proof. exact @source_announces. Qed.
Print Assumptions C41_notifies.
Example C41_notifies_ex : u_begin (e_upd ec1) = i_empty /\ u_end (e_upd ec1) = i_empty /\ e_istale ec1 = false /\
  i_is_empty (if in_extension yes yes ec1 d23 then e_int ec1 else d23) = false.
Proof. repeat split; vm_compute; reflexivity. Qed.
(** An update that is not recognised leaves the old functions and interval. *)
Theorem C41_unrecognised : forall F (K : kind xq F) le ge s (e : ext xq F) d, in_extension le ge e d = false ->
  let e' := fst (fst (ext_source K le ge s e d)) in
  e_stale e' = e_stale e /\ e_int e' = e_int e /\ looks e e'.
Proof. exact @unrecognised_keeps. Qed.
Print Assumptions C41_unrecognised.
Example C41_unrecognised_ex : let e := fst (fst (ext_source KC no no S1 ec1 d23)) in
  snd (ext_y KC S1 e (fz 5)) = Ok (nv 2) /\ snd (ext_y KC S1 (ext_init KC S1 true true false) (fz 5)) = Ok (nv 9).
Proof. exact unrecognised_ex. Qed.

(** ** Refusals *)
(** With raise_on_empty the first value outside the source, or the first
    domain, raises although the extension exists. *)
Theorem C41_raise_refuted : forall F (K : kind xq F) s st en,
  let st' := if i_is_negative_infinite (dom s) then false else st in
  let en' := if i_is_positive_infinite (dom s) then false else en in
  let e0 := set_istale (set_stale (ext_init K s st en true) false) true in
  st' || en' = true -> (exists e1 evs, k_update K s e0 = (e1, evs, Ok tt) /\ frame e0 e1) ->
  snd (ext_dom K s (ext_init K s st en true)) = Err EExc
  /\ forall x, i_contains (dom s) x = false -> snd (ext_y K s (ext_init K s st en true) x) = Err EExc.
Proof.
  exact (fun F K s st en SE H => conj (raise_first_dom K s st en SE H) (fun x C => raise_first K s st en x SE C H)).
Qed.
Print Assumptions C41_raise_refuted.
Example C41_raise_ex : snd (ext_dom KC S1 (ext_init KC S1 true true true)) = Err EExc
  /\ snd (ext_y KC S1 (ext_init KC S1 true true true) (fz 5)) = Err EExc
  /\ is_ok (snd (ext_dom KC S1 (ext_init KC S1 true true false))) = true.
Proof. repeat split; vm_compute; reflexivity. Qed.
(** A one-sided constant extension of an empty curve raises AttributeError. *)
Theorem C41_empty_refuted : forall s st en r x, i_is_empty (dom s) = true -> iok (dom s) -> notnan x ->
  (if i_is_negative_infinite (dom s) then false else st) && (if i_is_positive_infinite (dom s) then false else en) = false ->
  snd (ext_y constant_ext s (ext_init constant_ext s st en r) x) = Err EAttr.
Proof. exact const_empty_raises. Qed.
Print Assumptions C41_empty_refuted.
Example C41_empty_ex : i_is_empty (dom (mkS (T := xq) empty_curve (fun _ _ => Ok None) noreg)) = true.
Proof. reflexivity. Qed.
