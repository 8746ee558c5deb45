(** The decisions of _is_coincident_points and _is_strictly_convex_points
    (trend.py:983-1019) as a test against the chord, for an absolute tolerance
    alone and for a relative one alone with values above EPSILON_ZERO. *)
From Coq Require Import List ZArith QArith Qcanon Bool Lia Sorting.Sorted.
From Verif Require Import Base Num NumFacts Interval Points Trend TrendGeo TrendPred TrendLineInv TrendCol TrendSet TrendHull TrendHullSet PointsIdx.
Import ListNotations.
Open Scope Qc_scope.

Lemma chord_at q0 q2 x y : fst q0 < fst q2 -> on_seg (q0, q2) (x, y) -> y = at_x q0 q2 x.
Proof.
  intros L O. unfold on_seg in O. cbn [fst snd] in O. pose proof (slope_mul q0 q2 L) as M. unfold at_x.
  assert (E : y - snd q0 = slope q0 q2 * (x - fst q0)).
  { apply (Qc_mul_cancel _ _ (fst q2 - fst q0)); [ apply Qc_sub_n0; intro Q; now apply (Qclt_ne _ _ L) | ].
    replace (slope q0 q2 * (x - fst q0) * (fst q2 - fst q0)) with (slope q0 q2 * (fst q2 - fst q0) * (x - fst q0)) by ring. rewrite M. rewrite <- O. ring. }
  rewrite <- E. ring.
Qed.
Lemma decisions eps r a q0 q1 q2 : 0 <= eps -> fst q0 < fst q2 ->
  exists co v, coincident (Fin eps) (fo r) (fo a) (fp q0) (fp q1) (fp q2) = Ok co /\
    strictly_convex (Fin eps) (fo r) (fo a) (fp q0) (fp q1) (fp q2) = Ok v /\
    let y := snd q1 in let y0 := at_x q0 q2 (fst q1) in
    (co = true <-> abs_ok a y y0 /\ rel_ok eps r y y0) /\
    (v = true <-> (match a with Some a => y + a <= y0 | None => True end) /\
                  (match r with Some r => Qca y0 <= eps \/ Qca y <= eps \/ r <= y0 / y - 1 | None => True end)).
Proof.
  intros He L. pose proof (Qclt_ne _ _ L) as D.
  destruct (convex_spec eps r a q0 q1 q2 He D) as (v & y0 & Ev & O & Sv). rewrite (chord_at _ _ _ _ L O) in Sv.
  destruct (within_spec eps r a (snd q1) (at_x q0 q2 (fst q1)) He) as (co & Ec & Sc).
  exists co, v. split; [ | split; [ exact Ev | split; [ exact Sc | exact Sv ] ] ].
  unfold coincident, on_line. change (fp q0, fp q2) with (fs (q0, q2)). change (fst (fp q1)) with (Fin (fst q1)).
  rewrite (seg_y_slope (q0, q2) (fst q1) D). cbn [rbind]. exact Ec.
Qed.
Definition sgn (up : bool) : Qc := if up then 1 else - (1).

Lemma sgn_t x : sgn true * x = x.
Proof. unfold sgn. ring. Qed.
Lemma sgn_f x : sgn false * x = - x.
Proof. unfold sgn. ring. Qed.
Lemma dec_abs eps q up : 0 <= eps -> 0 <= q -> forall q0 q1 q2, fst q0 < fst q1 -> fst q1 < fst q2 ->
  exists co v, coincident (Fin eps) (fo None) (fo (Some q)) (fp q0) (fp q1) (fp q2) = Ok co /\
    strictly_convex (Fin eps) (fo None) (fo (Some q)) (fp q0) (fp q1) (fp q2) = Ok v /\
    if co || eqb v up then sgn up * snd q1 <= 1 * (sgn up * at_x q0 q2 (fst q1)) + q else sgn up * at_x q0 q2 (fst q1) < sgn up * snd q1.
Proof.
  intros He Hq q0 q1 q2 A B. destruct (decisions eps None (Some q) q0 q1 q2 He ltac:(clear - A B; qc_lra)) as (co & v & Ec & Ev & Sc & Sv).
  exists co, v. split; [ exact Ec | ]. split; [ exact Ev | ]. cbv zeta in Sc, Sv. cbn [abs_ok rel_ok] in Sc.
  set (y0 := at_x q0 q2 (fst q1)) in *. clearbody y0. set (y := snd q1) in *. clearbody y.
  assert (Nc : co = false -> q < Qca (y - y0)).
  { intro E. apply Qcnot_le_lt. intro N. assert (co = true) by (apply Sc; split; [ exact N | exact Logic.I ]). congruence. }
  assert (Nv : v = false -> y0 < y + q).
  { intro E. apply Qcnot_le_lt. intro N. assert (v = true) by (apply Sv; split; [ exact N | exact Logic.I ]). congruence. }
  assert (Yc : co = true -> Qca (y - y0) <= q) by (intro E; exact (proj1 (proj1 Sc E))).
  assert (Yv : v = true -> y + q <= y0) by (intro E; exact (proj1 (proj1 Sv E))).
  clear Sc Sv Ec Ev. rewrite Qcmult_1_l. destruct (Qca_cases (y - y0)) as [[Z Ez]|[Z Ez]]; rewrite Ez in *; clear Ez;
  destruct up, co, v; cbn [orb eqb]; rewrite ?(sgn_t y), ?(sgn_t y0), ?(sgn_f y), ?(sgn_f y0);
    repeat match goal with H : true = true -> _ |- _ => specialize (H eq_refl) | H : false = false -> _ |- _ => specialize (H eq_refl)
                      | H : true = false -> _ |- _ => clear H | H : false = true -> _ |- _ => clear H end; qc_lra.
Qed.

Lemma at_above eps q0 q2 x : fst q0 < fst q2 -> fst q0 <= x -> x <= fst q2 -> eps < snd q0 -> eps < snd q2 -> eps < at_x q0 q2 x.
Proof.
  intros L A B U V.
  assert (E : exists d, 0 < d /\ eps + d <= snd q0 /\ eps + d <= snd q2).
  { destruct (Qclt_le_dec (snd q0) (snd q2)) as [ C | C ]; [ exists (snd q0 - eps) | exists (snd q2 - eps) ]; clear - U V C; repeat split; qc_lra. }
  destruct E as (d & D & U' & V'). pose proof (at_seg_ge q0 q2 0 (eps + d) x L A B) as G. rewrite !Qcmult_0_l, !Qcplus_0_l in G.
  specialize (G U' V'). clear - G D. qc_lra.
Qed.
Lemma quot_le r y y0 : 0 < y -> (r <= y0 / y - 1 <-> y * (1 + r) <= y0).
Proof.
  intro H. assert (N : y <> 0) by (intros ->; revert H; apply Qcle_not_lt, Qcle_refl).
  pose proof (Qc_div_cancel y0 y N) as E. generalize dependent (y0 / y). intros w E. rewrite <- E. split; intro K.
  - replace (w * y) with (y * (1 + r) + (w - 1 - r) * y) by ring.
    assert (0 <= (w - 1 - r) * y) by (assert (0 <= w - 1 - r) by (clear - K; qc_lra); generalize dependent (w - 1 - r); intros; clear - H H0; qc_nra).
    revert H0. generalize ((w - 1 - r) * y) (y * (1 + r)). intros. qc_lra.
  - apply Qcnot_lt_le. intro L. apply (Qcle_not_lt _ _ K). clear K.
    assert (X : 0 < (1 + r - w) * y) by (assert (P : 0 < 1 + r - w) by (clear - L; qc_lra); generalize dependent (1 + r - w); intros; clear - H P; qc_nra).
    replace (y * (1 + r)) with (w * y + (1 + r - w) * y) by ring. revert X. generalize (w * y) ((1 + r - w) * y). intros. qc_lra.
Qed.

Lemma rel_kept (r y y0 : Qc) : 0 <= r -> 0 < y -> 0 < y0 -> y0 < y * (1 + r) -> r * y0 < Qca (y - y0) -> y0 < y.
Proof.
  intros R Y Y0 A B. destruct (Qca_cases (y - y0)) as [[Z E]|[Z E]]; rewrite E in B; clear E.
  - assert (0 <= r * y0) by (clear - R Y0; qc_nra). revert H B. generalize (r * y0). clear - Z. intros. qc_lra.
  - exfalso. assert (C : y < (1 - r) * y0) by (revert B; replace ((1 - r) * y0) with (y0 - r * y0) by ring; generalize (r * y0); clear; intros; qc_lra).
    assert (D : y * (1 + r) <= (1 - r) * y0 * (1 + r)).
    { apply Qcmult_le_compat_r; [ now apply Qclt_le_weak | clear - R; qc_lra ]. }
    assert (F : (1 - r) * y0 * (1 + r) = y0 - r * r * y0) by ring. rewrite F in D.
    assert (0 <= r * r * y0) by (assert (0 <= r * r) by (clear - R; qc_nra); generalize dependent (r * r); intros; clear - H Y0; qc_nra).
    revert H D A. generalize (r * r * y0) (y * (1 + r)). clear. intros. qc_lra.
Qed.
Lemma dec_rel eps r up : 0 <= eps -> 0 <= r -> (up = false -> r <= 1) -> forall q0 q1 q2, fst q0 < fst q1 -> fst q1 < fst q2 ->
  eps < snd q0 -> eps < snd q1 -> eps < snd q2 ->
  exists co v, coincident (Fin eps) (fo (Some r)) (fo None) (fp q0) (fp q1) (fp q2) = Ok co /\
    strictly_convex (Fin eps) (fo (Some r)) (fo None) (fp q0) (fp q1) (fp q2) = Ok v /\
    if co || eqb v up then sgn up * snd q1 <= (1 + sgn up * r) * (sgn up * at_x q0 q2 (fst q1)) + 0 else sgn up * at_x q0 q2 (fst q1) < sgn up * snd q1.
Proof.
  intros He Hr Hu q0 q1 q2 A B P0 P1 P2. destruct (decisions eps (Some r) None q0 q1 q2 He ltac:(clear - A B; qc_lra)) as (co & v & Ec & Ev & Sc & Sv).
  exists co, v. split; [ exact Ec | ]. split; [ exact Ev | ]. cbv zeta in Sc, Sv. cbn [abs_ok rel_ok] in Sc.
  assert (Py : eps < at_x q0 q2 (fst q1)) by (apply at_above; auto; clear - A B; qc_lra).
  set (y0 := at_x q0 q2 (fst q1)) in *. clearbody y0. set (y := snd q1) in *. clearbody y.
  assert (Y0 : 0 < y0) by (clear - He Py; qc_lra). assert (Y : 0 < y) by (clear - He P1; qc_lra).
  rewrite (Qca_pos y0) in Sc, Sv by (now apply Qclt_le_weak). rewrite (Qca_pos y) in Sc, Sv by (now apply Qclt_le_weak).
  rewrite (quot_le r y y0 Y) in Sv.
  assert (Nc : co = false -> r * y0 < Qca (y - y0)).
  { intro E. apply Qcnot_le_lt. intro N. assert (co = true) by (apply Sc; split; [ exact Logic.I | right; right; exact N ]). congruence. }
  assert (Nv : v = false -> y0 < y * (1 + r)).
  { intro E. apply Qcnot_le_lt. intro N. assert (v = true) by (apply Sv; split; [ exact Logic.I | right; right; exact N ]). congruence. }
  assert (Yc : co = true -> Qca (y - y0) <= r * y0).
  { intro E. destruct (proj2 (proj1 Sc E)) as [ N | [ N | N ] ]; [ exfalso; exact (Qclt_not_le _ _ Py N) | exfalso; exact (Qclt_not_le _ _ P1 N) | exact N ]. }
  assert (Yv : v = true -> y * (1 + r) <= y0).
  { intro E. destruct (proj2 (proj1 Sv E)) as [ N | [ N | N ] ]; [ exfalso; exact (Qclt_not_le _ _ Py N) | exfalso; exact (Qclt_not_le _ _ P1 N) | exact N ]. }
  assert (Ry : 0 <= r * y) by (clear - Hr Y; qc_nra). assert (Ry0 : 0 <= r * y0) by (clear - Hr Y0; qc_nra).
  assert (Ya : Qca (y - y0) <= r * y0 -> y <= y0 + r * y0 /\ y0 - r * y0 <= y).
  { destruct (Qca_cases (y - y0)) as [[Z Ez]|[Z Ez]]; rewrite Ez; revert Ry0 Z; generalize (r * y0); clear; intros; split; qc_lra. }
  assert (Yr : y * (1 + r) = y + r * y) by ring. rewrite Yr in *.
  clear Sc Sv Ec Ev. rewrite Qcplus_0_r.
  destruct up.
  - rewrite ?(sgn_t y), ?(sgn_t y0), ?(sgn_t r). replace ((1 + r) * y0) with (y0 + r * y0) by ring.
    destruct co; [ exact (proj1 (Ya (Yc eq_refl))) | ]. destruct v; cbn [orb eqb].
    + pose proof (Yv eq_refl) as K. revert Ry Ry0 K. generalize (r * y) (r * y0). clear. intros. qc_lra.
    + apply (rel_kept r); auto. rewrite Yr. auto.
  - rewrite ?(sgn_f y), ?(sgn_f y0), ?(sgn_f r). replace ((1 + - r) * - y0) with (- (y0 - r * y0)) by ring.
    destruct co; [ destruct (Ya (Yc eq_refl)) as [ _ K ]; revert K; generalize (y0 - r * y0); clear; intros; cbn [orb]; qc_lra | ]. destruct v; cbn [orb eqb].
    + specialize (Yv eq_refl). specialize (Nc eq_refl). destruct (Qca_cases (y - y0)) as [[Z Ez]|[Z Ez]]; rewrite Ez in Nc; revert Nc Ry Ry0 Yv; generalize (r * y) (r * y0); clear - Z; intros; qc_lra.
    + specialize (Nv eq_refl). specialize (Hu eq_refl).
      assert (K : y0 * (1 - r) <= (y + r * y) * (1 - r)) by (apply Qcmult_le_compat_r; [ now apply Qclt_le_weak | clear - Hu; qc_lra ]).
      replace ((y + r * y) * (1 - r)) with (y - r * r * y) in K by ring. replace (y0 * (1 - r)) with (y0 - r * y0) in K by ring.
      assert (0 <= r * r * y) by (assert (0 <= r * r) by (clear - Hr; qc_nra); generalize dependent (r * r); intros; clear - H Y; qc_nra).
      revert K H. generalize (y0 - r * y0) (r * r * y). clear. intros. qc_lra.
Qed.

Lemma lift_abs q k : forall t, lift 1 q k t = t + QcofZ (Z.of_nat k) * q.
Proof.
  induction k as [|k IH]; intro t; cbn [lift]; [ change (QcofZ (Z.of_nat 0)) with (Q2Qc 0); ring | ].
  rewrite IH. replace (QcofZ (Z.of_nat (S k))) with (1 + QcofZ (Z.of_nat k)); [ ring | ].
  rewrite Nat2Z.inj_succ. unfold Z.succ. rewrite QcofZ_add, QcofZ_1. ring.
Qed.
Fixpoint qpow (c : Qc) (k : nat) : Qc := match k with O => 1 | S k => c * qpow c k end.
Lemma lift_rel c k : forall t, lift c 0 k t = qpow c k * t.
Proof. induction k as [|k IH]; intro t; cbn [lift qpow]; [ ring | ]. rewrite IH. ring. Qed.

(** Strictly on the outer side: above for an upper trend, below for a lower one. *)
Definition outer (up : bool) (y y0 : Qc) : Prop := if up then y0 < y else y < y0.
(** Consecutive triples. *)
Definition turns (up : bool) (l : list qpt) : Prop :=
  forall pre u w v post, l = pre ++ u :: w :: v :: post -> outer up (snd w) (at_x u v (fst w)).
Lemma concave_turns up l : concave (map (tr (sgn up)) l) -> turns up l.
Proof.
  intros C pre. revert l C. induction pre as [|p pre IH]; intros l C u w v post E.
  - subst l. cbn [app map concave] in C. destruct C as [ C _ ]. rewrite at_tr in C. cbn [tr fst snd] in C.
    unfold outer. destruct up; [ rewrite ?(sgn_t (snd w)), ?(sgn_t (at_x u v (fst w))) in C; exact C | rewrite ?(sgn_f (snd w)), ?(sgn_f (at_x u v (fst w))) in C; revert C; clear; intro; qc_lra ].
  - subst l. apply (IH (pre ++ u :: w :: v :: post)) with (post := post); [ | reflexivity ].
    change ((p :: pre) ++ u :: w :: v :: post) with (p :: (pre ++ u :: w :: v :: post)) in C. cbn [map] in C.
    destruct (map (tr (sgn up)) (pre ++ u :: w :: v :: post)) as [|x [|y l]]; [ exact Logic.I | exact Logic.I | exact (proj2 C) ].
Qed.

Section Top.
Variables (eps : Qc) (wd ln : xq) (up : bool) (mp : Z) (p0 : qpt) (mid : list qpt) (z : qpt).
Let pts := p0 :: mid ++ [z].
Hypothesis (Heps : 0 <= eps) (So : StronglySorted by_xs pts).

(** What both kinds of tolerance have in common. *)
Definition chosen (g : cfg xq) (bound : nat -> Qc -> Qc -> Prop) : Prop :=
  exists u v w hull bnd,
    set_trend (Fin eps) g (map fp pts) = Ok (fp u :: w ++ [fp v], map fp bnd) /\
    sub hull pts /\ hd_error hull = Some p0 /\ last_opt hull = Some z /\ turns up hull /\ sub bnd pts /\
    In (u, v) (edges hull) /\
    (forall u' v', In (u', v') (edges hull) -> sq_err u v bnd <= sq_err u' v' bnd) /\
    (forall p, In p pts -> bound (length pts - length hull)%nat (snd p) (at_x u v (fst p))).

Lemma chosen_of r a s c b (P : qpt -> Prop) (bound : nat -> Qc -> Qc -> Prop) : 0 <= c -> (forall p, P p -> okp c b (tr (sgn up) p)) -> Forall P pts -> s = sgn up ->
  (forall q0 q1 q2, fst q0 < fst q1 -> fst q1 < fst q2 -> P q0 -> P q1 -> P q2 ->
   exists co v, coincident (Fin eps) (fo r) (fo a) (fp q0) (fp q1) (fp q2) = Ok co /\
     strictly_convex (Fin eps) (fo r) (fo a) (fp q0) (fp q1) (fp q2) = Ok v /\
     if co || eqb v up then s * snd q1 <= c * (s * at_x q0 q2 (fst q1)) + b else s * at_x q0 q2 (fst q1) < s * snd q1) ->
  (forall n y y0, s * y <= lift c b n (s * y0) -> bound n y y0) ->
  chosen (mkG wd up mp (Fin 0) ln (fo r) (fo a)) bound.
Proof.
  intros Hc HP Fp -> Dec Hb.
  destruct (set_trend_chain eps wd ln up mp r a (sgn up) c b P Heps Hc HP Dec p0 mid z So Fp) as (u & v & w & hm & bm & R & S1 & S2 & Ie & C & Bd & Le).
  exists u, v, w, (p0 :: hm ++ [z]), (p0 :: bm ++ [z]). split; [ exact R | ]. split; [ exact S1 | ]. split; [ reflexivity | ].
  split; [ change (p0 :: hm ++ [z]) with ((p0 :: hm) ++ [z]); apply last_opt_app | ].
  split; [ exact (concave_turns up _ C) | ]. split; [ apply sub_ends; exact S2 | ]. split; [ exact Ie | ]. split; [ exact Le | ].
  intros p K. apply Hb. exact (Bd p K).
Qed.

Theorem chosen_abs q : 0 <= q ->
  chosen (mkG wd up mp (Fin 0) ln None (Some (Fin q))) (fun n y y0 => if up then y <= y0 + QcofZ (Z.of_nat n) * q else y0 - QcofZ (Z.of_nat n) * q <= y).
Proof.
  intro Hq. apply (chosen_of None (Some q) (sgn up) 1 q (fun _ => True)).
  - discriminate.
  - intros p _. unfold okp. replace ((1 - 1) * snd (tr (sgn up) p) + q) with q by ring. exact Hq.
  - apply Forall_forall. auto.
  - reflexivity.
  - intros q0 q1 q2 A B _ _ _. now apply dec_abs.
  - intros n y y0. rewrite lift_abs. generalize (QcofZ (Z.of_nat n) * q). intros d H.
    destruct up; [ rewrite (sgn_t y), (sgn_t y0) in H; exact H | rewrite (sgn_f y), (sgn_f y0) in H; revert H; clear; intro; qc_lra ].
Qed.
Theorem chosen_rel r : 0 <= r -> (up = false -> r <= 1) -> Forall (fun p => eps < snd p) pts ->
  chosen (mkG wd up mp (Fin 0) ln (Some (Fin r)) None) (fun n y y0 => if up then y <= qpow (1 + r) n * y0 else qpow (1 - r) n * y0 <= y).
Proof.
  intros Hr Hu Fp. apply (chosen_of (Some r) None (sgn up) (1 + sgn up * r) 0 (fun p => eps < snd p)); auto.
  - destruct up; [ rewrite (sgn_t r) | rewrite (sgn_f r); specialize (Hu eq_refl) ]; clear - Hr Hu; qc_lra.
  - intros p Hp. unfold okp. cbn [tr snd].
    replace ((1 + sgn up * r - 1) * (sgn up * snd p) + 0) with (r * snd p) by (unfold sgn; destruct up; ring).
    assert (0 < snd p) by (clear - Heps Hp; qc_lra). clear - Hr H. generalize dependent (snd p). intros. qc_nra.
  - intros q0 q1 q2 A B P0 P1 P2. now apply dec_rel.
  - intros n y y0. rewrite lift_rel. intro H.
    destruct up; [ rewrite (sgn_t y), (sgn_t y0), (sgn_t r) in H; exact H | rewrite (sgn_f y), (sgn_f y0), (sgn_f r) in H ].
    replace (1 + - r) with (1 - r) in H by ring. revert H. replace (qpow (1 - r) n * - y0) with (- (qpow (1 - r) n * y0)) by ring.
    generalize (qpow (1 - r) n * y0). clear. intros. qc_lra.
Qed.
(** Without tolerance no point is beyond the line. *)
Theorem chosen_zero : exists u v w bnd,
  set_trend (Fin eps) (mkG wd up mp (Fin 0) ln None (Some (Fin 0))) (map fp pts) = Ok (fp u :: w ++ [fp v], bnd) /\
  In u pts /\ In v pts /\ fst u < fst v /\ forall p, In p pts -> ~ outer up (snd p) (at_x u v (fst p)).
Proof.
  destruct (chosen_abs 0 (Qcle_refl 0)) as (u & v & w & hull & bnd & R & S1 & _ & _ & _ & _ & Ie & _ & Bd).
  exists u, v, w, (map fp bnd). split; [ exact R | ]. 
  pose proof (edges_asc _ u v (sub_sorted _ _ _ S1 So) Ie) as L. unfold edges in Ie.
  split; [ apply in_combine_l in Ie; exact (sub_in _ _ _ S1 Ie) | ].
  split; [ apply in_combine_r in Ie; apply (sub_in _ _ _ S1); destruct hull; [ exact Ie | right; exact Ie ] | ].
  split; [ exact L | ]. intros p K. specialize (Bd p K). cbv beta in Bd. rewrite Qcmult_0_r in Bd. unfold outer. destruct up.
  - rewrite Qcplus_0_r in Bd. now apply Qcle_not_lt.
  - replace (at_x u v (fst p) - 0) with (at_x u v (fst p)) in Bd by ring. now apply Qcle_not_lt.
Qed.
End Top.
