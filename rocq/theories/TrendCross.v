(** The intersections of a TrendLine: in order, and each between two underlying
    points on either side of the line. *)
From Coq Require Import List ZArith Bool Lia QArith Qcanon Lqa Sorting.Sorted.
From Verif Require Import Base Num NumFacts Interval IntervalFacts Points Trend TrendGeo TrendPred TrendLineInv TrendCol.
Import ListNotations.
Open Scope bool_scope.
Open Scope Qc_scope.

(** Positive on one side of the line, negative on the other. *)
Definition side (l : qpt * qpt) (p : qpt) : Qc :=
  (snd p - snd (fst l)) * (fst (snd l) - fst (fst l)) - (snd (snd l) - snd (fst l)) * (fst p - fst (fst l)).
Definition apart (l : qpt * qpt) (a b : qpt) : Prop := side l a * side l b < 0.
Definition midway (a b c : qpt) : Prop := fst c + fst c = fst a + fst b /\ snd c + snd c = snd a + snd b.
(** [c] is where the underlying points pass from one side of [l] to the other:
    on the line, or half-way when the passage is before the line begins. *)
Definition passage (U : xq * xq -> Prop) (l : qpt * qpt) (c : qpt) : Prop :=
  exists a b, U (fp a) /\ U (fp b) /\ fst a < fst c /\ fst c < fst b /\ apart l a b /\
    (on_seg l c /\ fst (fst l) <= fst c \/
     midway a b c /\ exists q, on_seg l q /\ on_seg (b, a) q /\ fst q < fst (fst l)).

Lemma on_side l p : on_seg l p <-> side l p = 0.
Proof. unfold on_seg, side. split; intro H; [ rewrite H; ring | now apply Qc_sub_0 ]. Qed.
Lemma phase_side l p y : fst (fst l) <> fst (snd l) -> seg_y (fs l) (Fin (fst p)) = Ok (Some (Fin y)) ->
  side l p = (snd p - y) * (fst (snd l) - fst (fst l)).
Proof.
  intros D E. rewrite (seg_y_slope l (fst p) D) in E. injection E as E. pose proof (on_seg_y l (fst p) D) as O. rewrite E in O.
  clear E D. destruct l as [[x0 y0] [x1 y1]], p as [px py]. unfold on_seg in O. unfold side. cbn [fst snd] in *.
  replace ((py - y) * (x1 - x0)) with ((py - y0) * (x1 - x0) - (y - y0) * (x1 - x0)) by ring.
  now rewrite O.
Qed.
Lemma between_fact (sa sb xa xb q : Qc) : xa < xb -> sa * sb < 0 -> sb * (xa - xb) + (sa - sb) * (q - xb) = 0 -> xa < q /\ q < xb.
Proof.
  intros D P E.
  assert (C : 0 < sb /\ sa < 0 \/ sb < 0 /\ 0 < sa).
  { destruct (Qclt_le_dec 0 sb) as [ H | H ].
    - left. split; [ exact H | ]. destruct (Qclt_le_dec sa 0) as [ K | K ]; [ exact K | ]. exfalso. qc_nra.
    - right. assert (sb <> 0) by (intros ->; rewrite Qcmult_0_r in P; discriminate).
      assert (H' : sb < 0) by (destruct (Qcle_lt_or_eq _ _ H) as [ ? | -> ]; [ assumption | contradiction ]).
      split; [ exact H' | ]. destruct (Qclt_le_dec 0 sa) as [ K | K ]; [ exact K | ]. exfalso. qc_nra. }
  split.
  - destruct (Qclt_le_dec xa q) as [ H | H ]; [ exact H | ]. exfalso. destruct C as [ [ C1 C2 ] | [ C1 C2 ] ]; qc_nra.
  - destruct (Qclt_le_dec q xb) as [ H | H ]; [ exact H | ]. exfalso. destruct C as [ [ C1 C2 ] | [ C1 C2 ] ]; qc_nra.
Qed.
(** The side is affine along a chord. *)
Lemma side_chord l a b q : on_seg (b, a) q -> on_seg l q -> fst a <> fst b ->
  side l b * (fst a - fst b) + (side l a - side l b) * (fst q - fst b) = 0.
Proof.
  destruct l as [[x0 y0] [x1 y1]], a as [xa ya], b as [xb yb], q as [qx qy]. unfold on_seg, side. cbn [fst snd]. intros A B D.
  transitivity ((xa - xb) * ((qy - y0) * (x1 - x0) - (y1 - y0) * (qx - x0)) - (x1 - x0) * ((qy - yb) * (xa - xb) - (ya - yb) * (qx - xb))); [ ring | ].
  rewrite A, B. ring.
Qed.
Lemma meet_between l a b : fst a < fst b -> apart l a b ->
  exists q, seg_meet (fs l) (fp b, fp a) = Ok (Some (fp q)) /\ fst a < fst q /\ fst q < fst b /\ on_seg l q /\ on_seg (b, a) q.
Proof.
  intros D P. destruct (meet_spec l (b, a)) as (o & E & S). change (fs (b, a)) with (fp b, fp a) in E. rewrite E.
  destruct o as [ p | ].
  - destruct S as (q & -> & A & B & _). exists q.
    assert (N : fst a <> fst b) by (intro K; rewrite K in D; now apply Qclt_not_eq in D).
    destruct (between_fact (side l a) (side l b) (fst a) (fst b) (fst q) D P (side_chord l a b q B A N)). auto.
  - exfalso. unfold apart in P. assert (K : side l a = side l b).
    { destruct l as [[x0 y0] [x1 y1]], a as [xa ya], b as [xb yb]. unfold parallel, side in *. cbn [fst snd] in *.
      apply Qc_sub_0. transitivity ((x1 - x0) * (ya - yb) - (y1 - y0) * (xa - xb)); [ ring | ]. rewrite S. ring. }
    rewrite K in P. clear - P. qc_nra.
Qed.

Lemma neg_scaled (p u w : Qc) : w <> 0 -> p * u < 0 -> p * w * (u * w) < 0.
Proof.
  intros D H. assert (W : 0 < w * w).
  { destruct (Qc_dec w 0) as [ [ K | K ] | K ]; [ qc_nra | qc_nra | contradiction ]. }
  replace (p * w * (u * w)) with (p * u * (w * w)) by ring. revert H W. generalize (p * u) (w * w). clear. intros. qc_nra.
Qed.

Lemma insert_mid {A} (a b : list A) x : list_insert (a ++ b) (length a) x = a ++ x :: b.
Proof. unfold list_insert. now rewrite firstn_app, firstn_all, Nat.sub_diag, firstn_O, app_nil_r, skipn_app, skipn_all, Nat.sub_diag, skipn_O. Qed.

Section Loop.
Variables (U : xq * xq -> Prop) (l : qpt * qpt) (t : Trend.tl xq) (cs0 : list qpt) (ui : ival xq) (ti : nat).
Hypothesis (El : t_line t = Some (fs l)).
Hypothesis (Hui : forall a : qpt, i_contains ui (Fin (fst a)) = true -> Forall (fun c => fst c <= fst a) cs0).
Hypothesis (S0 : StronglySorted by_xs cs0) (P0 : Forall (passage U l) cs0).

Definition pinv (rest : list qpt) (o : poi xq) : Prop := exists nw,
  o_cross o = map fp cs0 ++ map fp nw /\ StronglySorted by_xs nw /\ Forall (passage U l) nw /\
  Forall (fun c => Forall (fun d => fst d < fst c) cs0) nw /\
  match o_pp o with
  | None => nw = [] /\ o_prev o = Fin 0
  | Some pp => exists b y, pp = fp b /\ U pp /\ seg_y (fs l) (Fin (fst b)) = Ok (Some (Fin y)) /\ o_prev o = Fin (snd b - y) /\
                 Forall (fun c => fst b <= fst c) nw /\ Forall (fun a => fst a < fst b) rest
  end.
Definition agree (o o' : poi xq) : Prop := o_cross o' = o_cross o /\ o_pp o' = o_pp o /\ o_prev o' = o_prev o.
Lemma agree_pinv rest o o' : agree o o' -> pinv rest o -> pinv rest o'.
Proof. unfold agree, pinv. intros (-> & -> & ->). auto. Qed.
Lemma agree_push o : agree o (push_ext o).
Proof. unfold push_ext. destruct (o_ext o); repeat split. Qed.
Lemma agree_flush o o' : flush_on t ti o = Ok o' -> agree o o'.
Proof.
  unfold flush_on. destruct (o_on o); [ intro H; injection H as <-; repeat split | ].
  destruct (closest t None _) as [ [ c | ] | ]; try discriminate. cbn [rbind need]. intro H. injection H as <-. repeat split.
Qed.
Lemma pinv_tail a rest o : pinv (a :: rest) o -> pinv rest o.
Proof.
  intros (nw & A & B & C & D & E). exists nw. repeat (split; [ assumption | ]). destruct (o_pp o); [ | exact E ].
  destruct E as (b & y & E1 & E2 & E3 & E4 & E5 & E6). exists b, y. repeat (split; [ assumption | ]). now apply Forall_inv_tail in E6.
Qed.
Lemma tl_y_seg x y : tl_y t x = Ok y -> seg_y (fs l) x = Ok (Some y).
Proof. unfold tl_y. rewrite El. cbn [need rbind]. destruct (seg_y (fs l) x) as [ [ v | ] | ]; try discriminate. cbn. congruence. Qed.
Lemma seg_y_fin x y : seg_y (fs l) (Fin x) = Ok (Some y) -> exists q, y = Fin q.
Proof.
  destruct (Qc_eq_dec (fst (fst l)) (fst (snd l))) as [ V | V ].
  - rewrite (seg_y_vertical l x V). destruct (Qceqb _ _); [ | discriminate ]. intro H. injection H as <-. eauto.
  - rewrite (seg_y_slope l x V). intro H. injection H as <-. eauto.
Qed.
Lemma seg_y_at x y : fst (fst l) = fst (snd l) -> seg_y (fs l) (Fin x) = Ok (Some y) -> fst (fst l) = x.
Proof.
  intros V A. rewrite (seg_y_vertical l x V) in A. match type of A with context [Qceqb ?u ?v] => destruct (Qceqb u v) eqn:E end; [ | discriminate ].
  now apply Qceqb_true in E.
Qed.
Lemma seg_y_two (a b : qpt) y z : fst a <> fst b -> seg_y (fs l) (Fin (fst a)) = Ok (Some y) -> seg_y (fs l) (Fin (fst b)) = Ok (Some z) ->
  fst (fst l) <> fst (snd l).
Proof. intros D A B V. apply D. rewrite <- (seg_y_at _ _ V A). exact (seg_y_at _ _ V B). Qed.

Lemma poi_loop_cross : forall ps o o', Forall (fun a => U (fp a)) ps -> StronglySorted (fun a b : qpt => fst b < fst a) ps -> pinv ps o ->
  poi_loop t ui (length cs0) ti o (map fp ps) = Ok o' -> exists rest, pinv rest o'.
Proof.
  induction ps as [|a ps IH]; intros o o' Hu So I R; [ injection R as <-; exists []; exact I | ].
  apply StronglySorted_inv in So. destruct So as [ So Fa ]. pose proof (Forall_inv Hu) as Ua. apply Forall_inv_tail in Hu.
  cbn [map poi_loop] in R. change (fst (fp a)) with (Fin (fst a)) in R.
  destruct (i_contains ui (Fin (fst a))) eqn:Ci; cbn [negb] in R; [ | injection R as <-; eauto ].
  destruct (on_trend t (fp a)) as [ [ | ] | ] eqn:On; [ | | discriminate ]; cbn [rbind] in R.
  { apply IH in R; [ exact R | exact Hu | exact So | ]. apply pinv_tail in I. revert I. apply agree_pinv.
    destruct (agree_push o) as (A & B & C). repeat split; cbn; assumption. }
  destruct (flush_on t ti o) as [ o1 | ] eqn:Fl; [ | discriminate ]. cbn [rbind] in R. apply agree_flush in Fl. apply (agree_pinv _ _ _ Fl) in I. clear o Fl.
  destruct (tl_y t (Fin (fst a))) as [ y | ] eqn:Ey; [ | discriminate ]. cbn [rbind] in R. apply tl_y_seg in Ey.
  destruct (seg_y_fin _ _ Ey) as (ya & ->). change (snd (fp a) - Fin ya)%num with (Fin (snd a - ya)) in R. set (ph := snd a - ya) in *.
  match type of R with rbind ?X _ = _ => destruct X as [ o2 | ] eqn:E2; [ | discriminate ] end. cbn [rbind] in R.
  (* the crossing *)
  assert (G : exists nw, o_cross o2 = map fp cs0 ++ map fp nw /\ StronglySorted by_xs nw /\ Forall (passage U l) nw /\
    Forall (fun c => Forall (fun d => fst d < fst c) cs0) nw /\ Forall (fun c => fst a <= fst c) nw).
  { destruct I as (nw & A & B & C & D & E).
    assert (Keep : o_cross o2 = o_cross o1 -> exists nw, o_cross o2 = map fp cs0 ++ map fp nw /\ StronglySorted by_xs nw /\ Forall (passage U l) nw /\
      Forall (fun c => Forall (fun d => fst d < fst c) cs0) nw /\ Forall (fun c => fst a <= fst c) nw).
    { intro K. exists nw. rewrite K. repeat (split; [ assumption | ]). destruct (o_pp o1); [ | destruct E as [ -> _ ]; constructor ].
      destruct E as (b & z & -> & _ & _ & _ & F1 & F2). apply Forall_inv in F2. eapply Forall_impl; [ | exact F1 ]. intros c Hc.
      apply Qcle_trans with (fst b); [ now apply Qclt_le_weak | exact Hc ]. }
    destruct (o_pp o1) as [ pp | ] eqn:Epp.
    2:{ destruct E as [ -> Pr ]. rewrite Pr in E2. apply Keep. cbn in E2. now injection E2 as <-. }
    destruct E as (b & yb & -> & Ub & Eb & Pr & F1 & F2). apply Forall_inv in F2.
    match type of E2 with (if ?c then _ else _) = _ => destruct c eqn:Cx end; [ | apply Keep; now injection E2 as <- ].
    rewrite andb_true_iff in Cx. destruct Cx as [ _ Cx ]. rewrite Pr in Cx.
    change ((Fin ph * Fin (snd b - yb) <? Fin 0)%num = true) in Cx. rewrite El in E2. cbn [need rbind] in E2.
    assert (Nab : fst a <> fst b) by (intro K; rewrite K in F2; now apply Qclt_not_eq in F2).
    pose proof (seg_y_two a b _ _ Nab Ey Eb) as Nv.
    assert (Ap : apart l a b).
    { unfold apart. rewrite (phase_side l a ya Nv Ey), (phase_side l b yb Nv Eb). fold ph.
      change (Fin ph * Fin (snd b - yb))%num with (Fin (ph * (snd b - yb))) in Cx. rewrite fin_ltb in Cx. apply Qcltb_true in Cx.
      assert (Ng : fst (snd l) - fst (fst l) <> 0) by (apply Qc_sub_n0; auto).
      now apply neg_scaled. }
    destruct (meet_between l a b F2 Ap) as (q & Em & Q1 & Q2 & Oq & Oq').
    match type of E2 with rbind ?X _ = _ => replace X with (Ok (Some (fp q))) in E2 by (symmetry; exact Em) end. cbn [rbind] in E2. change (fst (fst (fs l))) with (Fin (fst (fst l))) in E2.
    change (fst (fp q)) with (Fin (fst q)) in E2. rewrite fin_ltb in E2.
    assert (H : exists c, o_cross o2 = list_insert (o_cross o1) (length cs0) (fp c) /\ fst a < fst c /\ fst c < fst b /\ passage U l c).
    { destruct (Qcltb (fst q) (fst (fst l))) eqn:Lt.
      - apply Qcltb_true in Lt. destruct (average_spec b a) as (m & Ea & M1 & M2). rewrite Ea in E2. cbn [rbind] in E2. injection E2 as <-.
        assert (X1 : fst a < fst m) by (clear - M1 F2; qc_lra). assert (X2 : fst m < fst b) by (clear - M1 F2; qc_lra).
        exists m. split; [ match goal with |- o_cross (push_ext ?o) = _ => now rewrite (proj1 (agree_push o)) end | ]. split; [ exact X1 | ]. split; [ exact X2 | ].
        exists a, b. repeat (split; [ assumption | ]). right. split; [ split; [ rewrite M1; ring | rewrite M2; ring ] | ]. exists q. auto.
      - apply Qcltb_false in Lt. cbn [rbind] in E2. injection E2 as <-.
        exists q. split; [ match goal with |- o_cross (push_ext ?o) = _ => now rewrite (proj1 (agree_push o)) end | ]. split; [ exact Q1 | ]. split; [ exact Q2 | ].
        exists a, b. repeat (split; [ assumption | ]). left. auto. }
    destruct H as (c & Ec & C1 & C2 & Pc). exists (c :: nw). split.
    { rewrite Ec, A. rewrite <- (map_length fp cs0), insert_mid. reflexivity. }
    split; [ constructor; [ exact B | ]; eapply Forall_impl; [ | exact F1 ]; intros d Hd; unfold by_xs; apply Qclt_le_trans with (fst b); auto | ].
    split; [ now constructor | ]. split.
    - constructor; [ | exact D ]. eapply Forall_impl; [ | exact (Hui a Ci) ]. intros d Hd. apply Qcle_lt_trans with (fst a); auto.
    - constructor; [ now apply Qclt_le_weak | ]. eapply Forall_impl; [ | exact F1 ]. intros d Hd. cbn beta in Hd.
      apply Qcle_trans with (fst b); [ now apply Qclt_le_weak | exact Hd ]. }
  match type of R with (let '(e, d) := ?z in _) = _ => destruct z as [ e d ] end.
  apply IH in R; [ exact R | exact Hu | exact So | ]. destruct G as (nw & A & B & C & D & E). exists nw. cbn [o_cross o_pp o_prev].
  repeat (split; [ assumption | ]). exists a, ya. auto 8.
Qed.
End Loop.

Lemma last_opt_snoc {A} (l : list A) x : last_opt l = Some x -> exists l', l = l' ++ [x].
Proof.
  unfold last_opt. destruct (rev l) as [|a r] eqn:E; [ discriminate | ]. intro H. injection H as <-.
  exists (rev r). rewrite <- (rev_involutive l), E. reflexivity.
Qed.
Lemma last_opt_none {A} (l : list A) : last_opt l = None -> l = [].
Proof. unfold last_opt. destruct (rev l) eqn:E; [ | discriminate ]. intros _. rewrite <- (rev_involutive l), E. reflexivity. Qed.
Lemma sorted_last cs z : StronglySorted by_xs (cs ++ [z]) -> Forall (fun c => fst c <= fst z) (cs ++ [z]).
Proof.
  intro H. destruct (asc_app_inv _ _ H) as (_ & _ & C). apply Forall_forall. intros c Hc. apply in_app_or in Hc. destruct Hc as [ Hc | [ <- | [] ] ].
  - apply Qclt_le_weak. apply C; cbn; auto.
  - apply Qcle_refl.
Qed.

Definition fpt (p : xq * xq) : Prop := exists q, p = fp q.
Lemma fpt_list l : Forall fpt l -> exists qs, l = map fp qs.
Proof. induction 1 as [|p l (q & ->) F (qs & ->)]; [ now exists [] | now exists (q :: qs) ]. Qed.

Section Run.
Variables (eps gold gold2 : xq) (polyfit : list (xq * xq) -> xq * xq) (g : cfg xq) (U : xq * xq -> Prop).
Hypothesis (HU : forall p, U p -> fpt p) (Hlen : exists q, g_len g = Fin q).
Hypothesis (Hfit : forall ps, (3 <= length ps)%nat -> Forall fpt ps -> exists c m, polyfit ps = (Fin c, Fin m)).

Definition crosses (t : Trend.tl xq) : Prop :=
  match t_line t with
  | None => t_cross t = []
  | Some s => exists l cs, s = fs l /\ t_cross t = map fp cs /\ StronglySorted by_xs cs /\ Forall (passage U l) cs
  end.
Definition uok (u : list (xq * xq)) : Prop := exists us, u = map fp us /\ StronglySorted by_xs us /\ Forall (fun a => U (fp a)) us.

Lemma fit_fin ps : Forall fpt ps -> match line_fit polyfit ps with None => True | Some s => exists l, s = fs l end.
Proof.
  intro F. destruct (fpt_list _ F) as (qs & ->). destruct qs as [|a [|b [|c qs]]]; [ exact Logic.I | exact Logic.I | now exists (a, b) | ].
  unfold line_fit. destruct (Hfit (map fp (a :: b :: c :: qs)) ltac:(cbn; lia) F) as (k & m & E). cbn [map] in *. rewrite E.
  assert (Z : exists z, match last_opt (fp a :: fp b :: fp c :: map fp qs) with Some z => fst z | None => fst (fp a) end = Fin z).
  { destruct (last_opt _) as [ z | ] eqn:El; [ | now exists (fst a) ].
    destruct (last_opt_snoc _ _ El) as (l' & E2). change (fp a :: fp b :: fp c :: map fp qs) with (map fp (a :: b :: c :: qs)) in E2.
    assert (In z (map fp (a :: b :: c :: qs))) by (rewrite E2; apply in_or_app; cbn; auto).
    apply in_map_iff in H. destruct H as (q & <- & _). now exists (fst q). }
  destruct Z as (z & Ez). exists ((fst a, k + m * fst a), (z, k + m * z)).
  assert (G : forall w, w = Fin z -> ((fst (fp a), Fin k + Fin m * fst (fp a)), (w, Fin k + Fin m * w))%num = fs ((fst a, k + m * fst a), (z, k + m * z)))
    by (intros w ->; reflexivity).
  exact (G _ Ez).
Qed.
Lemma interval_ok t : Forall fpt (t_pts t) -> crosses t -> (exists l, t_line t = None \/ t_line t = Some (fs l)) -> iok (new_interval g t).
Proof.
  intros F C (l & L). unfold new_interval. destruct L as [ L | L ].
  - rewrite L. destruct (t_pts t) as [|p [|p' l']]; [ apply iok_empty | | apply iok_empty ].
    apply Forall_inv in F. destruct F as (q & ->). apply iok_mk; discriminate.
  - rewrite L. unfold crosses in C. rewrite L in C. destruct C as (l2 & cs & _ & Ec & _). rewrite Ec.
    destruct Hlen as (w & ->). destruct l as [[x0 y0] [x1 y1]]. cbn [fs fp fst snd].
    destruct (Fin x0 =? Fin x1)%num; [ apply iok_mk; discriminate | ]. destruct (Fin w <=? n_zero)%num; [ apply iok_mk; discriminate | ].
    destruct cs as [|c cs]; cbn [map]; [ apply iok_mk; discriminate | ].
    change (fst (fp c)) with (Fin (fst c)). destruct (Fin (fst c) <=? Fin x0)%num; [ apply iok_mk; discriminate | ].
    destruct (_ <=? _)%Z; apply iok_mk; discriminate.
Qed.
Lemma interval_after t cs : iok (t_int t) -> t_cross t = map fp cs -> StronglySorted by_xs cs -> Forall U (t_tan t) ->
  forall a : qpt, i_contains (poi_interval t) (Fin (fst a)) = true -> Forall (fun c => fst c <= fst a) cs.
Proof.
  intros Io Ec So Ft a Hc. unfold poi_interval in Hc. rewrite Ec in Hc.
  assert (Nn : notnan (Fin (fst a))) by discriminate.
  set (ui := match last_opt (map fp cs) with Some i => i_inter2 (t_int t) (i_gte (fst i)) | None => t_int t end) in *.
  assert (Iu : iok ui /\ (imem ui (Fin (fst a)) -> Forall (fun c => fst c <= fst a) cs)).
  { unfold ui. destruct (last_opt (map fp cs)) as [ i | ] eqn:El.
    - destruct (last_opt_snoc _ _ El) as (l' & E). apply map_eq_app in E. destruct E as (ca & cb & -> & _ & Eb).
      destruct cb as [|z [|? ?]]; try discriminate. injection Eb as <-.
      assert (Ig : iok (i_gte (fst (fp z)))) by (apply iok_mk; discriminate). split; [ now apply iok_inter2 | ].
      intro M. apply inter2_iff in M; auto. destruct M as [ _ [ M _ ] ]. cbn [i_gte i_so i_start] in M.
      assert (Mz : fst z <= fst a). { unfold le_x in M. cbn in M. now apply Qcleb_true in M. }
      eapply Forall_impl; [ | exact (sorted_last _ _ So) ]. intros c Hz. cbn beta in Hz. now apply Qcle_trans with (fst z).
    - split; [ exact Io | ]. intros _. apply last_opt_none, map_eq_nil in El. rewrite El. constructor. }
  destruct Iu as [ Iu K ]. destruct (last_opt (t_tan t)) as [ q | ] eqn:Et.
  - destruct (last_opt_snoc _ _ Et) as (l' & E). rewrite E in Ft. apply Forall_app in Ft. destruct Ft as [ _ Ft ]. apply Forall_inv in Ft.
    destruct (HU _ Ft) as (q' & ->).
    assert (Iq : iok (mkI (fst (fp q')) n_inf true true)) by (apply iok_mk; discriminate).
    apply K. apply contains_iff in Hc; [ | now apply iok_inter2 | exact Nn ]. apply inter2_iff in Hc; auto. apply Hc.
  - apply K. now apply contains_iff in Hc.
Qed.
Lemma rev_desc us : StronglySorted by_xs us -> StronglySorted (fun a b : qpt => fst b < fst a) (rev us).
Proof.
  induction 1 as [|a l Sl IH F]; [ constructor | ]. cbn [rev].
  assert (G : forall l1, StronglySorted (fun a b : qpt => fst b < fst a) l1 -> Forall (fun c : qpt => fst a < fst c) l1 ->
    StronglySorted (fun a b : qpt => fst b < fst a) (l1 ++ [a])).
  { induction l1 as [|x l1 IH1]; intros S1 F1; [ repeat constructor | ]. apply StronglySorted_inv in S1. destruct S1 as [ S1 G1 ].
    cbn. constructor; [ apply IH1; [ exact S1 | now apply Forall_inv_tail in F1 ] | ]. apply Forall_app. split; [ exact G1 | ]. constructor; [ now apply Forall_inv in F1 | constructor ]. }
  apply G; [ exact IH | now apply Forall_rev ].
Qed.
Lemma update_poi_cross t under t' b : Forall fpt (t_pts t) -> Forall U (t_tan t) -> iok (t_int t) -> crosses t -> uok under ->
  update_poi g t under = Ok (t', b) -> crosses t' /\ iok (t_int t').
Proof.
  intros Fp Ft Io C (us & -> & So & Fu) R. unfold update_poi in R. unfold is_ready in R.
  destruct (t_line t) as [ s | ] eqn:El; cbn [negb] in R; [ | injection R as <- <-; auto ].
  destruct (map fp us) as [|u0 u1] eqn:Eu; [ injection R as <- <-; auto | ]. rewrite <- Eu in R. clear u0 u1 Eu.
  pose proof C as C0. unfold crosses in C. rewrite El in C. destruct C as (l & cs & -> & Ec & Sc & Pc).
  match type of R with rbind ?X _ = _ => destruct X as [ o | ] eqn:E1; [ | discriminate ] end. cbn [rbind] in R.
  match type of R with rbind ?X _ = _ => destruct X as [ o1 | ] eqn:E2; [ | discriminate ] end. cbn [rbind] in R.
  rewrite <- map_rev in E1. rewrite Ec, map_length in E1.
  assert (I0 : pinv U l cs (rev us) (mkPoi n_zero None false [] [] None n_zero (map fp cs) (t_tan t))).
  { exists []. cbn [o_cross map]. rewrite app_nil_r. repeat (split; [ constructor | ]). split; reflexivity. }
  apply (poi_loop_cross U l t cs (poi_interval t) (length (t_tan t)) El (interval_after t cs Io Ec Sc Ft)) in E1;
    [ | now apply Forall_rev | now apply rev_desc | exact I0 ].
  destruct E1 as (rest & I1). apply agree_flush in E2. apply (agree_pinv _ _ _ _ _ _ E2) in I1.
  apply (agree_pinv _ _ _ _ _ _ (agree_push o1)) in I1. set (o2 := push_ext o1) in *.
  destruct I1 as (nw & A & B & P & D & _).
  match type of R with Ok (if _ then update_interval _ ?t1 else _, _) = _ => set (t2 := t1) in * end.
  assert (C2 : crosses t2).
  { unfold crosses, t2. cbn [t_line t_cross]. exists l, (cs ++ nw). split; [ reflexivity | ]. split; [ rewrite A; now rewrite map_app | ].
    split; [ | apply Forall_app; auto ]. apply asc_app; auto. intros p q Hp Hq. rewrite Forall_forall in D.
    pose proof (D q Hq) as D1. rewrite Forall_forall in D1. now apply D1. }
  destruct (o_found o2); injection R as <- <-; [ | auto ].
  split; [ exact C2 | ]. apply (interval_ok t2 Fp C2). exists l. right. reflexivity.
Qed.
Lemma prediction_same t under t' : update_prediction eps gold gold2 g t under = Ok t' ->
  t_line t' = t_line t /\ t_cross t' = t_cross t /\ t_int t' = t_int t.
Proof.
  unfold update_prediction. destruct (negb (is_valid g t)); [ intro H; injection H as <-; auto | ].
  destruct (t_line t) as [ l | ] eqn:E; [ | discriminate ]. cbn [need rbind].
  destruct (poi_points g t) as [ ps | ]; [ | discriminate ]. cbn [rbind]. destruct (predict _ _ _ _ _ _ _) as [ q | ]; [ | discriminate ].
  intro H. injection H as <-. cbn. auto.
Qed.
Definition cinv (t : Trend.tl xq) : Prop := linv eps gold gold2 polyfit g fpt U t /\ crosses t /\ iok (t_int t).
Lemma update_trend_cross t under t' : Forall fpt (t_pts t) -> Forall fpt (t_bnd t) -> iok (t_int t) -> uok under ->
  update_trend eps gold gold2 polyfit g t under = Ok t' -> crosses t' /\ iok (t_int t').
Proof.
  intros A B Io Hu R. unfold update_trend in R. 
  match type of R with rbind ?X _ = _ => destruct X as [ [pts bnd] | ] eqn:E1; [ | discriminate ] end. cbn [rbind] in R.
  assert (D : Forall fpt pts).
  { destruct (is_valid g t); [ injection E1 as <- <-; auto | ]. apply (set_trend_draws eps g fpt) in E1; [ apply E1 | exact B ]. }
  match type of R with rbind (update_poi _ ?x _) _ = _ => set (t1 := x) in * end.
  assert (C1 : crosses t1).
  { unfold crosses. cbn [t1 t_line t_cross]. pose proof (fit_fin pts D) as F. destruct (line_fit polyfit pts) as [ s | ]; [ | reflexivity ].
    destruct F as (l & ->). exists l, []. split; [ reflexivity | ]. split; [ reflexivity | ]. split; constructor. }
  destruct (update_poi g t1 under) as [ [t2 b2] | ] eqn:E2; [ | discriminate ]. cbn [rbind] in R.
  assert (Pt : t_pts t2 = pts /\ t_line t2 = line_fit polyfit pts).
  { unfold update_poi in E2. destruct (negb (is_ready t1)); [ injection E2 as <- <-; auto | ].
    destruct under; [ injection E2 as <- <-; auto | ].
    match type of E2 with rbind ?X _ = _ => destruct X as [ o | ]; [ | discriminate ] end. cbn [rbind] in E2.
    match type of E2 with rbind ?X _ = _ => destruct X as [ o1 | ]; [ | discriminate ] end. cbn [rbind] in E2.
    destruct (o_found _); injection E2 as <- <-; auto. }
  apply update_poi_cross in E2; [ | exact D | constructor | exact Io | exact C1 | exact Hu ].
  destruct E2 as [ C2 I2 ]. apply prediction_same in R. cbn [t_line t_cross t_int update_interval] in R. destruct R as (R1 & R2 & R3).
  unfold crosses in *. rewrite R1, R2, R3. split; [ exact C2 | ]. destruct Pt as [ Pt1 Pt2 ]. apply interval_ok; [ now rewrite Pt1 | exact C2 | ].
  pose proof (fit_fin pts D) as F. rewrite Pt2. destruct (line_fit polyfit pts) as [ s | ]; [ destruct F as (l & ->); eauto | exists ((0, 0), (0, 0)); auto ].
Qed.
Lemma uok_forall u : uok u -> Forall U u.
Proof. intros (us & -> & _ & F). now apply Forall_map. Qed.

Lemma lstep_cross t e t' : cinv t ->
  match e with LAppend p u => fpt p /\ uok u | LBegin _ u => uok u end ->
  lstep eps gold gold2 polyfit g t e = Ok t' -> cinv t'.
Proof.
  intros (L & C & Io) H R. pose proof L as [ ((Dp & Db) & (Dt & _) & Ll & _) _ ].
  destruct e as [ p u | d u ]; cbn [lstep] in R.
  - destruct H as [ Hp Hu ]. destruct (did_append _ _ _ _ _ _ _ _) as [ [t1 b] | ] eqn:E; [ | discriminate ]. injection R as <-.
    split; [ exact (did_append_inv eps gold gold2 polyfit g fpt U t p u t1 b L Hp (uok_forall u Hu) E) | ].
    unfold did_append in E. destruct (is_ready t && _); [ injection E as <- <-; auto | ].
    destruct (negb (is_valid g t)).
    + destruct (insort (t_bnd t) p 0 None true) as [ bnd | ] eqn:E1; [ | discriminate ]. cbn [rbind] in E.
      match type of E with rbind ?X _ = _ => destruct X as [ t2 | ] eqn:E2; [ | discriminate ] end. injection E as <- <-.
      apply update_trend_cross in E2; auto. exact (insort_draws fpt _ _ _ _ _ _ Db Hp E1).
    + destruct (on_trend t p) as [ [ | ] | ] eqn:Eo; [ | | discriminate ]; cbn [rbind] in E.
      * destruct (insort (t_bnd t) p 0 None true) as [ bnd | ] eqn:E1; [ | discriminate ]. cbn [rbind] in E.
        destruct (insort (t_pts t) p 0 None true) as [ pts | ] eqn:E3; [ | discriminate ]. cbn [rbind] in E.
        match type of E with rbind ?X _ = _ => destruct X as [ t2 | ] eqn:E2; [ | discriminate ] end. injection E as <- <-.
        apply update_trend_cross in E2; auto; [ exact (insort_draws fpt _ _ _ _ _ _ Dp Hp E3) | exact (insort_draws fpt _ _ _ _ _ _ Db Hp E1) ].
      * destruct (update_poi g t u) as [ [t2 ch] | ] eqn:E1; [ | discriminate ]. cbn [rbind] in E.
        destruct (update_prediction _ _ _ _ _ _) as [ t3 | ] eqn:E2; [ | discriminate ]. injection E as <- <-.
        apply update_poi_cross in E1; auto. apply prediction_same in E2. destruct E2 as (R1 & R2 & R3).
        unfold crosses in *. rewrite R1, R2, R3. exact E1.
  - split; [ exact (tl_begin_inv eps gold gold2 polyfit g fpt U t d u t' L (uok_forall u H) R) | ].
    unfold tl_begin in R. destruct (negb _); [ injection R as <-; auto | ].
    match type of R with (if ?c then _ else _) = _ => destruct c eqn:Cc end.
    + injection R as <-. rewrite !andb_true_iff, !Nat.eqb_eq in Cc. destruct Cc as ((((C1 & C2) & C3) & C4) & C5).
      unfold crosses in *. cbn [t_line t_cross t_int]. rewrite (stale_same d _ C3). auto.
    + apply update_trend_cross in R; auto; cbn; now apply (stale_draws fpt).
Qed.
Lemma lrun_cross es : forall t t', cinv t ->
  Forall (fun e => match e with LAppend p u => fpt p /\ uok u | LBegin _ u => uok u end) es ->
  lrun eps gold gold2 polyfit g t es = Ok t' -> cinv t'.
Proof.
  induction es as [|e es IH]; intros t t' I H R; [ now injection R as <- | ]. cbn [lrun] in R.
  destruct (lstep eps gold gold2 polyfit g t e) as [ t1 | ] eqn:E; [ | discriminate ]. cbn [rbind] in R.
  apply IH in R; auto; [ | now apply Forall_inv_tail in H ]. apply (lstep_cross t e); auto. now apply Forall_inv in H.
Qed.
Lemma cinv0 : cinv tl0.
Proof. split; [ apply linv0 | ]. split; [ reflexivity | apply iok_empty ]. Qed.
End Run.

(** The underlying points of an event are finite and go forwards. *)
Definition forwards (e : lev (T := xq)) : Prop :=
  match e with LAppend p u => fpt p /\ exists us, u = map fp us /\ StronglySorted by_xs us
             | LBegin _ u => exists us, u = map fp us /\ StronglySorted by_xs us end.
Lemma crossings eps gold gold2 polyfit (g : cfg xq) es t :
  (exists q, g_len g = Fin q) -> (forall ps, (3 <= length ps)%nat -> Forall fpt ps -> exists c m, polyfit ps = (Fin c, Fin m)) ->
  Forall forwards es -> lrun eps gold gold2 polyfit g tl0 es = Ok t ->
  t_line t = None /\ t_cross t = [] \/
  exists l cs, t_line t = Some (fs l) /\ t_cross t = map fp cs /\ StronglySorted by_xs cs /\
    Forall (passage (fun p => In p (underneath es)) l) cs.
Proof.
  intros Hl Hf He R. set (U := fun p => In p (underneath es)).
  set (V := fun p => U p /\ fpt p).
  assert (H : Forall (fun e => match e with LAppend p u => fpt p /\ uok V u | LBegin _ u => uok V u end) es).
  { apply Forall_forall. intros e Ie. rewrite Forall_forall in He. specialize (He e Ie).
    assert (G : forall u, (forall p, In p u -> In p (underneath es)) -> (exists us, u = map fp us /\ StronglySorted by_xs us) -> uok V u).
    { intros u Hu (us & -> & Su). exists us. split; [ reflexivity | ]. split; [ exact Su | ]. apply Forall_forall. intros a Ha.
      split; [ apply Hu; now apply in_map | now exists a ]. }
    assert (Iu : forall p, In p (match e with LAppend _ u | LBegin _ u => u end) -> In p (underneath es)).
    { intros p Hp. unfold underneath. apply in_flat_map. exists e. auto. }
    destruct e as [ p u | d u ]; cbn [forwards] in He; [ split; [ apply He | apply G; [ exact Iu | apply He ] ] | now apply G ]. }
  apply (lrun_cross eps gold gold2 polyfit g V (fun p Hp => proj2 Hp) Hl Hf es tl0 t) in R; [ | apply cinv0 | exact H ].
  destruct R as (_ & C & _). unfold crosses in C. destruct (t_line t) as [ s | ]; [ | auto ].
  destruct C as (l & cs & -> & Ec & So & P). right. exists l, cs. split; [ reflexivity | ]. split; [ exact Ec | ]. split; [ exact So | ].
  eapply Forall_impl; [ | exact P ]. intros c (a & b & (A & _) & (B & _) & X). exists a, b. auto.
Qed.
