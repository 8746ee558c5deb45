(** The geometry helpers of trend.py over exact rationals. *)
From Coq Require Import List ZArith Bool Lia QArith Qcanon Lqa Sorting.Sorted Sorting.Permutation.
From Verif Require Import Base Num NumFacts Interval IntervalFacts Points Trend.
Import ListNotations.
Open Scope bool_scope.
Open Scope Qc_scope.

Definition qpt : Type := (Qc * Qc)%type.
Definition fp (p : qpt) : xq * xq := (Fin (fst p), Fin (snd p)).
Definition fs (l : qpt * qpt) : (xq * xq) * (xq * xq) := (fp (fst l), fp (snd l)).

(** A point is on the line through two points. *)
Definition on_seg (l : qpt * qpt) (p : qpt) : Prop :=
  (snd p - snd (fst l)) * (fst (snd l) - fst (fst l)) = (snd (snd l) - snd (fst l)) * (fst p - fst (fst l)).
Definition proper (l : qpt * qpt) : Prop := fst l <> snd l.
Definition parallel (l m : qpt * qpt) : Prop :=
  (fst (snd l) - fst (fst l)) * (snd (snd m) - snd (fst m)) = (snd (snd l) - snd (fst l)) * (fst (snd m) - fst (fst m)).

Lemma Qc_sub_0 (a b : Qc) : a - b = 0 -> a = b.
Proof. intro H. replace a with (a - b + b) by ring. rewrite H. ring. Qed.
Lemma Qc_sub_n0 (a b : Qc) : a <> b -> a - b <> 0.
Proof. intros H E. apply H. now apply Qc_sub_0. Qed.
Lemma Qc_div_cancel (a b : Qc) : b <> 0 -> a / b * b = a.
Proof. intro H. unfold Qcdiv. rewrite <- Qcmult_assoc, (Qcmult_comm (/ b)), Qcmult_inv_r by exact H. ring. Qed.
Lemma Qc_mul_cancel (a b c : Qc) : c <> 0 -> a * c = b * c -> a = b.
Proof.
  intros H E. assert (X : (a - b) * c = 0) by (replace ((a - b) * c) with (a * c - b * c) by ring; rewrite E; ring).
  apply Qc_sub_0. destruct (Qcmult_integral _ _ X); [ assumption | contradiction ].
Qed.
Lemma xq_div_fin a b : b <> 0 -> xq_div (Fin a) (Fin b) = Ok (Fin (a / b)).
Proof. intro H. unfold xq_div. now rewrite (proj2 (Qceqb_false b 0) H). Qed.

(** *** _line_y *)
Lemma seg_y_slope l x : fst (fst l) <> fst (snd l) ->
  seg_y (fs l) (Fin x) = Ok (Some (Fin (snd (fst l) + (snd (snd l) - snd (fst l)) / (fst (snd l) - fst (fst l)) * (x - fst (fst l))))).
Proof.
  destruct l as [[x1 y1] [x2 y2]]. unfold fs, fp, seg_y. cbn -[xq_div xq_eqb]. intro H.
  assert (E : xq_eqb (Fin x2) (Fin x1) = false) by (apply Qceqb_false; auto). rewrite E.
  rewrite xq_div_fin by (apply Qc_sub_n0; auto). reflexivity.
Qed.
Lemma seg_y_vertical l x : fst (fst l) = fst (snd l) ->
  seg_y (fs l) (Fin x) = Ok (if Qceqb (fst (fst l)) x then Some (Fin (snd (fst l))) else None).
Proof.
  destruct l as [[x1 y1] [x2 y2]]. unfold fs, fp, seg_y. cbn -[xq_div xq_eqb]. intros ->.
  cbn. now rewrite Qceqb_refl.
Qed.
Lemma on_seg_y l x : fst (fst l) <> fst (snd l) ->
  on_seg l (x, snd (fst l) + (snd (snd l) - snd (fst l)) / (fst (snd l) - fst (fst l)) * (x - fst (fst l))).
Proof.
  destruct l as [[x1 y1] [x2 y2]]. unfold on_seg. cbn. intro H.
  assert (D : x2 - x1 <> 0) by (apply Qc_sub_n0; auto). pose proof (Qc_div_cancel (y2 - y1) (x2 - x1) D) as E.
  replace ((y1 + (y2 - y1) / (x2 - x1) * (x - x1) - y1) * (x2 - x1)) with ((y2 - y1) / (x2 - x1) * (x2 - x1) * (x - x1)) by ring.
  now rewrite E.
Qed.
(** what _line_y gives is on the line; None means that no point is above x *)
Lemma line_y_on l x : proper l ->
  exists o, seg_y (fs l) (Fin x) = Ok o /\
    match o with
    | Some v => exists y, v = Fin y /\ on_seg l (x, y) /\ (fst (fst l) <> fst (snd l) -> forall y', on_seg l (x, y') -> y' = y)
    | None => forall y, ~ on_seg l (x, y)
    end.
Proof.
  intro P. destruct (Qc_eq_dec (fst (fst l)) (fst (snd l))) as [ V | V ].
  - exists (if Qceqb (fst (fst l)) x then Some (Fin (snd (fst l))) else None).
    split; [ now apply seg_y_vertical | ].
    destruct (Qceqb (fst (fst l)) x) eqn:E.
    + apply Qceqb_true in E. exists (snd (fst l)). split; [ reflexivity | ]. split; [ | contradiction ].
      unfold on_seg. cbn. rewrite E. ring.
    + intros y O. apply Qceqb_false in E. unfold on_seg in O. cbn in O. rewrite <- V in O.
      assert (X : (snd (snd l) - snd (fst l)) * (x - fst (fst l)) = 0) by (rewrite <- O; ring).
      destruct (Qcmult_integral _ _ X) as [ Z | Z ].
      * apply P. destruct l as [[x1 y1] [x2 y2]]. cbn in *. apply Qc_sub_0 in Z. congruence.
      * apply Qc_sub_0 in Z. congruence.
  - eexists. split; [ now apply seg_y_slope | ]. eexists. split; [ reflexivity | ]. split; [ now apply on_seg_y | ].
    intros _ y' O. pose proof (on_seg_y l x V) as O2. unfold on_seg in O, O2. cbn in O, O2. rewrite <- O2 in O.
    apply Qc_mul_cancel in O; [ | apply Qc_sub_n0; auto ].
    replace y' with (y' - snd (fst l) + snd (fst l)) by ring. rewrite O. ring.
Qed.

(** *** _line_x *)
Lemma line_x_on l y : proper l ->
  exists o, seg_x (fs l) (Fin y) = Ok o /\
    match o with
    | Some v => exists x, v = Fin x /\ on_seg l (x, y) /\ (snd (fst l) <> snd (snd l) -> forall x', on_seg l (x', y) -> x' = x)
    | None => forall x, ~ on_seg l (x, y)
    end.
Proof.
  destruct l as [[x1 y1] [x2 y2]]. unfold proper, fs, fp, seg_x, on_seg. cbn -[xq_div xq_eqb]. intro P.
  destruct (Qc_eq_dec x1 x2) as [ -> | V ].
  - exists (Some (Fin x2)). split; [ cbn; now rewrite Qceqb_refl | ].
    exists x2. split; [ reflexivity | ]. split; [ ring | ]. intros Y x' E.
    assert (X : (y2 - y1) * (x' - x2) = 0) by (rewrite <- E; ring).
    destruct (Qcmult_integral _ _ X) as [ Z | Z ]; apply Qc_sub_0 in Z; congruence.
  - assert (E : xq_eqb (Fin x2) (Fin x1) = false) by (apply Qceqb_false; auto). rewrite E.
    assert (D : x2 - x1 <> 0) by (apply Qc_sub_n0; auto). rewrite xq_div_fin by exact D. cbn [rbind].
    pose proof (Qc_div_cancel (y2 - y1) (x2 - x1) D) as M. set (m := (y2 - y1) / (x2 - x1)) in *.
    change (n_zero (T := xq)) with (Fin 0). cbn [xq_eqb]. change (QcofZ 0) with (Q2Qc 0).
    destruct (Qceqb m 0) eqn:M0.
    + apply Qceqb_true in M0. rewrite M0 in M. assert (Y : y2 - y1 = 0) by (rewrite <- M; ring).
      eexists. split; [ reflexivity | ].
      destruct (Qceqb y1 y) eqn:Ey.
      * apply Qceqb_true in Ey. subst y. exists x1. split; [ reflexivity | ]. split; [ ring | ].
        intros Ny. apply Qc_sub_0 in Y. congruence.
      * apply Qceqb_false in Ey. intros x O. rewrite Y in O.
        assert (X : (y - y1) * (x2 - x1) = 0) by (rewrite O; ring).
        destruct (Qcmult_integral _ _ X) as [ Z | Z ]; [ apply Qc_sub_0 in Z; congruence | contradiction ].
    + apply Qceqb_false in M0. rewrite xq_div_fin by exact M0. cbn [rbind]. eexists. split; [ reflexivity | ].
      exists (x1 + (y - y1) / m). split; [ reflexivity | ].
      pose proof (Qc_div_cancel (y - y1) m M0) as K.
      assert (O : (y - y1) * (x2 - x1) = (y2 - y1) * (x1 + (y - y1) / m - x1)).
      { rewrite <- M. replace (m * (x2 - x1) * (x1 + (y - y1) / m - x1)) with ((y - y1) / m * m * (x2 - x1)) by ring. now rewrite K. }
      split; [ exact O | ]. intros Ny x' O'. rewrite O in O'.
      assert (Ny' : y2 - y1 <> 0) by (apply Qc_sub_n0; congruence).
      rewrite !(Qcmult_comm (y2 - y1)) in O'. apply Qc_mul_cancel in O'; [ | exact Ny' ].
      replace x' with (x' - x1 + x1) by ring. rewrite <- O'. ring.
Qed.

(** *** _line_intersection *)
Lemma meet_spec l m : 
  exists o, seg_meet (fs l) (fs m) = Ok o /\
    match o with
    | Some p => exists q, p = fp q /\ on_seg l q /\ on_seg m q /\ forall q', on_seg l q' -> on_seg m q' -> q' = q
    | None => parallel l m
    end.
Proof.
  destruct l as [[a1 b1] [a2 b2]], m as [[c1 d1] [c2 d2]].
  unfold seg_meet, fs, fp, det, parallel, on_seg. cbn -[xq_div xq_eqb].
  change (n_zero (T := xq)) with (Fin 0). cbn [xq_eqb]. change (QcofZ 0) with (Q2Qc 0).
  set (dv := (a1 - a2) * (d1 - d2) - (c1 - c2) * (b1 - b2)).
  assert (X : xq_sub (Fin ((a1 - a2) * (d1 - d2))) (Fin ((c1 - c2) * (b1 - b2))) = Fin dv) by reflexivity.
  destruct (Qceqb dv 0) eqn:Z.
  - exists None. split; [ reflexivity | ]. apply Qceqb_true in Z. unfold dv in Z.
    apply Qc_sub_0. rewrite <- Z. ring.
  - apply Qceqb_false in Z. rewrite !xq_div_fin by exact Z. cbn [rbind].
    eexists. split; [ reflexivity | ].
    set (nx := ((a1 * b2 - b1 * a2) * (c1 - c2) - (c1 * d2 - d1 * c2) * (a1 - a2)) / dv).
    set (ny := ((a1 * b2 - b1 * a2) * (d1 - d2) - (c1 * d2 - d1 * c2) * (b1 - b2)) / dv).
    pose proof (Qc_div_cancel ((a1 * b2 - b1 * a2) * (c1 - c2) - (c1 * d2 - d1 * c2) * (a1 - a2)) dv Z) as Kx. fold nx in Kx.
    pose proof (Qc_div_cancel ((a1 * b2 - b1 * a2) * (d1 - d2) - (c1 * d2 - d1 * c2) * (b1 - b2)) dv Z) as Ky. fold ny in Ky.
    exists (nx, ny). split; [ reflexivity | ]. cbn [fst snd].
    assert (O1 : (ny - b1) * (a2 - a1) = (b2 - b1) * (nx - a1)).
    { apply (Qc_mul_cancel _ _ dv Z).
      replace ((ny - b1) * (a2 - a1) * dv) with ((ny * dv - b1 * dv) * (a2 - a1)) by ring.
      replace ((b2 - b1) * (nx - a1) * dv) with ((b2 - b1) * (nx * dv - a1 * dv)) by ring.
      rewrite Kx, Ky. unfold dv. ring. }
    assert (O2 : (ny - d1) * (c2 - c1) = (d2 - d1) * (nx - c1)).
    { apply (Qc_mul_cancel _ _ dv Z).
      replace ((ny - d1) * (c2 - c1) * dv) with ((ny * dv - d1 * dv) * (c2 - c1)) by ring.
      replace ((d2 - d1) * (nx - c1) * dv) with ((d2 - d1) * (nx * dv - c1 * dv)) by ring.
      rewrite Kx, Ky. unfold dv. ring. }
    split; [ exact O1 | ]. split; [ exact O2 | ]. intros [x y] E1 E2. cbn [fst snd] in E1, E2.
    (* the difference u = x - nx, w = y - ny is on both directions *)
    assert (D1 : (y - ny) * (a2 - a1) = (b2 - b1) * (x - nx)).
    { replace ((y - ny) * (a2 - a1)) with ((y - b1) * (a2 - a1) - (ny - b1) * (a2 - a1)) by ring. rewrite E1, O1. ring. }
    assert (D2 : (y - ny) * (c2 - c1) = (d2 - d1) * (x - nx)).
    { replace ((y - ny) * (c2 - c1)) with ((y - d1) * (c2 - c1) - (ny - d1) * (c2 - c1)) by ring. rewrite E2, O2. ring. }
    assert (Ux : (x - nx) * dv = 0).
    { unfold dv. transitivity (((d2 - d1) * (x - nx)) * (a2 - a1) - ((b2 - b1) * (x - nx)) * (c2 - c1)); [ ring | ].
      rewrite <- D1, <- D2. ring. }
    assert (Uy : (y - ny) * dv = 0).
    { unfold dv. transitivity (((y - ny) * (a2 - a1)) * (d2 - d1) - ((y - ny) * (c2 - c1)) * (b2 - b1)); [ ring | ].
      rewrite D1, D2. ring. }
    destruct (Qcmult_integral _ _ Ux) as [ Hx | Hx ]; [ | contradiction ].
    destruct (Qcmult_integral _ _ Uy) as [ Hy | Hy ]; [ | contradiction ].
    apply Qc_sub_0 in Hx, Hy. congruence.
Qed.
(** None exactly for parallel lines *)
Lemma meet_none l m : seg_meet (fs l) (fs m) = Ok None <-> parallel l m.
Proof.
  split; [ intro H; destruct (meet_spec l m) as (o & E & S); rewrite E in H; injection H as ->; exact S | ].
  destruct l as [[a1 b1] [a2 b2]], m as [[c1 d1] [c2 d2]].
  unfold seg_meet, fs, fp, det, parallel. cbn -[xq_div xq_eqb]. intro H.
  change (n_zero (T := xq)) with (Fin 0). cbn [xq_eqb]. change (QcofZ 0) with (Q2Qc 0).
  replace ((a1 - a2) * (d1 - d2) - (c1 - c2) * (b1 - b2)) with 0; [ reflexivity | ].
  transitivity ((a2 - a1) * (d2 - d1) - (b2 - b1) * (c2 - c1)); [ rewrite H | ]; ring.
Qed.

Lemma average_spec p q : exists m, average2 (fp p) (fp q) = Ok (fp m) /\
  fst m + fst m = fst p + fst q /\ snd m + snd m = snd p + snd q.
Proof.
  destruct p as [a b], q as [c d]. unfold average2, fp. cbn -[xq_div].
  assert (T2 : QcofZ 2 <> 0) by discriminate.
  rewrite !xq_div_fin by exact T2. cbn [rbind].
  exists ((a + c) / QcofZ 2, (b + d) / QcofZ 2). split; [ reflexivity | ]. cbn [fst snd].
  assert (D : forall z, z / QcofZ 2 + z / QcofZ 2 = z).
  { intro z. rewrite <- (Qc_div_cancel z (QcofZ 2) T2) at 3. replace (QcofZ 2) with (1 + 1) at 4; [ ring | ].
    apply Qc_is_canon. reflexivity. }
  split; apply D.
Qed.

(** ** _insort_point_left *)
Definition by_x (p q : qpt) : Prop := fst p <= fst q.

(** Where p belongs in a list sorted by x. *)
Fixpoint cut (x : Qc) (l : list qpt) : list qpt * list qpt :=
  match l with
  | [] => ([], [])
  | q :: l' => if Qcltb (fst q) x then let '(a, b) := cut x l' in (q :: a, b) else ([], l)
  end.
Lemma cut_app x l : fst (cut x l) ++ snd (cut x l) = l.
Proof. induction l as [|q l IH]; [ reflexivity | ]. cbn. destruct (Qcltb (fst q) x); [ | reflexivity ].
  destruct (cut x l). cbn in *. now rewrite IH. Qed.
Lemma cut_lt x l : Forall (fun q => fst q < x) (fst (cut x l)).
Proof. induction l as [|q l IH]; [ constructor | ]. cbn. destruct (Qcltb (fst q) x) eqn:E; [ | constructor ].
  destruct (cut x l). cbn in *. constructor; [ now apply Qcltb_true | exact IH ]. Qed.
Lemma cut_ge x l : StronglySorted by_x l -> Forall (fun q => x <= fst q) (snd (cut x l)).
Proof.
  induction l as [|q l IH]; intro H; [ constructor | ]. inversion H as [ | ? ? Sl Fl ]; subst. cbn.
  destruct (Qcltb (fst q) x) eqn:E.
  - specialize (IH Sl). destruct (cut x l). exact IH.
  - apply Qcltb_false in E. constructor; [ exact E | ].
    eapply Forall_impl; [ | exact Fl ]. intros r Hr. unfold by_x in Hr. eapply Qcle_trans; eauto.
Qed.

Lemma bisect_cut l x fuel lo hi : StronglySorted by_x l -> (0 <= lo)%Z -> (lo <= hi)%Z ->
  (hi <= Z.of_nat (length l))%Z -> (Z.to_nat (hi - lo) < fuel)%nat ->
  let k := Z.of_nat (length (fst (cut x l))) in (lo <= k <= hi)%Z ->
  bisect_loop fuel (map fp l) (Fin x) lo hi = Ok k.
Proof.
  intro So. revert lo hi. induction fuel as [|f IH]; intros lo hi A B C D k K; [ lia | ].
  cbn [bisect_loop]. destruct (lo <? hi)%Z eqn:E.
  - apply Z.ltb_lt in E. set (mid := ((lo + hi) / 2)%Z).
    assert (M : (lo <= mid < hi)%Z) by (unfold mid; split; [ apply Z.div_le_lower_bound | apply Z.div_lt_upper_bound ]; lia).
    unfold py_nth. rewrite map_length. replace (mid <? 0)%Z with false by (symmetry; apply Z.ltb_ge; lia).
    replace (mid <? 0)%Z with false by (symmetry; apply Z.ltb_ge; lia).
    replace (Z.of_nat (length l) <=? mid)%Z with false by (symmetry; apply Z.leb_gt; lia). cbn [orb].
    destruct (nth_error l (Z.to_nat mid)) as [ q | ] eqn:Q.
    2: { apply nth_error_None in Q. lia. }
    rewrite (map_nth_error fp _ _ Q). cbn [rbind fp fst n_ltb XQ xq_ltb].
    pose proof (cut_app x l) as Ap. pose proof (cut_lt x l) as Lt. pose proof (cut_ge x l So) as Ge.
    assert (Side : Qcltb (fst q) x = (mid <? k)%Z).
    { rewrite <- Ap in Q. destruct (mid <? k)%Z eqn:Mk.
      - apply Z.ltb_lt in Mk. rewrite nth_error_app1 in Q by (unfold k in Mk; lia).
        apply Qcltb_true. rewrite Forall_forall in Lt. apply Lt. eapply nth_error_In; eauto.
      - apply Z.ltb_ge in Mk. rewrite nth_error_app2 in Q by (unfold k in Mk; lia).
        apply Qcltb_false. rewrite Forall_forall in Ge. apply Ge. eapply nth_error_In; eauto. }
    rewrite Side. destruct (mid <? k)%Z eqn:Mk.
    + apply Z.ltb_lt in Mk. apply IH; lia.
    + apply Z.ltb_ge in Mk. apply IH; lia.
  - apply Z.ltb_ge in E. f_equal. lia.
Qed.

Definition ins (nr : bool) (l : list qpt) (p : qpt) : list qpt :=
  if nr && (match head_opt (snd (cut (fst p) l)) with Some q => Qceqb (fst p) (fst q) | None => false end) then l
  else fst (cut (fst p) l) ++ p :: snd (cut (fst p) l).

Lemma insort_ok nr l p : StronglySorted by_x l ->
  insort (map fp l) (fp p) 0 None nr = Ok (map fp (ins nr l p)).
Proof.
  intro So. unfold insort, pt. cbn [Z.ltb Z.compare]. rewrite map_length.
  pose proof (cut_app (fst p) l) as Ap.
  assert (Len : (length (fst (cut (fst p) l)) <= length l)%nat) by (rewrite <- Ap at 2; rewrite app_length; lia).
  change (fst (fp p)) with (Fin (fst p)).
  rewrite (bisect_cut l (fst p) _ _ _ So); try lia. cbn [rbind]. rewrite Nat2Z.id.
  unfold ins. set (a := fst (cut (fst p) l)) in *. set (b := snd (cut (fst p) l)) in *.
  assert (Nth : nth_error (map fp l) (length a) = option_map fp (head_opt b)).
  { rewrite <- Ap, map_app, nth_error_app2 by (rewrite map_length; lia). rewrite map_length, Nat.sub_diag.
    destruct b; reflexivity. }
  rewrite Nth.
  assert (Cond : (nr && (Z.of_nat (length a) <? Z.of_nat (length l))%Z
      && match option_map fp (head_opt b) with Some q => xq_eqb (fst (fp p)) (fst q) | None => false end)
    = (nr && match head_opt b with Some q => Qceqb (fst p) (fst q) | None => false end)).
  { destruct b as [|q b']; cbn [head_opt option_map]; [ now rewrite !andb_false_r | ].
    replace (Z.of_nat (length a) <? Z.of_nat (length l))%Z with true; [ now rewrite andb_true_r | ].
    symmetry. apply Z.ltb_lt. rewrite <- Ap, app_length. cbn. lia. }
  change (Fin (fst p)) with (fst (fp p)). etransitivity; [ apply (f_equal (fun c : bool => if c then _ else _) Cond) | ]. cbv beta.
  destruct (nr && match head_opt b with Some q => Qceqb (fst p) (fst q) | None => false end); [ reflexivity | ]. f_equal. unfold list_insert.
  rewrite map_app. cbn [map]. f_equal; [ | f_equal ].
  - rewrite <- Ap, map_app, firstn_app, map_length, Nat.sub_diag, firstn_O, app_nil_r.
    rewrite firstn_all2; [ reflexivity | rewrite map_length; lia ].
  - rewrite <- Ap, map_app, skipn_app, map_length, Nat.sub_diag. rewrite skipn_all2 by (rewrite map_length; lia). reflexivity.
Qed.

Lemma sorted_app (a b : list qpt) : StronglySorted by_x a -> StronglySorted by_x b ->
  (forall p q, In p a -> In q b -> by_x p q) -> StronglySorted by_x (a ++ b).
Proof.
  induction a as [|p a IH]; intros Sa Sb H; [ exact Sb | ]. inversion Sa as [ | ? ? Sa' Fa ]; subst.
  cbn. constructor; [ apply IH; auto; intros; apply H; auto; now right | ].
  apply Forall_app. split; [ exact Fa | ]. apply Forall_forall. intros q Hq. apply H; [ now left | exact Hq ].
Qed.
Lemma sorted_app_inv (a b : list qpt) : StronglySorted by_x (a ++ b) ->
  StronglySorted by_x a /\ StronglySorted by_x b.
Proof.
  induction a as [|p a IH]; intro H; [ split; [ constructor | exact H ] | ].
  inversion H as [ | ? ? S F ]; subst. destruct (IH S) as [ A B ]. split; [ | exact B ].
  constructor; [ exact A | ]. apply Forall_app in F. apply F.
Qed.

(** The list stays sorted and the point is inserted once, to the left of its
    equals; with no_repeat, not at all if its x is there. *)
Lemma insort_spec nr l p : StronglySorted by_x l ->
  exists l', insort (map fp l) (fp p) 0 None nr = Ok (map fp l') /\ StronglySorted by_x l' /\
    (if nr && existsb (fun q : qpt => Qceqb (fst q) (fst p)) l then l' = l
     else exists a b, l = a ++ b /\ l' = a ++ p :: b /\
       Forall (fun q => fst q < fst p) a /\ Forall (fun q => fst p <= fst q) b).
Proof.
  intro So. exists (ins nr l p). split; [ now apply insort_ok | ].
  pose proof (cut_app (fst p) l) as Ap. pose proof (cut_lt (fst p) l) as Lt. pose proof (cut_ge (fst p) l So) as Ge.
  unfold ins. set (a := fst (cut (fst p) l)) in *. set (b := snd (cut (fst p) l)) in *.
  assert (Sab : StronglySorted by_x (a ++ b)) by now rewrite Ap.
  assert (Head : (match head_opt b with Some q => Qceqb (fst p) (fst q) | None => false end)
                 = existsb (fun q : qpt => Qceqb (fst q) (fst p)) l).
  { rewrite <- Ap, existsb_app.
    assert (Na : existsb (fun q : qpt => Qceqb (fst q) (fst p)) a = false).
    { apply not_true_iff_false. intro E. apply existsb_exists in E. destruct E as (q & Hq & E).
         apply Qceqb_true in E. rewrite Forall_forall in Lt. specialize (Lt q Hq). rewrite E in Lt. revert Lt. apply Qcle_not_lt, Qcle_refl. }
    rewrite Na. cbn [orb]. destruct b as [|q b']; [ reflexivity | ]. cbn [head_opt existsb].
    destruct (Qceqb (fst p) (fst q)) eqn:E.
    - apply Qceqb_true in E. rewrite E, Qceqb_refl. reflexivity.
    - replace (Qceqb (fst q) (fst p)) with false by (symmetry; apply Qceqb_false; apply Qceqb_false in E; congruence).
      cbn [orb]. symmetry. apply not_true_iff_false. intro X. apply existsb_exists in X. destruct X as (r & Hr & X).
      apply Qceqb_true in X. pose proof (Forall_inv Ge) as G1. cbv beta in G1.
      destruct (sorted_app_inv a (q :: b') Sab) as [ _ Sb ]. apply StronglySorted_inv in Sb. destruct Sb as [ _ F1 ].
      rewrite Forall_forall in F1. specialize (F1 r Hr). unfold by_x in F1. rewrite X in F1.
      apply Qceqb_false in E. apply E. now apply Qcle_antisym. }
  rewrite Head. destruct (nr && existsb _ l); [ auto | ]. split.
  - destruct (sorted_app_inv a b Sab) as [ Sa Sb ].
    apply sorted_app; [ exact Sa | | ].
    + constructor; [ exact Sb | ]. exact Ge.
    + intros u v Hu [ <- | Hv ]; unfold by_x.
      * rewrite Forall_forall in Lt. apply Qclt_le_weak. auto.
      * rewrite Forall_forall in Lt, Ge. eapply Qcle_trans; [ apply Qclt_le_weak; apply Lt; exact Hu | auto ].
  - exists a, b. auto.
Qed.

(** ** Tolerances *)
Definition Qca (q : Qc) : Qc := if Qcleb 0 q then q else - q.
Lemma Qca_nonneg q : 0 <= Qca q.
Proof. unfold Qca. destruct (Qcleb 0 q) eqn:E; [ apply Qcleb_true in E | apply Qcleb_false in E ]; qc_lra. Qed.
Lemma Qca_pos q : 0 <= q -> Qca q = q.
Proof. intro H. unfold Qca. apply Qcleb_true in H. now rewrite H. Qed.
Lemma Qca_neg q : q <= 0 -> Qca q = - q.
Proof. intro H. unfold Qca. destruct (Qcleb 0 q) eqn:E; [ apply Qcleb_true in E; qc_lra | reflexivity ]. Qed.
Lemma Qca_cases q : (0 <= q /\ Qca q = q) \/ (q < 0 /\ Qca q = - q).
Proof. unfold Qca. destruct (Qcleb 0 q) eqn:E; [ apply Qcleb_true in E | apply Qcleb_false in E ]; auto. Qed.
Lemma fin_abs q : n_abs (Fin q) = Fin (Qca q).
Proof. reflexivity. Qed.

Lemma fin_gtb a b : (Fin a >? Fin b)%num = Qcltb b a.
Proof. reflexivity. Qed.
Lemma fin_ltb a b : (Fin a <? Fin b)%num = Qcltb a b.
Proof. reflexivity. Qed.
Lemma Qca_mul a b : Qca (a * b) = Qca a * Qca b.
Proof. destruct (Qca_cases a) as [[A ->]|[A ->]], (Qca_cases b) as [[B ->]|[B ->]].
  - apply Qca_pos. qc_nra.
  - rewrite Qca_neg by qc_nra. ring.
  - rewrite Qca_neg by qc_nra. ring.
  - rewrite Qca_pos by qc_nra. ring.
Qed.
(** the quotient test is a relative bound on the difference *)
Lemma quot_bound y y0 r : y0 <> 0 -> (Qca (y / y0 - 1) <= r <-> Qca (y - y0) <= r * Qca y0).
Proof.
  intro H. pose proof (Qc_div_cancel y y0 H) as E.
  assert (P : 0 < Qca y0).
  { pose proof (Qca_nonneg y0) as N. destruct (Qca_cases y0) as [[A B]|[A B]]; rewrite B in *; [ | qc_lra ].
    destruct (Qcle_lt_or_eq _ _ A) as [ L | L ]; [ exact L | congruence ]. }
  assert (M : Qca (y - y0) = Qca (y / y0 - 1) * Qca y0).
  { rewrite <- Qca_mul. f_equal. rewrite <- E at 1. ring. }
  rewrite M. generalize (Qca (y / y0 - 1)). intro w. split; intro L.
  - apply Qcmult_le_compat_r; [ exact L | now apply Qclt_le_weak ].
  - eapply Qcmult_lt_0_le_reg_r; eauto.
Qed.

Definition abs_ok (a : option Qc) (y y0 : Qc) : Prop := match a with Some a => Qca (y - y0) <= a | None => True end.
Definition rel_ok (eps : Qc) (r : option Qc) (y y0 : Qc) : Prop :=
  match r with Some r => Qca y0 <= eps \/ Qca y <= eps \/ Qca (y - y0) <= r * Qca y0 | None => True end.
Definition fo (o : option Qc) : option xq := option_map Fin o.

Lemma within_spec eps r a y y0 : 0 <= eps ->
  exists b, within_tol (Fin eps) (fo r) (fo a) (Some (Fin y)) (Some (Fin y0)) = Ok b /\
            (b = true <-> abs_ok a y y0 /\ rel_ok eps r y y0).
Proof.
  intro He. unfold within_tol.
  assert (A : (match fo a with Some a => n_abs (n_sub (Fin y) (Fin y0)) >? a | None => false end)%num = true <-> ~ abs_ok a y y0).
  { destruct a as [ a | ]; cbn -[n_abs]; [ | split; [ discriminate | intro X; exfalso; now apply X ] ].
    rewrite fin_abs. cbn. rewrite Qcltb_true. split; [ intros L M; exact (Qcle_not_lt _ _ M L) | apply Qcnot_le_lt ]. }
  destruct (match fo a with Some a => n_abs (n_sub (Fin y) (Fin y0)) >? a | None => false end)%num.
  - exists false. split; [ reflexivity | ]. split; [ discriminate | ]. intros [ X _ ]. exfalso. now apply A.
  - assert (A' : abs_ok a y y0).
    { destruct a as [ a | ]; [ | exact Logic.I ]. unfold abs_ok in *. apply Qcnot_lt_le. intro L.
      assert (false = true) by (apply A; now apply Qclt_not_le). discriminate. }
    clear A. destruct r as [ r | ]; cbn [fo option_map].
    2: { exists true. split; [ reflexivity | ]. split; auto. intros _. split; [ exact A' | exact Logic.I ]. }
    rewrite !fin_abs. rewrite !fin_gtb.
    destruct (Qcltb eps (Qca y0)) eqn:E0; [ destruct (Qcltb eps (Qca y)) eqn:E1 | ]; cbn [andb].
    + apply Qcltb_true in E0, E1.
      assert (Z : y0 <> 0) by (intros ->; change (Qca 0) with (Q2Qc 0) in E0; qc_lra).
      cbn [n_div XQ]. rewrite xq_div_fin by exact Z. cbn [rbind]. eexists. split; [ reflexivity | ].
      change (n_one (T := xq)) with (Fin 1).
      match goal with |- context [ n_abs ?e ] => change e with (Fin (y / y0 - 1)) end.
      rewrite fin_abs, fin_gtb, negb_true_iff, Qcltb_false, quot_bound by exact Z.
      unfold rel_ok. split.
      * intro L. split; [ exact A' | auto ].
      * intros [ _ [ L | [ L | L ] ] ]; [ exfalso; exact (Qcle_not_lt _ _ L E0) | exfalso; exact (Qcle_not_lt _ _ L E1) | exact L ].
    + apply Qcltb_false in E1. exists true. split; [ reflexivity | ]. unfold rel_ok. split; auto.
    + apply Qcltb_false in E0. exists true. split; [ reflexivity | ]. unfold rel_ok. split; auto.
Qed.

(** _is_strictly_convex_points for points with increasing x. *)
Lemma convex_spec eps r a p0 p1 p2 : 0 <= eps -> fst p0 <> fst p2 ->
  exists b y0, strictly_convex (Fin eps) (fo r) (fo a) (fp p0) (fp p1) (fp p2) = Ok b /\
    on_seg (p0, p2) (fst p1, y0) /\
    (b = true <-> (match a with Some a => snd p1 + a <= y0 | None => True end) /\
                  (match r with Some r => Qca y0 <= eps \/ Qca (snd p1) <= eps \/ r <= y0 / snd p1 - 1 | None => True end)).
Proof.
  intros He Hx. unfold strictly_convex.
  pose proof (seg_y_slope (p0, p2) (fst p1) Hx) as Y. pose proof (on_seg_y (p0, p2) (fst p1) Hx) as O.
  cbn [fst snd] in Y, O. set (y0 := snd p0 + (snd p2 - snd p0) / (fst p2 - fst p0) * (fst p1 - fst p0)) in *.
  change (seg_y (fp p0, fp p2) (fst (fp p1))) with (seg_y (fs (p0, p2)) (Fin (fst p1))). rewrite Y. cbn [rbind].
  change (snd (fp p1)) with (Fin (snd p1)). set (y := snd p1).
  destruct (match fo a with Some a => n_sub (Fin y0) (Fin y) <? a | None => false end)%num eqn:A.
  - exists false, y0. split; [ reflexivity | ]. split; [ exact O | ]. split; [ discriminate | ]. intros [ X _ ].
    destruct a as [ a | ]; [ | discriminate ]. cbn in A. apply Qcltb_true in A. qc_lra.
  - assert (A' : match a with Some a => y + a <= y0 | None => True end).
    { destruct a as [ a | ]; [ | exact Logic.I ]. cbn in A. apply Qcltb_false in A. qc_lra. }
    destruct r as [ r | ]; cbn [fo option_map].
    2: { exists true, y0. split; [ reflexivity | ]. split; [ exact O | ]. split; auto. }
    rewrite !fin_abs, !fin_gtb.
    destruct (Qcltb eps (Qca y0)) eqn:E0; [ destruct (Qcltb eps (Qca y)) eqn:E1 | ]; cbn [andb].
    + apply Qcltb_true in E0, E1.
      assert (Z : y <> 0) by (intro Z; rewrite Z in E1; change (Qca 0) with (Q2Qc 0) in E1; qc_lra).
      cbn [n_div XQ]. rewrite xq_div_fin by exact Z. cbn [rbind]. eexists; exists y0. split; [ reflexivity | ]. split; [ exact O | ].
      change (n_one (T := xq)) with (Fin 1).
      match goal with |- context [ n_ltb ?e (Fin r) ] => change e with (Fin (y0 / y - 1)) end.
      rewrite fin_ltb, negb_true_iff, Qcltb_false. split.
      * intro L. split; [ exact A' | auto ].
      * intros [ _ [ L | [ L | L ] ] ]; [ exfalso; exact (Qcle_not_lt _ _ L E0) | exfalso; exact (Qcle_not_lt _ _ L E1) | exact L ].
    + apply Qcltb_false in E1. exists true, y0. split; [ reflexivity | ]. split; [ exact O | ]. split; auto.
    + apply Qcltb_false in E0. exists true, y0. split; [ reflexivity | ]. split; [ exact O | ]. split; auto.
Qed.
(** With a positive absolute tolerance, or with values above EPSILON_ZERO and a
    positive relative one, a positive answer does mean that the middle point is
    below the line. *)
Lemma convex_below eps r a p0 p1 p2 y0 : 0 <= eps -> fst p0 <> fst p2 ->
  on_seg (p0, p2) (fst p1, y0) ->
  (match a with Some a => 0 < a | None => False end) \/
    (match r with Some r => 0 < r | None => False end /\ eps < y0 /\ eps < snd p1) ->
  strictly_convex (Fin eps) (fo r) (fo a) (fp p0) (fp p1) (fp p2) = Ok true -> snd p1 < y0.
Proof.
  intros He Hx O Hyp R. destruct (convex_spec eps r a p0 p1 p2 He Hx) as (b & y & R' & O' & Sp).
  rewrite R in R'. injection R' as <-. destruct Sp as [ Sp _ ]. destruct (Sp eq_refl) as [ A B ].
  assert (y = y0).
  { unfold on_seg in O, O'. cbn in O, O'. rewrite <- O' in O. apply Qc_mul_cancel in O; [ | apply Qc_sub_n0; auto ].
    replace y with (y - snd p0 + snd p0) by ring. rewrite <- O. ring. }
  subst y. destruct Hyp as [ H | (H & E0 & E1) ].
  - destruct a as [ a | ]; [ qc_lra | contradiction ].
  - destruct r as [ r | ]; [ | contradiction ].
    assert (P0 : 0 <= y0) by qc_lra. assert (P1 : 0 < snd p1) by qc_lra.
    rewrite (Qca_pos y0 P0), (Qca_pos (snd p1) (Qclt_le_weak _ _ P1)) in B.
    destruct B as [ B | [ B | B ] ]; [ exfalso; exact (Qcle_not_lt _ _ B E0) | exfalso; exact (Qcle_not_lt _ _ B E1) | ].
    assert (Z : snd p1 <> 0) by (intro Z; rewrite Z in P1; revert P1; apply Qcle_not_lt, Qcle_refl).
    pose proof (Qc_div_cancel y0 (snd p1) Z) as K. set (w := y0 / snd p1) in *. rewrite <- K.
    assert (W : 1 < w) by qc_lra. clear - W P1. qc_nra.
Qed.

(** ** The tolerance band of a TrendLine *)
Section Band.
Variables (eps : Qc) (wd : xq) (up : bool) (mp : Z) (di ln : xq) (r a : option Qc).
Let g : cfg xq := mkG wd up mp di ln (fo r) (fo a).
Definition tmin (y : Qc) : Qc :=
  match a, (if Qcltb eps (Qca y) then r else None) with
  | None, None => y
  | Some a, None => y - a
  | None, Some r => y * (1 - r)
  | Some a, Some r => if Qcltb (y - a) (y * (1 - r)) then y * (1 - r) else y - a
  end.
Definition tmax (y : Qc) : Qc :=
  match a, (if Qcltb eps (Qca y) then r else None) with
  | None, None => y
  | Some a, None => y + a
  | None, Some r => y * (1 + r)
  | Some a, Some r => if Qcltb (y * (1 + r)) (y + a) then y * (1 + r) else y + a
  end.
Lemma tol_min_fin y : tol_min (Fin eps) g (Fin y) = Fin (tmin y).
Proof.
  unfold tol_min, tmin, g. cbn [g_abs g_rel]. rewrite fin_abs, fin_gtb.
  destruct a as [ av | ], r as [ rv | ], (Qcltb eps (Qca y)); cbn [fo option_map]; try reflexivity.
  unfold n_max. cbn. unfold n_gtb. cbn. destruct (Qcltb _ _); reflexivity.
Qed.
Lemma tol_max_fin y : tol_max (Fin eps) g (Fin y) = Fin (tmax y).
Proof.
  unfold tol_max, tmax, g. cbn [g_abs g_rel]. rewrite fin_abs, fin_gtb.
  destruct a as [ av | ], r as [ rv | ], (Qcltb eps (Qca y)); cbn [fo option_map]; try reflexivity.
  unfold n_min. cbn. destruct (Qcltb _ _); reflexivity.
Qed.
Definition nonneg_o (o : option Qc) : Prop := match o with Some q => 0 <= q | None => True end.
Lemma band_around y : nonneg_o r -> nonneg_o a -> (0 <= y \/ r = None) -> tmin y <= y /\ y <= tmax y.
Proof.
  intros R A Y. unfold tmin, tmax.
  assert (M : forall rv, r = Some rv -> y * (1 - rv) <= y /\ y <= y * (1 + rv)).
  { intros rv E. rewrite E in R. cbn in R. destruct Y as [ Y | Y ]; [ | congruence ]. clear - R Y. split; qc_nra. }
  destruct (if Qcltb eps (Qca y) then r else None) as [ rv | ] eqn:Er.
  - assert (Er' : r = Some rv) by (destruct (Qcltb eps (Qca y)); [ exact Er | discriminate ]).
    destruct (M rv Er') as [ M1 M2 ]. destruct a as [ av | ]; cbn in A; [ | now split ].
    assert (B1 : y - av <= y) by (clear - A; qc_lra). assert (B2 : y <= y + av) by (clear - A; qc_lra).
    split; match goal with |- context [ if ?c then _ else _ ] => destruct c end; assumption.
  - destruct a as [ av | ]; cbn in A; split; try apply Qcle_refl; qc_lra.
Qed.
Lemma method_inverted y ref :
  method_within (Fin eps) g (Some (Fin y)) (Some (Fin ref)) = true <-> y < tmin ref \/ tmax ref < y.
Proof.
  unfold method_within. rewrite tol_min_fin, tol_max_fin, fin_ltb, fin_gtb, orb_true_iff, !Qcltb_true. reflexivity.
Qed.
End Band.
