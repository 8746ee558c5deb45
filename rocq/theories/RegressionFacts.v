(** Least squares over the rationals, and regression over Points. *)
From Coq Require Import List ZArith QArith Qcanon Bool Lia Field.
From Verif Require Import Base Num NumFacts Interval IntervalFacts Curve Points PointsSpec PointsIdx PointsQuery PointsDom PointsOps PointsCover PointsDec PointsHist PointsTop Combine ScanFacts ScanInv ScanTf SmaFacts SmaInv Regression.
Import ListNotations.
Open Scope Qc_scope.

(** ** Sums *)
Definition qsum (f : Qc * Qc -> Qc) (l : list (Qc * Qc)) : Qc := fold_right (fun p a => f p + a) 0 l.
Lemma qsum_cons f p l : qsum f (p :: l) = f p + qsum f l.
Proof. reflexivity. Qed.
Lemma qsum_nil f : qsum f [] = 0.
Proof. reflexivity. Qed.
Lemma qsum_ext f g l : (forall p, In p l -> f p = g p) -> qsum f l = qsum g l.
Proof. induction l as [|p l IH]; intros H; [reflexivity|]. rewrite !qsum_cons, (H p) by now left. now rewrite IH by (intros; apply H; now right). Qed.
Lemma qsum_add f g l : qsum (fun p => f p + g p) l = qsum f l + qsum g l.
Proof. induction l as [|p l IH]; [rewrite !qsum_nil; ring|]. rewrite !qsum_cons, IH. ring. Qed.
Lemma qsum_scale k f l : qsum (fun p => k * f p) l = k * qsum f l.
Proof. induction l as [|p l IH]; [rewrite !qsum_nil; ring|]. rewrite !qsum_cons, IH. ring. Qed.
Lemma square_pos (a : Qc) : 0 <= a * a.
Proof. qc_nra. Qed.
Lemma square_zero (a : Qc) : a * a = 0 -> a = 0.
Proof. intros H. destruct (Qcmult_integral _ _ H); auto. Qed.
Lemma qsum_pos f l : (forall p, In p l -> 0 <= f p) -> 0 <= qsum f l.
Proof.
  induction l as [|p l IH]; intros H; [apply Qcle_refl|]. rewrite qsum_cons.
  assert (0 <= f p) by (apply H; now left). assert (0 <= qsum f l) by (apply IH; intros; apply H; now right). qc_lra.
Qed.
Lemma qsum_zero f l : (forall p, In p l -> 0 <= f p) -> qsum f l = 0 -> forall p, In p l -> f p = 0.
Proof.
  induction l as [|q l IH]; intros H Z p I; [contradiction|]. rewrite qsum_cons in Z.
  assert (A : 0 <= f q) by (apply H; now left). assert (B : 0 <= qsum f l) by (apply qsum_pos; intros; apply H; now right).
  destruct I as [<-|I]; [qc_lra|]. apply IH; auto; [intros; apply H; now right|qc_lra].
Qed.

(** ** Least squares *)
(** the sum of the squared residuals of the line y = m x + c *)
Definition sse (l : list (Qc * Qc)) (m c : Qc) : Qc := qsum (fun p => (snd p - (m * fst p + c)) * (snd p - (m * fst p + c))) l.
Definition fits (l : list (Qc * Qc)) (m c : Qc) : Prop := forall m' c', sse l m c <= sse l m' c'.
(** at least two different positions *)
Definition spread (l : list (Qc * Qc)) : Prop := exists p q, In p l /\ In q l /\ fst p <> fst q.

Definition normal (l : list (Qc * Qc)) (m c : Qc) : Prop :=
  qsum (fun p => snd p - (m * fst p + c)) l = 0 /\ qsum (fun p => fst p * (snd p - (m * fst p + c))) l = 0.
Lemma sse_shift l m c m' c' : normal l m c -> sse l m' c' = sse l m c + qsum (fun p => ((m' - m) * fst p + (c' - c)) * ((m' - m) * fst p + (c' - c))) l.
Proof.
  intros [A B]. unfold sse.
  rewrite (qsum_ext (fun p => (snd p - (m' * fst p + c')) * (snd p - (m' * fst p + c')))
    (fun p => ((snd p - (m * fst p + c)) * (snd p - (m * fst p + c)) +
       ((m' - m) * fst p + (c' - c)) * ((m' - m) * fst p + (c' - c))) +
       ((- (1 + 1) * (m' - m)) * (fst p * (snd p - (m * fst p + c))) + (- (1 + 1) * (c' - c)) * (snd p - (m * fst p + c)))))
    by (intros; ring).
  rewrite qsum_add, qsum_add. rewrite (qsum_add (fun p => - (1 + 1) * (m' - m) * (fst p * (snd p - (m * fst p + c))))).
  rewrite qsum_scale, qsum_scale, A, B. ring.
Qed.
Lemma normal_fits l m c : normal l m c -> fits l m c.
Proof.
  intros N m' c'. rewrite (sse_shift l m c m' c' N).
  assert (0 <= qsum (fun p => ((m' - m) * fst p + (c' - c)) * ((m' - m) * fst p + (c' - c))) l) by (apply qsum_pos; intros; apply square_pos).
  qc_lra.
Qed.
Lemma normal_unique l m c m' c' : spread l -> normal l m c -> fits l m' c' -> m' = m /\ c' = c.
Proof.
  intros (p & q & P & Q & D) N F. pose proof (F m c) as L. rewrite (sse_shift l m c m' c' N) in L.
  set (g := fun p : Qc * Qc => ((m' - m) * fst p + (c' - c)) * ((m' - m) * fst p + (c' - c))) in *.
  assert (G : forall r, In r l -> 0 <= g r) by (intros; apply square_pos).
  assert (Z : qsum g l = 0) by (pose proof (qsum_pos g l G); qc_lra).
  pose proof (square_zero _ (qsum_zero g l G Z p P)) as E1. pose proof (square_zero _ (qsum_zero g l G Z q Q)) as E2.
  assert (E : (m' - m) * (fst p - fst q) = 0) by (transitivity (((m' - m) * fst p + (c' - c)) - ((m' - m) * fst q + (c' - c))); [ring|rewrite E1, E2; ring]).
  destruct (Qcmult_integral _ _ E) as [X|X]; [|exfalso; apply D; qc_lra].
  rewrite X in E1. assert (E3 : c' - c = 0) by (rewrite <- E1; ring). clear - X E3. split; qc_lra.
Qed.

(** the closed form *)
Definition count (l : list (Qc * Qc)) : Qc := qsum (fun _ => 1) l.
Definition det l : Qc := count l * qsum (fun p => fst p * fst p) l - qsum fst l * qsum fst l.
Definition lsq_slope l : Qc := (count l * qsum (fun p => fst p * snd p) l - qsum fst l * qsum snd l) / det l.
Definition lsq_const l : Qc := (qsum snd l - lsq_slope l * qsum fst l) / count l.
Lemma count_pos l : l <> [] -> 0 < count l.
Proof.
  destruct l as [|p l]; [congruence|]. intros _. unfold count. rewrite qsum_cons.
  assert (0 <= qsum (fun _ => 1) l) by (apply qsum_pos; intros; apply Qcleb_true; reflexivity).
  assert (0 < 1) by (apply Qcltb_true; reflexivity). qc_lra.
Qed.
Lemma det_nonzero l : spread l -> det l <> 0.
Proof.
  intros (p & q & P & Q & D) Z.
  assert (C : 0 < count l) by (apply count_pos; intros ->; contradiction).
  assert (C' : count l <> 0) by (intros E; rewrite E in C; revert C; apply Qcle_not_lt, Qcle_refl).
  set (mu := qsum fst l / count l).
  set (g := fun r : Qc * Qc => (fst r - mu) * (fst r - mu)).
  assert (E : qsum g l = 0).
  { unfold g. rewrite (qsum_ext _ (fun r => fst r * fst r + ((- (1 + 1) * mu) * fst r + (mu * mu) * 1))) by (intros; ring).
    rewrite qsum_add, qsum_add, qsum_scale, qsum_scale. fold (count l).
    apply (f_equal (fun t => t / count l)) in Z. unfold det in Z. unfold mu.
    transitivity ((count l * qsum (fun p : Qc * Qc => fst p * fst p) l - qsum fst l * qsum fst l) / count l); [field; auto|].
    rewrite Z. field. auto. }
  assert (G : forall r, In r l -> 0 <= g r) by (intros; apply square_pos).
  pose proof (square_zero _ (qsum_zero g l G E p P)). pose proof (square_zero _ (qsum_zero g l G E q Q)).
  apply D. qc_lra.
Qed.
Lemma closed_normal l : spread l -> normal l (lsq_slope l) (lsq_const l).
Proof.
  intros S. pose proof (det_nonzero l S) as Z.
  assert (C' : count l <> 0).
  { destruct S as (p & _ & P & _). assert (C : 0 < count l) by (apply count_pos; intros ->; contradiction).
    intros E; rewrite E in C; revert C; apply Qcle_not_lt, Qcle_refl. }
  set (m := lsq_slope l). set (c := lsq_const l).
  assert (N1 : qsum snd l = m * qsum fst l + c * count l) by (unfold c, lsq_const; fold m; field; auto).
  assert (N2 : qsum (fun p => fst p * snd p) l = m * qsum (fun p => fst p * fst p) l + c * qsum fst l).
  { assert (E : m * det l = count l * qsum (fun p => fst p * snd p) l - qsum fst l * qsum snd l) by (unfold m, lsq_slope; field; auto).
    rewrite N1 in E. unfold det in E.
    assert (X : count l * (qsum (fun p => fst p * snd p) l - (m * qsum (fun p => fst p * fst p) l + c * qsum fst l)) = 0).
    { transitivity ((count l * qsum (fun p => fst p * snd p) l - qsum fst l * (m * qsum fst l + c * count l)) - m * (count l * qsum (fun p => fst p * fst p) l - qsum fst l * qsum fst l)); [ring|].
      rewrite E. ring. }
    destruct (Qcmult_integral _ _ X) as [X'|X']; [contradiction|]. qc_lra. }
  split.
  - rewrite (qsum_ext _ (fun p => snd p + ((- m) * fst p + (- c) * 1))) by (intros; ring).
    rewrite qsum_add, qsum_add, qsum_scale, qsum_scale. fold (count l). rewrite N1. ring.
  - rewrite (qsum_ext _ (fun p => fst p * snd p + ((- m) * (fst p * fst p) + (- c) * fst p))) by (intros; ring).
    rewrite qsum_add, qsum_add, qsum_scale, qsum_scale. rewrite N2. ring.
Qed.
Theorem lsq_exists l : spread l -> fits l (lsq_slope l) (lsq_const l).
Proof. intros S. now apply normal_fits, closed_normal. Qed.
Theorem lsq_unique l m c m' c' : spread l -> fits l m c -> fits l m' c' -> m = m' /\ c = c'.
Proof.
  intros S A B. destruct (normal_unique _ _ _ _ _ S (closed_normal l S) A) as [-> ->].
  destruct (normal_unique _ _ _ _ _ S (closed_normal l S) B) as [-> ->]. auto.
Qed.

(** ** regress *)
Definition fq (p : Qc * Qc) : xq * xq := (Fin (fst p), Fin (snd p)).
(** what numpy's lstsq promises: the least-squares line *)
Definition lstsq_ok (lstsq : list (xq * xq) -> res (xq * xq)) : Prop :=
  forall l, spread l -> exists m c, lstsq (map fq l) = Ok (Fin m, Fin c) /\ fits l m c.
(** the line y = m x + c *)
Definition is_line (ln : line xq) (m c : Qc) : Prop :=
  l_slope ln = Fin m /\ forall q, line_y ln (Fin q) = Fin (m * q + c).

Lemma all_values_dots d : all_values (dots d) = Some (map fq d).
Proof. induction d as [|[x y] d IH]; [reflexivity|]. change (dots ((x, y) :: d)) with ((Fin x, Some (Fin y)) :: dots d). cbn [all_values]. now rewrite IH. Qed.
Lemma all_values_none (l : list (xq * option xq)) x : In (x, None) l -> all_values l = None.
Proof.
  induction l as [|[a [b|]] l IH]; intros I; [contradiction| |reflexivity]. destruct I as [I|I]; [discriminate|]. cbn. now rewrite IH.
Qed.
Lemma all_values_length (l : list (xq * option xq)) m : all_values l = Some m -> length m = length l.
Proof.
  revert m. induction l as [|[a [b|]] l IH]; intros m E; cbn in E; [injection E as <-; reflexivity| |discriminate].
  destruct (all_values l) as [m'|]; [|discriminate]. injection E as <-. cbn. now rewrite IH.
Qed.

Lemma init_args const slope p1 p2 pts (l : line xq) : line_args const slope p1 p2 pts = Ok l -> exists l', line_init const slope p1 p2 pts = Ok l' /\
  l_slope l' = l_slope l /\ forall x, line_y l' x = line_y l x.
Proof.
  intros E. unfold line_init, line_set. rewrite E. cbn [rbind]. unfold line_put.
  match goal with |- context [if ?b then _ else _] => destruct b eqn:B end.
  - apply andb_prop in B as [B B3]. apply andb_prop in B as [B1 B2]. cbn in B1, B2, B3.
    apply xq_eqb_eq in B1, B2, B3. exists (mkL n_zero n_zero n_zero). split; [reflexivity|].
    destruct l as [a b c]. cbn in *. subst. split; reflexivity.
  - destruct (begin_update _ _) as [u b]. destruct (end_update _ _) as [u' b']. cbn. exists l. auto.
Qed.

Section Regress.
Variable lstsq : list (xq * xq) -> res (xq * xq).
Hypothesis OK : lstsq_ok lstsq.

Theorem regress_fits d : spread d -> exists ln m c, regress lstsq (dots d) = Ok (Some ln) /\ is_line ln m c /\ fits d m c.
Proof.
  intros S. unfold regress. rewrite all_values_dots. destruct d as [|p [|q [|r d]]].
  - destruct S as (? & ? & [] & _).
  - destruct S as (a & b & [<-|[]] & [<-|[]] & D). congruence.
  - destruct S as (a & b & A & B & D). assert (NE : fst p <> fst q).
    { destruct A as [<-|[<-|[]]], B as [<-|[<-|[]]]; congruence. }
    destruct p as [x1 y1], q as [x2 y2]. cbn [fst] in NE. clear A B D a b.
    assert (NZ : x2 - x1 <> 0) by (intros Z; apply NE; clear - Z; qc_lra).
    set (m := (y2 - y1) / (x2 - x1)). set (c := y1 - m * x1).
    assert (E : line_args None None (Some (fq (x1, y1))) (Some (fq (x2, y2))) None = Ok (mkL (Fin x1) (Fin y1) (Fin m))).
    { unfold line_args. cbn. replace (Qceqb x2 x1) with false by (symmetry; apply Qceqb_false; congruence). cbn.
      replace (Qceqb (x2 - x1) 0) with false by (symmetry; now apply Qceqb_false). reflexivity. }
    destruct (init_args _ _ _ _ _ _ E) as (ln & E' & SL & Y). cbn [map]. rewrite E'. cbn [rbind].
    exists ln, m, c. split; [reflexivity|]. split; [split; [exact SL|]|].
    + intros q. rewrite Y. unfold line_y. cbn. f_equal. unfold c. ring.
    + apply normal_fits. assert (R1 : y1 - (m * x1 + c) = 0) by (unfold c; ring).
      assert (R2 : y2 - (m * x2 + c) = 0). { transitivity (y2 - y1 - m * (x2 - x1)); [unfold c; ring|]. unfold m. field. auto. }
      unfold normal, qsum. cbn [fold_right fst snd]. rewrite R1, R2. split; ring.
  - set (l := p :: q :: r :: d) in *. destruct (OK l S) as (m & c & E & F).
    assert (E1 : line_args (Some (Fin c)) (Some (Fin m)) None None None = Ok (mkL (Fin 0) (Fin c) (Fin m))) by reflexivity.
    destruct (init_args _ _ _ _ _ _ E1) as (ln & E' & SL & Y).
    exists ln, m, c. split; [|split; [split; [exact SL|]|exact F]].
    + change (map fq l) with (fq p :: fq q :: fq r :: map fq d) at 1. cbv iota beta.
      change (fq p :: fq q :: fq r :: map fq d) with (map fq l). rewrite E. cbn [rbind fst snd]. rewrite E'. reflexivity.
    + intros x. rewrite Y. unfold line_y. cbn. f_equal. ring.
Qed.
Theorem regress_none l : (exists x, In (x, None) l) \/ (length l < 2)%nat -> regress lstsq l = Ok None.
Proof.
  unfold regress. intros [[x I]|L]; [now rewrite (all_values_none l x I)|].
  destruct (all_values l) as [m|] eqn:E; auto. apply all_values_length in E. destruct m as [|a [|b m]]; auto. cbn in E. lia.
Qed.
End Regress.

(** ** Over Points *)
Lemma filter_parts {Y} (f : Y -> bool) l1 l2 l3 : (forall x, In x l1 -> f x = false) -> (forall x, In x l2 -> f x = true) ->
  (forall x, In x l3 -> f x = false) -> filter f (l1 ++ l2 ++ l3) = l2.
Proof.
  intros A B C. rewrite !filter_app.
  assert (N : forall l, (forall x, In x l -> f x = false) -> filter f l = []).
  { induction l as [|a l IH]; intros H; cbn; auto. rewrite (H a) by now left. apply IH. intros; apply H; now right. }
  assert (KP : filter f l2 = l2).
  { clear A C. induction l2 as [|a l IH]; cbn; auto. rewrite (B a) by now left. f_equal. apply IH. intros; apply B; now right. }
  now rewrite (N _ A), (N _ C), KP, app_nil_r.
Qed.
Lemma first_nth {A} (l : list A) i k : (k < i)%nat -> nth_error (firstn i l) k = nth_error l k.
Proof.
  revert l k. induction i as [|i IH]; intros l k L; [lia|]. destruct l as [|a l]; [now destruct k|]. destruct k as [|k]; [reflexivity|].
  cbn. apply IH. lia.
Qed.
Lemma at_lt d i j : ascending (dots d) -> (i < j)%nat -> (j < length d)%nat -> at_x d i < at_x d j.
Proof.
  intros A L Lj. pose proof (asc_nth (dots d) i j _ _ A (dots_at d i ltac:(lia)) (dots_at d j Lj) L) as X. now apply lt_x_fin.
Qed.
Lemma at_le d i j : ascending (dots d) -> (i <= j)%nat -> (j < length d)%nat -> at_x d i <= at_x d j.
Proof.
  intros A L Lj. destruct (Nat.eq_dec i j) as [->|N]; [apply Qcle_refl|]. apply Qclt_le_weak, at_lt; auto. lia.
Qed.
Lemma at_in (d : list (Qc * Qc)) r : In r d -> exists k, (k < length d)%nat /\ fst r = at_x d k.
Proof.
  intros I. apply In_nth_error in I as [k K]. assert (L : (k < length d)%nat) by (apply nth_error_Some; congruence).
  exists k. split; auto. rewrite (at_nth d k L) in K. injection K as <-. reflexivity.
Qed.
(** the stored points between two of them *)
Lemma between_nth d i j : ascending (dots d) -> (i <= j)%nat -> (j < length d)%nat ->
  filter (fun r : Qc * Qc => i_contains (i_closed (Fin (at_x d i)) (Fin (at_x d j))) (Fin (fst r))) d = firstn (S j - i) (skipn i d).
Proof.
  intros A L Lj.
  assert (CC : forall q, i_contains (i_closed (Fin (at_x d i)) (Fin (at_x d j))) (Fin q) = true <-> at_x d i <= q /\ q <= at_x d j).
  { intros q. rewrite contains_iff by (try split; discriminate). unfold imem. cbn. unfold le_x. cbn. rewrite !Qcleb_true. tauto. }
  assert (CF : forall q, ~ (at_x d i <= q /\ q <= at_x d j) -> i_contains (i_closed (Fin (at_x d i)) (Fin (at_x d j))) (Fin q) = false).
  { intros q N. destruct (i_contains _ (Fin q)) eqn:E; auto. apply CC in E. contradiction. }
  assert (D : d = firstn i d ++ firstn (S j - i) (skipn i d) ++ skipn (S j - i) (skipn i d)) by now rewrite !firstn_skipn.
  match goal with |- filter ?g d = _ => set (f := g) end. rewrite D at 1. subst f. apply filter_parts.
  - intros r I. apply CF. intros [N _]. apply In_nth_error in I as [k K].
    assert (Lk : (k < i)%nat). { assert (X : nth_error (firstn i d) k <> None) by congruence. apply nth_error_Some in X. rewrite firstn_length in X. lia. }
    rewrite first_nth in K by auto. rewrite (at_nth d k ltac:(lia)) in K. injection K as <-. cbn [fst] in N.
    pose proof (at_lt d k i A Lk ltac:(lia)). revert N. now apply Qclt_not_le.
  - intros r I. apply CC. apply In_nth_error in I as [k K].
    assert (Lk : (k < S j - i)%nat). { assert (X : nth_error (firstn (S j - i) (skipn i d)) k <> None) by congruence. apply nth_error_Some in X. rewrite firstn_length in X. lia. }
    rewrite first_nth in K by auto. rewrite nth_error_skip in K. rewrite (at_nth d (i + k) ltac:(lia)) in K. injection K as <-. cbn [fst].
    split; apply at_le; auto; lia.
  - intros r I. apply CF. intros [_ N]. apply In_nth_error in I as [k K]. rewrite !nth_error_skip in K.
    assert (Lk : (i + (S j - i + k) < length d)%nat) by (apply nth_error_Some; congruence).
    rewrite (at_nth d _ Lk) in K. injection K as <-. cbn [fst] in N.
    pose proof (at_lt d j (i + (S j - i + k)) A ltac:(lia) Lk). revert N. now apply Qclt_not_le.
Qed.

Lemma coarse_span m d k : coarse m (dots d) -> (k < length d)%nat -> QcofZ (Z.of_nat k) * m <= at_x d k - at_x d 0.
Proof.
  intros C. induction k as [|k IH]; intros L.
  - cbn [Z.of_nat]. rewrite QcofZ_0. qc_lra.
  - pose proof (C _ _ _ _ _ (dots_at d k ltac:(lia)) (dots_at d (S k) L)) as G. specialize (IH ltac:(lia)).
    rewrite Nat2Z.inj_succ, <- Z.add_1_r, QcofZ_add, QcofZ_1.
    assert (E : (QcofZ (Z.of_nat k) + 1) * m = QcofZ (Z.of_nat k) * m + m) by ring. rewrite E. clear E. qc_lra.
Qed.
Lemma coarse_regular (s : pts xq num) d m : good s -> p_pts s = dots d -> coarse m (dots d) -> regular s (Some (Fin m)) None.
Proof.
  intros G P C h Hh. split; [|discriminate]. intros x [= <-].
  pose proof (proj1 (proj2 G)) as SI. rewrite Hh, P in SI.
  destruct d as [|p0 [|p1 d]]; [discriminate|discriminate|].
  set (l := p0 :: p1 :: d) in *.
  assert (LL : last_opt (dots l) = Some (Fin (at_x l (S (length d))), Some (Fin (at_y l (S (length d)))))).
  { rewrite last_opt_nth, dots_len. apply dots_at. cbn. lia. }
  unfold span_interval in SI. change (dots l) with (dot p0 :: dot p1 :: dots d) in SI at 1. cbv iota beta in SI. rewrite LL in SI.
  cbn [fst] in SI. rewrite dots_len in SI. change (fst (dot p0)) with (Fin (at_x l 0)) in SI.
  cbn [n_sub XQ xq_sub n_ofZ n_div xq_div] in SI.
  replace (Z.of_nat (length l) - 1)%Z with (Z.of_nat (S (length d))) in SI by (cbn [length l]; lia).
  set (n := Z.of_nat (S (length d))) in *. assert (NP : 0 < QcofZ n) by (rewrite <- QcofZ_0; apply QcofZ_lt; lia).
  assert (NZ : Qceqb (QcofZ n) 0 = false). { apply Qceqb_false. intros E. rewrite E in NP. revert NP. apply Qcle_not_lt, Qcle_refl. }
  rewrite NZ in SI. cbn [rbind] in SI. injection SI as <-. cbn. apply Qcltb_false.
  pose proof (coarse_span m l (S (length d)) C ltac:(cbn; lia)) as X. fold n in X.
  assert (E : (at_x l (S (length d)) - at_x l 0) / QcofZ n * QcofZ n = at_x l (S (length d)) - at_x l 0).
  { field. intros E. rewrite E in NP. revert NP. apply Qcle_not_lt, Qcle_refl. }
  rewrite <- E in X. clear - X NP. rewrite Qcmult_comm in X. revert X. apply Qcmult_lt_0_le_reg_r. exact NP.
Qed.

Section PointsRegression.
Variable lstsq : list (xq * xq) -> res (xq * xq).
Hypothesis OK : lstsq_ok lstsq.
Context (s : pts xq num) (d : list (Qc * Qc)) (m : Qc).
Hypothesis H : honest_history s.
Hypothesis P : p_pts s = dots d.
Hypothesis C : coarse m (dots d).

Lemma window_samples fuel D : iok D -> p_sample_points fuel s (Some D) (Some (Fin m)) None =
  Ok (dots (filter (fun r => i_contains D (Fin (fst r))) d)).
Proof.
  intros K. rewrite top_sample; auto.
  - rewrite P. unfold dots. now rewrite filter_map.
  - apply coarse_regular with d; auto using honest_history_good.
  - now intros ? [= <-].
Qed.
Theorem window_fits fuel D : iok D -> let w := filter (fun r => i_contains D (Fin (fst r))) d in
  (spread w -> exists ln M K, p_regression lstsq fuel s (Some D) (Some (Fin m)) None = Ok (Some ln) /\ is_line ln M K /\ fits w M K) /\
  ((length w < 2)%nat -> p_regression lstsq fuel s (Some D) (Some (Fin m)) None = Ok None).
Proof.
  intros K w. unfold p_regression. rewrite window_samples by auto. cbn [rbind]. split.
  - intros S. now apply regress_fits.
  - intros L. apply regress_none. right. now rewrite dots_len.
Qed.
Lemma asc_dots : ascending (dots d).
Proof. rewrite <- P. now apply honest_history_good in H as []. Qed.
Lemma spread_part i j : (i < j)%nat -> (j < length d)%nat -> spread (firstn (S j - i) (skipn i d)).
Proof.
  intros L Lj. exists (at_x d i, at_y d i), (at_x d j, at_y d j). split; [|split].
  - apply nth_error_In with 0%nat. rewrite first_nth by lia. rewrite nth_error_skip, Nat.add_0_r. apply at_nth. lia.
  - apply nth_error_In with (j - i)%nat. rewrite first_nth by lia. rewrite nth_error_skip. replace (i + (j - i))%nat with j by lia. now apply at_nth.
  - cbn. intros E. pose proof (at_lt d i j asc_dots L Lj) as X. rewrite E in X. revert X. apply Qcle_not_lt, Qcle_refl.
Qed.
Theorem part_fits fuel i j : (i < j)%nat -> (j < length d)%nat ->
  exists ln M K, p_regression lstsq fuel s (Some (i_closed (Fin (at_x d i)) (Fin (at_x d j)))) (Some (Fin m)) None = Ok (Some ln) /\
    is_line ln M K /\ fits (firstn (S j - i) (skipn i d)) M K.
Proof.
  intros L Lj. rewrite <- (between_nth d i j asc_dots) by lia. apply (window_fits fuel (i_closed (Fin (at_x d i)) (Fin (at_x d j)))).
  - split; discriminate.
  - rewrite (between_nth d i j asc_dots) by lia. now apply spread_part.
Qed.
End PointsRegression.
