(** Boundary points that are all on one line. *)
From Coq Require Import List ZArith Bool Lia QArith Qcanon Lqa Sorting.Sorted.
From Verif Require Import Base Num NumFacts Interval Points PointsIdx Trend TrendGeo TrendPred TrendLineInv.
Import ListNotations.
Open Scope bool_scope.
Open Scope Qc_scope.

Definition by_xs (p q : qpt) : Prop := fst p < fst q.
Definition col (m k : Qc) (p : qpt) : Prop := snd p = m * fst p + k.
Definition along (m k : Qc) (l : list qpt) : Prop := StronglySorted by_xs l /\ Forall (col m k) l.

Lemma col_on m k a b c : col m k a -> col m k b -> col m k c -> on_seg (a, c) b.
Proof. unfold col, on_seg. cbn. intros -> -> ->. ring. Qed.

Lemma asc_app (a b : list qpt) : StronglySorted by_xs a -> StronglySorted by_xs b ->
  (forall p q, In p a -> In q b -> by_xs p q) -> StronglySorted by_xs (a ++ b).
Proof.
  induction a as [|p a IH]; intros Sa Sb H; [ exact Sb | ]. apply StronglySorted_inv in Sa. destruct Sa as [ Sa Fa ].
  cbn. constructor; [ apply IH; auto; intros; apply H; auto; now right | ].
  apply Forall_app. split; [ exact Fa | ]. apply Forall_forall. intros q Hq. apply H; [ now left | exact Hq ].
Qed.
Lemma asc_app_inv (a b : list qpt) : StronglySorted by_xs (a ++ b) ->
  StronglySorted by_xs a /\ StronglySorted by_xs b /\ (forall p q, In p a -> In q b -> by_xs p q).
Proof.
  induction a as [|p a IH]; intro H; [ split; [ constructor | split; [ exact H | intros ? ? [] ] ] | ].
  cbn in H. apply StronglySorted_inv in H. destruct H as [ Sx F ]. destruct (IH Sx) as (A & B & C).
  apply Forall_app in F. destruct F as [ F1 F2 ]. split; [ constructor; auto | ]. split; [ exact B | ].
  intros u v [ <- | Hu ] Hv; [ rewrite Forall_forall in F2; auto | auto ].
Qed.
Lemma asc_weak l : StronglySorted by_xs l -> StronglySorted by_x l.
Proof.
  induction 1 as [|p l Sl IH F]; constructor; auto. eapply Forall_impl; [ | exact F ]. intros q H. now apply Qclt_le_weak.
Qed.

Section Col.
Variables (eps : Qc) (gold gold2 wd di ln : xq) (up : bool) (mp : Z) (r a : option Qc) (polyfit : list (xq * xq) -> xq * xq).
Let g : cfg xq := mkG wd up mp di ln (fo r) (fo a).
Hypothesis (Heps : 0 <= eps) (Hr : nonneg_o r) (Ha : nonneg_o a).
Variables (m k : Qc).

Lemma within_self y : within_tol (Fin eps) (fo r) (fo a) (Some (Fin y)) (Some (Fin y)) = Ok true.
Proof.
  destruct (within_spec eps r a y y Heps) as (b & E & S). rewrite E. f_equal. apply S. 
  replace (y - y) with (Q2Qc 0) by ring. change (Qca (Q2Qc 0)) with (Q2Qc 0). split.
  - unfold abs_ok. destruct a; [ replace (y - y) with (Q2Qc 0) by ring; exact Ha | exact Logic.I ].
  - unfold rel_ok. destruct r as [ rv | ]; [ | exact Logic.I ]. right. right. replace (y - y) with (Q2Qc 0) by ring.
    change (Qca (Q2Qc 0)) with (Q2Qc 0). cbn in Hr. pose proof (Qca_nonneg y) as Ny. clear - Hr Ny. qc_nra.
Qed.
Lemma on_line_col p q z : col m k p -> col m k q -> col m k z -> fst p <> fst z ->
  on_line (Fin eps) (fo r) (fo a) (fp p, fp z) (fp q) = Ok true.
Proof.
  intros A B C D. unfold on_line. change (fp p, fp z) with (fs (p, z)). change (fst (fp q)) with (Fin (fst q)).
  rewrite (seg_y_slope (p, z) (fst q) D). cbn [rbind].
  match goal with |- within_tol _ _ _ _ (Some (Fin ?e)) = _ => replace e with (snd q) end; [ apply within_self | ].
  pose proof (on_seg_y (p, z) (fst q) D) as O. pose proof (col_on m k p q z A B C) as O2.
  unfold on_seg in O, O2. cbn [fst snd] in *. rewrite <- O2 in O. apply Qc_mul_cancel in O; [ | apply Qc_sub_n0; auto ].
  match type of O with ?e - _ = _ => replace e with (e - snd p + snd p) by ring end. rewrite O. ring.
Qed.
Lemma convex_total p q z : fst p <> fst z -> exists b, strictly_convex (Fin eps) (fo r) (fo a) (fp p) (fp q) (fp z) = Ok b.
Proof. intro D. destruct (convex_spec eps r a p q z Heps D) as (b & y0 & E & _). eauto. Qed.

Lemma skipn_last3 {A} (l : list A) (x b z : A) : skipn (length l) ((l ++ [x]) ++ [b; z]) = [x; b; z].
Proof. rewrite <- app_assoc. rewrite skipn_app, skipn_all, Nat.sub_diag. reflexivity. Qed.
Lemma del_mid {A} (l l2 : list A) (b : A) : del (l ++ b :: l2) (length l) = l ++ l2.
Proof.
  unfold del. rewrite firstn_app, firstn_all, Nat.sub_diag, firstn_O, app_nil_r. f_equal.
  rewrite skipn_app. rewrite skipn_all2 by lia. replace (S (length l) - length l)%nat with 1%nat by lia. reflexivity.
Qed.
Lemma snoc_cases {A} (l : list A) : l = [] \/ exists l' x, l = l' ++ [x].
Proof. destruct l as [|y l]; [ auto | ]. right. destruct (@exists_last _ (y :: l)) as (l' & x & E); [ discriminate | eauto ]. Qed.

Lemma prune_for_col p0 z : forall mid co bnd rem,
  along m k (p0 :: mid ++ [z]) ->
  match last_opt co with Some c => Forall (fun q => fst q < fst c) mid | None => True end ->
  prune_for (Fin eps) g (length mid) (map fp (p0 :: mid ++ [z]), bnd, map fp co, rem) =
  Ok (map fp [p0; z], bnd, map fp (co ++ rev mid), match mid with [] => rem | _ => true end).
Proof.
  intro mid. induction mid as [|b mid IH] using rev_ind; intros co bnd rem Al Lc.
  - cbn. now rewrite app_nil_r.
  - rewrite app_length, Nat.add_comm. cbn [length plus prune_for].
    destruct (@exists_last _ (p0 :: mid)) as (l & x & El); [ discriminate | ].
    assert (Ll : length mid = length l) by (apply (f_equal (@length _)) in El; rewrite app_length in El; cbn in El; lia).
    assert (Sp : p0 :: (mid ++ [b]) ++ [z] = (l ++ [x]) ++ [b; z]) by (rewrite <- El; cbn; now rewrite <- app_assoc).
    rewrite Sp. rewrite Ll at 1. rewrite !map_app. cbn [map].
    rewrite <- (map_length fp l) at 1. rewrite skipn_last3.
    destruct Al as [ So Fc ]. rewrite Sp in So, Fc.
    destruct (asc_app_inv _ _ So) as (S1 & S2 & S12). apply Forall_app in Fc. destruct Fc as [ F1 F2 ].
    assert (Cx : col m k x) by (apply Forall_app in F1; destruct F1 as [ _ F1 ]; now apply Forall_inv in F1).
    assert (Cb : col m k b) by now apply Forall_inv in F2.
    assert (Cz : col m k z) by (apply Forall_inv_tail in F2; now apply Forall_inv in F2).
    assert (Xz : fst x <> fst z).
    { assert (L : by_xs x z) by (apply S12; [ apply in_or_app; right; now left | right; now left ]). intro E.
      unfold by_xs in L. rewrite E in L. revert L. apply Qcle_not_lt, Qcle_refl. }
    change (g_rel g) with (fo r). change (g_abs g) with (fo a). destruct (convex_total x b z Xz) as (v & Ev).
    etransitivity; [ apply (f_equal (fun e => rbind e _) (on_line_col x b z Cx Cb Cz Xz)) | ]. cbn [rbind].
    etransitivity; [ apply (f_equal (fun e => rbind e _) Ev) | ]. cbn [rbind orb].
    (* the x differs from that of the last removed point *)
    assert (Lst : (true && match last_opt (map fp co) with None => true | Some c => negb (n_eqb (fst c) (fst (fp b))) end) = true).
    { destruct (snoc_cases co) as [ -> | (co' & c & ->) ]; [ reflexivity | ].
      rewrite last_opt_app in Lc. rewrite map_app. cbn [map]. rewrite last_opt_app. cbn.
      apply Forall_app in Lc. destruct Lc as [ _ Lc ]. apply Forall_inv in Lc.
      replace (Qceqb (fst c) (fst b)) with false; [ reflexivity | ]. symmetry. apply Qceqb_false. intro E. rewrite E in Lc.
      revert Lc. apply Qcle_not_lt, Qcle_refl. }
    unfold pt. rewrite Lst.
    replace (del ((map fp l ++ [fp x]) ++ [fp b; fp z]) (S (length mid))) with (map fp (p0 :: mid ++ [z])).
    2: { replace (S (length mid)) with (length (map fp l ++ [fp x])) by (rewrite app_length, map_length; cbn; lia).
         rewrite del_mid. change (p0 :: mid ++ [z]) with ((p0 :: mid) ++ [z]). rewrite El, !map_app. reflexivity. }
    change (map fp co ++ [fp b]) with (map fp co ++ map fp [b]). rewrite <- map_app.
    rewrite IH.
    + rewrite rev_app_distr, !map_app, <- !app_assoc. destruct mid; reflexivity.
    + change (p0 :: mid ++ [z]) with ((p0 :: mid) ++ [z]). rewrite El. split.
      * apply asc_app; [ exact S1 | repeat constructor | ]. intros u w Hu [ <- | [] ]. apply S12; [ exact Hu | right; now left ].
      * apply Forall_app. split; [ exact F1 | ]. constructor; [ exact Cz | constructor ].
    + rewrite last_opt_app. apply Forall_forall. intros q Hq. apply S12; [ | now left ]. rewrite <- El. now right.
Qed.

Lemma set_trend_short l : (length l <= 1)%nat -> set_trend (Fin eps) g l = Ok (l, l).
Proof.
  intro H. destruct l as [|p [|q l]]; [ reflexivity | reflexivity | cbn in H; lia ].
Qed.
Lemma keep_col p0 z : col m k p0 -> col m k z -> fst p0 <> fst z -> forall co, Forall (col m k) co ->
  keep_on_line (Fin eps) g (fp p0, fp z) (map fp co) = Ok (map fp co).
Proof.
  intros A B D co. induction co as [|c co IH]; intro H; [ reflexivity | ]. cbn [map keep_on_line].
  change (g_rel g) with (fo r). change (g_abs g) with (fo a).
  etransitivity; [ apply (f_equal (fun e => rbind e _) (on_line_col p0 c z A (Forall_inv H) B D)) | ]. cbn [rbind].
  now rewrite (IH (Forall_inv_tail H)).
Qed.
Lemma set_trend_col p0 mid z : along m k (p0 :: mid ++ [z]) ->
  set_trend (Fin eps) g (map fp (p0 :: mid ++ [z])) =
  Ok (map fp (p0 :: rev mid ++ [z]), map fp (p0 :: mid ++ [z])).
Proof.
  intro Al. unfold set_trend.
  set (bnd := map fp (p0 :: mid ++ [z])).
  assert (Ln : length bnd = S (S (length mid))) by (unfold bnd; rewrite map_length; cbn; rewrite app_length; cbn; lia).
  assert (W : prune_while (Fin eps) g (S (length bnd)) bnd bnd [] = Ok (map fp [p0; z], bnd, map fp (rev mid))).
  { rewrite Ln. cbn [prune_while]. unfold pt. rewrite Ln. replace (S (S (length mid)) - 2)%nat with (length mid) by lia.
    pose proof (prune_for_col p0 z mid [] bnd false Al Logic.I) as E. fold bnd in E. change (map fp []) with (@nil (xq * xq)) in E.
    etransitivity; [ apply (f_equal (fun e => rbind e _) E) | ]. cbn [rbind app].
    destruct mid as [|b mid]; reflexivity. }
  etransitivity; [ apply (f_equal (fun e => rbind e _) W) | ]. cbn [rbind].
  cbn [map length Nat.sub prune_near].
  destruct Al as [ So Fc ]. pose proof (Forall_inv Fc) as C0. apply Forall_inv_tail in Fc. apply Forall_app in Fc. destruct Fc as [ Fm Fz ].
  apply Forall_inv in Fz.
  assert (Xz : fst p0 <> fst z).
  { apply StronglySorted_inv in So. destruct So as [ _ F ]. apply Forall_app in F. destruct F as [ _ F ]. apply Forall_inv in F.
    unfold by_xs in F. intro E. rewrite E in F. revert F. apply Qcle_not_lt, Qcle_refl. }
  assert (Fm' : Forall (col m k) (rev mid)) by now apply Forall_rev.
  etransitivity; [ apply (f_equal (fun e => rbind e _) (keep_col p0 z C0 Fz Xz (rev mid) Fm')) | ]. cbn [rbind fst snd].
  cbn [map]. rewrite map_app. reflexivity.
Qed.

(** the gaps, of which the inner ones are backwards *)
Lemma far_desc d : forall l : list qpt, StronglySorted (fun p q => fst q < fst p) l -> 0 <= d ->
  far_count (Fin d) (map fp l) = 0%Z.
Proof.
  induction l as [|p l IH]; intros H D; [ reflexivity | ]. apply StronglySorted_inv in H. destruct H as [ Sl F ].
  destruct l as [|q l]; [ reflexivity | ]. specialize (IH Sl D). cbn [map far_count] in *. rewrite IH.
  apply Forall_inv in F. cbn.
  replace (Qcleb d (fst q - fst p)) with false; [ reflexivity | ]. symmetry. apply Qcleb_false. clear - F D. qc_lra.
Qed.
Definition gap (d : xq) (p q : xq * xq) : Z := if n_geb (n_sub (fst q) (fst p)) d then 1%Z else 0%Z.
Lemma gap_le d p q : (gap d p q <= 1)%Z.
Proof. unfold gap. destruct (n_geb _ _); lia. Qed.
Lemma far_cons d p q (l : list (xq * xq)) : far_count d (p :: q :: l) = (gap d p q + far_count d (q :: l))%Z.
Proof. reflexivity. Qed.
Lemma far_app d (l1 l2 : list (xq * xq)) : (far_count d (l1 ++ l2) <= far_count d l1 + 1 + far_count d l2)%Z.
Proof.
  induction l1 as [|p l1 IH]; [ change (far_count d l2 <= 0 + 1 + far_count d l2)%Z; lia | ]. destruct l1 as [|q l1].
  - cbn [app]. destruct l2 as [|q l2]; [ cbn; lia | ]. change (far_count d [p]) with 0%Z.
    rewrite far_cons. pose proof (gap_le d p q). lia.
  - cbn [app]. cbn [app] in IH. rewrite !far_cons. lia.
Qed.
Lemma desc_rev (l : list qpt) : StronglySorted by_xs l -> StronglySorted (fun p q => fst q < fst p) (rev l).
Proof.
  intro Sm. induction Sm as [|x l Sl IH F]; [ constructor | ]. cbn [rev].
  assert (G : forall l : list qpt, StronglySorted (fun p q => fst q < fst p) l -> Forall (by_xs x) l -> StronglySorted (fun p q => fst q < fst p) (l ++ [x])).
  { clear. induction l as [|y l IH]; intros S F; [ repeat constructor | ]. apply StronglySorted_inv in S. destruct S as [ S Fy ]. cbn.
    constructor; [ apply IH; [ exact S | now apply Forall_inv_tail in F ] | ]. apply Forall_app. split; [ exact Fy | ].
    constructor; [ now apply Forall_inv in F | constructor ]. }
  apply G; [ exact IH | now apply Forall_rev ].
Qed.
Lemma far_col p0 mid z d : along m k (p0 :: mid ++ [z]) -> 0 <= d ->
  (far_count (Fin d) (map fp (p0 :: rev mid ++ [z])) <= 2)%Z.
Proof.
  intros [ So _ ] D. change (p0 :: rev mid ++ [z]) with ([p0] ++ rev mid ++ [z]). rewrite !map_app.
  pose proof (far_app (Fin d) (map fp [p0]) (map fp (rev mid) ++ map fp [z])) as A.
  pose proof (far_app (Fin d) (map fp (rev mid)) (map fp [z])) as B.
  rewrite (far_desc d (rev mid)) in B; [ cbn [map far_count] in A, B; cbn [map]; lia | | exact D ].
  apply StronglySorted_inv in So. destruct So as [ So _ ]. apply asc_app_inv in So. destruct So as [ Sm _ ].
  now apply desc_rev.
Qed.

(** exact validity of the trend points of n points in line *)
Lemma far_exact p0 mid z : along m k (p0 :: mid ++ [z]) ->
  far_count (Fin 0) (map fp (p0 :: rev mid ++ [z])) = (match mid with [] => 1 | _ => 2 end)%Z.
Proof.
  intros Al. pose proof Al as [ So _ ]. assert (D : 0 <= 0) by apply Qcle_refl.
  assert (G1 : forall p q : qpt, fst p < fst q -> gap (Fin 0) (fp p) (fp q) = 1%Z).
  { intros p q H. unfold gap, n_geb. cbn. replace (Qcleb 0 (fst q - fst p)) with true; [ reflexivity | ].
    symmetry. apply Qcleb_true. clear - H. qc_lra. }
  apply StronglySorted_inv in So. destruct So as [ So F ]. destruct (asc_app_inv _ _ So) as (Sm & _ & S12).
  destruct mid as [|b mid].
  - cbn [rev app map]. rewrite far_cons, G1; [ reflexivity | now apply Forall_inv in F ].
  - destruct (@exists_last _ (b :: mid)) as (l & x & El); [ discriminate | ]. rewrite El in *.
    rewrite rev_app_distr. cbn [rev app map]. rewrite far_cons, G1.
    2: { rewrite Forall_forall in F. apply (F x). apply in_or_app. left. apply in_or_app. right. now left. }
    apply Z.le_antisymm.
    + pose proof (far_app (Fin 0) (map fp (x :: rev l)) (map fp [z])) as B. rewrite (far_desc 0 (x :: rev l)) in B; auto.
      * rewrite <- map_app in B. cbn [app map] in B. cbn [map] in *. change (far_count (Fin 0) [fp z]) with 0%Z in B. lia.
      * assert (R : x :: rev l = rev (l ++ [x])) by now rewrite rev_app_distr. rewrite R. now apply desc_rev.
    + (* the last gap *)
      assert (L : forall w y, far_count (Fin 0) (map fp ((w ++ [y]) ++ [z])) = (far_count (Fin 0) (map fp (w ++ [y])) + gap (Fin 0) (fp y) (fp z))%Z).
      { clear. induction w as [|v w IH]; intro y; [ cbn [app map]; rewrite far_cons; change (far_count (Fin 0) [fp z]) with 0%Z; change (far_count (Fin 0) [fp y]) with 0%Z; lia | ].
        specialize (IH y). destruct w as [|v' w]; cbn [app map] in *; rewrite !(far_cons _ (fp v)), IH; lia. }
      assert (NN : forall w : list (xq * xq), (0 <= far_count (Fin 0) w)%Z).
      { clear. induction w as [|v w IH]; [ cbn; lia | ]. destruct w as [|v' w]; [ cbn; lia | ]. rewrite far_cons. unfold gap. destruct (n_geb _ _); lia. }
      destruct (@exists_last _ (x :: rev l)) as (w & y & Ew); [ discriminate | ].
      assert (In y (l ++ [x])).
      { apply in_rev. rewrite rev_app_distr. cbn [rev app]. rewrite Ew. apply in_or_app. right. now left. }
      change (fp x :: map fp (rev l ++ [z])) with (map fp ((x :: rev l) ++ [z])). rewrite Ew, L, G1; [ pose proof (NN (map fp (w ++ [y]))); lia | ].
      apply S12; [ assumption | now left ].
Qed.

(** *** Any run *)
(** Validity of a line built from a collinear boundary. *)
Lemma col_valid p0 mid z t : along m k (p0 :: mid ++ [z]) -> di = Fin 0 ->
  t_pts t = map fp (p0 :: rev mid ++ [z]) -> t_line t = line_fit polyfit (t_pts t) ->
  is_valid g t = negb (n_ltb (Fin (fst z - fst p0)) wd) && (mp <=? match mid with [] => 2 | _ => 3 end)%Z.
Proof.
  intros A D E L. unfold is_valid.
  assert (Rd : is_ready t = true).
  { unfold is_ready. rewrite L, E. unfold line_fit. cbn [map]. rewrite map_app. destruct (map fp (rev mid)) as [|u [|v w]]; cbn; [ reflexivity | | ];
      match goal with |- context [ polyfit ?l ] => destruct (polyfit l) end; reflexivity. }
  assert (Wd : width t = Fin (fst z - fst p0)).
  { unfold width. rewrite E. cbn [map]. rewrite map_app. cbn [map].
    pose proof (PointsIdx.last_opt_app (fp p0 :: map fp (rev mid)) (fp z)) as Lz. cbn [app] in Lz. unfold pt in *. rewrite Lz.
    destruct (map fp (rev mid) ++ [fp z]) eqn:Q; [ destruct (map fp (rev mid)); discriminate | reflexivity ]. }
  rewrite Rd, Wd. cbn [andb g_width g_minp g_dist g]. rewrite <- andb_assoc. f_equal.
  rewrite E, D, (far_exact _ _ _ A). rewrite map_length. cbn [length]. rewrite app_length, rev_length. cbn [length].
  destruct mid as [|b mid]; cbn [length]; repeat match goal with |- context [ (?a <=? ?b)%Z ] => destruct (Z.leb_spec a b) end; cbn [andb]; auto; lia.
Qed.
Lemma along_sub l1 l2 x : along m k (l1 ++ x :: l2) -> along m k (l1 ++ l2).
Proof.
  intros [ A B ]. apply asc_app_inv in A. destruct A as (A1 & A2 & A3). apply Forall_app in B. destruct B as [ B1 B2 ].
  apply StronglySorted_inv in A2. split.
  - apply asc_app; [ exact A1 | apply A2 | ]. intros u v Hu Hv. apply A3; [ exact Hu | now right ].
  - apply Forall_app. split; [ exact B1 | now apply Forall_inv_tail in B2 ].
Qed.
Lemma insort_along l p : along m k l -> col m k p ->
  exists l', insort (map fp l) (fp p) 0 None true = Ok (map fp l') /\ along m k l'.
Proof.
  intros [ A B ] C. destruct (insort_spec true l p (asc_weak l A)) as (l' & E & _ & Sp). exists l'. split; [ exact E | ].
  cbn [andb] in Sp. destruct (existsb (fun q : qpt => Qceqb (fst q) (fst p)) l) eqn:X; [ subst l'; split; auto | ].
  destruct Sp as (u & v & -> & -> & Lu & Lv). apply Forall_app in B. destruct B as [ B1 B2 ].
  destruct (asc_app_inv _ _ A) as (A1 & A2 & A3).
  assert (Lv' : Forall (fun q : qpt => fst p < fst q) v).
  { apply Forall_forall. intros q Hq. rewrite Forall_forall in Lv. specialize (Lv q Hq). destruct (Qcle_lt_or_eq _ _ Lv) as [ L | L ]; [ exact L | ].
    exfalso. rewrite existsb_app in X. apply orb_false_iff in X. destruct X as [ _ X ].
    assert (Y : existsb (fun q : qpt => Qceqb (fst q) (fst p)) v = true) by (apply existsb_exists; exists q; split; [ exact Hq | apply Qceqb_true; congruence ]).
    congruence. }
  split.
  - apply asc_app; [ exact A1 | constructor; [ exact A2 | exact Lv' ] | ].
    intros s t Hs [ <- | Ht ]; [ rewrite Forall_forall in Lu; now apply Lu | now apply A3 ].
  - apply Forall_app. split; [ exact B1 | now constructor ].
Qed.
Lemma stale_along d l : along m k l -> exists l', remove_stale d (map fp l) = map fp l' /\ along m k l'.
Proof.
  intro H. unfold remove_stale. rewrite <- map_rev.
  assert (G : forall w v, along m k (rev w ++ v) -> exists w', drop_stale d (map fp w) = map fp w' /\ along m k (rev w' ++ v)).
  { clear. induction w as [|p w IH]; intros v H; [ exists []; auto | ]. cbn [map drop_stale]. cbn [rev] in H. rewrite <- app_assoc in H. cbn [app] in H.
    match goal with |- context [ if ?c then _ else _ ] => destruct c end.
    - apply IH. now apply along_sub in H.
    - match goal with |- context [ if ?c then _ else _ ] => destruct c end.
      + exists (p :: w). split; [ reflexivity | ]. cbn [rev]. now rewrite <- app_assoc.
      + destruct (IH (p :: v) H) as (w' & E & Al). exists (p :: w'). split; [ cbn [map]; now rewrite E | ].
        cbn [rev]. now rewrite <- app_assoc. }
  destruct (G (rev l) []) as (w' & E & Al); [ now rewrite rev_involutive, app_nil_r | ].
  rewrite app_nil_r in Al. exists (rev w'). unfold pt. rewrite E, map_rev. auto.
Qed.

Hypothesis (Hmp : (4 <= mp)%Z).
Variable dq : Qc.
Hypothesis (Hdi : di = Fin dq) (Hdq : 0 <= dq).

Lemma few_gaps t : (far_count di (t_pts t) <= 2)%Z -> is_valid g t = false.
Proof.
  intro H. unfold is_valid. apply andb_false_iff. right. apply Z.leb_gt. change (g_minp g) with mp. change (g_dist g) with di. lia.
Qed.
(** at most one point, then points going backwards, then at most one *)
Definition back (l : list qpt) : Prop :=
  exists u w v, l = u ++ w ++ v /\ (length u <= 1)%nat /\ (length v <= 1)%nat /\ StronglySorted (fun p q => fst q < fst p) w.
Lemma back_far l : back l -> (far_count di (map fp l) <= 2)%Z.
Proof.
  intros (u & w & v & -> & Lu & Lv & So). rewrite Hdi, !map_app.
  pose proof (far_app (Fin dq) (map fp u) (map fp w ++ map fp v)) as A.
  pose proof (far_app (Fin dq) (map fp w) (map fp v)) as B. rewrite (far_desc dq w So Hdq) in B.
  assert (Z1 : forall x : list qpt, (length x <= 1)%nat -> far_count (Fin dq) (map fp x) = 0%Z).
  { intros [|x0 [|x1 x2]] Hx; [ reflexivity | reflexivity | cbn in Hx; lia ]. }
  rewrite (Z1 u Lu) in A. rewrite (Z1 v Lv) in B. lia.
Qed.
Lemma sub_map (f : qpt -> xq * xq) : forall l x, sub x (map f l) -> exists y, x = map f y /\ sub y l.
Proof.
  induction l as [|a0 l IH]; intros x H; cbn [map] in H; inversion H as [ | ? ? ? H1 | ? ? ? H1 ]; subst.
  - exists []. split; [ reflexivity | constructor ].
  - destruct (IH _ H1) as (y & -> & Y). exists y. split; [ reflexivity | now constructor ].
  - destruct (IH _ H1) as (y & -> & Y). exists (a0 :: y). split; [ reflexivity | now apply sub_take ].
Qed.
Lemma sub_app_inv {A} : forall (l1 l2 x : list A), sub x (l1 ++ l2) -> exists x1 x2, x = x1 ++ x2 /\ sub x1 l1 /\ sub x2 l2.
Proof.
  induction l1 as [|b l1 IH]; intros l2 x H; [ exists [], x; split; [ reflexivity | split; [ constructor | exact H ] ] | ].
  cbn in H. inversion H as [ | ? ? ? H1 | ? ? ? H1 ]; subst; destruct (IH _ _ H1) as (x1 & x2 & -> & S1 & S2).
  - exists x1, x2. split; [ reflexivity | split; [ now constructor | exact S2 ] ].
  - exists (b :: x1), x2. split; [ reflexivity | split; [ now apply sub_take | exact S2 ] ].
Qed.
Lemma sub_len {A} (x l : list A) : sub x l -> (length x <= length l)%nat.
Proof. induction 1; cbn; lia. Qed.
Lemma sub_forall {A} (P : A -> Prop) x l : sub x l -> Forall P l -> Forall P x.
Proof. induction 1; intro F; auto; inversion F; subst; auto. Qed.
Lemma sub_sorted {A} (R : A -> A -> Prop) x l : sub x l -> StronglySorted R l -> StronglySorted R x.
Proof. induction 1; intro F; auto; apply StronglySorted_inv in F; destruct F; auto. constructor; auto. eapply sub_forall; eauto. Qed.
Lemma back_sub x l : sub x l -> back l -> back x.
Proof.
  intros H (u & w & v & -> & Lu & Lv & So). apply sub_app_inv in H. destruct H as (x1 & x2 & -> & S1 & S2).
  apply sub_app_inv in S2. destruct S2 as (x3 & x4 & -> & S3 & S4). exists x1, x3, x4.
  split; [ reflexivity | ]. apply sub_len in S1, S4. split; [ lia | ]. split; [ lia | ]. eapply sub_sorted; eauto.
Qed.
Lemma sub_app {A} (x y u v : list A) : sub x y -> sub u v -> sub (x ++ u) (y ++ v).
Proof. induction 1; intro Hu; cbn; [ exact Hu | apply sub_skip; auto | apply sub_take; auto ]. Qed.
Lemma sub_rev {A} (x l : list A) : sub x l -> sub (rev x) (rev l).
Proof.
  induction 1 as [ | x l b Hs IH | x l b Hs IH ]; cbn; [ constructor | | apply sub_app; [ exact IH | apply sub_take, sub_nil ] ].
  rewrite <- (app_nil_r (rev x)). apply sub_app; [ exact IH | apply sub_skip, sub_nil ].
Qed.
Lemma sub_refl {A} (l : list A) : sub l l.
Proof. induction l; [ constructor | now apply sub_take ]. Qed.
Lemma stale_sub (d : ival xq) (l : list (xq * xq)) : sub (remove_stale d l) l.
Proof.
  unfold remove_stale. rewrite <- (rev_involutive l) at 2. apply sub_rev. unfold pt. generalize (rev l). clear.
  induction l as [|p l IH]; [ constructor | ]. cbn [drop_stale]. destruct (i_contains _ _); [ now constructor | ].
  destruct (n_ltb _ _); [ apply sub_refl | now apply sub_take ].
Qed.
Definition cinv (t : Trend.tl xq) : Prop :=
  (exists l, t_bnd t = map fp l /\ along m k l) /\ (exists l, t_pts t = map fp l /\ back l).
Lemma cinv_invalid t : (exists l, t_pts t = map fp l /\ back l) -> is_valid g t = false.
Proof. intros (l & E & B). apply few_gaps. rewrite E. now apply back_far. Qed.

Lemma set_trend_few l : along m k l -> exists pts, set_trend (Fin eps) g (map fp l) = Ok (map fp pts, map fp l) /\ back pts.
Proof.
  intro H. destruct l as [|p0 l].
  { exists []. split; [ reflexivity | ]. exists [], [], []. cbn. repeat split; auto; constructor. }
  destruct (snoc_cases l) as [ -> | (mid & z & ->) ].
  { exists [p0]. split; [ reflexivity | ]. exists [p0], [], []. cbn. repeat split; auto; constructor. }
  exists (p0 :: rev mid ++ [z]). split; [ now apply set_trend_col | ]. exists [p0], (rev mid), [z].
  split; [ reflexivity | ]. split; [ cbn; lia | ]. split; [ cbn; lia | ].
  destruct H as [ So _ ]. apply StronglySorted_inv in So. destruct So as [ So _ ]. apply asc_app_inv in So. destruct So as [ Sm _ ].
  now apply desc_rev.
Qed.
Lemma update_prediction_pts t under t' : update_prediction (Fin eps) gold gold2 g t under = Ok t' ->
  t_pts t' = t_pts t /\ t_bnd t' = t_bnd t.
Proof.
  unfold update_prediction. destruct (negb _); [ now intros [= <-] | ]. destruct (need _); [ | discriminate ]. cbn [rbind].
  destruct (poi_points _ _); [ | discriminate ]. cbn [rbind]. destruct (predict _ _ _ _ _ _ _); [ | discriminate ]. cbn [rbind].
  now intros [= <-].
Qed.
Lemma update_poi_pts t under t' b : update_poi g t under = Ok (t', b) -> t_pts t' = t_pts t /\ t_bnd t' = t_bnd t.
Proof.
  unfold update_poi. destruct (negb _); [ now intros [= <- <-] | ]. destruct under; [ now intros [= <- <-] | ].
  destruct (poi_loop _ _ _ _ _ _); [ | discriminate ]. cbn [rbind]. destruct (flush_on _ _ _); [ | discriminate ]. cbn [rbind].
  destruct (o_found _); now intros [= <- <-].
Qed.
Lemma update_trend_cinv t l under t' : t_bnd t = map fp l -> along m k l -> is_valid g t = false ->
  update_trend (Fin eps) gold gold2 polyfit g t under = Ok t' -> cinv t'.
Proof.
  intros B Al V R. unfold update_trend in R. rewrite V, B in R. destruct (set_trend_few l Al) as (pts & E & F).
  unfold pt in R. rewrite E in R. cbn [rbind] in R.
  match type of R with rbind (update_poi _ ?x _) _ = _ => destruct (update_poi g x under) as [ [t2 b2] | ] eqn:E2; [ | discriminate ] end.
  cbn [rbind] in R. apply update_poi_pts in E2. apply update_prediction_pts in R. cbn [t_pts t_bnd update_interval] in *.
  destruct E2 as [ P2 B2 ], R as [ P3 B3 ]. split.
  - exists l. rewrite B3, B2. auto.
  - exists pts. rewrite P3, P2. auto.
Qed.
Lemma lrun_cinv : forall es t t', cinv t -> Forall (fun p => exists q, p = fp q /\ col m k q) (given es) ->
  lrun (Fin eps) gold gold2 polyfit g t es = Ok t' -> cinv t'.
Proof.
  induction es as [|e es IH]; intros t t' I G R; [ now injection R as <- | ]. cbn [lrun] in R.
  destruct (lstep (Fin eps) gold gold2 polyfit g t e) as [ t1 | ] eqn:E; [ | discriminate ]. cbn [rbind] in R.
  unfold given in G. cbn [flat_map] in G. apply Forall_app in G. destruct G as [ G1 G2 ]. apply IH in R; auto.
  pose proof (cinv_invalid t (proj2 I)) as V.
  pose proof I as [ (l & B & Al) (lp & Bp & Kp) ]. destruct e as [ p under | d under ]; cbn [lstep] in E.
  - apply Forall_inv in G1. destruct G1 as (q & -> & Cq). unfold did_append in E.
    destruct (is_ready t && _); [ injection E as <-; exact I | ].
    rewrite V in E. cbn [negb] in E. rewrite B in E. destruct (insort_along l q Al Cq) as (l' & Ei & Al').
    unfold pt in E. rewrite Ei in E. cbn [rbind] in E.
    match type of E with rbind (rbind (update_trend _ _ _ _ _ ?x _) _) _ = _ => destruct (update_trend (Fin eps) gold gold2 polyfit g x under) as [ t2 | ] eqn:E2; [ | discriminate ] end.
    cbn [rbind] in E. injection E as <-. eapply update_trend_cinv; [ | exact Al' | | exact E2 ]; [ reflexivity | exact V ].
  - unfold tl_begin in E. destruct (negb _); [ injection E as <-; exact I | ].
    destruct (stale_along d l Al) as (l' & El & Al').
    assert (Pp : exists l, remove_stale d (t_pts t) = map fp l /\ back l).
    { pose proof (stale_sub d (t_pts t)) as Sb. rewrite Bp in Sb at 2. apply sub_map in Sb. destruct Sb as (y & -> & Sy).
      exists y. split; [ reflexivity | ]. eapply back_sub; eauto. }
    match type of E with (if ?c then _ else _) = _ => destruct c eqn:C end.
    + injection E as <-. split; [ exists l'; cbn [t_bnd]; rewrite B; auto | exact Pp ].
    + eapply update_trend_cinv; [ | exact Al' | | exact E ]; [ cbn [t_bnd]; rewrite B; exact El | ]. apply cinv_invalid. exact Pp.
Qed.
Lemma never_valid es t : Forall (fun p => exists q, p = fp q /\ col m k q) (given es) ->
  lrun (Fin eps) gold gold2 polyfit g tl0 es = Ok t -> is_valid g t = false.
Proof.
  intros G R. apply lrun_cinv in R; [ apply cinv_invalid, R | | exact G ].
  split; exists []; (split; [ reflexivity | ]); [ split; constructor | ].
  exists [], [], []. cbn. repeat split; auto; constructor.
Qed.
End Col.
