(** The chain left by set_trend_with_boundary_points, and its line. *)
From Coq Require Import List ZArith QArith Qcanon Bool Lia Sorting.Sorted.
From Verif Require Import Base Num NumFacts Interval Points Trend TrendGeo TrendPred TrendLineInv TrendCol TrendSet TrendHull.
Import ListNotations.
Open Scope Qc_scope.

(** Values multiplied by [s]. *)
Definition tr (s : Qc) (p : qpt) : qpt := (fst p, s * snd p).
Lemma slope_tr s u v : slope (tr s u) (tr s v) = s * slope u v.
Proof. unfold slope, tr. cbn [fst snd]. unfold Qcdiv. ring. Qed.
Lemma at_tr s u v x : at_x (tr s u) (tr s v) x = s * at_x u v x.
Proof. unfold at_x. rewrite slope_tr. unfold tr. cbn [fst snd]. ring. Qed.
Lemma edges_map {A B} (f : A -> B) l : edges (map f l) = map (fun e => (f (fst e), f (snd e))) (edges l).
Proof.
  unfold edges. induction l as [|x l IH]; [ reflexivity | ]. destruct l as [|y l]; [ reflexivity | ].
  cbn [map List.tl combine fst snd]. f_equal. exact IH.
Qed.
Lemma sorted_tr s l : StronglySorted by_xs l -> StronglySorted by_xs (map (tr s) l).
Proof.
  induction 1 as [|p l So IH F]; cbn [map]; constructor; auto. apply Forall_map. exact F.
Qed.

(** did_remove stays set. *)
Lemma removed_stays {T} {N : Num T} (e : T) (g : cfg T) i : forall x y w x' y' w' b,
  prune_for e g i (x, y, w, true) = Ok (x', y', w', b) -> b = true.
Proof.
  induction i as [|i IH]; intros x y w x' y' w' b R; cbn [prune_for] in R; [ now injection R | ].
  destruct (skipn i x) as [|u [|u' [|u'' t]]]; try discriminate.
  destruct (coincident e (g_rel g) (g_abs g) u u' u'') as [ q | ]; [ cbn [rbind] in R | discriminate ].
  destruct (strictly_convex e (g_rel g) (g_abs g) u u' u'') as [ q' | ]; [ cbn [rbind] in R | discriminate ].
  destruct (q || eqb q' (g_upper g)); exact (IH _ _ _ _ _ _ _ R).
Qed.

Section Chain.
Variables (eps : Qc) (wd ln : xq) (up : bool) (mp : Z) (r a : option Qc).
Let g : cfg xq := mkG wd up mp (Fin 0) ln (fo r) (fo a).
Variables (s c b : Qc) (P : qpt -> Prop).
Hypothesis (Heps : 0 <= eps) (Hc : 0 <= c) (HP : forall p, P p -> okp c b (tr s p)).
Hypothesis Dec : forall q0 q1 q2, fst q0 < fst q1 -> fst q1 < fst q2 -> P q0 -> P q1 -> P q2 ->
  exists co v, coincident (Fin eps) (fo r) (fo a) (fp q0) (fp q1) (fp q2) = Ok co /\
    strictly_convex (Fin eps) (fo r) (fo a) (fp q0) (fp q1) (fp q2) = Ok v /\
    if co || eqb v up then s * snd q1 <= c * (s * at_x q0 q2 (fst q1)) + b else s * at_x q0 q2 (fst q1) < s * snd q1.

Definition kept (q0 q1 q2 : qpt) : Prop := s * at_x q0 q2 (fst q1) < s * snd q1.
Notation covs k l z := (cov c b k (map (tr s) l) (tr s z)).

Lemma skipn_at {A} (l : list A) i p q z t : skipn i l = p :: q :: z :: t -> l = firstn i l ++ p :: q :: z :: t.
Proof. intro E. rewrite <- E. symmetry. apply firstn_skipn. Qed.
Lemma del_at {A} (l : list A) i p q z t : skipn i l = p :: q :: z :: t -> del l (S i) = firstn i l ++ p :: z :: t.
Proof.
  intro E. pose proof (skipn_at _ _ _ _ _ _ E) as El.
  assert (L : length (firstn i l) = i).
  { apply firstn_length_le. destruct (Nat.le_gt_cases i (length l)) as [ ? | K ]; [ assumption | ]. rewrite skipn_all2 in E by lia. discriminate. }
  unfold del. rewrite El at 1 2. rewrite firstn_app, skipn_app, L.
  replace (S i - i)%nat with 1%nat by lia. rewrite firstn_all2, skipn_all2 by lia. 
  replace (S (S i) - i)%nat with 2%nat by lia. cbn [firstn skipn app]. now rewrite <- app_assoc.
Qed.
Lemma three_asc (l : list qpt) i p q z t : StronglySorted by_xs l -> skipn i l = p :: q :: z :: t -> fst p < fst q /\ fst q < fst z.
Proof.
  intros So E. rewrite (skipn_at _ _ _ _ _ _ E) in So. apply asc_app_inv in So. destruct So as (_ & So & _).
  apply StronglySorted_inv in So. destruct So as [ So F1 ]. apply StronglySorted_inv in So. destruct So as [ _ F2 ].
  split; [ exact (Forall_inv F1) | exact (Forall_inv F2) ].
Qed.
Lemma three_in {A} (Q : A -> Prop) (l : list A) i p q z t : Forall Q l -> skipn i l = p :: q :: z :: t -> Q p /\ Q q /\ Q z.
Proof.
  intros F E. rewrite (skipn_at _ _ _ _ _ _ E) in F. apply Forall_app in F. destruct F as [ _ F ].
  repeat split; [ exact (Forall_inv F) | exact (Forall_inv (Forall_inv_tail F)) | exact (Forall_inv (Forall_inv_tail (Forall_inv_tail F))) ].
Qed.

Lemma prune_for_chain (p0 z : qpt) (b0 bz : xq * xq) i : forall mid bm co rem,
  StronglySorted by_xs (p0 :: mid ++ [z]) -> Forall P (p0 :: mid ++ [z]) -> (i <= length mid)%nat -> (length mid <= length bm)%nat ->
  exists mid' bm' co' rem' n,
    prune_for (Fin eps) g i (map fp (p0 :: mid ++ [z]), b0 :: bm ++ [bz], co, rem) =
      Ok (map fp (p0 :: mid' ++ [z]), b0 :: bm' ++ [bz], co', rem') /\
    sub mid' mid /\ sub bm' bm /\ (length mid' <= length bm')%nat /\ (length mid = n + length mid')%nat /\
    (forall k q, covs k (p0 :: mid ++ [z]) q -> covs (n + k) (p0 :: mid' ++ [z]) q) /\
    (rem' = true -> rem = true \/ (0 < n)%nat) /\
    (rem' = false -> mid' = mid /\ forall j q0 q1 q2 t, (j < i)%nat -> skipn j (p0 :: mid ++ [z]) = q0 :: q1 :: q2 :: t -> kept q0 q1 q2).
Proof.
  induction i as [|i IH]; intros mid bm co rem So Fp Hi Hb.
  - exists mid, bm, co, rem, 0%nat. cbn [prune_for]. repeat split; auto; try apply sub_refl. intros j q0 q1 q2 t J. lia.
  - cbn [prune_for]. rewrite skipn_map. destruct (skipn_three p0 z mid i ltac:(lia)) as (q0 & q1 & q2 & l & E). rewrite E. change (map fp (q0 :: q1 :: q2 :: l)) with (fp q0 :: fp q1 :: fp q2 :: map fp l). cbv iota.
    destruct (three_asc _ _ _ _ _ _ So E) as [ L1 L2 ]. destruct (three_in P _ _ _ _ _ _ Fp E) as (P0 & P1 & P2).
    destruct (Dec q0 q1 q2 L1 L2 P0 P1 P2) as (cc & v & Ec & Ev & D).
    cbn [g_rel g_abs g]. rewrite Ec. cbn [rbind]. rewrite Ev. cbn [rbind g_upper].
    change (eqb v up) with (eqb v (g_upper g)) in D.
    destruct (cc || eqb v (g_upper g)) eqn:Cv.
    + rewrite del_map, (del_inner p0 z mid) by lia.
      assert (So' : StronglySorted by_xs (p0 :: del mid i ++ [z])) by (eapply sub_sorted; [ apply sub_ends, del_sub | exact So ]).
      assert (Fp' : Forall P (p0 :: del mid i ++ [z])) by (eapply sub_forall; [ apply sub_ends, del_sub | exact Fp ]).
      pose proof (del_len mid i ltac:(lia)) as Lm.
      assert (St : forall k q, covs k (p0 :: mid ++ [z]) q -> covs (S k) (p0 :: del mid i ++ [z]) q).
      { intros k q K. rewrite <- (del_inner p0 z mid i) by lia. rewrite (del_at _ _ _ _ _ _ E).
        assert (So2 := sorted_tr s _ So).
        assert (F2 : Forall (okp c b) (map (tr s) (p0 :: mid ++ [z]))) by (apply Forall_map; eapply Forall_impl; [ exact HP | exact Fp ]).
        rewrite (skipn_at _ _ _ _ _ _ E) in K, So2, F2. rewrite map_app in K, So2, F2 |- *. cbn [map] in K, So2, F2 |- *.
        apply (cov_del c b Hc k _ _ (tr s q1)); auto. rewrite at_tr. exact D. }
      destruct cc.
      * match goal with |- context [ prune_for _ _ _ (_, _, ?co1, _) ] =>
          destruct (IH (del mid i) bm co1 true So' Fp' ltac:(lia) ltac:(lia)) as (mid' & bm' & co' & rem' & n & R & S1 & S2 & Le & Ln & Cv' & Rm & Rf) end.
        exists mid', bm', co', rem', (S n). split; [ exact R | ]. split; [ eapply sub_trans; [ exact S1 | apply del_sub ] | ].
        split; [ exact S2 | ]. split; [ exact Le | ]. split; [ lia | ].
        split; [ intros k q K; replace (S n + k)%nat with (n + S k)%nat by lia; apply Cv', St, K | ]. split; [ right; lia | ].
        intro Rv. exfalso. destruct (Rf Rv) as [ Em _ ].
        assert (rem' = true); [ | congruence ].
        exact (removed_stays _ _ _ _ _ _ _ _ _ _ R).
      * rewrite (del_inner b0 bz bm) by lia. pose proof (del_len bm i ltac:(lia)) as Lb.
        match goal with |- context [ prune_for _ _ _ (_, _, ?co1, _) ] =>
          destruct (IH (del mid i) (del bm i) co1 true So' Fp' ltac:(lia) ltac:(lia)) as (mid' & bm' & co' & rem' & n & R & S1 & S2 & Le & Ln & Cv' & Rm & Rf) end.
        exists mid', bm', co', rem', (S n). split; [ exact R | ]. split; [ eapply sub_trans; [ exact S1 | apply del_sub ] | ].
        split; [ eapply sub_trans; [ exact S2 | apply del_sub ] | ]. split; [ exact Le | ]. split; [ lia | ].
        split; [ intros k q K; replace (S n + k)%nat with (n + S k)%nat by lia; apply Cv', St, K | ]. split; [ right; lia | ].
        intro Rv. exfalso. assert (rem' = true); [ | congruence ].
        exact (removed_stays _ _ _ _ _ _ _ _ _ _ R).
    + destruct (IH mid bm co rem So Fp ltac:(lia) Hb) as (mid' & bm' & co' & rem' & n & R & S1 & S2 & Le & Ln & Cv' & Rm & Rf).
      exists mid', bm', co', rem', n. repeat (split; [ assumption | ]).
      intro Rv. destruct (Rf Rv) as [ Em Kp ]. split; [ exact Em | ]. intros j x0 x1 x2 t J Ej.
      destruct (Nat.eq_dec j i) as [ -> | Ne ]; [ | apply (Kp j x0 x1 x2 t); [ lia | exact Ej ] ].
      rewrite E in Ej. injection Ej as <- <- <- <-. exact D.
Qed.

Lemma prune_while_chain (p0 z : qpt) (b0 bz : xq * xq) f : forall mid bm co,
  StronglySorted by_xs (p0 :: mid ++ [z]) -> Forall P (p0 :: mid ++ [z]) -> (length mid < f)%nat -> (length mid <= length bm)%nat ->
  exists mid' bm' co' n,
    prune_while (Fin eps) g f (map fp (p0 :: mid ++ [z])) (b0 :: bm ++ [bz]) co =
      Ok (map fp (p0 :: mid' ++ [z]), b0 :: bm' ++ [bz], co') /\ sub mid' mid /\ sub bm' bm /\
    (length mid = n + length mid')%nat /\
    (forall k q, covs k (p0 :: mid ++ [z]) q -> covs (n + k) (p0 :: mid' ++ [z]) q) /\
    (forall j q0 q1 q2 t, (j < length mid')%nat -> skipn j (p0 :: mid' ++ [z]) = q0 :: q1 :: q2 :: t -> kept q0 q1 q2).
Proof.
  induction f as [|f IH]; intros mid bm co So Fp Hf Hb; [ lia | ]. cbn [prune_while].
  rewrite map_length, ends_len.
  destruct (prune_for_chain p0 z b0 bz (length mid) mid bm co false So Fp ltac:(lia) Hb) as (mid1 & bm1 & co1 & rem1 & n & R & S1 & S2 & Le & Ln & Cv & Rm & Rf).
  match goal with |- context [ rbind ?X _ ] => replace X with (Ok (map fp (p0 :: mid1 ++ [z]), b0 :: bm1 ++ [bz], co1, rem1) : res (list (pt xq) * list (pt xq) * list (pt xq) * bool)) by (symmetry; exact R) end.
  cbn [rbind]. destruct rem1.
  - destruct (Rm eq_refl) as [ ? | Lt ]; [ discriminate | ].
    assert (So' : StronglySorted by_xs (p0 :: mid1 ++ [z])) by (eapply sub_sorted; [ apply sub_ends, S1 | exact So ]).
    assert (Fp' : Forall P (p0 :: mid1 ++ [z])) by (eapply sub_forall; [ apply sub_ends, S1 | exact Fp ]).
    destruct (IH mid1 bm1 co1 So' Fp' ltac:(lia) Le) as (mid' & bm' & co' & n' & R' & S3 & S4 & Ln' & Cv' & Kp).
    exists mid', bm', co', (n' + n)%nat. rewrite R'. split; [ reflexivity | ]. split; [ eapply sub_trans; eauto | ]. split; [ eapply sub_trans; eauto | ].
    split; [ lia | ]. split; [ | exact Kp ]. intros k q K. rewrite <- Nat.add_assoc. apply Cv', Cv, K.
  - destruct (Rf eq_refl) as [ -> Kp ]. exists mid, bm1, co1, n. repeat (split; [ auto; try apply sub_refl | ]). exact Kp.
Qed.

Lemma kept_concave (l : list qpt) : (forall j q0 q1 q2 t, skipn j l = q0 :: q1 :: q2 :: t -> kept q0 q1 q2) -> concave (map (tr s) l).
Proof.
  induction l as [|u l IH]; intro K; [ exact Logic.I | ]. destruct l as [|w l]; [ exact Logic.I | ]. destruct l as [|v l]; [ exact Logic.I | ].
  cbn [map concave]. split; [ rewrite at_tr; exact (K 0%nat u w v l eq_refl) | ]. apply IH. intros j q0 q1 q2 t E. exact (K (S j) q0 q1 q2 t E).
Qed.
Lemma skipn_len {A} (l : list A) j p q z t : skipn j l = p :: q :: z :: t -> (j + 2 < length l)%nat.
Proof. intro E. pose proof (f_equal (@length A) E) as L. rewrite skipn_length in L. cbn in L. lia. Qed.

(** With a minimal distance of zero nothing is too close. *)
Lemma prune_near_zero i : forall l, StronglySorted by_xs l -> prune_near g i (map fp l) = map fp l.
Proof.
  induction i as [|i IH]; intros l So; [ reflexivity | ]. cbn [prune_near]. rewrite skipn_map.
  destruct (skipn i l) as [|q0 [|q1 [|q2 t]]] eqn:E; try reflexivity. cbn [map].
  destruct (three_asc _ _ _ _ _ _ So E) as [ L1 L2 ].
  assert (X : forall u v : qpt, fst u < fst v -> (n_ltb (n_sub (fst (fp v)) (fst (fp u))) (g_dist g)) = false).
  { intros u v L. apply Qcltb_false. qc_lra. }
  rewrite (X q0 q1 L1), (X q1 q2 L2). cbn [orb]. now apply IH.
Qed.

(** The squared errors that are compared. *)
Lemma fitness_err u v (l : list qpt) : fst u < fst v -> forall e, fitness (fs (u, v)) (Fin e) (map fp l) = Ok (Fin (e + sq_err u v l)).
Proof.
  intro L. induction l as [|p l IH]; intro e; cbn [map fitness sq_err]; [ now rewrite Qcplus_0_r | ].
  change (fst (fp p)) with (Fin (fst p)). rewrite seg_y_slope by (apply Qclt_ne; exact L). cbn [rbind need fst snd].
  change (snd (fp p)) with (Fin (snd p)).
  change (snd u + (snd v - snd u) / (fst v - fst u) * (fst p - fst u)) with (at_x u v (fst p)).
  change (n_add (Fin e) (n_mul (n_sub (Fin (snd p)) (Fin (at_x u v (fst p)))) (n_sub (Fin (snd p)) (Fin (at_x u v (fst p))))))
    with (Fin (e + (snd p - at_x u v (fst p)) * (snd p - at_x u v (fst p)))).
  rewrite IH. do 2 f_equal. ring.
Qed.
Lemma some_fs (w e : qpt * qpt) (q q' : xq) : Some (fs w, q) = Some (fs e, q') -> w = e.
Proof. destruct w as [[a1 a2] [a3 a4]], e as [[e1 e2] [e3 e4]]. unfold fs, fp. cbn [fst snd]. intro E. injection E as -> -> -> -> _. reflexivity. Qed.
Lemma best_line_least (bnd : list qpt) es : Forall (fun e : qpt * qpt => fst (fst e) < fst (snd e)) es ->
  forall best, (match best with Some (w, q) => exists e, w = fs e /\ q = Fin (sq_err (fst e) (snd e) bnd) | None => True end) ->
  (es <> [] \/ best <> None) ->
  exists e, best_line (map fp bnd) best (map fs es) = Ok (Some (fs e)) /\
    (In e es \/ exists q, best = Some (fs e, q)) /\
    (forall e', In e' es -> sq_err (fst e) (snd e) bnd <= sq_err (fst e') (snd e') bnd) /\
    (forall w q, best = Some (fs w, q) -> sq_err (fst e) (snd e) bnd <= sq_err (fst w) (snd w) bnd).
Proof.
  induction es as [|e es IH]; intros F best Hb Ne; cbn [map best_line].
  - destruct best as [[w q]|]; [ | destruct Ne; contradiction ]. destruct Hb as (e & -> & ->). exists e.
    split; [ reflexivity | ]. split; [ right; eauto | ]. split; [ intros ? [] | ]. intros w q E. apply some_fs in E. subst w. apply Qcle_refl.
  - destruct e as [u v]. pose proof (Forall_inv F) as L. cbn [fst snd] in L.
    pose proof (fitness_err u v bnd L 0) as Ef. rewrite Qcplus_0_l in Ef.
    change (n_zero (T := xq)) with (Fin 0).
    match goal with |- context [ rbind ?X _ ] => replace X with (Ok (Fin (sq_err u v bnd)) : res xq) by (symmetry; exact Ef) end. cbn [rbind].
    destruct best as [[w q]|].
    + destruct Hb as (e0 & -> & ->).
      change (n_ltb (Fin (sq_err u v bnd)) (Fin (sq_err (fst e0) (snd e0) bnd))) with (Qcltb (sq_err u v bnd) (sq_err (fst e0) (snd e0) bnd)).
      destruct (Qcltb (sq_err u v bnd) (sq_err (fst e0) (snd e0) bnd)) eqn:Q.
      * destruct (IH (Forall_inv_tail F) (Some (fs (u, v), Fin (sq_err u v bnd)))) as (e & R & I & M & B); [ exists (u, v); split; reflexivity | right; discriminate | ].
        exists e. split; [ exact R | ]. specialize (B (u, v) _ eq_refl). cbn [fst snd] in B. apply Qcltb_true in Q. split; [ | split ].
        -- left. destruct I as [ I | (q & I) ]; [ now right | ]. apply some_fs in I. left. exact I.
        -- intros e' [ <- | K ]; [ exact B | exact (M _ K) ].
        -- intros w q E. apply some_fs in E. subst w. eapply Qcle_trans; [ exact B | now apply Qclt_le_weak ].
      * destruct (IH (Forall_inv_tail F) (Some (fs e0, Fin (sq_err (fst e0) (snd e0) bnd)))) as (e & R & I & M & B); [ exists e0; split; reflexivity | right; discriminate | ].
        exists e. split; [ exact R | ]. pose proof (B e0 _ eq_refl) as B0. apply Qcltb_false in Q. split; [ | split ].
        -- destruct I as [ I | (q & I) ]; [ left; now right | right; eauto ].
        -- intros e' [ <- | K ]; [ cbn [fst snd]; eapply Qcle_trans; [ exact B0 | exact Q ] | exact (M _ K) ].
        -- exact B.
    + destruct (IH (Forall_inv_tail F) (Some (fs (u, v), Fin (sq_err u v bnd)))) as (e & R & I & M & B); [ exists (u, v); split; reflexivity | right; discriminate | ].
      exists e. split; [ exact R | ]. specialize (B (u, v) _ eq_refl). cbn [fst snd] in B. split; [ | split ].
      -- left. destruct I as [ I | (q & I) ]; [ now right | ]. apply some_fs in I. left. exact I.
      -- intros e' [ <- | K ]; [ exact B | exact (M _ K) ].
      -- intros w q E. discriminate.
Qed.
Lemma sub_map_inv {A B} (f : A -> B) l m : sub l (map f m) -> exists l', l = map f l' /\ sub l' m.
Proof.
  revert l. induction m as [|x m IH]; intros l H; cbn [map] in H; inversion H; subst.
  - exists []. split; [ reflexivity | constructor ].
  - destruct (IH _ H2) as (l' & -> & S1). exists l'. split; [ reflexivity | now apply sub_skip ].
  - destruct (IH _ H2) as (l' & -> & S1). exists (x :: l'). split; [ reflexivity | now apply sub_take ].
Qed.

(** The chain has the ends of the boundary; the line is that of its segments
    which leaves the least squared error, the first of several; and no boundary
    point is beyond it by more than the tolerance allows for the points removed. *)
Lemma set_trend_chain p0 mid z : StronglySorted by_xs (p0 :: mid ++ [z]) -> Forall P (p0 :: mid ++ [z]) ->
  exists u v w hm bm,
    let pts := p0 :: mid ++ [z] in
    let hull := p0 :: hm ++ [z] in
    set_trend (Fin eps) g (map fp pts) = Ok (fp u :: w ++ [fp v], map fp (p0 :: bm ++ [z])) /\
    sub hull pts /\ sub bm mid /\ In (u, v) (edges hull) /\ concave (map (tr s) hull) /\
    (forall q, In q pts -> s * snd q <= lift c b (length pts - length hull) (s * at_x u v (fst q))) /\
    (forall u' v', In (u', v') (edges hull) -> sq_err u v (p0 :: bm ++ [z]) <= sq_err u' v' (p0 :: bm ++ [z])).
Proof.
  intros So Fp. unfold set_trend.
  set (B := map fp (p0 :: mid ++ [z])).
  assert (EB : B = fp p0 :: map fp mid ++ [fp z]) by (unfold B; cbn [map]; now rewrite map_app).
  assert (LB : length B = S (S (length mid))) by (unfold B; rewrite map_length; cbn [length]; rewrite app_length; cbn; lia).
  destruct (prune_while_chain p0 z (fp p0) (fp z) (S (length B)) mid (map fp mid) [] So Fp ltac:(lia)) as (hm & bm0 & co & n & R & S1 & S2 & Ln & Cv & Kp);
    [ now rewrite map_length | ].
  destruct (sub_map_inv fp _ _ S2) as (bm & -> & S2').
  fold B in R. rewrite <- EB in R.
  assert (EM : fp p0 :: map fp bm ++ [fp z] = map fp (p0 :: bm ++ [z])) by (cbn [map]; now rewrite map_app).
  rewrite EM in R.
  match goal with |- context [ rbind ?X _ ] => replace X with (Ok (map fp (p0 :: hm ++ [z]), map fp (p0 :: bm ++ [z]), co) : res (list (pt xq) * list (pt xq) * list (pt xq))) by (symmetry; exact R) end.
  cbn [rbind].
  assert (Dc : Forall finp co).
  { assert (FB : Forall (fun p => In p B) B) by (apply Forall_forall; auto).
    destruct (prune_while_draws (Fin eps) g (fun p => In p B) _ _ _ _ _ _ _ FB FB (Forall_nil _) R) as (_ & _ & Q2).
    rewrite Forall_forall in Q2 |- *. intros p K. specialize (Q2 p K). unfold B in Q2. apply in_map_iff in Q2. destruct Q2 as (q & <- & _). now exists q. }
  assert (Sub : sub (p0 :: hm ++ [z]) (p0 :: mid ++ [z])) by (apply sub_ends; exact S1).
  assert (SoH : StronglySorted by_xs (p0 :: hm ++ [z])) by (eapply sub_sorted; [ exact Sub | exact So ]).
  rewrite prune_near_zero by exact SoH.
  assert (Con : concave (map (tr s) (p0 :: hm ++ [z]))).
  { apply kept_concave. intros j q0 q1 q2 t E. apply (Kp j q0 q1 q2 t); [ | exact E ]. pose proof (skipn_len _ _ _ _ _ _ E) as L. cbn [length] in L. rewrite app_length in L. cbn in L. lia. }
  assert (Fin : exists u v, match map fp (p0 :: hm ++ [z]) with
      | [] | [_] => Ok None | [a; b] => Ok (Some (a, b)) | a :: _ :: _ => best_line (map fp (p0 :: bm ++ [z])) None (pairs (map fp (p0 :: hm ++ [z]))) end
      = Ok (Some (fs (u, v))) /\ In (u, v) (edges (p0 :: hm ++ [z])) /\
      (forall u' v', In (u', v') (edges (p0 :: hm ++ [z])) -> sq_err u v (p0 :: bm ++ [z]) <= sq_err u' v' (p0 :: bm ++ [z]))).
  { destruct hm as [|m1 hm].
    - exists p0, z. split; [ reflexivity | ]. split; [ now left | ]. intros u' v' [ E | [] ]. injection E as <- <-. apply Qcle_refl.
    - destruct (best_line_least (p0 :: bm ++ [z]) (edges (p0 :: (m1 :: hm) ++ [z])) (pairs_asc _ SoH) None Logic.I) as ([u v] & Es & I & M & _); [ left; discriminate | ].
      exists u, v. split; [ | split ].
      + rewrite pairs_fp. unfold edges in Es. cbn [app map] in Es |- *. destruct (map fp (hm ++ [z])) eqn:Q; [ destruct hm; discriminate | ]. exact Es.
      + destruct I as [ I | (q & I) ]; [ exact I | discriminate ].
      + intros u' v' K. exact (M _ K). }
  destruct Fin as (u & v & E & Ie & Le).
  match goal with |- context [ rbind ?X _ ] => replace X with (Ok (Some (fs (u, v)))) by (symmetry; exact E) end.
  pose proof (edges_asc _ u v SoH Ie) as Lt.
  cbn [rbind]. destruct (keep_total eps wd (Fin 0) ln up mp r a Heps (u, v) (Qclt_ne _ _ Lt) co Dc) as (w & Ew).
  match goal with |- context [ rbind ?X _ ] => replace X with (Ok w : res (list (pt xq))) by (symmetry; exact Ew) end.
  cbn [rbind fs fst snd]. exists u, v, w, hm, bm. cbv zeta. split; [ reflexivity | ]. split; [ exact Sub | ]. split; [ exact S2' | ]. split; [ exact Ie | ]. split; [ exact Con | ]. split; [ | exact Le ].
  intros q K. replace (length (p0 :: mid ++ [z]) - length (p0 :: hm ++ [z]))%nat with (n + 0)%nat.
  2: { cbn [length]. rewrite !app_length. cbn [length]. lia. }
  rewrite <- (at_tr s u v). change (s * snd q) with (snd (tr s q)). change (fst q) with (fst (tr s q)).
  apply (cov_line c b Hc (n + 0) (map (tr s) (p0 :: hm ++ [z])) (tr s q) (sorted_tr s _ SoH)).
  - intros y Ky. apply (edge_above _ (sorted_tr s _ SoH) Con); [ | exact Ky ]. rewrite edges_map. apply in_map_iff. exists (u, v). split; [ reflexivity | exact Ie ].
  - apply Cv. apply cov_self; [ exact (sorted_tr s _ So) | rewrite map_length; cbn [length]; rewrite app_length; cbn; lia | now apply in_map ].
Qed.
End Chain.
